(** * Logging: C69-C71 *)
From Coq Require Import Lia.
From Verif Require Import GoBase GoBaseFacts QuoteModel SprintModel SpecSprint PropertiesSprint TokenModel EffectModel RenderModel
  NodeInd BuildModel PropertiesBind FetchModel SpecFetch FetchPf PropertiesClauses PropertiesFetch LogModel SpecLog.

(** ** C69: logging changes nothing else *)

(** A column whose name can be shown: it has an alias, or it renders without a
    panic and its text can be interpolated. *)
Definition showable (d : dialect) (f : node) : Prop :=
  get_alias f <> [] \/
  (everywhere safe_here f /\
   let r := append_sql d f None [] st0 in
   plain_values (st_args (fst r)) /\ enough_args d (out_text d (st_out (fst r))) (st_args (fst r))).

Lemma interpolation_safe d text args : plain_values args -> enough_args d text args -> sprintf d text args <> Panic.
Proof. intros P [E|E]; [now apply sprintf_never_panics|now apply sprintf_safe_with_enough_args]. Qed.
Lemma field_name_shown h d f : showable d f -> exists t, field_name h d f = Some t.
Proof.
  unfold field_name. intros [A|(S & P & E)].
  - destruct (get_alias f); [congruence|]. cbn [is_empty negb]. eauto.
  - destruct (is_empty (get_alias f)); cbn [negb]; [|eauto].
    pose proof (rendering_never_panics d f None [] st0 S) as N.
    pose proof (interpolation_safe d _ _ P E) as N2.
    destruct (snd (append_sql d f None [] st0)); [|eauto|congruence].
    destruct (sprintf d _ _); [eauto|eauto|congruence].
Qed.
(** Fields made of safe parts whose arguments can be interpolated: an error of
    Scan is not lost (C27). *)
Theorem fields_can_be_shown : forall (d : dialect) (f : node),
  everywhere safe_here f ->
  (let r := append_sql d f None [] st0 in
   plain_values (st_args (fst r)) /\ enough_args d (out_text d (st_out (fst r))) (st_args (fst r))) ->
  can_show d f.
Proof.
  intros d f S (P & E). split; [now apply rendering_never_panics|]. intros _. now apply interpolation_safe.
Qed.
Print Assumptions fields_can_be_shown.
Lemma names_shown h d cols : Forall (fun c : kind * node => showable d (snd c)) cols ->
  exists names, all_some (map (fun c => field_name h d (snd c)) cols) = Some names /\ length names = length cols /\
    Forall2 (fun c n => field_name h d (snd c) = Some n) cols names.
Proof.
  induction 1 as [|c cols S F (names & E & L & F2)]; [exists []; split; [reflexivity|split; [reflexivity|constructor]]|].
  destruct (field_name_shown h d (snd c) S) as [t T].
  exists (t :: names). cbn [map all_some]. rewrite T, E. split; [reflexivity|]. split; [cbn [length]; now rewrite L|].
  now constructor.
Qed.
(** The text of a value in the results: Sprint of a pointer to it. *)
Definition shown (d : dialect) (v : gval) : bytes :=
  match sprint d (GPtr v) with Ok t => t | Err e => bad e | Panic => [] end.
Lemma show_dest_shown d v : has_nil_valuer v = false -> show_dest d v = Some (shown d v).
Proof.
  intros H. unfold show_dest, shown. destruct (sprint d (GPtr v)) eqn:E; try reflexivity.
  apply sprint_panics_only_on_nil_valuers in E. cbn [has_nil_valuer] in E. congruence.
Qed.
Lemma show_fields_shown d : forall vs names, plain_values vs -> length names = length vs ->
  show_fields d names vs = (concat (map (fun nv => line_end ++ fst nv ++ B ": " ++ shown d (snd nv)) (combine names vs)), true).
Proof.
  induction vs as [|v vs IH]; intros [|n names] P L; try discriminate; [reflexivity|].
  cbn [show_fields combine map concat fst snd tl hd]. rewrite show_dest_shown by (apply P; now left).
  rewrite (IH names) by (try (intros w W; apply P; now right); now inversion L). cbn [fst snd].
  unfold nl, line_end. rewrite <- !app_assoc. reflexivity.
Qed.
Lemma row_text_shown d names vs n : plain_values vs -> length names = length vs ->
  row_text d names vs n = (row_block (shown d) names vs n, true).
Proof. intros P L. unfold row_text. now rewrite show_fields_shown. Qed.

Definition drop_log {A} (x : nat * option gerr * bool * list A * bytes * option gerr) : nat * option gerr * bool * list A :=
  fst (fst x).
Lemma fetch_rows_logged {A} h d limit (mapper : list A -> prog A) : forall rows r hist n acc,
  r_active r = true ->
  ((0 < limit)%Z -> Forall (fun c => showable d (snd c)) (r_cols r)) ->
  ((0 < limit)%Z -> forall row vs, In row rows -> scan row (r_cols r) = inr vs -> plain_values vs) ->
  drop_log (fetch_rows_l h d limit mapper rows r hist n acc) = fetch_rows d mapper rows r hist n.
Proof.
  induction rows as [|row rows IH]; intros r hist n acc Ac Sh Pl; [reflexivity|].
  cbn [fetch_rows_l fetch_rows]. destruct (scan row (r_cols r)) as [e|vs] eqn:Sc; [reflexivity|].
  assert (M : exists more, (if (0 <? limit)%Z && (Z.of_nat (S n) <=? limit)%Z then
      match all_some (map (fun c => field_name h d (snd c)) (r_cols r)) with
      | Some names => row_text d names vs (S n) | None => ([], false) end else ([], true)) = (more, true)).
  { destruct (0 <? limit)%Z eqn:E1; cbn [andb]; [|eauto]. apply Z.ltb_lt in E1.
    destruct (Z.of_nat (S n) <=? limit)%Z; [|eauto].
    destruct (names_shown h d (r_cols r) (Sh E1)) as (names & -> & L & _).
    rewrite row_text_shown; [eauto|eapply Pl; eauto; now left|].
    rewrite L. symmetry. eapply scan_length; eauto. }
  destruct M as [more ->].
  set (r0 := mk_row (r_active r) 0 (r_cols r) vs (r_err r) false (r_closed r)).
  destruct (run (mapper hist) r0 hist) as [[x r1] h1] eqn:Er. destruct x as [x|e|]; [|reflexivity|reflexivity].
  destruct (r_err r1); [reflexivity|]. destruct (r_closed r1); [reflexivity|].
  destruct (run_active _ _ _ _ _ _ (Ac : r_active r0 = true) Er) as (H1 & H2 & H3). cbn [r0 r_cols] in H2.
  apply IH; [exact H1|rewrite H2; exact Sh|]. rewrite H2. intros L row' vs' I. apply Pl; [exact L|now right].
Qed.

(** What must hold of a LoggerDB for it to leave Fetch alone: it does not panic
    and, if it asks for results, names and values can be shown. *)
Definition harmless {A} (lg : logging) (db : database) (q : node) (mapper : list A -> prog A) (hist : list A) : Prop :=
  match lg with
  | LNone | LUnsupported => True
  | LFails _ => False
  | LLogs s sink =>
    (forall st, sink st = true) /\
    ((0 < ls_limit s)%Z ->
       (forall x r h1, run (mapper hist) row_new hist = (x, r, h1) ->
          Forall (fun c => showable (dialect_of (get_dialect q)) (snd c)) (r_cols r)) /\
       (forall req rows close iter row kinds vs, db req = QRows rows close iter -> In row rows ->
          row kinds = inr vs -> plain_values vs))
  end.
Lemma delivered {A} s sink (f : fetched_ A) st : sink st = true -> fst (deliver s sink f st) = f.
Proof. intros H. unfold deliver. now rewrite H. Qed.

Theorem fetch_logged : forall (A : Type) (h : host) (ctx : nat) (db : database) (lg : logging) (q : node)
    (mapper : list A -> prog A) (hist : list A),
  harmless lg db q mapper hist ->
  fst (fetch_l h ctx (Some db) lg (Some q) (Some mapper) hist) = fetch ctx (Some db) (Some q) (Some mapper) hist.
Proof.
  intros A h ctx db lg q mapper hist H. unfold fetch_l, fetch.
  assert (Dl : forall s sink, lg = LLogs s sink -> forall f st, fst (deliver (A := A) s sink f st) = f).
  { intros s sink -> f st. apply delivered. apply H. }
  set (limit := match lg with LLogs s _ => ls_limit s | _ => 0%Z end).
  transitivity (fst (match run (mapper hist) row_new hist with
    | (XErr e, _, h1) => (mk_fetched 0 (Some e) false h1 None, @nil qstats)
    | (XPanic, _, h1) => (mk_fetched 0 None true h1 None, [])
    | (XDone _, r, h1) => (fst (fetch_l h ctx (Some db) lg (Some q) (Some mapper) hist), [])
    end)).
  { unfold fetch_l. destruct lg as [| |e|s sink]; [| |contradiction|];
      destruct (run (mapper hist) row_new hist) as [[[]?]?]; reflexivity. }
  destruct (run (mapper hist) row_new hist) as [[x r] h1] eqn:Er. destruct x as [x|e|]; [|reflexivity|reflexivity].
  cbn [fst]. unfold fetch_l. rewrite Er.
  assert (Rw : forall rows close iter, (exists req, db req = QRows rows close iter) -> forall acc,
    drop_log (fetch_rows_l h (dialect_of (get_dialect q)) limit mapper rows
      (mk_row true (r_index r) (r_cols r) (r_dest r) (r_err r) (r_processed r) (r_closed r)) h1 0 acc)
    = fetch_rows (dialect_of (get_dialect q)) mapper rows (mk_row true (r_index r) (r_cols r) (r_dest r) (r_err r) (r_processed r) (r_closed r)) h1 0).
  { intros rows close iter [req Q] acc. apply fetch_rows_logged; [reflexivity| |]; cbn [r_cols].
    - intros L. unfold limit in L. destruct lg as [| |e|s sink]; try lia. destruct H as [_ H].
      exact (proj1 (H L) _ r h1 Er).
    - intros L. unfold limit in L. destruct lg as [| |e|s sink]; try lia. destruct H as [_ H].
      intros row vs I Sc. unfold scan in Sc. destruct (row (map fst (r_cols r))) as [|ws] eqn:W; [discriminate|].
      destruct (Nat.eqb (length ws) (length (r_cols r))); [|discriminate]. injection Sc as Sc. subst ws.
      exact (proj2 (H L) req rows close iter row _ vs Q I W). }
  destruct lg as [| |e|s sink]; [| |contradiction|];
    destruct (set_fetchable q (map snd (r_cols r))) as [q1|]; try reflexivity;
    destruct (BuildModel.r_status (to_sql (get_dialect q) q1)); try (first [reflexivity | now rewrite (Dl _ _ eq_refl)]);
    cbv zeta; destruct (db (ctx, r_query (to_sql (get_dialect q) q1), r_args (to_sql (get_dialect q) q1))) as [e|rows close iter] eqn:Q;
    try (first [reflexivity | now rewrite (Dl _ _ eq_refl)]);
    specialize (Rw rows close iter (ex_intro _ _ Q) []); destruct (r_cols r) as [|c cols]; try (first [reflexivity | now rewrite (Dl _ _ eq_refl)]);
    fold limit; rewrite <- Rw; clear Rw;
    match goal with |- context [fetch_rows_l ?a ?b ?c ?d ?e ?f ?g ?i ?j] =>
      destruct (fetch_rows_l a b c d e f g i j) as [[[[[n [er|]] [|]] h2] res] seen] end;
    cbn [drop_log fst snd]; try (first [reflexivity | now rewrite (Dl _ _ eq_refl)]).
Qed.
Print Assumptions fetch_logged.

(** FetchExists and Exec with any logger that does not panic. *)
Definition silent (lg : logging) : Prop :=
  match lg with LNone | LUnsupported => True | LFails _ => False | LLogs _ sink => forall st, sink st = true end.
Theorem exists_and_exec_logged : forall (h : host) (ctx : nat) (lg : logging) (q : node),
  silent lg ->
  (forall db : database, fst (fetch_exists_l h ctx (Some db) lg (Some q)) = fetch_exists ctx (Some db) (Some q)) /\
  (forall db, fst (exec_l h ctx (Some db) lg (Some q)) = exec_query ctx (Some db) (Some q)).
Proof.
  intros h ctx lg q S. split; intros db.
  - unfold fetch_exists_l, fetch_exists.
    destruct lg as [| |e|s sink]; [| |contradiction|]; destruct (fetchable q) as [fs| |]; try reflexivity;
      destruct (match fs with [] => set_fetchable q [NLiteral (B "1") []] | _ => Some q end) as [q1|]; try reflexivity;
      cbv zeta; destruct (BuildModel.r_status (to_sql (get_dialect q) q1)); cbn [fst]; rewrite ?S; try reflexivity;
      destruct (db _) as [e|[|row rows] close iter]; cbn [fst]; rewrite ?S; try reflexivity;
      destruct (scan_bool row); cbn [fst]; rewrite ?S; reflexivity.
  - unfold exec_l, exec_query.
    destruct lg as [| |e|s sink]; [| |contradiction|]; cbv zeta;
      destruct (BuildModel.r_status (to_sql (get_dialect q) q)); cbn [fst]; rewrite ?S; try reflexivity;
      destruct (db _) as [e|[e|n] lastid]; cbn [fst]; rewrite ?S; try reflexivity;
      destruct (beqb (get_dialect q) (B "sqlite") || beqb (get_dialect q) (B "mysql")); cbn [fst]; rewrite ?S; try reflexivity;
      destruct lastid; cbn [fst]; rewrite ?S; reflexivity.
Qed.
Print Assumptions exists_and_exec_logged.

(** The library's own logger does not panic if the arguments are no nil pointers
    with a Value method and, for sqlite, there is an argument for each '?'. *)
Theorem library_logger_returns : forall (h : host) (flags : N) (done : bool) (s : qstats),
  plain_values (qs_args s) -> enough_args (dialect_of (qs_dialect s)) (qs_query s) (qs_args s) ->
  exists line, log_line h flags done s = Some line.
Proof.
  intros h flags done s P E. pose proof (interpolation_safe _ _ _ P E) as N. unfold log_line.
  destruct done; [eauto|]. cbv zeta.
  assert (I : exists t, interpolated (dialect_of (qs_dialect s)) (qs_query s) (qs_args s) = Some t).
  { unfold interpolated. destruct (sprintf _ _ _); [eauto|eauto|congruence]. }
  destruct I as [t ->]. destruct (l_verbose flags); [|destruct (l_interpolate flags)]; cbn [option_map]; eexists; reflexivity.
Qed.
Print Assumptions library_logger_returns.

(** sq.Log, sq.VerboseLog and NewLogger: outside sqlite, Exec and FetchExists of
    queries whose arguments are not nil pointers with a Value method, and
    Fetch without results, do what they do without the logger. *)
Theorem log_is_transparent : forall (A : Type) (h : host) (ctx : nat) (flags : N) (limit : Z) (q : node),
  dialect_of (get_dialect q) <> DSQLite ->
  (forall db, plain_values (r_args (to_sql (get_dialect q) q)) ->
     fst (exec_l h ctx (Some db) (library_logger h flags limit) (Some q)) = exec_query ctx (Some db) (Some q)) /\
  (forall (db : database) (mapper : list A -> prog A) (hist : list A),
     (limit <= 0)%Z ->
     (forall x r h1 q1, run (mapper hist) row_new hist = (x, r, h1) -> set_fetchable q (map snd (r_cols r)) = Some q1 ->
        plain_values (r_args (to_sql (get_dialect q) q1))) ->
     fst (fetch_l h ctx (Some db) (library_logger h flags limit) (Some q) (Some mapper) hist)
     = fetch ctx (Some db) (Some q) (Some mapper) hist).
Proof.
  intros A h ctx flags limit q D.
  assert (L : forall ty t qy args er a b c e tk rs cl, plain_values args ->
    (match log_line h flags false (mk_stats (get_dialect q) ty t qy args er a b c e tk rs cl) with Some _ => true | None => false end) = true).
  { intros. destruct (library_logger_returns h flags false (mk_stats (get_dialect q) ty t qy args er a b c e tk rs cl)) as [line ->];
      [assumption|left; exact D|reflexivity]. }
  split.
  - intros db P. unfold library_logger, exec_l, exec_query. cbv zeta.
    destruct (BuildModel.r_status (to_sql (get_dialect q) q)); cbn [fst]; rewrite ?L by exact P; try reflexivity;
      destruct (db _) as [e|[e|n] lastid]; cbn [fst]; rewrite ?L by exact P; try reflexivity;
      destruct (beqb (get_dialect q) (B "sqlite") || beqb (get_dialect q) (B "mysql")); cbn [fst]; rewrite ?L by exact P; try reflexivity;
      destruct lastid; cbn [fst]; rewrite ?L by exact P; reflexivity.
  - intros db mapper hist Li P.
    pose proof (fetch_logged A h ctx db (LLogs (get_settings flags limit) (fun _ => true)) q mapper hist) as F.
    rewrite <- F by (split; [reflexivity|intros K; cbn [ls_limit get_settings] in K; lia]). clear F.
    unfold library_logger, fetch_l. cbn [ls_limit get_settings].
    destruct (run (mapper hist) row_new hist) as [[x r] h1] eqn:Er. destruct x as [x|e|]; [|reflexivity|reflexivity].
    destruct (set_fetchable q (map snd (r_cols r))) as [q1|] eqn:Sf; [|reflexivity].
    specialize (P _ _ _ _ eq_refl Sf). cbv zeta.
    assert (Dl : forall s f ty t qy er a b c e tk rs cl,
      fst (deliver (A := A) s (fun st => match log_line h flags false st with Some _ => true | None => false end) f
        (mk_stats (get_dialect q) ty t qy (r_args (to_sql (get_dialect q) q1)) er a b c e tk rs cl))
      = fst (deliver s (fun _ => true) f (mk_stats (get_dialect q) ty t qy (r_args (to_sql (get_dialect q) q1)) er a b c e tk rs cl))).
    { intros. unfold deliver. rewrite L by exact P. reflexivity. }
    destruct (BuildModel.r_status (to_sql (get_dialect q) q1)); try apply Dl.
    destruct (db _) as [e|rows close iter]; try apply Dl. destruct (r_cols r); try apply Dl.
    match goal with |- context [fetch_rows_l ?a ?b ?c ?d ?e ?f ?g ?i ?j] =>
      destruct (fetch_rows_l a b c d e f g i j) as [[[[[n0 [er|]] [|]] h2] res] seen] end; apply Dl.
Qed.
Print Assumptions log_is_transparent.

(** ** C70: the record *)
Lemma pair_inv {S T} (x x' : S) (y y' : T) : (x, y) = (x', y') -> x = x' /\ y = y'.
Proof. intros E. now injection E as <- <-. Qed.
Lemma sent_inj (c c' : nat) (q q' : bytes) (a a' : list gval) : Some (c, q, a) = Some (c', q', a') -> q' = q /\ a' = a.
Proof. intros E. injection E as _ <- <-. now split. Qed.
(** Exec. *)
Theorem exec_record : forall (h : host) (ctx : nat) (db : request -> exec_response) (s : settings) (sink : qstats -> bool) (q : node)
    (f : exec_result) (log : list qstats),
  (forall st, sink st = true) ->
  exec_l h ctx (Some db) (LLogs s sink) (Some q) = (f, log) ->
  exists st, log = [st] /\ qs_dialect st = get_dialect q /\ qs_err st = x_err f /\
    (forall c query args, x_sent f = Some (c, query, args) -> qs_args st = args /\ (query <> [] -> qs_query st = query)) /\
    (x_sent f = None -> x_panic f = true \/
       qs_query st = r_query (to_sql (get_dialect q) q) ++ B "%!(error=" ++ h_err h ERender ++ B ")") /\
    (x_err f = None -> x_panic f = false -> qs_affected st = Some (x_affected f) /\
       (get_dialect q = B "sqlite" \/ get_dialect q = B "mysql" -> qs_lastid st = Some (x_lastid f))) /\
    (forall i sch name al hk, q = NInsert i -> iq_into i = Some (NTable sch name al hk) ->
       qs_type st = B "INSERT" /\ qs_table st = (sch, name)) /\
    (forall u sch name al hk, q = NUpdate u -> uq_table u = Some (NTable sch name al hk) ->
       qs_type st = B "UPDATE" /\ qs_table st = (sch, name)) /\
    (forall dl sch name al hk rest, q = NDelete dl -> dq_tables dl = Some (NTable sch name al hk) :: rest ->
       qs_type st = B "DELETE" /\ qs_table st = (sch, name)).
Proof.
  intros h ctx db s sink q f log S E. unfold exec_l in E. cbv zeta in E.
  set (out := to_sql (get_dialect q) q) in *.
  assert (T : forall st, qs_type st = query_type q -> qs_table st = table_modified q ->
    (forall i sch name al hk, q = NInsert i -> iq_into i = Some (NTable sch name al hk) ->
       qs_type st = B "INSERT" /\ qs_table st = (sch, name)) /\
    (forall u sch name al hk, q = NUpdate u -> uq_table u = Some (NTable sch name al hk) ->
       qs_type st = B "UPDATE" /\ qs_table st = (sch, name)) /\
    (forall dl sch name al hk rest, q = NDelete dl -> dq_tables dl = Some (NTable sch name al hk) :: rest ->
       qs_type st = B "DELETE" /\ qs_table st = (sch, name))).
  { intros st -> ->. split; [|split].
    - intros i sch name al hk -> I. cbn [query_type table_modified]. rewrite I. now split.
    - intros u sch name al hk -> I. cbn [query_type table_modified]. rewrite I. now split.
    - intros dl sch name al hk rest -> I. cbn [query_type table_modified]. rewrite I. now split. }
  assert (Lq : forall err query partial, query <> [] -> logged_query h query partial err = query).
  { intros [e|] [|c qy] partial N; try congruence; reflexivity. }
  assert (LD : beqb (get_dialect q) (B "sqlite") || beqb (get_dialect q) (B "mysql") = false ->
    get_dialect q = B "sqlite" \/ get_dialect q = B "mysql" -> False).
  { intros N [K|K]; rewrite K in N; vm_compute in N; discriminate. }
  destruct (BuildModel.r_status out) eqn:St.
  - destruct (db (ctx, r_query out, r_args out)) as [e|[e|n] lastid] eqn:Q; cbn [x_err x_sent] in E; rewrite ?S in E.
    + apply pair_inv in E; destruct E as [<- <-]. eexists. split; [reflexivity|]. cbn [x_err x_sent x_panic qs_dialect qs_err qs_args qs_query].
      split; [reflexivity|]. split; [reflexivity|].
      split; [intros c query args I; apply sent_inj in I; destruct I as [-> ->]; split; [reflexivity|intros N; now rewrite Lq]|].
      split; [discriminate|]. split; [discriminate|]. apply T; reflexivity.
    + apply pair_inv in E; destruct E as [<- <-]. eexists. split; [reflexivity|]. cbn [x_err x_sent x_panic qs_dialect qs_err qs_args qs_query].
      split; [reflexivity|]. split; [reflexivity|].
      split; [intros c query args I; apply sent_inj in I; destruct I as [-> ->]; split; [reflexivity|intros N; now rewrite Lq]|].
      split; [discriminate|]. split; [discriminate|]. apply T; reflexivity.
    + destruct (beqb (get_dialect q) (B "sqlite") || beqb (get_dialect q) (B "mysql")) eqn:D.
      * destruct lastid as [e|l]; cbn [x_err x_sent] in E; rewrite ?S in E; apply pair_inv in E; destruct E as [<- <-];
          (eexists; split; [reflexivity|]; cbn [x_err x_sent x_panic x_affected x_lastid qs_dialect qs_err qs_args qs_query qs_affected qs_lastid];
           split; [reflexivity|]; split; [reflexivity|];
           split; [intros c query args I; apply sent_inj in I; destruct I as [-> ->]; split; [reflexivity|intros N; now rewrite Lq]|];
           split; [discriminate|]; split; [try discriminate; intros _ _; now split|apply T; reflexivity]).
      * cbn [x_err x_sent] in E; rewrite ?S in E; apply pair_inv in E; destruct E as [<- <-];
          (eexists; split; [reflexivity|]; cbn [x_err x_sent x_panic x_affected x_lastid qs_dialect qs_err qs_args qs_query qs_affected qs_lastid];
           split; [reflexivity|]; split; [reflexivity|];
           split; [intros c query args I; apply sent_inj in I; destruct I as [-> ->]; split; [reflexivity|intros N; now rewrite Lq]|];
           split; [discriminate|]; split; [|apply T; reflexivity]).
        intros _ _. split; [reflexivity|]. intros K. destruct (LD eq_refl K).
  - cbn [x_err x_sent] in E. rewrite ?S in E. apply pair_inv in E; destruct E as [<- <-]. eexists. split; [reflexivity|].
    cbn [x_err x_sent x_panic x_affected x_lastid qs_dialect qs_err qs_args qs_query qs_affected qs_lastid].
    split; [reflexivity|]. split; [reflexivity|]. split; [discriminate|].
    split; [right; reflexivity|]. split; [discriminate|]. apply T; reflexivity.
  - cbn [x_err x_sent] in E. rewrite ?S in E. apply pair_inv in E; destruct E as [<- <-]. eexists. split; [reflexivity|].
    cbn [x_err x_sent x_panic x_affected x_lastid qs_dialect qs_err qs_args qs_query qs_affected qs_lastid].
    split; [reflexivity|]. split; [reflexivity|]. split; [discriminate|].
    split; [left; reflexivity|]. split; [discriminate|]. apply T; reflexivity.
Qed.
Print Assumptions exec_record.

(** FetchExists. *)
Theorem exists_record : forall (h : host) (ctx : nat) (db : database) (s : settings) (sink : qstats -> bool) (q : node)
    (f : exists_result) (log : list qstats),
  (forall st, sink st = true) ->
  fetch_exists_l h ctx (Some db) (LLogs s sink) (Some q) = (f, log) ->
  (log = [] /\ e_sent f = None) \/
  exists st, log = [st] /\ qs_dialect st = get_dialect q /\ qs_err st = e_err f /\ qs_exists st = Some (e_exists f) /\
    (forall c query args, e_sent f = Some (c, query, args) -> qs_args st = args /\ (query <> [] -> qs_query st = query)).
Proof.
  intros h ctx db s sink q f log S E. unfold fetch_exists_l in E. cbv zeta in E.
  assert (Lq : forall err query partial, query <> [] -> logged_query h query partial err = query).
  { intros [e|] [|c qy] partial N; try congruence; reflexivity. }
  destruct (fetchable q) as [fs| |];
    try (apply pair_inv in E; destruct E as [<- <-]; left; split; reflexivity).
  destruct (match fs with [] => set_fetchable q [NLiteral (B "1") []] | _ => Some q end) as [q1|];
    [|apply pair_inv in E; destruct E as [<- <-]; left; split; reflexivity].
  set (out := to_sql (get_dialect q) q1) in *. right.
  destruct (BuildModel.r_status out) eqn:St.
  - set (sent := B "SELECT EXISTS (" ++ r_query out ++ B ")") in *.
    destruct (db (ctx, sent, r_args out)) as [e|[|row rows] close iter] eqn:Q;
      try (destruct (scan_bool row) as [e|b]);
      cbn [e_err e_sent e_exists] in E; rewrite ?S in E;
      (apply pair_inv in E; destruct E as [<- <-]; eexists; split; [reflexivity|];
       cbn [e_err e_sent e_exists qs_dialect qs_err qs_args qs_query qs_exists];
       split; [reflexivity|]; split; [reflexivity|]; split; [reflexivity|];
       intros c query args I; apply sent_inj in I; destruct I as [-> ->]; split; [reflexivity|intros N; now rewrite Lq]).
  - cbn [e_err e_sent e_exists] in E. rewrite ?S in E. apply pair_inv in E. destruct E as [<- <-]. eexists.
    split; [reflexivity|]. cbn [e_err e_sent e_exists qs_dialect qs_err qs_args qs_query qs_exists].
    split; [reflexivity|]. split; [reflexivity|]. split; [reflexivity|]. discriminate.
  - cbn [e_err e_sent e_exists] in E. rewrite ?S in E. apply pair_inv in E. destruct E as [<- <-]. eexists.
    split; [reflexivity|]. cbn [e_err e_sent e_exists qs_dialect qs_err qs_args qs_query qs_exists].
    split; [reflexivity|]. split; [reflexivity|]. split; [reflexivity|]. discriminate.
Qed.
Print Assumptions exists_record.

(** The deferred logging sees the error that is returned, or none, or the error
    that a run-time error takes the place of. *)
Lemma rows_seen {A} h d limit (mapper : list A -> prog A) : forall rows r0 hh n acc,
  let '(_, er, _, _, _, seen) := fetch_rows_l h d limit mapper rows r0 hh n acc in seen = er \/ seen = None \/ er = Some ERuntime.
Proof.
  induction rows as [|row rows IH]; intros r0 hh n acc; cbn [fetch_rows_l]; [now left|].
  destruct (scan row (r_cols r0)) as [e|vs].
  { unfold decorated. destruct (forallb _ _); [now left|now right; right]. }
  set (more := if (0 <? limit)%Z && (Z.of_nat (S n) <=? limit)%Z then _ else _).
  destruct more as [more [|]]; [|now right; left].
  destruct (run _ _ _) as [[x0 r1] h3]. destruct x0 as [x0|e|]; [|now right; left|now right; left].
  destruct (r_err r1); [now left|]. destruct (r_closed r1); [now left|]. apply IH.
Qed.
(** A mapper that does not panic, whatever it has done before and whatever
    values it gets for its columns. *)
Definition orderly {A} (mapper : list A -> prog A) (hist : list A) : Prop :=
  forall x r h1, run (mapper hist) row_new hist = (x, r, h1) ->
  forall hs vs cl, length vs = length (r_cols r) -> cl = false \/ cl = r_closed r ->
  exists x' r' h', run (mapper hs) (mk_row true 0 (r_cols r) vs None false cl) hs = (XDone x', r', h').
(** The fields a mapper asks for can be shown in an error of Scan. *)
Definition explainable {A} (d : dialect) (mapper : list A -> prog A) (hist : list A) : Prop :=
  forall x r h1, run (mapper hist) row_new hist = (x, r, h1) -> forall c, In c (r_cols r) -> can_show d (snd c).
Lemma rows_seen_orderly {A} h d limit (mapper : list A -> prog A) cols cl0 : (limit <= 0)%Z ->
  (forall c, In c cols -> can_show d (snd c)) ->
  (forall hs vs cl, length vs = length cols -> cl = false \/ cl = cl0 -> exists x' r' h', run (mapper hs) (mk_row true 0 cols vs None false cl) hs = (XDone x', r', h')) ->
  forall rows r0 hh n acc, r_active r0 = true -> r_cols r0 = cols -> r_err r0 = None -> r_closed r0 = false \/ r_closed r0 = cl0 ->
  let '(_, er, _, _, _, seen) := fetch_rows_l h d limit mapper rows r0 hh n acc in seen = er.
Proof.
  intros Ln Ex O. induction rows as [|row rows IH]; intros r0 hh n acc Ac Co Er Cl; cbn [fetch_rows_l]; [reflexivity|].
  destruct (scan row (r_cols r0)) as [e|vs] eqn:Sc.
  { unfold decorated. rewrite Co. now rewrite (proj2 (explains_all d cols) Ex). }
  apply scan_length in Sc. destruct (0 <? limit)%Z eqn:E1; [apply Z.ltb_lt in E1; lia|]. cbn [andb]. rewrite Ac, Co, Er.
  rewrite Co in Sc. destruct (O hh vs (r_closed r0) Sc Cl) as (x' & r' & h' & R). rewrite R.
  destruct (r_err r') eqn:Er'; [reflexivity|]. destruct (r_closed r') eqn:Cl'; [reflexivity|].
  destruct (run_active _ _ _ _ _ _ (eq_refl : r_active (mk_row true 0 cols vs None false (r_closed r0)) = true) R) as (H1 & H2 & H3).
  apply IH; try assumption. now left.
Qed.
(** Fetch, with any mapper: a panic (of the mapper, say) is logged as a success
    ([panic_logged_as_success_refuted]); without panics the error recorded is the one returned.
    A panic while an error of Scan is being explained: that error is recorded. *)
Theorem fetch_record : forall (A : Type) (h : host) (ctx : nat) (db : database) (s : settings) (sink : qstats -> bool) (q : node)
    (mapper : list A -> prog A) (hist : list A) (f : fetched_ A) (log : list qstats),
  (forall st, sink st = true) ->
  fetch_l h ctx (Some db) (LLogs s sink) (Some q) (Some mapper) hist = (f, log) ->
  (log = [] /\ f_sent f = None) \/
  exists st, log = [st] /\ qs_dialect st = get_dialect q /\ qs_count st = Some (f_count f) /\
    (qs_err st = f_err f \/ qs_err st = None \/ f_err f = Some ERuntime) /\
    (orderly mapper hist -> explainable (dialect_of (get_dialect q)) mapper hist -> (ls_limit s <= 0)%Z -> f_sent f <> None -> qs_err st = f_err f) /\
    (forall c query args, f_sent f = Some (c, query, args) -> qs_args st = args /\ (query <> [] -> qs_query st = query)).
Proof.
  intros A h ctx db s sink q mapper hist f log S E. unfold fetch_l in E. cbv zeta in E.
  assert (Lq : forall err query partial, query <> [] -> logged_query h query partial err = query).
  { intros [e|] [|c qy] partial N; try congruence; reflexivity. }
  destruct (run (mapper hist) row_new hist) as [[x r] h1] eqn:Ru. destruct x as [x|e|];
    try (apply pair_inv in E; destruct E as [<- <-]; left; split; reflexivity).
  destruct (set_fetchable q (map snd (r_cols r))) as [q1|];
    [|apply pair_inv in E; destruct E as [<- <-]; left; split; reflexivity].
  assert (Or : orderly mapper hist -> forall hs vs cl, length vs = length (r_cols r) -> cl = false \/ cl = r_closed r ->
      exists x' r' h', run (mapper hs) (mk_row true 0 (r_cols r) vs None false cl) hs = (XDone x', r', h')).
  { intros O. exact (O _ _ _ Ru). }
  assert (Ex : explainable (dialect_of (get_dialect q)) mapper hist -> forall c, In c (r_cols r) -> can_show (dialect_of (get_dialect q)) (snd c)).
  { intros O. exact (O _ _ _ Ru). }
  assert (Er0 : r_err r = None) by (exact (proj2 (run_passive _ _ _ _ _ _ (eq_refl : r_active row_new = false) Ru))).
  set (out := to_sql (get_dialect q) q1) in *. right.
  assert (K : forall (f0 : fetched_ A) query er tk rs,
    (er = f_err f0 \/ er = None \/ f_err f0 = Some ERuntime) -> (orderly mapper hist -> explainable (dialect_of (get_dialect q)) mapper hist -> (ls_limit s <= 0)%Z -> f_sent f0 <> None -> er = f_err f0) ->
    (forall c qy args, f_sent f0 = Some (c, qy, args) -> qy = r_query out /\ args = r_args out /\ (qy <> [] -> query = qy)) ->
    deliver s sink f0 (mk_stats (get_dialect q) (query_type q) ([], []) query (r_args out) er (Some (f_count f0)) None None None tk rs (caller_info h s)) = (f, log) ->
    exists st, log = [st] /\ qs_dialect st = get_dialect q /\ qs_count st = Some (f_count f) /\
      (qs_err st = f_err f \/ qs_err st = None \/ f_err f = Some ERuntime) /\
      (orderly mapper hist -> explainable (dialect_of (get_dialect q)) mapper hist -> (ls_limit s <= 0)%Z -> f_sent f <> None -> qs_err st = f_err f) /\
      (forall c query args, f_sent f = Some (c, query, args) -> qs_args st = args /\ (query <> [] -> qs_query st = query))).
  { intros f0 query er tk rs He Ho Hs D. unfold deliver in D. rewrite S in D. apply pair_inv in D. destruct D as [<- <-].
    eexists. split; [reflexivity|]. cbn [qs_dialect qs_count qs_err qs_args qs_query].
    split; [reflexivity|]. split; [reflexivity|]. split; [exact He|]. split; [exact Ho|].
    intros c qy args I. destruct (Hs _ _ _ I) as (-> & -> & N). split; [reflexivity|exact N]. }
  destruct (BuildModel.r_status out) eqn:St.
  - destruct (db (ctx, r_query out, r_args out)) as [e|rows close iter].
    + eapply K; [| | |exact E]; [now left|reflexivity|]. cbn [f_sent]. intros c qy args I. apply sent_inj in I. destruct I as [-> ->].
      split; [reflexivity|]. split; [reflexivity|]. intros N. now rewrite Lq.
    + destruct (r_cols r) as [|col cols].
      * eapply K; [| | |exact E]; [now left|reflexivity|]. cbn [f_sent]. intros c qy args I. apply sent_inj in I. destruct I as [-> ->].
        split; [reflexivity|]. split; [reflexivity|]. intros N. now rewrite Lq.
      * assert (SE : let '(n, er, p, h2, rs, seen) := fetch_rows_l h (dialect_of (get_dialect q)) (ls_limit s) mapper rows
                   (mk_row true (r_index r) (col :: cols) (r_dest r) (r_err r) (r_processed r) (r_closed r)) h1 0 [] in
                   (seen = er \/ seen = None \/ er = Some ERuntime) /\ (orderly mapper hist -> explainable (dialect_of (get_dialect q)) mapper hist -> (ls_limit s <= 0)%Z -> seen = er)).
        { pose proof (rows_seen h (dialect_of (get_dialect q)) (ls_limit s) mapper rows
            (mk_row true (r_index r) (col :: cols) (r_dest r) (r_err r) (r_processed r) (r_closed r)) h1 0 []) as S1.
          pose proof (fun Ln X O => rows_seen_orderly h (dialect_of (get_dialect q)) (ls_limit s) mapper (col :: cols) (r_closed r) Ln X O rows
            (mk_row true (r_index r) (col :: cols) (r_dest r) (r_err r) (r_processed r) (r_closed r)) h1 0 [] eq_refl eq_refl Er0 (or_intror eq_refl)) as S2.
          destruct (fetch_rows_l _ _ _ _ _ _ _ _ _) as [[[[[n er] p] h2] res] seen].
          split; [exact S1|]. intros O X Ln. exact (S2 Ln (Ex X) (Or O)). }
        destruct (fetch_rows_l h (dialect_of (get_dialect q)) (ls_limit s) mapper rows
          (mk_row true (r_index r) (col :: cols) (r_dest r) (r_err r) (r_processed r) (r_closed r)) h1 0 [])
          as [[[[[n [er|]] [|]] h2] res] seen];
        (eapply K; [| | |exact E]; [cbn [f_err]; first [exact (proj1 SE)|now left]|cbn [f_err]; intros O X Ln _; first [exact (proj2 SE O X Ln)|reflexivity]|]; cbn [f_sent]; intros c qy args I; apply sent_inj in I;
         destruct I as [-> ->]; split; [reflexivity|]; split; [reflexivity|]; intros N; now rewrite Lq).
  - eapply K; [| | |exact E]; [now left|reflexivity|]. cbn [f_sent]. discriminate.
  - eapply K; [| | |exact E]; [now right; left|cbn [f_sent]; congruence|]. cbn [f_sent]. discriminate.
Qed.
Print Assumptions fetch_record.
(** The mappers of C21 ff. are orderly. *)
Lemma mapping_orderly : forall (A : Type) (m : mapping A) (hist : list A), orderly (mapper_of m) hist.
Proof.
  intros A m hist x r h1 Ru hs vs cl L Cl. destruct (run_mapping_passive m hist hist) as (r' & Ru' & Hc & Hcl).
  rewrite Ru' in Ru. injection Ru as <- <- <-. rewrite Hc in *. rewrite Hcl in Cl.
  assert (cl = false) as -> by tauto. pose proof (run_mapping m hs hs vs L) as R. unfold fresh_row in R. eexists. eexists. eexists. exact R.
Qed.

(** ** C71: the results in the log *)
Lemma rows_logged {A} h d limit (m : mapping A) names : (0 < limit)%Z ->
  all_some (map (fun c => field_name h d (snd c)) (m_cols m)) = Some names -> length names = length (m_cols m) ->
  forall rows vals, scans (m_cols m) rows vals -> (forall vs, In vs vals -> plain_values vs) ->
  forall r hist n acc, all_continue m hist vals ->
  r_active r = true -> r_cols r = m_cols m -> r_err r = None -> r_closed r = false ->
  fetch_rows_l h d limit (mapper_of m) rows r hist n acc
  = (n + length rows, None, false, after m hist vals,
     acc ++ blocks (shown d) names (firstn (Z.to_nat limit - n) vals) (S n), None).
Proof.
  intros Lp Nm NL. induction 1 as [|row vs rows vals Sc F IH]; intros Pl r hist n acc Co Ac Cl Er Cs.
  - cbn [fetch_rows_l after fold_left length]. rewrite firstn_nil. cbn [blocks]. now rewrite app_nil_r, Nat.add_0_r.
  - cbn [fetch_rows_l]. rewrite Cl, Sc, Nm, Ac, Er, Cs.
    assert (M : (if (0 <? limit)%Z && (Z.of_nat (S n) <=? limit)%Z then row_text d names vs (S n) else ([], true))
      = (if S n <=? Z.to_nat limit then row_block (shown d) names vs (S n) else [], true)).
    { assert (E1 : (0 <? limit)%Z = true) by now apply Z.ltb_lt. rewrite E1. cbn [andb].
      destruct (Z.of_nat (S n) <=? limit)%Z eqn:E2.
      - apply Z.leb_le in E2. assert (E3 : (S n <=? Z.to_nat limit) = true) by (apply Nat.leb_le; lia). rewrite E3.
        apply row_text_shown; [apply Pl; now left|]. rewrite NL. symmetry. eapply scan_length; eauto.
      - apply Z.leb_gt in E2. assert (E3 : (S n <=? Z.to_nat limit) = false) by (apply Nat.leb_gt; lia). now rewrite E3. }
    rewrite M. fold (fresh_row (m_cols m) vs).
    rewrite (run_mapping m hist hist vs (scan_length row (m_cols m) vs Sc)).
    cbn [all_continue] in Co. destruct Co as [C1 C2]. rewrite C1. cbn [r_err r_closed].
    rewrite (IH (fun ws W => Pl ws (or_intror W)) _ _ (S n) _ C2) by reflexivity.
    cbn [length after fold_left].
    assert (B1 : blocks (shown d) names (firstn (Z.to_nat limit - n) (vs :: vals)) (S n)
      = (if S n <=? Z.to_nat limit then row_block (shown d) names vs (S n) else [])
        ++ blocks (shown d) names (firstn (Z.to_nat limit - S n) vals) (S (S n))).
    { destruct (S n <=? Z.to_nat limit) eqn:E.
      - apply Nat.leb_le in E. replace (Z.to_nat limit - n) with (S (Z.to_nat limit - S n)) by lia. reflexivity.
      - apply Nat.leb_gt in E. replace (Z.to_nat limit - n) with 0 by lia. replace (Z.to_nat limit - S n) with 0 by lia. reflexivity. }
    rewrite B1, app_assoc. replace (S n + length rows) with (n + S (length rows)) by lia. reflexivity.
Qed.

(** Ordinary mappers: the log shows the first [limit] rows, each column with its
    alias or text, and how many more there are. *)
Theorem results_logged : forall (A : Type) (h : host) (ctx : nat) (db : database) (s : settings) (sink : qstats -> bool)
    (q q1 : node) (m : mapping A) (hist : list A) (rows : list dbrow) (vals : list (list gval)) (names : list bytes),
  (forall st, sink st = true) -> (0 < ls_limit s)%Z ->
  m_cols m <> [] -> set_fetchable q (map snd (m_cols m)) = Some q1 ->
  let out := to_sql (get_dialect q) q1 in
  let d := dialect_of (get_dialect q) in
  BuildModel.r_status out = SOk -> db (ctx, r_query out, r_args out) = QRows rows None None ->
  scans (m_cols m) rows vals -> all_continue m hist vals -> (forall vs, In vs vals -> plain_values vs) ->
  Forall (fun c => showable d (snd c)) (m_cols m) ->
  Forall2 (fun c n => field_name h d (snd c) = Some n) (m_cols m) names ->
  exists st, snd (fetch_l h ctx (Some db) (LLogs s sink) (Some q) (Some (mapper_of m)) hist) = [st] /\
    qs_results st = results_text (shown d) names vals (Z.to_nat (ls_limit s)) /\
    qs_count st = Some (length rows) /\ qs_err st = None.
Proof.
  intros A h ctx db s sink q q1 m hist rows vals names S Lp Cn Sf out d St Q Sc Co Pl Sh Nm.
  destruct (run_mapping_passive m hist hist) as (r & Er & Hc & Hcl).
  destruct (run_passive _ _ _ _ _ _ (eq_refl : r_active row_new = false) Er) as [_ He].
  unfold fetch_l. rewrite Er, Hc, Sf. fold out. fold d. rewrite St, Q. cbv zeta.
  destruct (m_cols m) as [|c0 cs] eqn:Cm; [congruence|].
  assert (As : all_some (map (fun c => field_name h d (snd c)) (m_cols m)) = Some names).
  { rewrite Cm. clear - Nm. induction Nm as [|c n cs1 ns E F IH]; [reflexivity|]. cbn [map all_some]. now rewrite E, IH. }
  assert (Ln : length names = length (m_cols m)).
  { rewrite Cm. clear - Nm. induction Nm; [reflexivity|]. cbn [length]. now f_equal. }
  rewrite <- Cm in Sc |- *.
  rewrite (rows_logged h d (ls_limit s) m names Lp As Ln rows vals Sc Pl) by (try exact Co; try exact Hcl; try exact He; reflexivity).
  cbn [option_map first_some app]. rewrite Nat.add_0_l. unfold deliver. rewrite S. cbn [snd].
  eexists. split; [reflexivity|]. cbn [qs_results qs_count qs_err f_count].
  split; [|split; reflexivity].
  assert (E1 : (0 <? ls_limit s)%Z = true) by now apply Z.ltb_lt. rewrite E1. cbn [andb].
  assert (LV : length vals = length rows).
  { clear - Sc. induction Sc; [reflexivity|]. cbn [length]. now f_equal. }
  unfold results_text. rewrite LV, Nat.sub_0_r.
  destruct (ls_limit s <? Z.of_nat (length rows))%Z eqn:E2.
  - apply Z.ltb_lt in E2. assert (E3 : (length rows <=? Z.to_nat (ls_limit s)) = false) by (apply Nat.leb_gt; lia).
    rewrite E3. unfold nl, line_end. rewrite <- ?app_assoc.
    replace (format_int (Z.of_nat (length rows) - ls_limit s)) with (itoa (length rows - Z.to_nat (ls_limit s))); [reflexivity|].
    unfold itoa, format_int. destruct (Z.of_nat (length rows) - ls_limit s)%Z eqn:Z0; try lia.
    f_equal. lia.
  - apply Z.ltb_ge in E2. assert (E3 : (length rows <=? Z.to_nat (ls_limit s)) = true) by (apply Nat.leb_le; lia).
    rewrite E3. now rewrite app_nil_r.
Qed.
Print Assumptions results_logged.

(** ** The line *)
(** The library's logger writes whether the statement failed, and the statement
    with its arguments in their places (Sprintf, C05). *)
Theorem line_shows_statement : forall (h : host) (flags : N) (s : qstats) (t : bytes),
  sprintf (dialect_of (qs_dialect s)) (qs_query s) (qs_args s) = Ok t ->
  l_color flags = false ->
  let verdict := match qs_err s with None => B "[OK]" | Some _ => B "[FAIL]" end in
  (l_interpolate flags = true -> l_verbose flags = false ->
     exists rest, log_line h flags false s = Some (verdict ++ B " " ++ t ++ B " |" ++ rest)) /\
  (l_verbose flags = true ->
     exists items rest, log_line h flags false s = Some (verdict ++ items ++
       line_end ++ B "----[ Executing query ]----" ++ line_end ++ qs_query s ++ B " " ++ h_syntax h (qs_args s) ++
       line_end ++ B "----[ with bind values ]----" ++ line_end ++ t ++ rest)).
Proof.
  intros h flags s t E C verdict.
  assert (I : interpolated (dialect_of (qs_dialect s)) (qs_query s) (qs_args s) = Some t).
  { unfold interpolated. now rewrite E. }
  assert (V : log_verdict flags s = verdict).
  { unfold log_verdict, paint, verdict. rewrite C. destruct (qs_err s); reflexivity. }
  assert (Hd : forall title, heading flags title = nl ++ title).
  { intros title. unfold heading, paint. rewrite C. cbn [app]. now rewrite app_nil_r. }
  clearbody verdict. unfold log_line. cbv zeta. rewrite V, I. clear V I E.
  generalize (log_items h flags s), (if is_empty (qs_results s) then [] else heading flags (B "----[ Fetched result ]----") ++ qs_results s).
  intros items rest. split.
  - intros L1 L2. rewrite L1, L2. cbn [option_map]. exists (items ++ rest). f_equal. f_equal.
    rewrite <- !app_assoc. reflexivity.
  - intros L2. rewrite L2. cbn [option_map]. exists items, rest. rewrite !Hd. f_equal. f_equal.
    rewrite <- !app_assoc. reflexivity.
Qed.
Print Assumptions line_shows_statement.

(** ** Examples and findings *)
Definition ex_host : host :=
  mk_host (fun _ => B "oops") (fun _ => B "[]") (fun _ => B "[]interface {}(nil)") (fun _ => B "1ms") (fun f => f)
    (B "main.go", 7%Z, B "main.f") 1000000%N.
Definition all_logs (limit : Z) : logging := LLogs (mk_settings limit true false true) (fun _ => true).
Definition line (l : list bytes) : bytes := concat (map (fun x => x ++ line_end) l).
Example ex_results :
  let r := fetch_l ex_host 0 (Some (ex_db [good 1; good 2; good 3])) (all_logs 2) (Some ex_query) (Some (mapper_of ex_mapping)) [] in
  fst r = mk_fetched 3 None false [1; 2; 3]%Z (Some ex_sent) /\
  map qs_results (snd r) = [line_end ++ join line_end
    [B "----[ Row 1 ]----"; B "t.a: 1"; B "t.b: 'x'"; B "----[ Row 2 ]----"; B "t.a: 2"; B "t.b: 'x'"; B "..."; B "(1 more rows)"]] /\
  map qs_query (snd r) = [B "SELECT t.a, t.b FROM t"].
Proof. vm_compute. split; [reflexivity|split; reflexivity]. Qed.
Example ex_showable : forall d n, In d [DPostgres; DMySQL; DSQLite; DSQLServer] -> In n [B "a"; B "b"] -> showable d (fld (B "t") n).
Proof.
  intros d n D N. right. split.
  - cbn -[B safe_here]. unfold safe_here. cbn -[B]. split; [split; [|exact I]|exact I]. intros f vals J. contradiction.
  - destruct D as [<-|[<-|[<-|[<-|[]]]]]; destruct N as [<-|[<-|[]]]; (split; [intros v []|]);
      (left; discriminate) || (right; vm_compute; apply le_n).
Qed.
Example ex_hypotheses :
  harmless (all_logs 2) (ex_db [good 1; good 2; good 3]) ex_query (mapper_of ex_mapping) [] /\ silent (all_logs 2).
Proof.
  split; [|intros st; reflexivity]. split; [intros st; reflexivity|]. intros _. split.
  - intros x r h1 E. destruct (run_mapping_passive ex_mapping [] []) as (r0 & E0 & C & _). rewrite E0 in E.
    assert (r0 = r) by congruence. subst r0. rewrite C.
    constructor; [apply ex_showable; [now left|now left]|]. constructor; [apply ex_showable; [now left|right; now left]|constructor].
  - intros [[[|c] sql] [|a args]] rows close iter row kinds vs E; cbn [ex_db] in E; try discriminate.
    destruct (beqb sql (B "SELECT t.a, t.b FROM t")); [|discriminate].
    assert (Rw : rows = [good 1; good 2; good 3]) by congruence. rewrite Rw. clear E Rw.
    intros I V. assert (G : exists z, row = good z) by (destruct I as [<-|[<-|[<-|[]]]]; eauto).
    destruct G as [z ->]. unfold good in V. injection V as V. subst vs. intros v [<-|[<-|[]]]; reflexivity.
Qed.
Example ex_line :
  log_line ex_host 1 false (mk_stats (B "postgres") (B "SELECT") ([], []) (B "SELECT $1") [GString (B "a'b")] None (Some 2) None None None 0 [] None)
  = Some (B "[OK] SELECT 'a''b' | rowCount=2").
Proof. vm_compute. reflexivity. Qed.

(** Finding: a mapper that panics with an error (as row.ScanJSON does) makes
    Fetch return it, but the statement is logged as a success. *)
Theorem panic_logged_as_success_refuted :
  let m := fun _ : list Z => PGet KInt64 (fld (B "t") (B "a")) (fun _ => PGet KString (fld (B "t") (B "b")) (fun _ =>
             PActive (fun active => if active then PPanicErr (EUser 5) else PEnd None))) in
  let r := fetch_l ex_host 0 (Some (ex_db [good 1])) (all_logs 0) (Some ex_query) (Some m) [] in
  f_err (fst r) = Some (EUser 5) /\ map qs_err (snd r) = [None].
Proof. vm_compute. split; reflexivity. Qed.
Print Assumptions panic_logged_as_success_refuted.
(** Finding: with sq.Log an Exec whose argument is a nil pointer of a type with a
    Value method panics after it was executed; without sq.Log it succeeds. *)
Definition nil_arg : node := NQueryf (B "postgres") (B "DELETE FROM t WHERE id = {}") [NRaw (GNilPtr true)].
Theorem log_panics_refuted :
  let db := fun _ : request => XResult (inr 1%Z) (inl 0) in
  let sent := Some (0, B "DELETE FROM t WHERE id = $1", [GNilPtr true]) in
  exec_query 0 (Some db) (Some nil_arg) = mk_exec 1 0 None false sent /\
  forall h limit, fst (exec_l h 0 (Some db) (library_logger h default_flags limit) (Some nil_arg)) = mk_exec 0 0 None true sent.
Proof. split; [vm_compute; reflexivity|intros h limit; vm_compute; reflexivity]. Qed.
Print Assumptions log_panics_refuted.
(** Finding: NULL in the results is shown as an error, not as NULL. *)
Theorem null_result_shown_as_error_refuted : forall (d : dialect) (s t : bytes) (b : bool) (z : Z),
  Forall (fun v => shown d v = B "%!(error=unrecognized driver.Valuer type)")
    [GNullString false s; GNullBool false b; GNullInt false z; GNullFloat false t; GNullTime false t].
Proof. intros. repeat constructor. Qed.
Print Assumptions null_result_shown_as_error_refuted.
