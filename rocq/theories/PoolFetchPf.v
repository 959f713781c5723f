(** * PoolFetchPf: logging and the statements with pooled objects *)
From Coq Require Import Lia.
From Verif Require Import GoBase GoBaseFacts QuoteModel QuoteFacts SprintModel TokenModel EffectModel RenderModel BuildModel NameModel FetchModel
  LogModel PoolModel SpecPool PoolFacts PoolHold PoolCalls SpecPoolCalls PoolPf.
Require Verif.FetchPf.
Notation prog := PoolCalls.prog.

Definition hwrites {R} (x : nat) (os : list obj) (p : prog R) (r : R) (os' : list obj) : Prop :=
  holding x os p (fun r' os'' t => r' = r /\ os'' = os' /\ t = []).
Lemma hwrites_ret {R} x os (r : R) : hwrites x os (Ret r) r os.
Proof. apply holding_ret. now repeat split. Qed.
Lemma hwrites_bind {R S} x os (p : prog R) r os' (f : R -> prog S) r' os'' :
  hwrites x os p r os' -> hwrites x os' (f r) r' os'' -> hwrites x os (bind p f) r' os''.
Proof. intros H K. eapply holding_bind; [exact H|]. intros ? ? ? _ (-> & -> & ->). exact K. Qed.
Lemma hold_bind {R S} x os (p : prog R) r os' (f : R -> prog S) P :
  hwrites x os p r os' -> holding x os' (f r) P -> holding x os (bind p f) P.
Proof. intros H K. eapply holding_bind; [exact H|]. intros ? ? ? _ (-> & -> & ->). exact K. Qed.
Lemma hold_gives {R S} x os hi (p : prog R) r (f : R -> prog S) P :
  gives hi p r -> hi = x + length os -> holding x os (f r) P -> holding x os (bind p f) P.
Proof. intros H E K. eapply holding_helper; [exact E|exact H|]. intros ? ? [-> ->]. exact K. Qed.
Lemma hwrites_gives {R S} x os hi (p : prog R) r (f : R -> prog S) r' os' :
  gives hi p r -> hi = x + length os -> hwrites x os (f r) r' os' -> hwrites x os (bind p f) r' os'.
Proof. intros H E K. eapply hold_gives; eassumption. Qed.
Lemma hwrites_writes {R} x os i o o' (p : prog R) r y hi : nth_error os i = Some o -> y = x + i -> hi = x + length os ->
  writes y hi o p r o' -> hwrites x os p r (list_set os i o').
Proof.
  intros E Y H W. eapply holding_mono; [|eapply holding_working; eassumption].
  cbn. intros r' os' t (o2 & -> & -> & -> & ->). now repeat split.
Qed.
Lemma hwrites_frame {R} x pre os os' (p : prog R) r y : y = x + length pre -> hwrites y os p r os' -> hwrites x (pre ++ os) p r (pre ++ os').
Proof.
  intros E W. eapply holding_mono; [|eapply holding_frame; eassumption]. cbn. intros r' os2 t (os3 & -> & _ & -> & -> & ->). now repeat split.
Qed.
Lemma gives_pooled_n {R} n x (p : prog R) r os' : hwrites x (repeat blank n) p r os' -> gives x (pooled_n n x p) r.
Proof. intros H. apply helper_pooled_n. eapply holding_mono; [|exact H]. cbn. intros ? ? ? (-> & _ & ->). now split. Qed.

(** One operation on the first, second or third object. *)
Ltac hstep :=
  unfold hwrites;
  lazymatch goal with
  | |- holding _ _ (Write _ _ _) _ => first [eapply (holding_write _ _ 0); [reflexivity|lia|] | eapply (holding_write _ _ 1); [reflexivity|lia|] | eapply (holding_write _ _ 2); [reflexivity|lia|]]
  | |- holding _ _ (Read _ _) _ => first [eapply (holding_read _ _ 0); [reflexivity|lia|] | eapply (holding_read _ _ 1); [reflexivity|lia|] | eapply (holding_read _ _ 2); [reflexivity|lia|]]
  | |- holding _ _ (Reset _ _) _ => first [eapply (holding_reset _ _ 0); [reflexivity|lia|] | eapply (holding_reset _ _ 1); [reflexivity|lia|] | eapply (holding_reset _ _ 2); [reflexivity|lia|]]
  | |- holding _ _ (Args _ _ _) _ => first [eapply (holding_args _ _ 0); [reflexivity|lia|] | eapply (holding_args _ _ 1); [reflexivity|lia|] | eapply (holding_args _ _ 2); [reflexivity|lia|]]
  end; cbn [list_set fst snd].

(** ** Rendering into a pooled buffer and slice *)
Lemma cmds_pooled_hold nested d x : computes nested -> forall cs s0 b l b',
  hwrites x [(b ++ out_text d (st_out s0), l); (b', st_args s0)]
    (cmds_pooled_p nested x (Datatypes.S x) (Datatypes.S (Datatypes.S x)) d (st_params s0) cs) tt
    [(b ++ out_text d (st_out (exec d s0 cs)), l); (b', st_args (exec d s0 cs))].
Proof.
  intros C. induction cs as [|c cs IH]; intros s0 b l b'; cbn [cmds_pooled_p]; [apply hwrites_ret|].
  hstep. destruct (exec1_front d s0 c) as (F1 & F2 & F3).
  eapply hold_gives; [apply C|cbn [length]; lia|]. hstep. hstep.
  rewrite <- app_assoc.
  replace (cmd_text d (mk_st [] (st_args s0) (st_params s0)) c) with (cmd_text d s0 c) by reflexivity.
  rewrite <- F1, <- F2, <- F3. apply IH.
Qed.
Lemma cmds_pooled_blank nested d x cs l b' : computes nested ->
  hwrites x [([], l); (b', [])]
    (cmds_pooled_p nested x (Datatypes.S x) (Datatypes.S (Datatypes.S x)) d [] cs) tt
    [(out_text d (st_out (exec d st0 cs)), l); (b', st_args (exec d st0 cs))].
Proof. intros C. exact (cmds_pooled_hold nested d x C cs st0 [] l b'). Qed.

Lemma printed_gives nested x d m : computes nested -> gives x (printed_p nested x d m) (printed d m).
Proof.
  intros C. eapply gives_pooled_n. eapply hwrites_bind; [apply cmds_pooled_blank; exact C|].
  unfold printed. cbv zeta. destruct (snd m); [|apply hwrites_ret..].
  hstep. hstep. eapply hwrites_gives; [apply sprintf_gives|cbn [length]; lia|]. apply hwrites_ret.
Qed.

(** ** Field names, explanations, results *)
Lemma field_names_hold nested h d x : computes nested -> forall fs names b l b' a,
  exists os', hwrites x [(b, l); (b', a)] (field_names_p nested h x d fs names)
    (option_map (fun more => names ++ more) (all_some (map (field_name h d) fs))) os'.
Proof.
  intros C. induction fs as [|f fs IH]; intros names b l b' a; cbn [field_names_p map all_some option_map].
  - rewrite app_nil_r. eexists. apply hwrites_ret.
  - unfold field_name at 1. destruct (negb (is_empty (get_alias f))).
    + destruct (IH (names ++ [get_alias f]) b l b' a) as (os' & H). exists os'.
      destruct (all_some (map (field_name h d) fs)); cbn [option_map] in *; [now rewrite <- app_assoc in H|exact H].
    + unfold append_sql. cbv zeta. cbn [fst snd]. set (m := render d f (RenderModel.ctx None [])).
      set (text := out_text d (st_out (exec d st0 (fst m)))). set (args := st_args (exec d st0 (fst m))).
      assert (K : forall t, exists os', hwrites x [(text, []); ([], args)] (field_names_p nested h x d fs (names ++ [t]))
                  (option_map (fun more => names ++ more) (option_map (cons t) (all_some (map (field_name h d) fs)))) os').
      { intros t. destruct (IH (names ++ [t]) text [] [] args) as (os' & H). exists os'.
        destruct (all_some (map (field_name h d) fs)); cbn [option_map] in *; [now rewrite <- app_assoc in H|exact H]. }
      pose proof (sprintf_gives (Datatypes.S (Datatypes.S x)) d text args) as G. unfold sprintf_returns in G.
      destruct (snd m).
      * destruct (sprintf d text args) as [t|e|].
        -- destruct (K t) as (os' & H). exists os'. hstep. hstep. eapply hold_bind; [apply cmds_pooled_blank; exact C|]. fold text args.
           hstep. hstep. eapply hwrites_gives; [exact G|cbn [length]; lia|]. exact H.
        -- destruct (K (bad e)) as (os' & H). exists os'. hstep. hstep. eapply hold_bind; [apply cmds_pooled_blank; exact C|]. fold text args.
           hstep. hstep. eapply hwrites_gives; [exact G|cbn [length]; lia|]. exact H.
        -- eexists. hstep. hstep. eapply hold_bind; [apply cmds_pooled_blank; exact C|]. fold text args.
           hstep. hstep. eapply hwrites_gives; [exact G|cbn [length]; lia|]. apply hwrites_ret.
      * destruct (K (bad (h_err h ERender))) as (os' & H). exists os'. hstep. hstep. eapply hold_bind; [apply cmds_pooled_blank; exact C|]. exact H.
      * eexists. hstep. hstep. eapply hold_bind; [apply cmds_pooled_blank; exact C|]. apply hwrites_ret.
Qed.
Lemma compute_field_names_gives nested h x d fs : computes nested ->
  gives x (compute_field_names_p nested h x d fs) (all_some (map (field_name h d) fs)).
Proof.
  intros C. destruct (field_names_hold nested h d x C fs [] [] [] [] []) as (os' & H). eapply gives_pooled_n.
  destruct (all_some (map (field_name h d) fs)); exact H.
Qed.
Lemma explain_hold nested h d x : computes nested -> forall fs i b l b1 a1 b2 a2,
  exists os', hwrites x [(b, l); (b1, a1); (b2, a2)] (explain_p nested h x d i fs) (forallb (explains d) fs) os'.
Proof.
  intros C. induction fs as [|f fs IH]; intros i b l b1 a1 b2 a2; cbn [explain_p forallb].
  - eexists. hstep. apply hwrites_ret.
  - unfold explains at 1. unfold append_sql. cbv zeta. cbn [fst snd]. set (m := render d f (RenderModel.ctx None [])).
    set (text := out_text d (st_out (exec d st0 (fst m)))). set (args := st_args (exec d st0 (fst m))).
    pose proof (sprintf_gives (Datatypes.S (Datatypes.S (Datatypes.S x))) d text args) as G. unfold sprintf_returns in G.
    assert (W : forall pre, hwrites x [pre; blank; blank]
        (cmds_pooled_p nested (Datatypes.S x) (Datatypes.S (Datatypes.S x)) (Datatypes.S (Datatypes.S (Datatypes.S x))) d [] (fst m)) tt
        [pre; (text, []); ([], args)]).
    { intros pre. apply (hwrites_frame x [pre] [blank; blank] [(text, []); ([], args)] _ _ (Datatypes.S x)); [cbn [length]; lia|].
      now apply cmds_pooled_blank. }
    destruct (snd m).
    + destruct (sprintf d text args) as [t|e|]; cbn [andb].
      * destruct (IH (Datatypes.S i) ((b ++ nl ++ itoa i ++ B ") ") ++ t ++ B " => ") l text [] [] args) as (os' & H). exists os'.
        hstep. hstep. hstep. eapply hold_bind; [apply W|]. hstep. hstep.
        eapply hwrites_gives; [exact G|cbn [length]; lia|]. cbn [fst]. hstep. exact H.
      * destruct (IH (Datatypes.S i) ((b ++ nl ++ itoa i ++ B ") ") ++ bad e) l text [] [] args) as (os' & H). exists os'.
        hstep. hstep. hstep. eapply hold_bind; [apply W|]. hstep. hstep.
        eapply hwrites_gives; [exact G|cbn [length]; lia|]. cbn [fst]. hstep. exact H.
      * eexists. hstep. hstep. hstep. eapply hold_bind; [apply W|]. hstep. hstep.
        eapply hwrites_gives; [exact G|cbn [length]; lia|]. apply hwrites_ret.
    + cbn [andb]. destruct (IH (Datatypes.S i) ((b ++ nl ++ itoa i ++ B ") ") ++ bad (h_err h ERender)) l text [] [] args) as (os' & H). exists os'.
      hstep. hstep. hstep. eapply hold_bind; [apply W|]. hstep. exact H.
    + eexists. hstep. hstep. hstep. eapply hold_bind; [apply W|]. apply hwrites_ret.
Qed.
Lemma decorate_gives nested h x d fs : computes nested -> gives x (decorate_p nested h x d fs) (forallb (explains d) fs).
Proof.
  intros C. destruct (explain_hold nested h d x C fs 0 [] [] [] [] [] []) as (os' & H). eapply gives_pooled_n. exact H.
Qed.
Lemma accumulate_writes x hi d : x < hi -> forall vs names b l,
  writes x hi (b, l) (accumulate_fields_p x hi d names vs) (snd (show_fields d names vs)) (b ++ fst (show_fields d names vs), l).
Proof.
  intros X. induction vs as [|v vs IH]; intros names b l; cbn [accumulate_fields_p show_fields fst snd].
  - rewrite app_nil_r. apply writes_ret.
  - wstep. wstep. wstep. unfold show_dest. pose proof (sprint_gives hi d (GPtr v)) as G.
    destruct (sprint d (GPtr v)) as [t|e|]; cbv zeta; cbn [fst snd]; (eapply writes_gives; [exact G|]); cbn beta iota.
    + wstep. match goal with |- writes _ _ (?p, _) _ _ (?q, _) => replace q with (p ++ fst (show_fields d (tl names) vs)) by (now rewrite <- !app_assoc) end. apply IH.
    + wstep. match goal with |- writes _ _ (?p, _) _ _ (?q, _) => replace q with (p ++ fst (show_fields d (tl names) vs)) by (now rewrite <- !app_assoc) end. apply IH.
    + match goal with |- writes _ _ (?p, _) _ _ (?q, _) => replace q with p by (now rewrite <- !app_assoc) end. apply writes_ret.
Qed.
Lemma row_text_writes x hi d names vs n b l : x < hi ->
  writes x hi (b, l) (accumulate_p x hi d names vs n) (snd (row_text d names vs n)) (b ++ fst (row_text d names vs n), l).
Proof.
  intros X. unfold accumulate_p, row_text. cbv zeta. cbn [fst snd]. wstep.
  match goal with |- writes _ _ (?p, _) _ _ (?q, _) => replace q with (p ++ fst (show_fields d names vs)) by (now rewrite <- !app_assoc) end.
  now apply accumulate_writes.
Qed.

(** ** Logging *)
Lemma interpolated_gives x d query args : gives x (interpolated_p x d query args) (interpolated d query args).
Proof.
  unfold interpolated_p. eapply gives_bind; [apply sprintf_gives|]. unfold sprintf_returns, interpolated. cbn [fst snd].
  destruct (sprintf d query args); apply gives_ret.
Qed.
Lemma log_helper h flags x s : helper x (log_p h flags x s) (fun ok t => ok = returns h flags s /\ line_written h flags s t).
Proof.
  unfold log_p. cbv zeta. apply (helper_pooled_n 1). cbn [repeat]. unfold returns, line_written, log_line.
  set (d := dialect_of (qs_dialect s)). pose proof (interpolated_gives (Datatypes.S x) d (qs_query s) (qs_args s)) as G.
  set (results := if is_empty (qs_results s) then [] else heading flags (B "----[ Fetched result ]----") ++ qs_results s).
  assert (Pr : forall b l line, line = b ++ results ->
    holding x [(b, l)] (Write x results (Read x (fun o => Ask (QLine (fst o)) (fun _ => Ret true))) : prog bool)
      (fun ok _ t => ok = true /\ exists a, t = [Asked (QLine line) a])).
  { intros b l line ->. hstep. hstep. apply holding_ask. intros a. apply holding_ret. split; [reflexivity|now exists a]. }
  cbv zeta. hstep. unfold blank. cbn [fst snd]. destruct (l_verbose flags).
  - hstep. hstep. destruct (interpolated d (qs_query s) (qs_args s)) as [t|]; cbn [option_map];
      (eapply hold_gives; [exact G|cbn [length]; lia|]); cbn beta iota.
    + hstep. apply Pr. rewrite <- !app_assoc. reflexivity.
    + apply holding_ret. now split.
  - destruct (l_interpolate flags).
    + destruct (interpolated d (qs_query s) (qs_args s)) as [t|]; cbn [option_map];
        (eapply hold_gives; [exact G|cbn [length]; lia|]); cbn beta iota.
      * hstep. hstep. hstep. apply Pr. rewrite <- !app_assoc. reflexivity.
      * apply holding_ret. now split.
    + hstep. hstep. hstep. apply Pr. rewrite <- !app_assoc. reflexivity.
Qed.

Lemma send_log_holding {R} h flags limit x os hi st (f panicked : R) : hi = x + length os ->
  holding x os (send_log_p h flags hi st f panicked)
    (fun r os' t => r = (if l_async flags || returns h flags st then f else panicked) /\ recorded h (Some (flags, limit)) [st] t).
Proof.
  intros E. unfold send_log_p, recorded. destruct (l_async flags).
  - apply holding_spawn. apply holding_ret. now split.
  - cbn [orb]. eapply holding_helper; [exact E|apply log_helper|]. intros ok t (-> & L). apply holding_ret. rewrite app_nil_r. now split.
Qed.

(** ** Fetch *)
Section Fetching.
  Context {A : Type}.
  Notation uprog := (FetchModel.prog A).
  Definition no_text_result (x : nat * option gerr * bool * list A * bytes * option gerr) : nat * option gerr * bool * list A * option gerr :=
    let '(n, e, p, h, _, seen) := x in (n, e, p, h, seen).
  Definition text_of_result (x : nat * option gerr * bool * list A * bytes * option gerr) : bytes :=
    let '(_, _, _, _, text, _) := x in text.
  Lemma rows_writes nested h dl limit y (mapper : list A -> uprog) cols : computes nested -> cols <> [] -> forall rows r hist n names acc l,
    r_active r = true -> r_cols r = cols ->
    (names = [] \/ all_some (map (field_name h dl) (map snd cols)) = Some names) ->
    writes y (Datatypes.S y) (acc, l) (rows_p nested h dl limit y mapper cols rows r hist n names)
      (no_text_result (fetch_rows_l h dl limit mapper rows r hist n acc)) (text_of_result (fetch_rows_l h dl limit mapper rows r hist n acc), l).
  Proof.
    intros C Nc. induction rows as [|d rest IH]; intros r hist n names acc l Ac Co Nm; cbn [rows_p fetch_rows_l]; [apply writes_ret|].
    rewrite Co. destruct (FetchModel.scan d cols) as [e|vs].
    { eapply writes_gives; [now apply decorate_gives|]. unfold decorated.
      replace (forallb (fun c : kind * node => explains dl (snd c)) cols) with (forallb (explains dl) (map snd cols)).
      - destruct (forallb (explains dl) (map snd cols)); apply writes_ret.
      - clear. induction cols as [|c cols IH]; [reflexivity|]. cbn. now rewrite IH. }
    replace (map (fun c => field_name h dl (snd c)) cols) with (map (field_name h dl) (map snd cols)) by (now rewrite map_map).
    rewrite Ac.
    assert (K : forall names' more, (names' = [] \/ all_some (map (field_name h dl) (map snd cols)) = Some names') ->
      writes y (Datatypes.S y) (acc ++ more, l)
        (match run (mapper hist) (mk_row true 0 cols vs (r_err r) false (r_closed r)) hist with
         | (XErr e, _, h1) => Ret (Datatypes.S n, Some e, false, h1, None)
         | (XPanic, _, h1) => Ret (Datatypes.S n, None, true, h1, None)
         | (XDone _, r1, h1) =>
           match r_err r1 with
           | Some e => Ret (Datatypes.S n, Some e, false, h1, Some e)
           | None => if r_closed r1 then Ret (Datatypes.S n, None, false, h1, None)
                     else rows_p nested h dl limit y mapper cols rest r1 h1 (Datatypes.S n) names'
           end
         end)
        (no_text_result match run (mapper hist) (mk_row true 0 cols vs (r_err r) false (r_closed r)) hist with
         | (XErr e, _, h1) => (Datatypes.S n, Some e, false, h1, acc ++ more, None)
         | (XPanic, _, h1) => (Datatypes.S n, None, true, h1, acc ++ more, None)
         | (XDone _, r1, h1) =>
           match r_err r1 with
           | Some e => (Datatypes.S n, Some e, false, h1, acc ++ more, Some e)
           | None => if r_closed r1 then (Datatypes.S n, None, false, h1, acc ++ more, None)
                     else fetch_rows_l h dl limit mapper rest r1 h1 (Datatypes.S n) (acc ++ more)
           end
         end)
        (text_of_result match run (mapper hist) (mk_row true 0 cols vs (r_err r) false (r_closed r)) hist with
         | (XErr e, _, h1) => (Datatypes.S n, Some e, false, h1, acc ++ more, None)
         | (XPanic, _, h1) => (Datatypes.S n, None, true, h1, acc ++ more, None)
         | (XDone _, r1, h1) =>
           match r_err r1 with
           | Some e => (Datatypes.S n, Some e, false, h1, acc ++ more, Some e)
           | None => if r_closed r1 then (Datatypes.S n, None, false, h1, acc ++ more, None)
                     else fetch_rows_l h dl limit mapper rest r1 h1 (Datatypes.S n) (acc ++ more)
           end
         end, l)).
    { intros names' more Nm'.
      destruct (run (mapper hist) (mk_row true 0 cols vs (r_err r) false (r_closed r)) hist) as [[x r1] h1] eqn:Er.
      destruct x as [x|e|]; [|apply writes_ret..]. destruct (r_err r1); [apply writes_ret|]. destruct (r_closed r1); [apply writes_ret|].
      destruct (FetchPf.run_active _ _ _ _ _ _ (eq_refl : r_active (mk_row true 0 cols vs (r_err r) false (r_closed r)) = true) Er) as (H1 & H2 & _).
      now apply IH. }
    destruct ((0 <? limit)%Z && (Z.of_nat (Datatypes.S n) <=? limit)%Z).
    - destruct (all_some (map (field_name h dl) (map snd cols))) as [ns|] eqn:Ens.
      + assert (G : gives (Datatypes.S y) (match names with [] => compute_field_names_p nested h (Datatypes.S y) dl (map snd cols) | _ => Ret (Some names) end) (Some ns)).
        { destruct names as [|n0 names].
          - rewrite <- Ens. now apply compute_field_names_gives.
          - destruct Nm as [Nm|Nm]; [discriminate|]. rewrite <- Nm. apply gives_ret. }
        pose proof (row_text_writes y (Datatypes.S y) dl ns vs (Datatypes.S n) acc l (Nat.lt_succ_diag_r y)) as W.
        destruct (row_text dl ns vs (Datatypes.S n)) as [more ok] eqn:Rt. cbn [fst snd] in W.
        eapply writes_bind; [lia|eapply writes_gives; [exact G|]; eapply writes_bind; [lia|exact W|apply writes_ret]|]. cbn [fst snd].
        destruct ok; [apply K; now right|apply writes_ret].
      + destruct names as [|n0 names]; [|destruct Nm as [Nm|Nm]; discriminate].
        assert (G : gives (Datatypes.S y) (compute_field_names_p nested h (Datatypes.S y) dl (map snd cols)) None).
        { rewrite <- Ens. now apply compute_field_names_gives. }
        eapply writes_bind; [lia|eapply writes_gives; [exact G|]; apply writes_ret|]. cbn [fst snd]. rewrite app_nil_r. apply writes_ret.
    - eapply writes_bind; [lia|apply writes_ret|]. cbn [fst snd]. specialize (K names [] Nm). rewrite app_nil_r in *. exact K.
  Qed.

  (** The record that Fetch makes, and what becomes of its result. *)
  Definition fetch_logged_as (h : host) (lg : logging) (q : node) (args : list gval) (rendered text : bytes) (f : fetched_ A)
      (err : option gerr) (asked : bool) (results : bytes) : fetched_ A * list qstats :=
    match lg with
    | LLogs s sink =>
      deliver s sink f
        (mk_stats (get_dialect q) (query_type q) ([], []) (logged_query h rendered text err) args
           err (Some (f_count f)) None None None (if asked then time_taken h s else 0%N)
           (if (0 <? ls_limit s)%Z then results else []) (caller_info h s))
    | _ => (f, [])
    end.
  Lemma log_fetch_holding h lg q x args rendered (f : fetched_ A) err asked text l results l2 :
    holding x [(text, l); (results, l2)] (log_fetch_p h lg q x args rendered f err asked)
      (fun r _ t => r = fst (fetch_logged_as h (logging_of h lg) q args rendered text f err asked results) /\
                    recorded h lg (snd (fetch_logged_as h (logging_of h lg) q args rendered text f err asked results)) t).
  Proof.
    unfold log_fetch_p, fetch_logged_as, logging_of. destruct lg as [[flags limit]|].
    - cbv zeta. hstep. hstep. eapply holding_mono; [|apply send_log_holding; cbn [length]; lia].
      cbn beta. unfold deliver. cbn [ls_limit ls_async get_settings fst snd]. intros r _ t (-> & Rc). split; [|exact Rc].
      destruct (l_async flags); [reflexivity|]. cbn [orb]. now destruct (returns _ _ _).
    - apply holding_ret. now split.
  Qed.
  Lemma deliver_sent s sink (f : fetched_ A) st : f_sent (fst (deliver s sink f st)) = f_sent f.
  Proof. unfold deliver. destruct (sink st); [reflexivity|]. destruct (ls_async s); reflexivity. Qed.
  Lemma logged_as_sent h lg q args rendered text f err asked results :
    f_sent (fst (fetch_logged_as h lg q args rendered text f err asked results)) = f_sent f.
  Proof. unfold fetch_logged_as. destruct lg; try reflexivity. apply deliver_sent. Qed.
End Fetching.

Lemma keeps_dialect q fs q1 : set_fetchable q fs = Some q1 -> get_dialect q1 = get_dialect q.
Proof.
  destruct q; cbn [set_fetchable]; try discriminate;
    try (destruct (returning_dialect _); [|discriminate]); intros E; injection E as <-; reflexivity.
Qed.
Lemma own_dialect dn n : get_dialect n = dn -> to_sql_dialect dn n = dialect_of dn.
Proof. intros <-. unfold to_sql_dialect. now destruct (_ && _). Qed.

(** What is asked for: a query, or nothing. *)
Section FetchDone.
  Context {A : Type}.
  Lemma fetch_helper nested x h ctx db lg q (mapper : option (list A -> FetchModel.prog A)) hist : computes nested ->
    helper x (fetch_p nested x h ctx db lg q mapper hist) (fun f t => exists a t',
      f = fst (fetch_alone h ctx db lg q mapper hist a) /\ t = asked_query (f_sent f) a ++ t' /\
      recorded h lg (snd (fetch_alone h ctx db lg q mapper hist a)) t').
  Proof.
    intros C. unfold fetch_p, fetch_alone.
    assert (Nil : forall f : fetched_ A, f_sent f = None ->
      (forall db', fetch_l h ctx db' (logging_of h lg) q mapper hist = (f, [])) ->
      helper x (Ret f) (fun f t => exists a t',
        f = fst (fetch_l h ctx (if db then Some (fun _ => an_query a) else None) (logging_of h lg) q mapper hist) /\ t = asked_query (f_sent f) a ++ t' /\
        recorded h lg (snd (fetch_l h ctx (if db then Some (fun _ => an_query a) else None) (logging_of h lg) q mapper hist)) t')).
    { intros f S E. apply helper_ret. exists no_answer, []. rewrite E. cbn [fst snd]. rewrite S. split; [reflexivity|]. split; [reflexivity|].
      unfold recorded. destruct lg as [[flags limit]|]; reflexivity. }
    destruct db.
    2:{ apply helper_ret. exists no_answer, []. cbn. split; [reflexivity|]. split; [reflexivity|]. destruct lg as [[? ?]|]; reflexivity. }
    destruct q as [q|]; [|apply Nil; [reflexivity|intros []; reflexivity]].
    destruct mapper as [mapper|]; [|apply Nil; [reflexivity|intros []; reflexivity]].
    set (limit := match lg with Some (_, l) => l | None => 0%Z end).
    set (dl := dialect_of (get_dialect q)).
    cbv zeta.
    clear Nil.
    assert (Unf : forall a, fetch_l h ctx (Some (fun _ => an_query a)) (logging_of h lg) (Some q) (Some mapper) hist =
      match run (mapper hist) row_new hist with
      | (XErr e, _, h1) => (mk_fetched 0 (Some e) false h1 None, [])
      | (XPanic, _, h1) => (mk_fetched 0 None true h1 None, [])
      | (XDone _, r, h1) =>
        match set_fetchable q (map snd (r_cols r)) with
        | None => (mk_fetched 0 (Some ENotFetchable) false h1 None, [])
        | Some q1 =>
          let out := to_sql (get_dialect q) q1 in
          let rendered := match BuildModel.r_status out with SOk => r_query out | _ => [] end in
          let log := fun f err asked results => fetch_logged_as h (logging_of h lg) q (r_args out) rendered (r_query out) f err asked results in
          match BuildModel.r_status out with
          | SErr => log (mk_fetched 0 (Some ERender) false h1 None) (Some ERender) false []
          | SPanic => log (mk_fetched 0 (Some ERuntime) false h1 None) None false []
          | SOk =>
            let req := (ctx, r_query out, r_args out) in
            match an_query a with
            | QFail e => log (mk_fetched 0 (Some (EDriver e)) false h1 (Some req)) (Some (EDriver e)) true []
            | QRows rows close iter =>
              match r_cols r with
              | [] => log (mk_fetched 0 None false h1 (Some req)) None true []
              | _ =>
                match fetch_rows_l h dl limit mapper rows
                        (mk_row true (r_index r) (r_cols r) (r_dest r) (r_err r) (r_processed r) (r_closed r)) h1 0 [] with
                | (n, Some e, p, h2, results, seen) => log (mk_fetched n (Some e) p h2 (Some req)) seen true results
                | (n, None, true, h2, results, seen) => log (mk_fetched n None true h2 (Some req)) seen true results
                | (n, None, false, h2, results, _) =>
                  let err := first_some (option_map EClose close) (option_map EIter iter) in
                  let results :=
                    match err with
                    | None => if (0 <? limit)%Z && (limit <? Z.of_nat n)%Z
                              then results ++ nl ++ B "..." ++ nl ++ B "(" ++ format_int (Z.of_nat n - limit) ++ B " more rows)"
                              else results
                    | Some _ => results
                    end in
                  log (mk_fetched n err false h2 (Some req)) err true results
                end
              end
            end
          end
        end
      end).
    { intros a. unfold fetch_l, logging_of, fetch_logged_as, limit. destruct lg as [[flags lim]|]; reflexivity. }
    destruct (run (mapper hist) row_new hist) as [[en r] h1] eqn:Er.
    assert (NoLog : forall t, t = [] -> recorded h lg [] t) by (intros t ->; destruct lg as [[? ?]|]; reflexivity).
    destruct en as [en|e|];
      [|apply helper_ret; exists no_answer, []; rewrite Unf; split; [reflexivity|]; split; [reflexivity|]; now apply NoLog ..].
    destruct (set_fetchable q (map snd (r_cols r))) as [q1|] eqn:Ef;
      [|apply helper_ret; exists no_answer, []; rewrite Unf; split; [reflexivity|]; split; [reflexivity|]; now apply NoLog].
    assert (Dl : to_sql_dialect (get_dialect q) q1 = dl) by (apply own_dialect; exact (keeps_dialect _ _ _ Ef)).
    set (out := to_sql (get_dialect q) q1) in *.
    set (m := render dl q1 (RenderModel.ctx None [])).
    assert (Os : BuildModel.r_status out = snd m) by (unfold out, to_sql, append_sql; rewrite Dl; reflexivity).
    assert (Oq : r_query out = out_text dl (st_out (exec dl st0 (fst m)))) by (unfold out, to_sql, append_sql; rewrite Dl; reflexivity).
    assert (Oa : r_args out = st_args (exec dl st0 (fst m))) by (unfold out, to_sql, append_sql; rewrite Dl; reflexivity).
    clearbody out. cbv zeta in Unf. rewrite Os in Unf.
    destruct (cmds_writes nested x (Datatypes.S (Datatypes.S x)) dl C (le_S _ _ (le_n _)) (fst m) st0 st0 [] [] eq_refl eq_refl) as (s & W & A2 & _).
    cbn [app] in W. change (out_text dl (st_out st0)) with (@nil ascii) in W. rewrite <- Oq in W. rewrite <- Oa in A2.
    apply helper_pooled_n. cbn [repeat].
    eapply hold_bind.
    { eapply (hwrites_writes x _ 0); [reflexivity| | |exact W]; cbn [length]; lia. }
    cbn [list_set]. rewrite A2.
    assert (Fin : forall rendered f err asked results l2 a pre,
      pre = asked_query (f_sent f) a ->
      fetch_l h ctx (Some (fun _ => an_query a)) (logging_of h lg) (Some q) (Some mapper) hist
        = fetch_logged_as h (logging_of h lg) q (r_args out) rendered (r_query out) f err asked results ->
      holding x [(r_query out, []); (results, l2)] (log_fetch_p h lg q x (r_args out) rendered f err asked)
        (fun f0 _ t => exists a t', f0 = fst (fetch_l h ctx (Some (fun _ => an_query a)) (logging_of h lg) (Some q) (Some mapper) hist) /\
           pre ++ t = asked_query (f_sent f0) a ++ t' /\
           recorded h lg (snd (fetch_l h ctx (Some (fun _ => an_query a)) (logging_of h lg) (Some q) (Some mapper) hist)) t')).
    { intros rendered f err asked results l2 a pre Ep El. eapply holding_mono; [|apply log_fetch_holding].
      cbn beta. intros f0 _ t (-> & Rc). exists a, t. rewrite El. split; [reflexivity|]. rewrite logged_as_sent, Ep. split; [reflexivity|exact Rc]. }
    destruct (snd m).
    - hstep. apply holding_ask. intros a. specialize (Unf a).
      destruct (an_query a) as [e|rows close iter] eqn:Ea.
      + apply (Fin _ _ _ _ _ _ a [Asked (QQuery (ctx, r_query out, r_args out)) a]); [reflexivity|]. rewrite Ea. exact Unf.
      + destruct (r_cols r) as [|c0 cols0] eqn:Ec.
        * apply (Fin _ _ _ _ _ _ a [Asked (QQuery (ctx, r_query out, r_args out)) a]); [reflexivity|]. rewrite Ea. exact Unf.
        * eapply hold_bind.
          { eapply (hwrites_writes x _ 1); [reflexivity| | |].
            3:{ eapply (rows_writes nested h dl limit (Datatypes.S x) mapper (c0 :: cols0) C); [discriminate|reflexivity|reflexivity|now left]. }
            all: cbn [length]; lia. }
          cbn [list_set].
          destruct (fetch_rows_l h dl limit mapper rows _ h1 0 []) as [[[[[n er] p] h2] results] seen].
          cbn [no_text_result text_of_result].
          destruct er as [e|].
          { apply (Fin _ _ _ _ _ _ a [Asked (QQuery (ctx, r_query out, r_args out)) a]); [reflexivity|]. rewrite Ea. exact Unf. }
          destruct p.
          { apply (Fin _ _ _ _ _ _ a [Asked (QQuery (ctx, r_query out, r_args out)) a]); [reflexivity|]. rewrite Ea. exact Unf. }
          destruct (first_some (option_map EClose close) (option_map EIter iter)) as [e|].
          { apply (Fin _ _ _ _ _ _ a [Asked (QQuery (ctx, r_query out, r_args out)) a]); [reflexivity|]. rewrite Ea. exact Unf. }
          destruct ((0 <? limit)%Z && (limit <? Z.of_nat n)%Z).
          { hstep. apply (Fin _ _ _ _ _ _ a [Asked (QQuery (ctx, r_query out, r_args out)) a]); [reflexivity|]. rewrite Ea. exact Unf. }
          { apply (Fin _ _ _ _ _ _ a [Asked (QQuery (ctx, r_query out, r_args out)) a]); [reflexivity|]. rewrite Ea. exact Unf. }
    - apply (Fin _ _ _ _ _ _ no_answer []); [reflexivity|]. apply Unf.
    - apply (Fin _ _ _ _ _ _ no_answer []); [reflexivity|]. apply Unf.
  Qed.
End FetchDone.

(** ** FetchExists *)
Definition exists_logged_as (h : host) (lg : logging) (q : node) (args : list gval) (rendered text : bytes) (f : exists_result) (asked : bool)
  : exists_result * list qstats :=
  match lg with
  | LLogs s sink =>
    let st := mk_stats (get_dialect q) (B "SELECT") ([], []) (logged_query h rendered text (e_err f)) args
                (e_err f) None None None (Some (e_exists f)) (if asked then time_taken h s else 0%N) [] (caller_info h s) in
    (if sink st then f else mk_exists false None true (e_sent f), [st])
  | _ => (f, [])
  end.
Lemma logged_query_partial h rendered p1 p2 err : rendered <> [] -> logged_query h rendered p1 err = logged_query h rendered p2 err.
Proof. unfold logged_query. destruct rendered; [congruence|]. destruct err; reflexivity. Qed.
Lemma exists_helper nested x h ctx db lg q : computes nested ->
  helper x (exists_p nested x h ctx db lg q) (fun f t => exists a t',
    f = fst (exists_alone h ctx db lg q a) /\ t = asked_query (e_sent f) a ++ t' /\ recorded h lg (snd (exists_alone h ctx db lg q a)) t').
Proof.
  intros C. unfold exists_p, exists_alone.
  assert (NoLog : forall t, t = [] -> recorded h lg [] t) by (intros t ->; destruct lg as [[? ?]|]; reflexivity).
  destruct db; [|apply helper_ret; exists no_answer, []; split; [reflexivity|]; split; [reflexivity|]; now apply NoLog].
  destruct q as [q|]; [|apply helper_ret; exists no_answer, []; split; [reflexivity|]; split; [reflexivity|]; now apply NoLog].
  cbv zeta. set (dl := dialect_of (get_dialect q)).
  assert (Unf : forall a, fetch_exists_l h ctx (Some (fun _ => an_query a)) (logging_of h lg) (Some q) =
    match fetchable q with
    | FCrash => (mk_exists false None true None, [])
    | FFail => (mk_exists false (Some ENotFetchable) false None, [])
    | FFields fs =>
      match match fs with [] => set_fetchable q [NLiteral (B "1") []] | _ => Some q end with
      | None => (mk_exists false (Some ENotFetchable) false None, [])
      | Some q1 =>
        let out := to_sql (get_dialect q) q1 in
        let rendered := match BuildModel.r_status out with SOk => B "SELECT EXISTS (" ++ r_query out ++ B ")" | _ => [] end in
        let log := fun f asked => exists_logged_as h (logging_of h lg) q (r_args out) rendered (B "SELECT EXISTS (" ++ r_query out) f asked in
        match BuildModel.r_status out with
        | SErr => log (mk_exists false (Some ERender) false None) false
        | SPanic => log (mk_exists false None true None) false
        | SOk =>
          let req := (ctx, B "SELECT EXISTS (" ++ r_query out ++ B ")", r_args out) in
          match an_query a with
          | QFail e => log (mk_exists false (Some (EDriver e)) false (Some req)) true
          | QRows rows close iter =>
            let finish b := log (mk_exists b (first_some (option_map EClose close) (option_map EIter iter)) false (Some req)) true in
            match rows with
            | [] => finish false
            | r :: _ => match scan_bool r with
                        | inl e => log (mk_exists false (Some e) false (Some req)) true
                        | inr b => finish b
                        end
            end
          end
        end
      end
    end).
  { intros a. unfold fetch_exists_l, logging_of, exists_logged_as. destruct lg as [[flags lim]|]; reflexivity. }
  destruct (fetchable q) as [fs| |]; [|apply helper_ret; exists no_answer, []; rewrite Unf; split; [reflexivity|]; split; [reflexivity|]; now apply NoLog ..].
  destruct (match fs with [] => set_fetchable q [NLiteral (B "1") []] | _ => Some q end) as [q1|] eqn:Ef;
    [|apply helper_ret; exists no_answer, []; rewrite Unf; split; [reflexivity|]; split; [reflexivity|]; now apply NoLog].
  assert (Dl : to_sql_dialect (get_dialect q) q1 = dl).
  { apply own_dialect. destruct fs; [exact (keeps_dialect _ _ _ Ef)|]. injection Ef as <-. reflexivity. }
  set (out := to_sql (get_dialect q) q1) in *.
  set (m := render dl q1 (RenderModel.ctx None [])).
  assert (Os : BuildModel.r_status out = snd m) by (unfold out, to_sql, append_sql; rewrite Dl; reflexivity).
  assert (Oq : r_query out = out_text dl (st_out (exec dl st0 (fst m)))) by (unfold out, to_sql, append_sql; rewrite Dl; reflexivity).
  assert (Oa : r_args out = st_args (exec dl st0 (fst m))) by (unfold out, to_sql, append_sql; rewrite Dl; reflexivity).
  clearbody out. cbv zeta in Unf. rewrite Os in Unf.
  set (pre := B "SELECT EXISTS (") in *.
  assert (NE : pre ++ r_query out ++ B ")" <> []) by (intros E; apply (f_equal (@length _)) in E; rewrite app_length in E; cbn in E; lia).
  destruct (cmds_writes nested x (Datatypes.S x) dl C (le_n _) (fst m) st0 st0 pre [] eq_refl eq_refl) as (s & W & A2 & _).
  change (out_text dl (st_out st0)) with (@nil ascii) in W. rewrite app_nil_r in W. rewrite <- Oq in W. rewrite <- Oa in A2.
  apply (helper_pooled_n 1). cbn [repeat]. hstep. change (fst blank ++ pre, snd blank) with (pre, @nil gval).
  eapply hold_bind.
  { eapply (hwrites_writes x _ 0); [reflexivity| | |exact W]; cbn [length]; lia. }
  cbn [list_set]. rewrite A2. clearbody pre.
  assert (Fin : forall rendered text text' f asked a sent,
    fetch_exists_l h ctx (Some (fun _ => an_query a)) (logging_of h lg) (Some q)
      = exists_logged_as h (logging_of h lg) q (r_args out) rendered text' f asked ->
    sent = asked_query (e_sent f) a -> (text = text' \/ rendered <> []) ->
    holding x [(text, [])] match lg with
             | None => Ret f
             | Some (flags, limit) =>
               Read x (fun o =>
                 send_log_p h flags (Datatypes.S x)
                   (mk_stats (get_dialect q) (B "SELECT") ([], []) (logged_query h rendered (fst o) (e_err f)) (r_args out)
                      (e_err f) None None None (Some (e_exists f)) (if asked : bool then time_taken h (get_settings flags limit) else 0%N) [] (caller_info h (get_settings flags limit)))
                   f (mk_exists false None true (e_sent f)))
             end
      (fun f0 _ t => exists a t', f0 = fst (fetch_exists_l h ctx (Some (fun _ => an_query a)) (logging_of h lg) (Some q)) /\
         sent ++ t = asked_query (e_sent f0) a ++ t' /\
         recorded h lg (snd (fetch_exists_l h ctx (Some (fun _ => an_query a)) (logging_of h lg) (Some q))) t')).
  { intros rendered text text' f asked a sent El -> Et. unfold exists_logged_as, logging_of in El. destruct lg as [[flags limit]|].
    - hstep. eapply holding_mono; [|apply (send_log_holding h flags limit); cbn [length]; lia].
      cbn beta. intros f0 _ t (-> & Rc). exists a, t.
      change (logging_of h (Some (flags, limit))) with (LLogs (get_settings flags limit) (fun st => l_async flags || returns h flags st)).
      assert (Lq : logged_query h rendered text' (e_err f) = logged_query h rendered text (e_err f)).
      { destruct Et as [->|N]; [reflexivity|]. now apply logged_query_partial. }
      rewrite Lq in El. cbv zeta in El. rewrite El. cbn [fst snd]. split; [reflexivity|]. split; [|exact Rc].
      now destruct (l_async flags || returns h flags _).
    - apply holding_ret. exists a, []. change (logging_of h None) with LNone. rewrite El. split; [reflexivity|]. split; [reflexivity|reflexivity]. }
  destruct (snd m).
  - hstep. hstep. rewrite <- app_assoc. apply holding_ask. intros a. specialize (Unf a).
    destruct (an_query a) as [e|rows close iter] eqn:Ea.
    + rewrite <- Ea in Unf. exact (Fin _ _ _ _ _ _ [Asked (QQuery (ctx, pre ++ r_query out ++ B ")", r_args out)) a] Unf eq_refl (or_intror NE)).
    + destruct rows as [|r rows].
      * rewrite <- Ea in Unf. exact (Fin _ _ _ _ _ _ [Asked (QQuery (ctx, pre ++ r_query out ++ B ")", r_args out)) a] Unf eq_refl (or_intror NE)).
      * destruct (scan_bool r); (rewrite <- Ea in Unf; exact (Fin _ _ _ _ _ _ [Asked (QQuery (ctx, pre ++ r_query out ++ B ")", r_args out)) a] Unf eq_refl (or_intror NE))).
  - exact (Fin _ _ _ _ _ _ [] (Unf no_answer) eq_refl (or_introl eq_refl)).
  - exact (Fin _ _ _ _ _ _ [] (Unf no_answer) eq_refl (or_introl eq_refl)).
Qed.

(** ** Exec *)
Definition exec_logged_as (h : host) (lg : logging) (q : node) (args : list gval) (rendered text : bytes) (f : exec_result) (asked : bool)
    (affected lastid : option Z) : exec_result * list qstats :=
  match lg with
  | LLogs s sink =>
    let st := mk_stats (get_dialect q) (query_type q) (table_modified q) (logged_query h rendered text (x_err f)) args
                (x_err f) None affected lastid None (if asked then time_taken h s else 0%N) [] (caller_info h s) in
    (if sink st then f else mk_exec 0 0 None true (x_sent f), [st])
  | _ => (f, [])
  end.
Lemma exec_helper nested x h ctx db lg q : computes nested ->
  helper x (exec_p nested x h ctx db lg q) (fun f t => exists a t',
    f = fst (exec_alone h ctx db lg q a) /\ t = asked_exec (x_sent f) a ++ t' /\ recorded h lg (snd (exec_alone h ctx db lg q a)) t').
Proof.
  intros C. unfold exec_p, exec_alone.
  assert (NoLog : forall t, t = [] -> recorded h lg [] t) by (intros t ->; destruct lg as [[? ?]|]; reflexivity).
  destruct db; [|apply helper_ret; exists no_answer, []; split; [reflexivity|]; split; [reflexivity|]; now apply NoLog].
  destruct q as [q|]; [|apply helper_ret; exists no_answer, []; split; [reflexivity|]; split; [reflexivity|]; now apply NoLog].
  cbv zeta. set (dl := dialect_of (get_dialect q)).
  set (out := to_sql (get_dialect q) q).
  assert (Unf : forall a, exec_l h ctx (Some (fun _ => an_exec a)) (logging_of h lg) (Some q) =
    let rendered := match BuildModel.r_status out with SOk => r_query out | _ => [] end in
    let log := fun f asked aff li => exec_logged_as h (logging_of h lg) q (r_args out) rendered (r_query out) f asked aff li in
    match BuildModel.r_status out with
    | SErr => log (mk_exec 0 0 (Some ERender) false None) false None None
    | SPanic => log (mk_exec 0 0 None true None) false None None
    | SOk =>
      let req := (ctx, r_query out, r_args out) in
      match an_exec a with
      | XFail e => log (mk_exec 0 0 (Some (EDriver e)) false (Some req)) true None None
      | XResult affected lastid =>
        match affected with
        | inl e => log (mk_exec 0 0 (Some (EResult e)) false (Some req)) true None None
        | inr n =>
          if beqb (get_dialect q) (B "sqlite") || beqb (get_dialect q) (B "mysql") then
            match lastid with
            | inl e => log (mk_exec 0 0 (Some (EResult e)) false (Some req)) true (Some n) None
            | inr l => log (mk_exec n l None false (Some req)) true (Some n) (Some l)
            end
          else log (mk_exec n 0 None false (Some req)) true (Some n) None
        end
      end
    end).
  { intros a. unfold exec_l, logging_of, exec_logged_as, out. destruct lg as [[flags lim]|]; reflexivity. }
  assert (Dl : to_sql_dialect (get_dialect q) q = dl) by now apply own_dialect.
  set (m := render dl q (RenderModel.ctx None [])).
  assert (Os : BuildModel.r_status out = snd m) by (unfold out, to_sql, append_sql; rewrite Dl; reflexivity).
  assert (Oq : r_query out = out_text dl (st_out (exec dl st0 (fst m)))) by (unfold out, to_sql, append_sql; rewrite Dl; reflexivity).
  assert (Oa : r_args out = st_args (exec dl st0 (fst m))) by (unfold out, to_sql, append_sql; rewrite Dl; reflexivity).
  clearbody out. cbv zeta in Unf. rewrite Os in Unf.
  destruct (cmds_writes nested x (Datatypes.S x) dl C (le_n _) (fst m) st0 st0 [] [] eq_refl eq_refl) as (s & W & A2 & _).
  cbn [app] in W. change (out_text dl (st_out st0)) with (@nil ascii) in W. rewrite <- Oq in W. rewrite <- Oa in A2.
  apply (helper_pooled_n 1). cbn [repeat].
  eapply hold_bind.
  { eapply (hwrites_writes x _ 0); [reflexivity| | |exact W]; cbn [length]; lia. }
  cbn [list_set]. rewrite A2.
  assert (Fin : forall rendered f asked aff li a sent,
    exec_l h ctx (Some (fun _ => an_exec a)) (logging_of h lg) (Some q)
      = exec_logged_as h (logging_of h lg) q (r_args out) rendered (r_query out) f asked aff li ->
    sent = asked_exec (x_sent f) a ->
    holding x [(r_query out, [])] match lg with
             | None => Ret f
             | Some (flags, limit) =>
               Read x (fun o =>
                 send_log_p h flags (Datatypes.S x)
                   (mk_stats (get_dialect q) (query_type q) (table_modified q) (logged_query h rendered (fst o) (x_err f)) (r_args out)
                      (x_err f) None aff li None (if asked : bool then time_taken h (get_settings flags limit) else 0%N) [] (caller_info h (get_settings flags limit)))
                   f (mk_exec 0 0 None true (x_sent f)))
             end
      (fun f0 _ t => exists a t', f0 = fst (exec_l h ctx (Some (fun _ => an_exec a)) (logging_of h lg) (Some q)) /\
         sent ++ t = asked_exec (x_sent f0) a ++ t' /\
         recorded h lg (snd (exec_l h ctx (Some (fun _ => an_exec a)) (logging_of h lg) (Some q))) t')).
  { intros rendered f asked aff li a sent El ->. unfold exec_logged_as, logging_of in El. destruct lg as [[flags limit]|].
    - hstep. eapply holding_mono; [|apply (send_log_holding h flags limit); cbn [length]; lia].
      cbn beta. intros f0 _ t (-> & Rc). exists a, t.
      change (logging_of h (Some (flags, limit))) with (LLogs (get_settings flags limit) (fun st => l_async flags || returns h flags st)).
      cbv zeta in El. rewrite El. cbn [fst snd]. split; [reflexivity|]. split; [|exact Rc].
      now destruct (l_async flags || returns h flags _).
    - apply holding_ret. exists a, []. change (logging_of h None) with LNone. rewrite El. split; [reflexivity|]. split; [reflexivity|reflexivity]. }
  destruct (snd m).
  - hstep. apply holding_ask. intros a. specialize (Unf a).
    destruct (an_exec a) as [e|[e|n] lastid] eqn:Ea.
    + rewrite <- Ea in Unf; exact (Fin _ _ _ _ _ _ [Asked (QExec (ctx, r_query out, r_args out)) a] Unf eq_refl).
    + rewrite <- Ea in Unf; exact (Fin _ _ _ _ _ _ [Asked (QExec (ctx, r_query out, r_args out)) a] Unf eq_refl).
    + destruct (beqb (get_dialect q) (B "sqlite") || beqb (get_dialect q) (B "mysql"));
        [destruct lastid|]; (rewrite <- Ea in Unf; exact (Fin _ _ _ _ _ _ [Asked (QExec (ctx, r_query out, r_args out)) a] Unf eq_refl)).
  - exact (Fin _ _ _ _ _ _ [] (Unf no_answer) eq_refl).
  - exact (Fin _ _ _ _ _ _ [] (Unf no_answer) eq_refl).
Qed.
