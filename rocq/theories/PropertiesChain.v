(** * Query builders: C73, C74 *)
From Coq Require Import Lia.
From Verif Require Import GoBase GoBaseFacts QuoteModel SprintModel TokenModel EffectModel RenderModel BuildModel SpecClauses
  PropertiesClauses ChainModel SpecChain.
From Verif Require SpecQuery QueryPf.

Lemma last_of_snoc {C T} (f : C -> option T) cs c start :
  last_of f (cs ++ [c]) start = match f c with Some x => x | None => last_of f cs start end.
Proof.
  unfold last_of. rewrite rev_app_distr. cbn [rev app find]. destruct (f c) eqn:E; cbn [present]; [now rewrite E|reflexivity].
Qed.
Lemma last_of_app {C T} (f : C -> option T) l2 : forall l1 start,
  last_of f (l1 ++ l2) start = last_of f l2 (last_of f l1 start).
Proof.
  induction l2 as [|c l2 IH] using rev_ind; intros l1 start; [now rewrite app_nil_r|].
  rewrite app_assoc, !last_of_snoc. destruct (f c); [reflexivity|apply IH].
Qed.
Lemma since_last_snoc {C} (stop : C -> bool) cs c :
  since_last stop (cs ++ [c]) = if stop c then [] else since_last stop cs ++ [c].
Proof. unfold since_last. rewrite rev_app_distr. cbn [rev app until]. destruct (stop c); reflexivity. Qed.
Lemma flat_map_snoc {C T} (f : C -> list T) cs c : flat_map f (cs ++ [c]) = flat_map f cs ++ f c.
Proof. rewrite flat_map_app. cbn [flat_map]. now rewrite app_nil_r. Qed.
Lemma existsb_snoc {C} (f : C -> bool) cs c : existsb f (cs ++ [c]) = existsb f cs || f c.
Proof. rewrite existsb_app. cbn [existsb]. now rewrite Bool.orb_false_r. Qed.
Lemma fold_left_snoc {X Y} (f : X -> Y -> X) l y x : fold_left f (l ++ [y]) x = f (fold_left f l x) y.
Proof. rewrite fold_left_app. reflexivity. Qed.
Lemma join_table_asked j : join_table j = asked_join j.
Proof. destruct j; reflexivity. Qed.

(** ** C73: the statement is what the calls ask for *)
Theorem select_as_called : forall (dname : bytes) (e : option env) (s : select_start) (cs : list select_call),
  build_select dname e s cs = asked_select dname e (first_select s :: cs).
Proof.
  intros dname e s cs. induction cs as [|c cs IH] using rev_ind.
  - destruct s; unfold build_select, asked_select, output_columns; cbn; rewrite ?app_nil_r; reflexivity.
  - unfold build_select in *. rewrite fold_left_snoc, IH, app_comm_cons.
    set (all := first_select s :: cs). clearbody all. unfold asked_select, output_columns.
    rewrite ?last_of_snoc, ?since_last_snoc, ?flat_map_snoc, ?existsb_snoc.
    destruct c; cbn [restarts select_step]; rewrite ?flat_map_snoc, ?app_nil_r, ?Bool.orb_false_r, ?Bool.orb_true_r, ?app_assoc;
      unfold add_preds, conjunction; cbn [vp_top vp_alias vp_or vp_preds vp_neg flat_map]; rewrite ?app_nil_r, ?join_table_asked; reflexivity.
Qed.
Print Assumptions select_as_called.
Theorem update_as_called : forall (dname : bytes) (e : option env) (s : update_start) (cs : list update_call),
  build_update dname e s cs = asked_update dname e (first_update s :: cs).
Proof.
  intros dname e s cs. induction cs as [|c cs IH] using rev_ind.
  - destruct s; unfold build_update, asked_update; cbn; rewrite ?app_nil_r; reflexivity.
  - unfold build_update in *. rewrite fold_left_snoc, IH, app_comm_cons.
    set (all := first_update s :: cs). clearbody all. unfold asked_update.
    rewrite ?last_of_snoc, ?flat_map_snoc.
    destruct c; cbn [update_step]; rewrite ?app_nil_r; unfold add_preds, conjunction;
      cbn [vp_top vp_alias vp_or vp_preds vp_neg]; rewrite ?app_nil_r, ?join_table_asked; reflexivity.
Qed.
Print Assumptions update_as_called.
Theorem delete_as_called : forall (dname : bytes) (e : option env) (s : delete_start) (cs : list delete_call),
  build_delete dname e s cs = asked_delete dname e (first_delete s :: cs).
Proof.
  intros dname e s cs. induction cs as [|c cs IH] using rev_ind.
  - destruct s; unfold build_delete, asked_delete; cbn; rewrite ?app_nil_r; reflexivity.
  - unfold build_delete in *. rewrite fold_left_snoc, IH, app_comm_cons.
    set (all := first_delete s :: cs). clearbody all. unfold asked_delete.
    rewrite ?last_of_snoc, ?flat_map_snoc.
    destruct c; cbn [delete_step]; rewrite ?app_nil_r; unfold add_preds, conjunction;
      cbn [vp_top vp_alias vp_or vp_preds vp_neg]; rewrite ?app_nil_r, ?join_table_asked; reflexivity.
Qed.
Print Assumptions delete_as_called.
Lemma wheres_last ws : forall p, fold_left conflict_where ws p = last_of (fun p => Some (if is_nil p then None else Some p)) ws p.
Proof.
  induction ws as [|w ws IH] using rev_ind; intros p; [reflexivity|]. rewrite fold_left_snoc, last_of_snoc. reflexivity.
Qed.
Theorem insert_as_called : forall (dname : bytes) (e : option env) (s : insert_start) (cs : list insert_call),
  build_insert dname e s cs = asked_insert dname e (ignores s) (first_insert s :: cs).
Proof.
  intros dname e s cs. induction cs as [|c cs IH] using rev_ind.
  - destruct s; unfold build_insert, asked_insert; cbn; rewrite ?app_nil_r; reflexivity.
  - unfold build_insert in *. rewrite fold_left_snoc, IH, app_comm_cons.
    set (all := first_insert s :: cs). clearbody all. unfold asked_insert.
    rewrite ?flat_map_snoc, ?existsb_snoc.
    destruct c as [| | | | | |target ws resolution| | | | |]; try destruct target; try destruct resolution;
      rewrite ?last_of_snoc; cbn [insert_step]; rewrite ?app_nil_r, ?Bool.orb_false_r, ?Bool.orb_true_r;
      unfold add_preds, conjunction; cbn [vp_top vp_alias vp_or vp_preds vp_neg]; rewrite ?app_nil_r; try reflexivity;
      rewrite last_of_app, wheres_last; reflexivity.
Qed.
Print Assumptions insert_as_called.

(** With C20: the text. *)
Theorem select_text_as_called : forall (d : dialect) (dname : bytes) (e : option env) (s : select_start) (cs : list select_call) (c : rctx),
  let q := asked_select dname e (first_select s :: cs) in
  select_ok d q (c_env c) = true ->
  render d (NSelect (build_select dname e s cs)) c = statement (select_clauses d q (c_env c)).
Proof. intros d dname e s cs c q H. rewrite select_as_called. exact (proj1 (select_is_its_clauses d q c) H). Qed.
Print Assumptions select_text_as_called.
Theorem update_text_as_called : forall (d : dialect) (dname : bytes) (e : option env) (s : update_start) (cs : list update_call) (c : rctx),
  let q := asked_update dname e (first_update s :: cs) in
  update_ok d q (c_env c) = true ->
  render d (NUpdate (build_update dname e s cs)) c = statement (update_clauses d q (c_env c)).
Proof. intros d dname e s cs c q H. rewrite update_as_called. exact (proj1 (update_is_its_clauses d q c) H). Qed.
Print Assumptions update_text_as_called.
Theorem delete_text_as_called : forall (d : dialect) (dname : bytes) (e : option env) (s : delete_start) (cs : list delete_call) (c : rctx),
  let q := asked_delete dname e (first_delete s :: cs) in
  delete_ok d q (c_env c) = true ->
  render d (NDelete (build_delete dname e s cs)) c = statement (delete_clauses d q (c_env c)).
Proof. intros d dname e s cs c q H. rewrite delete_as_called. exact (proj1 (delete_is_its_clauses d q c) H). Qed.
Print Assumptions delete_text_as_called.
(** Of an INSERT with a column mapper (Valuesx) the calls of the mapper, divided
    into rows as C22 says, take the place of Columns and Values. *)
Theorem insert_text_as_called : forall (d : dialect) (dname : bytes) (e : option env) (s : insert_start) (cs : list insert_call) (c : rctx),
  let q := asked_insert dname e (ignores s) (first_insert s :: cs) in
  (iq_mapper q = None -> insert_ok d q (c_env c) = true ->
   render d (NInsert (build_insert dname e s cs)) c = statement (insert_clauses d q (c_env c))) /\
  (forall (n0 : bytes) (g : list (node * node)) (gs : list (list (node * node))),
   iq_mapper q = Some (concat (g :: gs), false) -> Forall (SpecQuery.call_group n0) (g :: gs) ->
   let q' := SpecQuery.with_rows q (map fst g) (map (map snd) (g :: gs)) in
   insert_ok d q' (c_env c) = true ->
   render d (NInsert (build_insert dname e s cs)) c = statement (insert_clauses d q' (c_env c))).
Proof.
  intros d dname e s cs c q. rewrite insert_as_called. fold q. split.
  - intros M H. exact (proj1 (insert_is_its_clauses d q c M) H).
  - intros n0 g gs M G q' H. rewrite (QueryPf.insert_groups_pf d q c n0 g gs M G).
    exact (proj1 (insert_is_its_clauses d q' c eq_refl) H).
Qed.
Print Assumptions insert_text_as_called.

(** ** C74: the builder of a dialect has no method for what the dialect lacks *)
Lemma tame_ok d j : has_join d j = true -> tame d j -> join_ok d (asked_join j) = join_complete (asked_join j).
Proof.
  intros H T. unfold join_ok, join_complete. destruct (is_sqlite d) eqn:S; [|now rewrite Bool.andb_true_r].
  destruct d; try discriminate S.
  assert (N : not_in_sqlite (join_type (asked_join j)) = false).
  { destruct j; try discriminate H; try reflexivity. unfold join_type, asked_join. cbn [join_words jn_type].
    specialize (T eq_refl). destruct (is_empty ty) eqn:E; [reflexivity|].
    unfold not_in_sqlite. cbn [existsb]. cbn [In] in T.
    destruct (beqb ty (B "RIGHT JOIN")) eqn:E1; [apply beqb_eq in E1; subst; tauto|].
    destruct (beqb ty (B "FULL JOIN")) eqn:E2; [apply beqb_eq in E2; subst; tauto|]. reflexivity. }
  rewrite N. now rewrite Bool.andb_true_r.
Qed.
Lemma forallb_map_ext {X Y} (f : X -> Y) (g h : Y -> bool) l : (forall x, In x l -> g (f x) = h (f x)) -> forallb g (map f l) = forallb h (map f l).
Proof. induction l as [|x l IH]; intros H; [reflexivity|]. cbn. rewrite (H x), IH; auto; [intros y I; apply H|]; cbn; auto. Qed.

(** Joins of a chain. *)
Definition join_calls {C} (f : C -> option join_call) (cs : list C) : list join_call :=
  flat_map (fun c => match f c with Some j => [j] | None => [] end) cs.
Lemma joins_map {C} (f : C -> option join_call) (cs : list C) :
  flat_map (fun c => match f c with Some j => [asked_join j] | None => [] end) cs = map asked_join (join_calls f cs).
Proof. induction cs as [|c cs IH]; [reflexivity|]. unfold join_calls in *. cbn. rewrite IH, map_app. destruct (f c); reflexivity. Qed.
Lemma joins_fine {C} d (f : C -> option join_call) (has : C -> bool) (cs : list C) :
  (forall c j, f c = Some j -> has c = true -> has_join d j = true) ->
  Forall (fun c => has c = true) cs -> Forall (fun c => match f c with Some j => tame d j | None => True end) cs ->
  forallb (join_ok d) (flat_map (fun c => match f c with Some j => [asked_join j] | None => [] end) cs)
  = forallb join_complete (flat_map (fun c => match f c with Some j => [asked_join j] | None => [] end) cs).
Proof.
  intros Hf Ha Ta. rewrite joins_map. apply forallb_map_ext. intros j I. unfold join_calls in I. apply in_flat_map in I.
  destruct I as (c & Ic & Ij). rewrite Forall_forall in Ha, Ta. specialize (Ha c Ic). specialize (Ta c Ic).
  destruct (f c) as [j'|] eqn:E; [|destruct Ij]. destruct Ij as [<-|[]]. apply tame_ok; [eapply Hf; eauto|exact Ta].
Qed.
(** A clause that no available call sets. *)
Lemma none_flat {C T} (f : C -> list T) (has : C -> bool) cs :
  (forall c, has c = true -> f c = []) -> Forall (fun c => has c = true) cs -> flat_map f cs = [].
Proof. intros H F. induction F as [|c cs Hc F IH]; [reflexivity|]. cbn. now rewrite (H c Hc), IH. Qed.
Lemma none_last {C T} (f : C -> option T) (has : C -> bool) cs start :
  (forall c, has c = true -> f c = None) -> Forall (fun c => has c = true) cs -> last_of f cs start = start.
Proof.
  intros H F. induction cs as [|c cs IH] using rev_ind; [reflexivity|]. rewrite last_of_snoc.
  apply Forall_app in F. destruct F as [F1 F2]. inversion F2; subst. rewrite (H c) by assumption. now apply IH.
Qed.

Definition select_join (c : select_call) : option join_call := match c with SJoin j => Some j | _ => None end.
Theorem select_builder_fits : forall (d : dialect) (dname : bytes) (e : option env) (s : select_start) (cs : list select_call) (x : rctx),
  builder_of d dname -> Forall (fun c => has_select d c = true) cs ->
  Forall (fun c => match c with SJoin j => tame d j | _ => True end) cs ->
  let q := build_select dname e s cs in
  snd (render d (NSelect q) x) = SOk <->
  select_complete q (c_env x) = true /\
  Forall (fun cl => cl_set cl = true -> snd (cl_sql cl) = SOk) (select_clauses d q (c_env x)).
Proof.
  intros d dname e s cs x Bd Ha Ta q. pose proof (proj2 (select_is_its_clauses d q x)) as I.
  assert (E : select_ok d q (c_env x) = select_complete q (c_env x)); [|now rewrite <- E].
  unfold q. rewrite select_as_called. unfold select_ok, select_complete.
  set (all := first_select s :: cs).
  assert (Ha' : Forall (fun c => has_select d c = true \/ c = SSelectOne) all).
  { constructor; [destruct s; auto|]. eapply Forall_impl; [|exact Ha]. cbn. auto. }
  assert (Ta' : Forall (fun c => match select_join c with Some j => tame d j | None => True end) all).
  { constructor; [destruct s; exact Logic.I|]. eapply Forall_impl; [|exact Ta]. intros []; cbn; auto. }
  assert (J : forallb (join_ok d) (sq_joins (asked_select dname e all)) = forallb join_complete (sq_joins (asked_select dname e all))).
  { cbn [sq_joins asked_select].
    transitivity (forallb (join_ok d) (flat_map (fun c => match select_join c with Some j => [asked_join j] | None => [] end) all)).
    - f_equal. apply flat_map_ext. now intros [].
    - rewrite (joins_fine d select_join (fun c => match c with SJoin j => has_join d j | _ => true end)).
      + f_equal. apply flat_map_ext. now intros [].
      + intros [] j0; cbn; try discriminate. now intros [= ->].
      + eapply Forall_impl; [|exact Ha']. intros [] [H|H]; try reflexivity; try exact H; discriminate H.
      + exact Ta'. }
  rewrite J. do 4 f_equal.
  assert (O : d = DPostgres \/ sq_distinct_on (asked_select dname e all) = []).
  { destruct Bd; auto; right; cbn [sq_distinct_on asked_select];
      apply (none_last _ (fun c => match c with SDistinctOn _ => false | _ => true end));
      try (now intros []); eapply Forall_impl; [|exact Ha'| |exact Ha']; intros [] [H|H]; try reflexivity; discriminate H. }
  destruct O as [->|O]; [reflexivity|]. rewrite O. reflexivity.
Qed.
Print Assumptions select_builder_fits.

Definition update_join (c : update_call) : option join_call := match c with UJoin j => Some j | _ => None end.
Theorem update_builder_fits : forall (d : dialect) (dname : bytes) (e : option env) (s : update_start) (cs : list update_call) (x : rctx),
  builder_of d dname -> Forall (fun c => has_update d c = true) cs ->
  Forall (fun c => match c with UJoin j => tame d j | _ => True end) cs ->
  let q := build_update dname e s cs in
  snd (render d (NUpdate q) x) = SOk <->
  update_complete (is_mysql d) q (c_env x) = true /\
  Forall (fun cl => cl_set cl = true -> snd (cl_sql cl) = SOk) (update_clauses d q (c_env x)).
Proof.
  intros d dname e s cs x Bd Ha Ta q. pose proof (proj2 (update_is_its_clauses d q x)) as I.
  assert (E : update_ok d q (c_env x) = update_complete (is_mysql d) q (c_env x)); [|now rewrite <- E].
  unfold q. rewrite update_as_called. unfold update_ok, update_complete.
  set (all := first_update s :: cs).
  assert (Ha' : Forall (fun c => has_update d c = true) all).
  { constructor; [destruct s; reflexivity|exact Ha]. }
  assert (Ta' : Forall (fun c => match update_join c with Some j => tame d j | None => True end) all).
  { constructor; [destruct s; exact Logic.I|]. eapply Forall_impl; [|exact Ta]. intros []; cbn; auto. }
  assert (J : forallb (join_ok d) (uq_joins (asked_update dname e all)) = forallb join_complete (uq_joins (asked_update dname e all))).
  { cbn [uq_joins asked_update].
    transitivity (forallb (join_ok d) (flat_map (fun c => match update_join c with Some j => [asked_join j] | None => [] end) all)).
    - f_equal. apply flat_map_ext. now intros [].
    - rewrite (joins_fine d update_join (has_update d)).
      + f_equal. apply flat_map_ext. now intros [].
      + intros [] j0; cbn; try discriminate. now intros [= ->].
      + exact Ha'.
      + exact Ta'. }
  rewrite J. set (q' := asked_update dname e all).
  assert (F : uq_from q' = None \/ is_mysql d = false).
  { destruct Bd; auto; left. apply (none_last _ (has_update DMySQL)); [now intros []|exact Ha']. }
  assert (O : uq_order q' = [] \/ (is_mysql d || is_sqlite d) = true).
  { destruct Bd; auto; left. apply (none_flat _ (has_update DPostgres)); [now intros []|exact Ha']. }
  assert (L : uq_limit q' = None \/ (is_mysql d || is_sqlite d) = true).
  { destruct Bd; auto; left. apply (none_last _ (has_update DPostgres)); [now intros []|exact Ha']. }
  assert (Of : uq_offset q' = None \/ is_sqlite d = true).
  { destruct Bd; auto; left; [apply (none_last _ (has_update DPostgres))|apply (none_last _ (has_update DMySQL))]; try (now intros []); exact Ha'. }
  assert (R : uq_returning q' = [] \/ is_postgres d = true).
  { destruct Bd; auto; left; [apply (none_flat _ (has_update DSQLite))|apply (none_flat _ (has_update DMySQL))]; try (now intros []); exact Ha'. }
  clearbody q'. clear -F O L Of R.
  assert (F' : negb (present (uq_from q') && is_mysql d) = true).
  { destruct F as [->| ->]; [reflexivity|]. now rewrite Bool.andb_false_r. }
  assert (O' : negb (nonempty (uq_order q')) || is_mysql d || is_sqlite d = true).
  { destruct O as [->|O]; [reflexivity|]. rewrite <- Bool.orb_assoc, O. apply Bool.orb_true_r. }
  assert (L' : negb (present (uq_limit q')) || is_mysql d || is_sqlite d = true).
  { destruct L as [->|L]; [reflexivity|]. rewrite <- Bool.orb_assoc, L. apply Bool.orb_true_r. }
  assert (Of' : negb (present (uq_offset q')) || is_sqlite d = true).
  { destruct Of as [->| ->]; [reflexivity|]. apply Bool.orb_true_r. }
  assert (R' : negb (nonempty (uq_returning q')) || is_postgres d || is_sqlite d = true).
  { destruct R as [->| ->]; [reflexivity|]. now rewrite Bool.orb_true_r. }
  rewrite F', O', L', Of', R', ?Bool.andb_true_r. reflexivity.
Qed.
Print Assumptions update_builder_fits.

Definition delete_join (c : delete_call) : option join_call := match c with DJoin j => Some j | _ => None end.
(** DeleteFrom of the builder takes one table (mysql: any number). *)
Theorem delete_builder_fits : forall (d : dialect) (dname : bytes) (e : option env) (s : delete_start) (cs : list delete_call) (x : rctx),
  builder_of d dname -> Forall (fun c => has_delete d c = true) (first_delete s :: cs) ->
  let q := build_delete dname e s cs in
  snd (render d (NDelete q) x) = SOk <->
  delete_complete (is_mysql d) q (c_env x) = true /\
  Forall (fun cl => cl_set cl = true -> snd (cl_sql cl) = SOk) (delete_clauses d q (c_env x)).
Proof.
  intros d dname e s cs x Bd Ha q. pose proof (proj2 (delete_is_its_clauses d q x)) as I.
  assert (E : delete_ok d q (c_env x) = delete_complete (is_mysql d) q (c_env x)); [|now rewrite <- E].
  unfold q. rewrite delete_as_called. unfold delete_ok, delete_complete.
  set (all := first_delete s :: cs) in *. set (q' := asked_delete dname e all).
  assert (Js : dq_joins q' = [] \/ is_sqlite d = false).
  { destruct Bd; auto; left. apply (none_flat _ (has_delete DSQLite)); [now intros []|exact Ha]. }
  assert (J : forallb (join_ok d) (dq_joins q') = forallb join_complete (dq_joins q')).
  { destruct Js as [->|Js]; [reflexivity|]. clear -Js. induction (dq_joins q') as [|j l IH]; [reflexivity|]. cbn [forallb].
    rewrite IH. unfold join_ok at 1, join_complete at 1. now rewrite Js, Bool.andb_true_r. }
  rewrite J.
  assert (U : dq_using q' = None \/ is_sqlite d = false).
  { destruct Bd; auto; left. apply (none_last _ (has_delete DSQLite)); [now intros []|exact Ha]. }
  assert (O : dq_order q' = [] \/ (is_mysql d || is_sqlite d) = true).
  { destruct Bd; auto; left. apply (none_last _ (has_delete DPostgres)); [now intros []|exact Ha]. }
  assert (L : dq_limit q' = None \/ (is_mysql d || is_sqlite d) = true).
  { destruct Bd; auto; left. apply (none_last _ (has_delete DPostgres)); [now intros []|exact Ha]. }
  assert (Of : dq_offset q' = None \/ is_sqlite d = true).
  { destruct Bd; auto; left; [apply (none_last _ (has_delete DPostgres))|apply (none_last _ (has_delete DMySQL))]; try (now intros []); exact Ha. }
  assert (R : dq_returning q' = [] \/ is_postgres d || is_sqlite d = true).
  { destruct Bd; auto; left. apply (none_flat _ (has_delete DMySQL)); [now intros []|exact Ha]. }
  clearbody q'. clear -Js U O L Of R.
  assert (U' : negb (present (dq_using q') && is_sqlite d) = true).
  { destruct U as [->| ->]; [reflexivity|]. now rewrite Bool.andb_false_r. }
  assert (J' : negb (nonempty (dq_joins q')) || present (dq_using q') && negb (is_sqlite d)
             = negb (nonempty (dq_joins q')) || present (dq_using q')).
  { destruct Js as [->| ->]; [reflexivity|]. now rewrite Bool.andb_true_r. }
  assert (OL : (negb (nonempty (dq_order q')) || (is_mysql d || is_sqlite d) && negb (delete_multi q')) &&
               (negb (present (dq_limit q')) || (is_mysql d || is_sqlite d) && negb (delete_multi q'))
             = negb (nonempty (dq_order q') || present (dq_limit q')) || negb (delete_multi q')).
  { destruct O as [O|O], L as [L|L]; rewrite ?O, ?L; cbn [nonempty present negb orb andb];
      now destruct (nonempty (dq_order q')), (present (dq_limit q')), (delete_multi q'). }
  assert (Of' : negb (present (dq_offset q')) || is_sqlite d = true).
  { destruct Of as [->| ->]; [reflexivity|]. apply Bool.orb_true_r. }
  assert (R' : negb (nonempty (dq_returning q')) || is_postgres d || is_sqlite d = true).
  { destruct R as [->|R]; [reflexivity|]. rewrite <- Bool.orb_assoc, R. apply Bool.orb_true_r. }
  rewrite U', J', Of', R', ?Bool.andb_true_r. rewrite <- OL, ?Bool.andb_assoc. reflexivity.
Qed.
Print Assumptions delete_builder_fits.

(** An INSERT with rows or a SELECT (mappers: C22). *)
Theorem insert_builder_fits : forall (d : dialect) (dname : bytes) (e : option env) (s : insert_start) (cs : list insert_call) (x : rctx),
  builder_of d dname -> has_insert_start d s = true -> Forall (fun c => has_insert d c = true) cs ->
  Forall (fun c => match c with IValuesx _ => False | _ => True end) cs ->
  let q := build_insert dname e s cs in
  snd (render d (NInsert q) x) = SOk <->
  insert_complete d q (c_env x) = true /\
  Forall (fun cl => cl_set cl = true -> snd (cl_sql cl) = SOk) (insert_clauses d q (c_env x)).
Proof.
  intros d dname e s cs x Bd Hs Ha Nx q.
  assert (Mn : iq_mapper q = None).
  { unfold q. rewrite insert_as_called. cbn [iq_mapper asked_insert].
    apply (none_last _ (fun c => match c with IValuesx _ => false | _ => true end)); [now intros []|].
    constructor; [destruct s; reflexivity|]. eapply Forall_impl; [|exact Nx]. intros [] H; try reflexivity. destruct H. }
  pose proof (proj2 (insert_is_its_clauses d q x Mn)) as I.
  assert (E : insert_ok d q (c_env x) = insert_complete d q (c_env x)); [|now rewrite <- E].
  unfold q. rewrite insert_as_called. unfold insert_ok, insert_complete.
  set (all := first_insert s :: cs) in *. set (q' := asked_insert dname e (ignores s) all).
  assert (Ig : negb (iq_ignore q') || is_mysql d = true).
  { unfold q'. cbn [iq_ignore asked_insert]. destruct s; cbn [ignores has_insert_start] in *; try reflexivity. exact Hs. }
  set (has := fun c => match c with IInsertInto _ => true | c => has_insert d c end).
  assert (Ha' : Forall (fun c => has c = true) all).
  { constructor; [destruct s; cbn [first_insert has]; try reflexivity; exact Hs|].
    eapply Forall_impl; [|exact Ha]. intros []; cbn [has]; auto. }
  assert (Ra : iq_rowalias q' = [] \/ is_mysql d = true).
  { destruct Bd; auto; left; apply (none_last _ has); try (now intros []); exact Ha'. }
  assert (Cn : iq_constraint q' = [] \/ is_postgres d = true).
  { destruct Bd; auto; left; apply (none_last _ has); try exact Ha'; intros [| | | | | |[] ? ?| | | | |] H; try reflexivity; discriminate H. }
  assert (R : iq_returning q' = [] \/ is_postgres d || is_sqlite d = true).
  { destruct Bd; auto; left; apply (none_flat _ has); try (now intros []); exact Ha'. }
  clearbody q'. clear -Ig Ra Cn R.
  assert (Ra' : is_empty (iq_rowalias q') || negb (nonempty (iq_rows q')) || is_mysql d = true).
  { destruct Ra as [->| ->]; [reflexivity|]. apply Bool.orb_true_r. }
  assert (Cn' : is_empty (iq_constraint q') || is_postgres d || negb (is_sqlite d) = true).
  { destruct Cn as [->| ->]; [reflexivity|]. now rewrite Bool.orb_true_r. }
  assert (R' : negb (nonempty (iq_returning q')) || is_postgres d || is_sqlite d = true).
  { destruct R as [->|R]; [reflexivity|]. rewrite <- Bool.orb_assoc, R. apply Bool.orb_true_r. }
  rewrite Ig, Ra', Cn', R', ?Bool.andb_true_r. reflexivity.
Qed.
Print Assumptions insert_builder_fits.

(** Examples. *)
Example chain_example :
  let t := tbl (B "users") (B "u") in
  let q := build_select (B "postgres") None (StFrom (Some t))
    [SWhere [fld (B "u") (B "a")]; SJoin (LeftJoin (Some (tbl (B "posts") [])) [fld (B "u") (B "b")]); SSelect [fld (B "u") (B "id")];
     SLimit 5; SWhere [fld (B "u") (B "c")]; SSelect [fld (B "u") (B "name")]; SLimit 7] in
  Forall (fun c => has_select DPostgres c = true) [SLimit 5; SDistinctOn []] /\
  to_sql [] (NSelect q) = mk_result
    (B "SELECT u.id, u.name FROM users AS u LEFT JOIN posts ON u.b WHERE u.a AND u.c LIMIT $1") [GInt 7] [] SOk.
Proof. split; [repeat constructor|vm_compute; reflexivity]. Qed.
Example chain_example_insert :
  let t := tbl (B "users") [] in let id := fld (B "users") (B "id") in
  to_sql [] (NInsert (build_insert (B "postgres") None (StInsertInto (Some t))
    [IColumns [id]; IValues [NRaw (GInt 1)]; IConflict (OnFields [id]) [] (DoUpdateSet [(id, NRaw (GInt 2))]); IReturning [id]]))
  = mk_result (B "INSERT INTO users (id) VALUES ($1) ON CONFLICT (id) DO UPDATE SET id = $2 RETURNING users.id") [GInt 1; GInt 2] [] SOk.
Proof. vm_compute. reflexivity. Qed.

Example chain_example_mapper :
  let t := tbl (B "users") [] in let id := fld (B "users") (B "id") in let nm := fld (B "users") (B "name") in
  let one := [(id, NRaw (GInt 1)); (nm, NRaw (GInt 2))] in let two := [(id, NRaw (GInt 3)); (nm, NRaw (GInt 4))] in
  let q := asked_insert (B "postgres") None false (first_insert (StInsertInto (Some t)) :: [IValuesx (concat [one; two], false)]) in
  iq_mapper q = Some (concat [one; two], false) /\ Forall (SpecQuery.call_group (B "id")) [one; two] /\
  insert_ok DPostgres (SpecQuery.with_rows q [id; nm] (map (map snd) [one; two])) None = true /\
  r_query (to_sql [] (NInsert (build_insert (B "postgres") None (StInsertInto (Some t)) [IValuesx (concat [one; two], false)])))
  = B "INSERT INTO users (id, name) VALUES ($1, $2), ($3, $4)".
Proof.
  cbv zeta. split; [vm_compute; reflexivity|]. split; [|split; vm_compute; reflexivity].
  repeat constructor.
  - exists (fld (B "users") (B "id")), (NRaw (GInt 1)), [(fld (B "users") (B "name"), NRaw (GInt 2))]. repeat split. intros [H|[]]. discriminate.
  - exists (fld (B "users") (B "id")), (NRaw (GInt 3)), [(fld (B "users") (B "name"), NRaw (GInt 4))]. repeat split. intros [H|[]]. discriminate.
Qed.

(** Finding: OnConflict() without fields, then DoUpdateSet: no conflict clause at
    all, a plain INSERT. *)
Theorem conflict_without_target_refuted :
  let t := tbl (B "users") [] in let id := fld (B "users") (B "id") in
  to_sql [] (NInsert (build_insert (B "sqlite") None (StInsertInto (Some t))
    [IColumns [id]; IValues [NRaw (GInt 1)]; IConflict (OnFields []) [] (DoUpdateSet [(id, NRaw (GInt 2))])]))
  = mk_result (B "INSERT INTO users (id) VALUES ($1)") [GInt 1] [] SOk.
Proof. vm_compute. reflexivity. Qed.
Print Assumptions conflict_without_target_refuted.
(** Finding: DoNothing sticks; a later OnConflict with DoUpdateSet does nothing. *)
Theorem do_nothing_sticks_refuted :
  let t := tbl (B "users") [] in let id := fld (B "users") (B "id") in
  to_sql [] (NInsert (build_insert (B "postgres") None (StInsertInto (Some t))
    [IColumns [id]; IValues [NRaw (GInt 1)]; IConflict (OnFields [id]) [] DoNothing;
     IConflict (OnFields [id]) [] (DoUpdateSet [(id, NRaw (GInt 2))])]))
  = mk_result (B "INSERT INTO users (id) VALUES ($1) ON CONFLICT (id) DO NOTHING") [GInt 1] [] SOk.
Proof. vm_compute. reflexivity. Qed.
Print Assumptions do_nothing_sticks_refuted.
(** Finding: OrderBy adds to the order of SELECT and UPDATE but replaces that of DELETE. *)
Theorem delete_order_replaced_refuted :
  let t := tbl (B "t") [] in let a := fld (B "t") (B "a") in let b := fld (B "t") (B "b") in
  r_query (to_sql [] (NDelete (build_delete (B "sqlite") None (StDeleteFrom [Some t]) [DOrderBy [a]; DOrderBy [b]; DLimit 1])))
  = B "DELETE FROM t ORDER BY t.b LIMIT $1" /\
  r_query (to_sql [] (NUpdate (build_update (B "sqlite") None (StUpdate (Some t)) [USet [(a, NRaw (GInt 1))]; UOrderBy [a]; UOrderBy [b]; ULimit 1])))
  = B "UPDATE t SET a = $1 ORDER BY t.a, t.b LIMIT $2".
Proof. split; vm_compute; reflexivity. Qed.
Print Assumptions delete_order_replaced_refuted.
(** Finding: mysql's builder has FullJoin, which mysql lacks, and it is written. *)
Theorem mysql_full_join_refuted :
  let t := tbl (B "t") [] in let u := tbl (B "u") [] in let a := fld (B "t") (B "a") in
  has_select DMySQL (SJoin (FullJoin (Some u) [a])) = true /\
  to_sql [] (NSelect (build_select (B "mysql") None (StSelect [a]) [SFrom (Some t); SJoin (FullJoin (Some u) [a])]))
  = mk_result (B "SELECT t.a FROM t FULL JOIN u ON t.a") [] [] SOk.
Proof. split; vm_compute; reflexivity. Qed.
Print Assumptions mysql_full_join_refuted.

(** The builders of sqlite and postgres delete from one table, so none is
    left out of DELETE FROM. *)
Theorem delete_builder_one_table : forall (d : dialect) (dname : bytes) (e : option env) (s : delete_start) (cs : list delete_call),
  builder_of d dname -> d <> DMySQL -> Forall (fun c => has_delete d c = true) (first_delete s :: cs) ->
  length (dq_tables (build_delete dname e s cs)) <= 1.
Proof.
  intros d dname e s cs Bd N Ha. rewrite delete_as_called. cbn [asked_delete dq_tables]. unfold last_of.
  destruct (find _ _) as [c|] eqn:F; [|cbn; auto]. apply find_some in F. destruct F as [I P]. apply in_rev in I.
  rewrite Forall_forall in Ha. specialize (Ha c I). destruct c; try discriminate. cbn [has_delete] in Ha.
  destruct Bd; try congruence; cbn [is_mysql orb] in Ha; apply Nat.eqb_eq in Ha; rewrite Ha; auto.
Qed.
Print Assumptions delete_builder_one_table.
(** Finding: mysql's DeleteFrom takes several tables; without Using all but the
    first are left out. *)
Theorem mysql_delete_tables_dropped_refuted :
  let t := tbl (B "t") [] in let u := tbl (B "u") [] in let a := fld (B "t") (B "a") in
  has_delete DMySQL (DDeleteFrom [Some t; Some u]) = true /\
  to_sql [] (NDelete (build_delete (B "mysql") None (StDeleteFrom [Some t; Some u]) [DWhere [a]]))
  = mk_result (B "DELETE FROM t WHERE t.a") [] [] SOk.
Proof. split; vm_compute; reflexivity. Qed.
Print Assumptions mysql_delete_tables_dropped_refuted.
