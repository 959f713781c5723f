(** * PropertiesBuilder: C28, queries derived from queries *)
From Coq Require Import Lia.
From Verif Require Import GoBase BuilderModel SpecBuilder BuilderPf.

(** ** C28: a query does not change after it was built

    [values p]: what the queries of the program [p] hold if every query is a
    value of its own.  Whatever memory [append] reserves ([extra]), each query
    holds exactly that at the end of the program, if no slice is appended to
    twice and no table is replaced. *)
Theorem derived_queries_independent : forall (E : Type) (zero : E) extra (p : list (@step E)) used,
  linear p used ->
  length (snd (run zero extra p)) = length (values p) /\
  forall i f, contents (fst (run zero extra p)) (nth i (snd (run zero extra p)) no_builder f) = snd (nth i (values p) no_value f).
Proof.
  intros E zero extra p used L. pose proof (inv_run zero extra p used L) as I. split; [apply (inv_length _ _ _ _ I)|].
  intros i f. apply (inv_shows _ _ _ _ I i f).
Qed.
(** The same if slices are appended to only when they fill their array, however
    often. *)
Theorem full_slices_independent : forall (E : Type) (zero : E) extra (p : list (@step E)),
  full zero extra p ->
  length (snd (run zero extra p)) = length (values p) /\
  forall i f, contents (fst (run zero extra p)) (nth i (snd (run zero extra p)) no_builder f) = snd (nth i (values p) no_value f).
Proof.
  intros E zero extra p F. pose proof (inv2_run zero extra p F) as [L S]. split; [exact L|]. intros i f. apply (S i f).
Qed.
(** In particular, if append reserves nothing, for all programs that do not
    replace a table. *)
Theorem no_spare_capacity_independent : forall (E : Type) (zero : E) (p : list (@step E)),
  keeps_tables p ->
  let (h, bs) := run zero (fun _ _ => 0) p in
  length bs = length (values p) /\
  forall i f, contents h (nth i bs no_builder f) = snd (nth i (values p) no_value f).
Proof.
  intros E zero p K. destruct (all_full_run zero p K) as [F _]. pose proof (full_slices_independent E zero _ p F) as Q.
  destruct (run zero (fun _ _ => 0) p) as [h bs]. exact Q.
Qed.
(** Every call, after any program: the query it returns has, in the slice the
    method changes, what the receiver has there now, with the method's change. *)
Theorem call_returns_change : forall (E : Type) (zero : E) extra (p : list (@step E)) i m,
  let (h, bs) := run zero extra p in
  let (h', bs') := run zero extra (p ++ [SCall i m]) in
  length bs' = S (length bs) /\
  contents h' (nth (length bs) bs' no_builder (changes m)) = changed m (contents h (nth i bs no_builder (changes m))).
Proof.
  intros E zero extra p i m. pose proof (run_wf zero extra p i) as W. unfold run in *. rewrite fold_left_app. cbn [fold_left].
  destruct (fold_left (run_step zero extra) p ([], [])) as [h bs]. cbn [fst snd] in W. cbn [run_step].
  pose proof (call_wf zero extra h (nth i bs no_builder) m W) as C. destruct (call zero extra h (nth i bs no_builder) m) as [h' b].
  destruct C as [C _]. rewrite app_length, app_nth2, Nat.sub_diag by lia. cbn [length nth]. split; [lia|exact C].
Qed.
(** The calls on the value that OnConflict returns: each call sets its own part
    only. *)
Theorem on_conflict_calls : forall (E : Type) (calls : list (@conflict_call E)) q,
  let r := fold_left conflict_step calls q in
  cq_where r = last_where (cq_where q) calls /\
  cq_update r = last_update (cq_update q) calls /\
  (cq_nothing r = true <-> cq_nothing q = true \/ In CDoNothing calls).
Proof.
  intros E calls. induction calls as [|c calls IH]; intros q; cbn [fold_left].
  - cbn. intuition.
  - specialize (IH (conflict_step q c)). cbn zeta in *. destruct IH as (I1 & I2 & I3). rewrite I1, I2, I3.
    destruct c; cbn [conflict_step cq_where cq_update cq_nothing last_where last_update In]; (split; [reflexivity|split; [reflexivity|]]).
    + split; [intros [H|H]; auto|intros [H|[H|H]]; [auto|discriminate|auto]].
    + split; [auto|intros _; now left].
    + split; [intros [H|H]; auto|intros [H|[H|H]]; [auto|discriminate|auto]].
Qed.
Print Assumptions call_returns_change.
Print Assumptions on_conflict_calls.
Example on_conflict_calls_ex :
  fold_left conflict_step [CWhere 1; CDoUpdateSet [2]; CWhere 3] (mk_cq None false []) = mk_cq (Some 3) false [2].
Proof. reflexivity. Qed.
Print Assumptions derived_queries_independent.
Print Assumptions full_slices_independent.
Print Assumptions no_spare_capacity_independent.

(** append's growth for small slices: twice the capacity, or what is needed. *)
Definition doubling (cap n : nat) : nat := 2 * cap - n.

(** A base with two predicates; one query adds a third predicate, another one
    an ORDER BY and a table; a third continues the first. *)
Definition ex_program : list (@step nat) :=
  [SNew; SCall 0 (MAppend FWhere [1]); SCall 1 (MAppend FWhere [2]); SCall 2 (MAppend FWhere [3]);
   SCall 2 (MAppend FOrderBy [7]); SCall 4 (MDeleteFrom 8); SCall 3 (MAppend FWhere [4]); SCall 6 (MAssign FWhere [5; 6])].
Example ex_program_linear : exists used, linear ex_program used.
Proof.
  assert (S : forall (p : list (@step nat)) used s, linear p used -> ~ replaces_table (values p) s ->
    match appends_to (values p) s with None => True | Some k => ~ In k used end ->
    linear (p ++ [s]) (match appends_to (values p) s with None => used | Some k => k :: used end)).
  { intros p used s L R A. destruct (appends_to (values p) s) as [k|] eqn:Q; [now apply lin_append|now apply lin_other]. }
  eexists. unfold ex_program.
  apply (S [_; _; _; _; _; _; _]). apply (S [_; _; _; _; _; _]). apply (S [_; _; _; _; _]). apply (S [_; _; _; _]).
  apply (S [_; _; _]). apply (S [_; _]). apply (S [_]). apply (S []). constructor.
  all: cbn; try tauto; try exact I; try (intros X; decompose [or] X; discriminate || contradiction).
Qed.
Example ex_program_values :
  map (fun b => (snd (b FWhere), snd (b FOrderBy), snd (b FFromTables))) (values ex_program) =
  [([], [], []); ([1], [], []); ([1; 2], [], []); ([1; 2; 3], [], []); ([1; 2], [7], []); ([1; 2], [7], [8]);
   ([1; 2; 3; 4], [], []); ([5; 6], [], [])].
Proof. reflexivity. Qed.
(** Here query 6 writes into the array of query 3. *)
Example ex_program_shares :
  let (h, bs) := run 0 doubling ex_program in
  sl_array (nth 3 bs no_builder FWhere) = sl_array (nth 6 bs no_builder FWhere) /\
  map (fun b => contents h (b FWhere)) bs = [[]; [1]; [1; 2]; [1; 2; 3]; [1; 2]; [1; 2]; [1; 2; 3; 4]; [5; 6]].
Proof. split; reflexivity. Qed.

(** Finding: two queries derived from a base whose slice has spare capacity.
    q := From(t).Where(p1).Where(p2).Where(p3); q1 := q.Where(p4); q2 := q.Where(p5):
    q1 selects with p5. *)
Theorem shared_capacity_refuted :
  let p := [SNew; SCall 0 (MAppend FWhere [1]); SCall 1 (MAppend FWhere [2]); SCall 2 (MAppend FWhere [3]);
            SCall 3 (MAppend FWhere [4]); SCall 3 (MAppend FWhere [5])] in
  snd (nth 4 (values p) no_value FWhere) = [1; 2; 3; 4] /\
  let (h, bs) := run 0 doubling p in
  contents h (nth 4 bs no_builder FWhere) = [1; 2; 3; 5] /\ contents h (nth 5 bs no_builder FWhere) = [1; 2; 3; 5].
Proof. repeat split; reflexivity. Qed.
(** The bad case is not tied to one growth: as soon as the array of a slice with
    something in it has room, the second derived query overwrites the first. *)
Theorem shared_capacity_general : forall (E : Type) (zero : E) extra (h : @heap E) (s : slice) a x y,
  sl_array s = Some a -> a < length h -> sl_len s < length (nth a h []) ->
  let (h1, s1) := go_append zero extra h s [x] in
  let (h2, s2) := go_append zero extra h1 s [y] in
  contents h1 s1 = contents h s ++ [x] /\ contents h2 s1 = contents h s ++ [y].
Proof.
  intros E zero extra h s a x y SA A R. unfold go_append, contents, slots. rewrite SA. cbn [length].
  assert (Q : Nat.leb (sl_len s + 1) (length (nth a h [])) = true) by (apply Nat.leb_le; lia). rewrite Q.
  cbn [sl_array sl_len]. rewrite nth_list_set, Nat.eqb_refl by exact A.
  set (arr := nth a h []) in *. set (n := sl_len s) in *.
  assert (FL : length (firstn n arr) = n) by (rewrite firstn_length; lia).
  assert (Q2 : Nat.leb (n + 1) (length (firstn n arr ++ [x] ++ skipn (n + 1) arr)) = true)
    by (apply Nat.leb_le; rewrite !app_length, FL; cbn [length]; lia).
  rewrite Q2. cbn [sl_array sl_len].
  assert (C : forall z (r : list E), firstn (n + 1) (firstn n arr ++ [z] ++ r) = firstn n arr ++ [z]).
  { intros z r. rewrite app_assoc, firstn_app, app_length, FL. cbn [length]. rewrite Nat.sub_diag. cbn [firstn].
    rewrite app_nil_r. apply firstn_all2. rewrite app_length, FL. cbn [length]. lia. }
  split; [apply C|]. rewrite nth_list_set, Nat.eqb_refl by now rewrite GoBaseFacts.list_set_length.
  assert (P : firstn n (firstn n arr ++ [x] ++ skipn (n + 1) arr) = firstn n arr)
    by (rewrite firstn_app, FL, Nat.sub_diag, firstn_firstn, Nat.min_id; cbn [firstn]; now rewrite app_nil_r).
  rewrite P. apply C.
Qed.
Print Assumptions shared_capacity_general.
(** Finding: DeleteFrom on a query that has a table (Postgres and SQLite) replaces
    the table of the query it was derived from, whatever append reserves. *)
Theorem delete_from_refuted : forall extra,
  let p := [SNew; SCall 0 (MDeleteFrom 1); SCall 1 (MDeleteFrom 2)] in
  snd (nth 1 (values p) no_value FFromTables) = [1] /\
  let (h, bs) := run 0 extra p in contents h (nth 1 bs no_builder FFromTables) = [2].
Proof. intros extra. split; reflexivity. Qed.
(** Finding: c := q.OnConflict(...); c.DoNothing(); c.DoUpdateSet(a): the second
    query also has DO NOTHING. *)
Theorem on_conflict_refuted : forall a : nat,
  let q := mk_cq None false [] in
  conflict_step q (CDoUpdateSet [a]) = mk_cq None false [a] /\
  conflict_step (conflict_step q CDoNothing) (CDoUpdateSet [a]) = mk_cq None true [a].
Proof. intros a. split; reflexivity. Qed.
