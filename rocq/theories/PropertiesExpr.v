(** * PropertiesExpr: CASE expressions, CTEs and derived columns (C80) *)
From Coq Require Import Lia.
From Verif Require Import GoBase GoBaseFacts QuoteModel SprintModel TokenModel EffectModel RenderModel
  SpecQuery SpecFormat BuildModel RenderRel RenderInst FormatFacts PropertiesFormat FieldModel SpecField
  FieldPf QueryPf PropertiesField ExprModel SpecExpr.
Local Open Scope m_scope.

(** ** CASE *)
Lemma last_of_snoc {A R} (f : A -> option R) l a :
  last_of f (l ++ [a]) = match f a with Some r => Some r | None => last_of f l end.
Proof.
  induction l as [|b l IH]; cbn [app last_of]; [destruct (f a); reflexivity|].
  rewrite IH. destruct (f a); reflexivity.
Qed.
Definition some_or {A} (a : option A) (b : option A) := match a with Some _ => a | None => b end.
Lemma case_fold calls : forall cases fb alias,
  fold_left case_step calls (NCase cases fb alias) =
  NCase (cases ++ flat_map as_when calls) (some_or (last_of as_else calls) fb)
    (match last_of as_case_alias calls with Some a => a | None => alias end).
Proof.
  induction calls as [|[p r|v|a] calls IH]; intros cases fb alias; cbn [fold_left case_step flat_map as_when last_of as_else as_case_alias app].
  - now rewrite app_nil_r.
  - rewrite IH, <- app_assoc. cbn [app].
    now destruct (last_of as_else calls), (last_of as_case_alias calls).
  - rewrite IH. now destruct (last_of as_else calls), (last_of as_case_alias calls).
  - rewrite IH. now destruct (last_of as_else calls), (last_of as_case_alias calls).
Qed.
Lemma simple_fold expr calls : forall cases fb alias,
  fold_left case_step calls (NSimpleCase expr cases fb alias) =
  NSimpleCase expr (cases ++ flat_map as_when calls) (some_or (last_of as_else calls) fb)
    (match last_of as_case_alias calls with Some a => a | None => alias end).
Proof.
  induction calls as [|[p r|v|a] calls IH]; intros cases fb alias; cbn [fold_left case_step flat_map as_when last_of as_else as_case_alias app].
  - now rewrite app_nil_r.
  - rewrite IH, <- app_assoc. cbn [app].
    now destruct (last_of as_else calls), (last_of as_case_alias calls).
  - rewrite IH. now destruct (last_of as_else calls), (last_of as_case_alias calls).
  - rewrite IH. now destruct (last_of as_else calls), (last_of as_case_alias calls).
Qed.

Lemma branches_run d e x cases :
  run d (flat_map (branch e x) cases) = seqs (map (when_then_sql d (ctx e x)) cases).
Proof.
  induction cases as [|[p r] cases IH]; [reflexivity|]. cbn [flat_map map].
  rewrite run_app, IH. change (seqs (?a :: ?l)) with (a ;; seqs l). f_equal.
  unfold branch, when_then_sql. cbn [run fst snd ctx c_env c_excl]. now rewrite seq_ret.
Qed.
Lemma otherwise_run d e x v : run d (otherwise e x v) = else_sql d (ctx e x) v.
Proof.
  unfold otherwise, else_sql. destruct v as [v|]; [|reflexivity].
  destruct v as [[]| | | | | | | | | | | | | | | | | | | | | | | | | | |]; cbn [is_nil negb when run ctx c_env c_excl]; rewrite ?seq_ret; reflexivity.
Qed.

(** CaseWhen(p, r) and any calls on it: the branches in the order written, then
    the last fallback; without fallback there is no ELSE.  The alias is the last
    one given. *)
Theorem case_as_called : forall (d : dialect) (p r : node) (calls : list case_call) (e : option env) (x : list bytes),
  let n := fold_left case_step calls (case_when p r) in
  writes d n e x (T (B "CASE") :: branch e x (p, r) ++ case_pieces e x calls) /\
  get_alias n = maybe (last_of as_case_alias calls).
Proof.
  intros d p r calls e x n. unfold n, case_when. rewrite case_fold. split.
  2:{ cbn [get_alias]. now destruct (last_of as_case_alias calls). }
  apply writes_same. cbn [app].
  rewrite (proj2 (case_pf d _ _ _ (ctx e x))) by discriminate.
  unfold case_pieces. cbn [run]. rewrite !run_app, branches_run, otherwise_run.
  change (map (when_then_sql d (ctx e x)) ((p, r) :: flat_map as_when calls))
    with (when_then_sql d (ctx e x) (p, r) :: map (when_then_sql d (ctx e x)) (flat_map as_when calls)).
  change (seqs (?a :: ?l)) with (a ;; seqs l).
  replace (some_or (last_of as_else calls) None) with (last_of as_else calls) by (now destruct (last_of as_else calls)).
  unfold branch, when_then_sql. cbn [run fst snd ctx c_env c_excl]. rewrite !seq_ret, !seq_assoc.
  apply same_refl.
Qed.
Print Assumptions case_as_called.
(** Case(f): the same with the expression in front; it needs a When. *)
Theorem simple_case_as_called : forall (d : dialect) (f : node) (calls : list case_call) (e : option env) (x : list bytes),
  let n := fold_left case_step calls (case_of f) in
  (flat_map as_when calls <> [] -> writes d n e x (T (B "CASE ") :: V e x f :: case_pieces e x calls)) /\
  (flat_map as_when calls = [] -> forall s, snd (append_sql d n e x s) <> SOk) /\
  get_alias n = maybe (last_of as_case_alias calls).
Proof.
  intros d f calls e x n. unfold n, case_of. rewrite simple_fold. cbn [app]. split; [|split].
  - intros NE. apply writes_same.
    rewrite (proj2 (simple_case_pf d _ _ _ _ (ctx e x)) NE).
    unfold case_pieces. cbn [run]. rewrite !run_app, branches_run, otherwise_run.
    replace (some_or (last_of as_else calls) None) with (last_of as_else calls) by (now destruct (last_of as_else calls)).
    cbn [run ctx c_env c_excl]. rewrite !seq_ret. apply same_refl.
  - intros NE s. unfold append_sql. cbn [snd]. apply simple_case_pf, NE.
  - cbn [get_alias]. now destruct (last_of as_case_alias calls).
Qed.
Print Assumptions simple_case_as_called.
Definition int (n : Z) : node := NRaw (GInt n).
Example case_calls_example :
  let n := fold_left case_step [CElse (int 3); CAs (B "x"); CWhen (p_is_null (col (B "b"))) (int 2); CElse (int 4); CAs (B "y")]
             (case_when (p_is_null (col (B "a"))) (int 1)) in
  r_query (to_sql (B "postgres") n) = B "CASE WHEN t.a IS NULL THEN $1 WHEN t.b IS NULL THEN $2 ELSE $3 END" /\
  r_args (to_sql (B "postgres") n) = [GInt 1; GInt 2; GInt 4]%Z /\ get_alias n = B "y" /\
  r_query (to_sql (B "mysql") (fold_left case_step [CWhen (int 1) (int 2)] (case_of (col (B "a"))))) =
    B "CASE t.a WHEN ? THEN ? END".
Proof. repeat split; vm_compute; reflexivity. Qed.
(** Finding: a query given as a result is not bracketed, which is not SQL. *)
Theorem case_query_not_bracketed_refuted :
  exists q, is_query q = true /\
  r_status (to_sql (B "postgres") (case_when (p_is_null (col (B "a"))) q)) = SOk /\
  r_query (to_sql (B "postgres") (case_when (p_is_null (col (B "a"))) q)) =
    B "CASE WHEN t.a IS NULL THEN SELECT t.b END".
Proof.
  exists (NSelect (mk_select [] None [] false [col (B "b")] [] None [] (mk_vpred false [] false [] false) [] (mk_vpred false [] false [] false) [] None None)).
  repeat split; vm_compute; reflexivity.
Qed.
Print Assumptions case_query_not_bracketed_refuted.

(** ** CTEs *)
Lemma new_cte_shape r name columns query c : new_cte r name columns query = Some c ->
  cte_query c = query /\ cte_rec c = r /\ cte_name c = name /\ cte_mat c = None /\ cte_alias c = [] /\
  cte_explicit c = (match columns with [] => false | _ => true end) /\
  (columns <> [] -> cte_fields c = columns) /\ (cte_err c = false <-> cte_cache c <> []) /\
  (cte_err c = false -> query <> None /\ is_empty name = false).
Proof.
  unfold new_cte. destruct (is_empty name) eqn:EN.
  { intros [= <-]. cbn. repeat split; auto; try discriminate; congruence. }
  destruct query as [q|].
  2:{ intros [= <-]. cbn. repeat split; auto; try discriminate; congruence. }
  destruct columns as [|c0 columns].
  - destruct (fetchable q) as [fs| |]; [| |discriminate].
    + destruct fs as [|f0 fs]; [intros [= <-]; cbn; repeat split; auto; try discriminate; congruence|].
      destruct (existsb is_nil (f0 :: fs)); [discriminate|].
      destruct (existsb _ (f0 :: fs)); intros [= <-]; cbn; repeat split; auto; try discriminate; congruence.
    + intros [= <-]; cbn; repeat split; auto; try discriminate; congruence.
  - intros [= <-]; cbn; repeat split; auto; try discriminate; congruence.
Qed.
Lemma cte_step_shape c k :
  let c' := cte_step c k in
  cte_query c' = cte_query c /\ cte_rec c' = cte_rec c /\ cte_name c' = cte_name c /\
  cte_explicit c' = cte_explicit c /\ cte_fields c' = cte_fields c /\ cte_cache c' = cte_cache c /\
  cte_mat c' = (match as_mat k with Some b => Some b | None => cte_mat c end) /\
  (cte_cache c <> [] -> cte_query c <> None -> is_empty (cte_name c) = false -> cte_err c' = cte_err c) /\
  (cte_err c = true -> cte_err c' = true) /\
  (cte_cache c <> [] -> cte_query c <> None -> is_empty (cte_name c) = false -> cte_err c = false ->
   cte_alias c' = match as_cte_alias k with Some a => a | None => cte_alias c end).
Proof.
  destruct k as [a| |]; cbn [cte_step as_mat as_cte_alias]; [|cbn; repeat split; auto..].
  unfold cte_as. destruct c as [q er re ex n al fs ca ma].
  cbn [cte_query cte_err cte_rec cte_explicit cte_name cte_alias cte_fields cte_cache cte_mat].
  destruct er; [repeat split; auto; discriminate|].
  destruct (is_empty n); [repeat split; auto; discriminate|].
  destruct q as [q|]; [|repeat split; auto; congruence].
  destruct ca; [repeat split; auto; congruence|repeat split; auto].
Qed.
Lemma cte_fold_shape ks : forall c,
  let c' := fold_left cte_step ks c in
  cte_query c' = cte_query c /\ cte_rec c' = cte_rec c /\ cte_name c' = cte_name c /\
  cte_explicit c' = cte_explicit c /\ cte_fields c' = cte_fields c /\ cte_cache c' = cte_cache c /\
  cte_mat c' = (match last_of as_mat ks with Some b => Some b | None => cte_mat c end) /\
  (cte_cache c <> [] -> cte_query c <> None -> is_empty (cte_name c) = false -> cte_err c' = cte_err c) /\
  (cte_err c = true -> cte_err c' = true) /\
  (cte_cache c <> [] -> cte_query c <> None -> is_empty (cte_name c) = false -> cte_err c = false ->
   cte_alias c' = match last_of as_cte_alias ks with Some a => a | None => cte_alias c end).
Proof.
  induction ks as [|k ks IH]; intros c; cbn [fold_left last_of]; [repeat split; auto|].
  destruct (IH (cte_step c k)) as (A & B & C & D & E & F & G & H & I & J).
  destruct (cte_step_shape c k) as (A' & B' & C' & D' & E' & F' & G' & H' & I' & J').
  cbn zeta. rewrite A, B, C, D, E, F, G, A', B', C', D', E', F', G'. rewrite A', C', F' in H, J.
  repeat split; auto.
  - now destruct (last_of as_mat ks).
  - intros X Y Z. rewrite (H X Y Z). now apply H'.
  - intros X Y Z W. rewrite (J X Y Z) by (rewrite H'; auto). rewrite (J' X Y Z W). now destruct (last_of as_cte_alias ks).
Qed.

(** What a built CTE is. *)
Lemma built_shape r c : built r c ->
  cte_query c = cr_query r /\ cte_rec c = cr_rec r /\ cte_name c = cr_name r /\
  cte_mat c = last_of as_mat (cr_calls r) /\
  (if cte_explicit c then B " (" ++ join (B ", ") (cte_fields c) ++ B ")" else []) =
    (match cr_columns r with [] => [] | cs => B " (" ++ join (B ", ") cs ++ B ")" end) /\
  (cte_err c = false <-> usable r) /\
  (usable r -> cte_alias c = maybe (last_of as_cte_alias (cr_calls r))).
Proof.
  intros (c0 & N & ->).
  destruct (new_cte_shape _ _ _ _ _ N) as (A & B & C & D & E & F & G & H & I).
  destruct (cte_fold_shape (cr_calls r) c0) as (A' & B' & C' & D' & E' & F' & G' & H' & I' & J').
  destruct (cte_built _ _ _ _ _ [] N) as (_ & K & _).
  assert (U : cte_cache c0 <> [] <-> usable r).
  { assert (KC : cte_cache (cte_as c0 []) = cte_cache c0) by apply (cte_step_shape c0 (KAs [])).
    rewrite KC in K. unfold usable. split.
    - destruct (cte_cache c0) as [|f l]; [congruence|]. intros _.
      destruct (proj1 (K f) (or_introl eq_refl)) as (X & q & Y & Z). split; [exact X|]. exists q. split; [exact Y|].
      destruct Z as [Z|[_ Z]]; [left; intros W; rewrite W in Z; destruct Z|right; now exists f].
    - intros (X & q & Y & Z) W. rewrite W in K.
      destruct (cr_columns r) as [|f l] eqn:EC.
      + destruct Z as [Z|[f Z]]; [congruence|]. apply (K f). eauto 8.
      + apply (K f). split; [exact X|]. exists q. split; [exact Y|]. left. now left. }
  rewrite A', B', C', D', E', G', A, B, C, D.
  split; [reflexivity|]. split; [reflexivity|]. split; [reflexivity|].
  split; [now destruct (last_of as_mat (cr_calls r))|].
  split; [rewrite F; destruct (cr_columns r) as [|f l]; [reflexivity|]; rewrite G by discriminate; reflexivity|].
  rewrite <- U. split.
  - destruct (cte_err c0) eqn:EE.
    + rewrite I' by reflexivity. split; [discriminate|]. intros X. apply H in X. discriminate.
    + destruct (I eq_refl) as [I1 I2]. rewrite H'; [|now apply H|now rewrite A|now rewrite C].
      split; [intros _; now apply H|reflexivity].
  - intros X. assert (Y := proj2 H X). destruct (I Y) as [I1 I2].
    rewrite J'; [|exact X|now rewrite A|now rewrite C|exact Y]. rewrite E. now destruct (last_of as_cte_alias (cr_calls r)).
Qed.

Lemma emit_nil d m : same d (emit [] ;; m) m.
Proof.
  eapply same_trans; [apply same_seq; [apply same_empty|apply same_refl]|]. rewrite ret_seq. apply same_refl.
Qed.
Lemma statement_run d q : render d q (mk_ctx (if is_vquery q then Some true else None) [] None []) = render d (statement q) (ctx None []).
Proof. destruct q; reflexivity. Qed.
Lemma cte_written d r c : built r c -> usable r ->
  same d (cte_def_run d (cte_map (mk d) c)) (run d (cte_pieces d r)).
Proof.
  intros BU US. destruct (built_shape r c BU) as (Q & R & N & MT & EX & ER & _).
  unfold cte_def_run. cbn [cte_map cte_err cte_name cte_explicit cte_fields cte_mat cte_query].
  rewrite (proj2 ER US), N. destruct US as (NE & q & EQ & _). rewrite Q. unfold cte_pieces. rewrite EQ.
  destruct (cr_name r) as [|b name] eqn:EN; [congruence|]. cbn [is_empty option_map k_node mk k_run].
  rewrite statement_run, <- EN. cbn [run].
  apply same_seq; [apply same_refl|].
  match goal with |- same _ _ (emit ?t ;; _) =>
    replace t with (if cte_explicit c then B " (" ++ join (B ", ") (cte_fields c) ++ B ")" else []) by exact EX end.
  apply same_seq; [destruct (cte_explicit c); [apply same_refl|apply same_sym, same_empty]|].
  apply same_seq; [apply same_refl|].
  rewrite MT. apply same_seq.
  { destruct d; cbn [is_postgres when materialization]; try (apply same_sym, same_empty).
    destruct (last_of as_mat (cr_calls r)) as [[]|]; [apply same_refl..|apply same_sym, same_empty]. }
  rewrite seq_ret. apply same_refl.
Qed.

Lemma same_seps d sep ms ks : Forall2 (same d) ms ks -> same d (sep_by sep ms) (sep_by sep ks).
Proof.
  intros H. destruct H as [|m k ms ks H F]; [apply same_refl|]. cbn [sep_by]. apply same_seq; [exact H|].
  induction F as [|a b l m' A F IH]; [apply same_refl|]. cbn [map]. change (seqs (?a :: ?l)) with (a ;; seqs l).
  apply same_seq; [|exact IH]. apply same_seq; [apply same_refl|exact A].
Qed.
Lemma with_clause_written d rs cs : rs <> [] -> Forall2 built rs cs -> Forall usable rs ->
  same d (with_clause d (map (cte_map (mk d)) cs)) (run d (with_pieces d rs)).
Proof.
  intros NE F U. unfold with_clause, with_pieces. destruct F as [|r c rs cs BU F]; [congruence|].
  cbn [map]. unfold ctes_run. cbn [run].
  apply same_seq.
  { assert (X : existsb cte_rec (cte_map (mk d) c :: map (cte_map (mk d)) cs) = existsb cr_rec (r :: rs)).
    { cbn [existsb cte_map cte_rec]. destruct (built_shape r c BU) as (_ & -> & _). f_equal. clear U.
      induction F as [|r' c' rs cs BU' F IH]; [reflexivity|]. cbn [map existsb cte_map cte_rec].
      destruct (built_shape r' c' BU') as (_ & -> & _). f_equal. apply IH. discriminate. }
    rewrite X. apply same_refl. }
  rewrite run_app. apply same_seq; [|cbn [run]; rewrite seq_ret; apply same_refl].
  change (cte_pieces d r :: map (cte_pieces d) rs) with (map (cte_pieces d) (r :: rs)).
  rewrite <- sep_by_run, map_map.
  change (cte_map (mk d) c :: map (cte_map (mk d)) cs) with (map (cte_map (mk d)) (c :: cs)).
  rewrite map_map. apply same_seps. assert (F2 : Forall2 built (r :: rs) (c :: cs)) by (now constructor).
  revert U F2. clear. generalize (r :: rs) (c :: cs). intros l m U F. revert U. clear r c rs cs.
  induction F as [|r c l m BU F IH]; intros U; [constructor|]. inversion U; subst.
  constructor; [now apply cte_written|now apply IH].
Qed.

(** A statement with CTEs: WITH (RECURSIVE if any is recursive), the CTEs in
    order, each with its name, the columns given for it, in postgres whether it
    is materialised if it says so (the last call counts), and its query; then the
    statement. *)
Theorem ctes_as_called : forall (d : dialect) (rs : list cte_request) (cs : list (cte_ node)) (n : node)
    (e : option env) (x : list bytes),
  rs <> [] -> Forall2 built rs cs -> Forall usable rs -> reaches_with n ->
  writes d (with_ctes cs n) e x (with_pieces d rs ++ [V e x (with_ctes [] n)]).
Proof.
  intros d rs cs n e x NE F U RW. apply writes_same. rewrite run_app.
  assert (K : forall m m', m = with_clause d (map (cte_map (mk d)) cs) ;; m' -> same d m (run d (with_pieces d rs) ;; m')).
  { intros m m' ->. apply same_seq; [now apply with_clause_written|apply same_refl]. }
  cbn [run]. rewrite seq_ret.
  destruct n; try (destruct RW; fail); apply K; clear K.
  - cbn [with_ctes render]. unfold select_run.
    cbn [select_map sq_dialect sq_env sq_ctes sq_distinct sq_fields sq_distinct_on sq_from sq_joins sq_where sq_group
      sq_having sq_order sq_limit sq_offset]. change (with_clause d (map (cte_map (mk d)) [])) with ret. rewrite ret_seq. reflexivity.
  - cbn [with_ctes render]. unfold insert_run. cbn in RW. unfold insert_source.
    cbn [insert_map iq_mapper iq_ctes iq_columns iq_rows]. destruct (iq_mapper q) as [[calls []]|]; [destruct RW|..]; cbn [option_map mapper_map fst snd negb]; change (with_clause d (map (cte_map (mk d)) [])) with ret; rewrite ret_seq. reflexivity. reflexivity.
  - cbn [with_ctes render]. unfold update_run. cbn in RW. unfold update_source.
    cbn [update_map uq_mapper uq_ctes uq_assigns]. destruct (uq_mapper q) as [[calls []]|]; [destruct RW|..]; cbn [option_map mapper_map fst snd negb]; change (with_clause d (map (cte_map (mk d)) [])) with ret; rewrite ret_seq; reflexivity.
  - cbn [with_ctes render]. unfold delete_run. cbn [delete_map dq_ctes dq_env dq_tables dq_using dq_joins dq_where dq_order dq_limit dq_offset dq_returning]. change (with_clause d (map (cte_map (mk d)) [])) with ret. rewrite ret_seq. reflexivity.
Qed.
Print Assumptions ctes_as_called.
Lemma seqs_not_ok ms m : In m ms -> snd m <> SOk -> snd (seqs ms) <> SOk.
Proof.
  induction ms as [|k ms IH]; intros I N; [destruct I|]. change (seqs (k :: ms)) with (k ;; seqs ms). unfold seq.
  destruct (snd k) eqn:E; [|cbn; congruence..].
  cbn [snd]. destruct I as [->|I]; [congruence|now apply IH].
Qed.
Lemma sep_not_ok sep ms m : In m ms -> snd m <> SOk -> snd (sep_by sep ms) <> SOk.
Proof.
  destruct ms as [|k ms]; intros I N; [destruct I|]. cbn [sep_by]. unfold seq at 1.
  destruct (snd k) eqn:E; [|cbn; congruence..].
  cbn [snd]. destruct I as [->|I]; [congruence|]. apply (seqs_not_ok _ (emit sep ;; m)).
  - now apply in_map.
  - unfold seq. cbn. exact N.
Qed.
Lemma seq_not_ok m k : snd m <> SOk -> snd (m ;; k) <> SOk.
Proof. unfold seq. destruct (snd m) eqn:E; cbn; congruence. Qed.
(** A CTE without name, query or named columns: no SQL. *)
Theorem unusable_cte_rejected : forall (d : dialect) (rs : list cte_request) (cs : list (cte_ node)) (n : node)
    (r : cte_request) (e : option env) (x : list bytes) (s : st),
  Forall2 built rs cs -> In r rs -> ~ usable r -> reaches_with n ->
  snd (append_sql d (with_ctes cs n) e x s) <> SOk.
Proof.
  intros d rs cs n r e x s F I U RW.
  assert (W : snd (with_clause d (map (cte_map (mk d)) cs)) <> SOk).
  { assert (X : exists c, In c cs /\ cte_err c = true).
    { clear RW s. induction F as [|r' c' rs cs BU F IH]; [destruct I|]. destruct I as [->|I].
      - exists c'. split; [now left|]. destruct (built_shape r c' BU) as (_ & _ & _ & _ & _ & ER & _).
        destruct (cte_err c'); [reflexivity|]. tauto.
      - destruct (IH I) as (c & J & K). exists c. split; [now right|exact K]. }
    destruct X as (c & J & K). destruct cs as [|c1 cs]; [destruct J|]. cbn [map with_clause]. unfold ctes_run.
    change (snd (sep_by (B ", ") (map (cte_def_run d) (map (cte_map (mk d)) (c1 :: cs))) ;; emit (B " ")) <> SOk).
    apply seq_not_ok, (sep_not_ok _ _ (cte_def_run d (cte_map (mk d) c))).
    - now apply in_map, in_map.
    - unfold cte_def_run. cbn [cte_map cte_err]. rewrite K. discriminate. }
  unfold append_sql. cbn [snd].
  assert (P : forall m k, m = with_clause d (map (cte_map (mk d)) cs) ;; k -> snd m <> SOk)
    by (intros m k ->; now apply seq_not_ok).
  destruct n; try (destruct RW; fail).
  - eapply P. cbn [with_ctes render]. unfold select_run. reflexivity.
  - cbn [with_ctes render]. unfold insert_run. cbn in RW. unfold insert_source.
    cbn [insert_map iq_mapper iq_ctes iq_columns iq_rows].
    destruct (iq_mapper q) as [[calls []]|]; [destruct RW|..]; cbn [option_map mapper_map fst snd negb];
      eapply P; reflexivity.
  - cbn [with_ctes render]. unfold update_run. cbn in RW. unfold update_source.
    cbn [update_map uq_mapper uq_ctes uq_assigns].
    destruct (uq_mapper q) as [[calls []]|]; [destruct RW|..]; cbn [option_map mapper_map fst snd negb];
      eapply P; reflexivity.
  - eapply P. cbn [with_ctes render]. unfold delete_run. reflexivity.
Qed.
Print Assumptions unusable_cte_rejected.
(** A reference to a CTE is its name, known by the last alias given. *)
Theorem cte_named_as_called : forall (d : dialect) (r : cte_request) (c : cte_ node) (e : option env) (x : list bytes),
  built r c -> usable r ->
  writes d (NCTE c) e x [T (cr_name r)] /\ get_name (NCTE c) = cr_name r /\
  get_alias (NCTE c) = maybe (last_of as_cte_alias (cr_calls r)).
Proof.
  intros d r c e x BU US. destruct (built_shape r c BU) as (Q & R & N & MT & EX & ER & AL).
  split; [|split; [exact N|exact (AL US)]]. apply writes_same. cbn [render run].
  rewrite (proj2 ER US), N, seq_ret. destruct US as (NE & _). destruct (cr_name r); [congruence|]. apply same_refl.
Qed.
Print Assumptions cte_named_as_called.

(** ** Columns of CTEs and subqueries *)
Definition not_collate (m : modifier) : bool := match m with MCollate _ => false | _ => true end.
Lemma last_of_filter {R} (f : modifier -> option R) ms : (forall c, f (MCollate c) = None) ->
  last_of f (filter not_collate ms) = last_of f ms.
Proof.
  intros N. induction ms as [|m ms IH]; [reflexivity|]. cbn [filter last_of].
  destruct m; cbn [not_collate last_of]; rewrite IH; try reflexivity. rewrite N. now destruct (last_of f ms).
Qed.
Lemma no_collation ms : last_of as_collation (filter not_collate ms) = None.
Proof. induction ms as [|m ms IH]; [reflexivity|]. destruct m; cbn [filter not_collate last_of]; rewrite ?IH; reflexivity. Qed.
Lemma cte_modify_fold ms : forall er ca fi,
  fold_left derived_modify ms (NCTEField er ca fi)
  = NCTEField er ca (fold_left (fun fi m => modify_info m fi) (filter not_collate ms) fi).
Proof. induction ms as [|m ms IH]; intros er ca fi; [reflexivity|]. destruct m; cbn [fold_left derived_modify filter not_collate]; apply IH. Qed.
Lemma sub_modify_fold ms : forall er ca fi,
  fold_left derived_modify ms (NSubField er ca fi)
  = NSubField er ca (fold_left (fun fi m => modify_info m fi) (filter not_collate ms) fi).
Proof. induction ms as [|m ms IH]; intros er ca fi; [reflexivity|]. destruct m; cbn [fold_left derived_modify filter not_collate]; apply IH. Qed.

Definition fresh (fi : finfo) : Prop :=
  fi_alias fi = [] /\ fi_collation fi = [] /\ fi_desc fi = None /\ fi_nulls fi = None.
Lemma derived_field d ms fi x : fresh fi ->
  let gi := fold_left (fun fi m => modify_info m fi) (filter not_collate ms) fi in
  same d (field_run d gi [] None x)
    (field_run d fi [] None x ;; emit (maybe (last_of as_order ms)) ;; emit (maybe (last_of as_nulls ms)) ;; ret) /\
  fi_alias gi = maybe (last_of as_alias ms) /\ fi_name gi = fi_name fi /\ fi_talias gi = fi_talias fi.
Proof.
  intros (Ua & Uc & Ud & Un) gi.
  destruct (modify_info_fold (filter not_collate ms) fi) as ((S1 & S2 & S3 & S4 & S5 & S6) & A & C & D & N).
  fold gi in S1, S2, S3, S4, S5, S6, A, C, D, N.
  rewrite no_collation in C. rewrite (last_of_filter as_alias) in A by reflexivity. rewrite (last_of_filter order_of) in D by reflexivity. rewrite (last_of_filter nulls_of) in N by reflexivity.
  split; [|split; [rewrite A, Ua; reflexivity|split; assumption]].
  rewrite seq_ret.
  eapply same_trans; [apply field_suffix|]. rewrite (bare_eq fi gi) by assumption.
  eapply same_trans; [|apply same_seq; [apply same_sym, field_suffix|apply same_refl]].
  rewrite seq_assoc. apply same_seq; [apply same_refl|].
  unfold suffix at 2. rewrite Uc, Ud, Un. cbn [collation_text app].
  eapply same_trans; [|apply same_seq; [apply same_sym, same_empty|apply same_refl]].
  rewrite ret_seq. unfold suffix. rewrite C, D, N, Uc, Ud, Un. cbn [collation_text app].
  eapply same_trans; [apply same_emit|]. rewrite order_texts, nulls_texts.
  apply same_seq; [destruct (last_of order_of ms) as [[]|]|destruct (last_of nulls_of ms) as [[]|]]; apply same_refl.
Qed.
(** Any chain of calls on cte.Field(name) or subquery.Field(name): the column
    reference, then direction and null order last asked for. *)
Theorem derived_column_as_called : forall (d : dialect) (f : node) (ms : list modifier) (e : option env) (x : list bytes),
  (exists c name, f = cte_field c name) \/ (exists q name, f = sub_field q name) ->
  writes d (fold_left derived_modify ms f) e x
    [V e x f; T (maybe (last_of as_order ms)); T (maybe (last_of as_nulls ms))] /\
  get_alias (fold_left derived_modify ms f) = maybe (last_of as_alias ms) /\
  get_name (fold_left derived_modify ms f) = get_name f.
Proof.
  intros d f ms e x [(c & name & ->)|(q & name & ->)].
  - unfold cte_field. rewrite cte_modify_fold.
    destruct (derived_field d ms (plain_field (cte_name c) (cte_alias c) name) x) as (S & A & N & _); [repeat split|].
    split; [|split; assumption]. apply writes_same. cbn [render run ctx c_excl]. rewrite N.
    destruct (existsb _ (cte_cache c)); [exact S|apply same_refl].
  - unfold sub_field. rewrite sub_modify_fold.
    destruct (derived_field d ms (plain_field [] (sb_alias q) name) x) as (S & A & N & TA); [repeat split|].
    split; [|split; assumption]. apply writes_same. cbn [render run ctx c_excl]. rewrite N, TA.
    match goal with |- context [if ?b then fail else _] => destruct b; [apply same_refl|] end.
    destruct (existsb _ (sb_cache q)); [exact S|apply same_refl].
Qed.
Print Assumptions derived_column_as_called.

Definition sel (f : node) : node :=
  NSelect (mk_select [] None [] false [f] [] None [] (mk_vpred false [] false [] false) []
    (mk_vpred false [] false [] false) [] None None).
Definition ex_requests : list cte_request :=
  [mk_request false (B "a") [] (Some (sel (col (B "id")))) [KMaterialized; KAs (B "y"); KNotMaterialized];
   mk_request true (B "r") [B "n"; B "m"] (Some (NVQuery false (B "UNION") [sel (col (B "p")); sel (col (B "q"))])) [KAs (B "z")]].
Example ctes_example :
  exists cs, Forall2 built ex_requests cs /\ Forall usable ex_requests /\
    r_query (to_sql (B "postgres") (with_ctes cs (sel (col (B "x"))))) =
      B "WITH RECURSIVE a AS NOT MATERIALIZED (SELECT t.id), r (n, m) AS (SELECT t.p UNION SELECT t.q) SELECT t.x" /\
    r_query (to_sql (B "mysql") (with_ctes cs (sel (col (B "x"))))) =
      B "WITH RECURSIVE a AS (SELECT t.id), r (n, m) AS (SELECT t.p UNION SELECT t.q) SELECT t.x".
Proof.
  eexists. split; [repeat (constructor; [eexists; split; reflexivity|]); constructor|]. split.
  { repeat constructor; try discriminate; eexists; (split; [reflexivity|]).
    - right. exists (B "id"). eexists. split; [constructor|]. split; [repeat constructor; discriminate|now left].
    - left. discriminate. }
  split; vm_compute; reflexivity.
Qed.
Example derived_example :
  exists c, new_cte false (B "a") [B "n"] (Some (sel (col (B "id")))) = Some c /\
  r_query (to_sql (B "postgres") (fold_left derived_modify [MDesc; MNullsLast; MAs (B "k"); MAsc] (cte_field c (B "n")))) =
    B "a.n ASC NULLS LAST".
Proof. eexists. split; [reflexivity|]. vm_compute. reflexivity. Qed.
(** Finding: the name and the columns of a CTE are written bare where they are
    defined but quoted where a column is used, so a name that needs quotes is
    not one name in the statement. *)
Theorem cte_name_unquoted_refuted :
  exists r c, built r c /\ usable r /\
    r_query (to_sql (B "postgres") (with_ctes [c] (sel (cte_field c (B "Id"))))) =
      B "WITH Big (Id) AS (SELECT t.id) SELECT ""Big"".""Id""".
Proof.
  exists (mk_request false (B "Big") [B "Id"] (Some (sel (col (B "id")))) []). eexists. split; [eexists; split; reflexivity|].
  split; [split; [discriminate|]; eexists; split; [reflexivity|left; discriminate]|]. vm_compute. reflexivity.
Qed.
Print Assumptions cte_name_unquoted_refuted.
Example unusable_example :
  exists c, built (mk_request false (B "a") [] (Some (sel (int 1))) [KAs (B "y")]) c /\
    ~ usable (mk_request false (B "a") [] (Some (sel (int 1))) [KAs (B "y")]) /\
    r_status (to_sql (B "postgres") (with_ctes [c] (sel (col (B "x"))))) = SErr.
Proof.
  eexists. split; [eexists; split; reflexivity|]. split; [|vm_compute; reflexivity].
  intros (_ & q & [= <-] & [K|(f & fs & P & N & _)]); [now apply K|].
  inversion P; subst. cbn in N. inversion N; subst. now cbn in H1.
Qed.
