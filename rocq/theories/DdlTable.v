(** * DdlTable: CREATE TABLE reads back *)
From Coq Require Import Lia.
From Verif Require Import GoBase GoBaseFacts QuoteModel SpecLex SpecIdent SpecSql EffectModel SpecText QuoteFacts QuotePf SqlFacts
  CacheModel UpsertModel DdlModel SpecDdl DdlToks DdlRead DdlConstraint DdlIndex.
Local Open Scope m_scope.

(** ** Errors *)
Lemma not_empty_true : forall s : bytes, negb (is_empty s) = true <-> s <> [].
Proof. intros [|a s]; cbn; split; congruence. Qed.
Lemma not_empty_false : forall s : bytes, negb (is_empty s) = false <-> s = [].
Proof. intros [|a s]; cbn; split; congruence. Qed.
Lemma column_succ : forall d l, succ (column_definition d l) <-> column_supported d l.
Proof.
  intros d l. unfold column_definition, column_supported. rewrite !succ_seq, !succ_when, !succ_emit, succ_fail.
  assert (AUTO : succ (match d with DMySQL => emit (B " AUTO_INCREMENT") | DSQLite => emit (B " AUTOINCREMENT") | _ => ret end)).
  { destruct d; (apply succ_emit || apply succ_ret); exact I. }
  assert (P1 : (l_autoincrement l && negb (is_mysql d) && negb (is_sqlite d) = true -> False) <-> (l_autoincrement l = true -> d = DMySQL \/ d = DSQLite)).
  { destruct (l_autoincrement l), d; cbn; intuition congruence. }
  assert (P2 : (negb (is_empty (l_identity l)) && (is_mysql d || is_sqlite d) = true -> False) <-> (l_identity l <> [] -> d <> DMySQL /\ d <> DSQLite)).
  { destruct (l_identity l), d; cbn; intuition congruence. }
  assert (P3 : (l_on_update l = true -> succ (if is_mysql d then emit (B " ON UPDATE CURRENT_TIMESTAMP") else fail)) <-> (l_on_update l = true -> d = DMySQL)).
  { destruct d; cbn [is_mysql]; rewrite ?succ_emit, ?succ_fail; intuition congruence. }
  assert (P4 : (negb (is_empty (l_collation l)) = true ->
    succ (if is_postgres d then emit (B " COLLATE """ ++ escape_quote (l_collation l) """" ++ B """") else emit (B " COLLATE " ++ l_collation l))) <-> True).
  { destruct (is_postgres d); rewrite succ_emit; tauto. }
  rewrite P1, P2, P3, P4. clear P1 P2 P3 P4.
  assert (P5 : succ (if l_autoincrement l then match d with DMySQL => emit (B " AUTO_INCREMENT") | DSQLite => emit (B " AUTOINCREMENT") | _ => ret end
    else if negb (is_empty (l_identity l)) then emit (B " GENERATED " ++ l_identity l)
    else if negb (is_empty (l_generated l)) then
      emit (B " GENERATED ALWAYS AS (" ++ l_generated l ++ B ")") ;; (if l_stored l then emit (B " STORED") else if is_postgres d then fail else emit (B " VIRTUAL"))
    else ret) <-> (d = DPostgres -> l_autoincrement l = false -> l_identity l = [] -> l_generated l <> [] -> l_stored l = true)).
  { destruct (l_autoincrement l); [intuition congruence|]. destruct (l_identity l); cbn [is_empty negb]; [|rewrite succ_emit; intuition congruence].
    destruct (l_generated l); cbn [is_empty negb]; [rewrite succ_ret; intuition congruence|]. rewrite succ_seq, succ_emit.
    destruct (l_stored l); [rewrite succ_emit; intuition congruence|]. destruct d; cbn [is_postgres]; rewrite ?succ_emit, ?succ_fail; intuition congruence. }
  rewrite P5. clear. generalize (l_autoincrement l = true -> d = DMySQL \/ d = DSQLite). generalize (l_identity l <> [] -> d <> DMySQL /\ d <> DSQLite).
  generalize (l_on_update l = true -> d = DMySQL). generalize (d = DPostgres -> l_autoincrement l = false -> l_identity l = [] -> l_generated l <> [] -> l_stored l = true). tauto.
Qed.

Lemma exclusion_succ : forall c, succ (exclusion_elements 0 (c_columns c) (c_exprs c) (c_operators c)) <->
  forall i n, nth_error (c_columns c) i = Some n -> (n = [] -> nth i (c_exprs c) [] <> []) /\ nth i (c_operators c) [] <> [].
Proof.
  intros c.
  assert (G : forall cols i, skipn i (c_columns c) = cols -> (succ (exclusion_elements i cols (c_exprs c) (c_operators c)) <->
    forall j n, i <= j -> nth_error (c_columns c) j = Some n -> (n = [] -> nth j (c_exprs c) [] <> []) /\ nth j (c_operators c) [] <> [])).
  { induction cols as [|n cols IH]; intros i E; cbn [exclusion_elements].
    - rewrite succ_ret. split; [|auto]. intros _ j n L N. assert (length (c_columns c) <= i) by (apply (f_equal (@length _)) in E; rewrite skipn_length in E; cbn in E; lia).
      assert (j < length (c_columns c)) by (apply nth_error_Some; congruence). lia.
    - destruct (skipn_next _ _ _ _ _ E) as (N & E2 & L). rewrite !succ_seq, succ_when, !succ_emit, (IH (S i) E2).
      assert (TX : succ (if negb (is_empty n) then emit n else match nth_error (c_exprs c) i with None => crash | Some e => if is_empty e then fail else emit e end) <-> (n = [] -> nth i (c_exprs c) [] <> [])).
      { destruct n as [|a n]; cbn [is_empty negb]; [|rewrite succ_emit; split; [discriminate|tauto]].
        destruct (nth_error (c_exprs c) i) as [e|] eqn:EE.
        - rewrite (nth_error_nth _ _ _ EE). destruct e; cbn [is_empty]; rewrite ?succ_fail, ?succ_emit; intuition congruence.
        - rewrite succ_crash. apply nth_error_None in EE. rewrite (nth_overflow _ _ EE). intuition congruence. }
      assert (OP : succ (match nth_error (c_operators c) i with None => crash | Some o => if is_empty o then fail else emit o end) <-> nth i (c_operators c) [] <> []).
      { destruct (nth_error (c_operators c) i) as [e|] eqn:EE.
        - rewrite (nth_error_nth _ _ _ EE). destruct e; cbn [is_empty]; rewrite ?succ_fail, ?succ_emit; intuition congruence.
        - rewrite succ_crash. apply nth_error_None in EE. rewrite (nth_overflow _ _ EE). intuition congruence. }
      rewrite TX, OP. split.
      + intros (_ & A & _ & B0 & C) j m LJ NJ. destruct (Nat.eq_dec i j) as [<-|NE]; [|apply C; [lia|exact NJ]]. assert (m = n) by congruence. subst. auto.
      + intros H. destruct (H i n (le_n _) N). repeat split; auto; intros; apply (H j n0); auto; lia. }
  rewrite (G (c_columns c) 0 eq_refl). split; intros H i n; [apply H; lia|intros _; apply H].
Qed.
Lemma constraint_succ : forall d c, succ (constraint_definition d c) <-> constraint_supported d c.
Proof.
  intros d c. unfold constraint_definition, constraint_supported. rewrite succ_seq, succ_when, succ_seq, succ_emit.
  assert (DF : (c_deferrable c = true -> succ (match d with DPostgres => when (beqb (c_type c) CHECK) fail | DSQLite => when (negb (beqb (c_type c) FOREIGN_KEY)) fail | _ => fail end) /\ True)
    <-> (c_deferrable c = true -> (d = DPostgres /\ c_type c <> CHECK) \/ (d = DSQLite /\ c_type c = FOREIGN_KEY))).
  { pose proof (beqb_eq (c_type c) CHECK) as Q1. pose proof (beqb_eq (c_type c) FOREIGN_KEY) as Q2.
    destruct d; rewrite ?succ_when, ?succ_fail; destruct (beqb (c_type c) CHECK), (beqb (c_type c) FOREIGN_KEY); cbn [negb]; intuition congruence. }
  rewrite DF. clear DF.
  match goal with |- succ ?m /\ ?p <-> ?q /\ ?p => enough (E : succ m <-> q) by (rewrite E; tauto) end.
  destruct (beqb (c_type c) CHECK) eqn:T1.
  { apply beqb_eq in T1. rewrite succ_emit, T1. split; [discriminate|tauto]. }
  destruct (beqb (c_type c) FOREIGN_KEY) eqn:T2.
  { apply beqb_eq in T2. rewrite !succ_seq, !succ_when, !succ_emit, T2. split; [discriminate|tauto]. }
  destruct (beqb (c_type c) EXCLUDE) eqn:T3.
  { apply beqb_eq in T3. rewrite !succ_seq, !succ_when, !succ_emit, succ_fail, exclusion_succ, T3.
    assert (P : (negb (is_postgres d) = true -> False) <-> d = DPostgres) by (destruct d; cbn; intuition congruence).
    assert (I : (is_empty (c_index_type c) = true -> False) <-> c_index_type c <> []) by (destruct (c_index_type c); cbn; intuition congruence).
    rewrite P, I. clear. tauto. }
  rewrite succ_emit. split; [|tauto]. intros _ Z. rewrite Z in T3. discriminate.
Qed.

(** ** CREATE TABLE has a text *)
Lemma Forall_map_in : forall A (P : M -> Prop) (f : A -> M) l, Forall P (map f l) <-> forall x, In x l -> P (f x).
Proof. intros A P f l. rewrite Forall_map, Forall_forall. reflexivity. Qed.
Lemma in_table_inline : forall d k, inline_constraint d k = in_table d k.
Proof.
  intros d k. unfold inline_constraint, in_table. rewrite <- andb_assoc. f_equal.
  destruct d; cbn [is_sqlite negb andb]; rewrite ?andb_true_r; reflexivity.
Qed.
Lemma table_constraints_model : forall d c, (if ct_constraints c then map (table_constraint d) (filter (inline_constraint d) (objects (t_constraints (ct_table c)))) else [])
  = map (table_constraint d) (table_constraints d c).
Proof.
  intros d c. unfold table_constraints. destruct (ct_constraints c); [|reflexivity]. f_equal. apply filter_ext. apply in_table_inline.
Qed.
Lemma succ_newline : forall ms, succ (newline_before ms) <-> Forall succ ms.
Proof. intros [|m ms]; unfold newline_before; [rewrite succ_ret; split; auto|]. now rewrite succ_seq, succ_emit, succ_seqs. Qed.
Lemma create_table_succ : forall d c, ct_ignore c = false -> (succ (create_table_sql d c) <-> create_table_supported d c).
Proof.
  intros d c IG. unfold create_table_sql, create_table_supported. rewrite IG. cbn zeta. set (t := ct_table c).
  destruct (t_name t) as [|n0 n] eqn:EN; cbn [is_empty].
  { rewrite succ_fail. intuition congruence. }
  fold (alive ci_ignore (ct_indexes c)). fold (alive l_ignore (objects (t_columns t))). change (alive l_ignore (objects (t_columns t))) with (table_columns c).
  pose proof (table_constraints_model d c) as TC. fold t in TC. rewrite TC. clear TC.
  rewrite !succ_seq, !succ_when, !succ_emit, !succ_elements, succ_newline, succ_fail.
  assert (V1 : succ (if negb (is_empty (t_virtual t)) then when (negb (is_sqlite d)) fail ;; emit (B "CREATE VIRTUAL TABLE ") else emit (B "CREATE TABLE ")) <-> (t_virtual t <> [] -> d = DSQLite)).
  { destruct (t_virtual t); cbn [is_empty negb]; [rewrite succ_emit; intuition congruence|]. rewrite succ_seq, succ_when, succ_fail, succ_emit.
    destruct d; cbn; intuition congruence. }
  assert (V2 : Forall succ (if negb (is_empty (t_virtual t)) then [] else map (column_definition d) (table_columns c)) <-> (t_virtual t = [] -> forall l, In l (table_columns c) -> column_supported d l)).
  { destruct (t_virtual t); cbn [is_empty negb]; [|split; [discriminate|constructor]]. rewrite Forall_map_in.
    split; [intros H _ l L; apply column_succ, H, L|intros H l L; apply column_succ; auto]. }
  assert (V3 : (match t_virtual_args t with [] => false | _ => true end && negb (negb (is_empty (t_virtual t))) = true -> False) <-> (t_virtual_args t <> [] -> t_virtual t <> [])).
  { destruct (t_virtual_args t), (t_virtual t); cbn; intuition congruence. }
  assert (V4 : Forall succ (if negb (is_empty (t_virtual t)) && is_sqlite d then map emit (t_virtual_args t) else []) <-> True).
  { split; [tauto|]. intros _. destruct (negb (is_empty (t_virtual t)) && is_sqlite d); [|constructor]. apply Forall_map_in. intros a _. now apply succ_emit. }
  assert (V5 : Forall succ (map (table_constraint d) (table_constraints d c)) <-> (forall k, In k (table_constraints d c) -> constraint_supported d k)).
  { rewrite Forall_map_in. split; intros H k K; specialize (H k K).
    - unfold table_constraint in H. rewrite succ_seq in H. now apply constraint_succ.
    - unfold table_constraint. rewrite succ_seq, succ_emit. split; [exact I|]. now apply constraint_succ. }
  rewrite V1, V2, V3, V4, V5. clear V1 V2 V3 V4 V5.
  set (xs := map _ (alive ci_ignore (ct_indexes c))).
  assert (X : Forall succ xs <-> forall i, In i (alive ci_ignore (ct_indexes c)) -> index_supported d i).
  { unfold xs. rewrite Forall_map_in. split; intros H i I; specialize (H i I); unfold alive in I; apply filter_In in I; destruct I as [_ I]; apply negb_true_iff in I.
    - rewrite succ_seq in H. now apply index_succ.
    - rewrite succ_seq, succ_emit. split; [exact Logic.I|]. now apply index_succ. }
  assert (Y : succ (match map (table_constraint d) (table_constraints d c) with [] => newline_before xs | _ => seqs xs end) <-> Forall succ xs).
  { destruct (map (table_constraint d) (table_constraints d c)); [apply succ_newline|apply succ_seqs]. }
  rewrite succ_seq, succ_when, succ_fail. rewrite Y, X.
  assert (M0 : (negb (is_mysql d) = true -> False) <-> d = DMySQL) by (destruct d; cbn; intuition congruence).
  rewrite M0. destruct (ct_indexes c) as [|i0 ii] eqn:CI.
  - cbn [alive filter In]. clear. intuition congruence.
  - assert (NE : i0 :: ii <> []) by discriminate. clear - NE. intuition congruence.
Qed.

(** ** Tokens of elements *)
Lemma sep_first : forall d, pre d (element_start true) [].
Proof. intros d. unfold element_start. prelit. Qed.
Lemma sep_next : forall d, pre d (element_start false) [comma].
Proof. intros d. unfold element_start. apply (pre_end_sym d _ [] ","%char); [discriminate|lit|reflexivity|cbn; tauto]. Qed.
Lemma elements_next : forall d A (f : A -> M) (g : A -> list tok) l, (forall x, In x l -> starts d (f x) (g x)) ->
  writes d (elements_from false (map f l)) (flat_map (cons comma) (map g l)).
Proof.
  intros d A f g. induction l as [|x l IH]; intros H; cbn [map elements_from flat_map]; [apply writes_ret|].
  apply starts_writes; [|apply sepm_seq, sepm_emit; reflexivity]. change ((comma :: g x) ++ ?r) with ([comma] ++ (g x ++ r)).
  apply opens_starts; [apply opens_emit, sep_next|]. apply starts_seq; [apply H; now left|]. apply IH. intros y Y. apply H. now right.
Qed.
Lemma elements_first : forall d A (f : A -> M) (g : A -> list tok) l, (forall x, In x l -> starts d (f x) (g x)) ->
  writes d (elements_from true (map f l)) (commas (map g l)).
Proof.
  intros d A f g [|x l] H; cbn [map elements_from commas]; [apply writes_ret|].
  apply starts_writes; [|apply sepm_seq, sepm_emit; reflexivity]. change (g x ++ ?r) with ([] ++ (g x ++ r)).
  apply opens_starts; [apply opens_emit, sep_first|]. apply starts_seq; [apply H; now left|]. apply elements_next. intros y Y. apply H. now right.
Qed.
Lemma writes_seqs : forall d A (f : A -> M) (g : A -> list tok) l, (forall x, In x l -> writes d (f x) (g x)) ->
  writes d (seqs (map f l)) (flat_map g l).
Proof.
  intros d A f g. induction l as [|x l IH]; intros H; cbn [map seqs flat_map]; [apply writes_ret|].
  apply writes_seq; [apply H; now left|]. apply IH. intros y Y. apply H. now right.
Qed.
Lemma writes_newline : forall d A (f : A -> M) (g : A -> list tok) l, (forall x, In x l -> writes d (f x) (g x)) ->
  writes d (newline_before (map f l)) (flat_map g l).
Proof.
  intros d A f g l H. destruct l as [|x l]; cbn [map newline_before]; [apply writes_ret|].
  change (flat_map g (x :: l)) with ([] ++ flat_map g (x :: l)). apply writes_seq; [apply writes_emit; [lit|reflexivity]|]. now apply (writes_seqs d A f g (x :: l)).
Qed.
Definition con_element (d : dialect) (k : constraint) : list tok :=
  (if is_empty (c_name k) || (is_mysql d && beqb (c_type k) PRIMARY_KEY) then [] else [W "CONSTRAINT"; name_tok d (c_name k)]) ++ con_toks d k.
Lemma constraint_writes : forall d k, constraint_ok d k -> writes d (table_constraint d k) (comma :: con_element d k).
Proof.
  intros d k OK. unfold table_constraint, con_element. destruct (_ || _).
  - cbn [app]. change (comma :: con_toks d k) with ([comma] ++ con_toks d k). apply starts_writes; [|apply sepm_seq, sepm_emit; reflexivity].
    apply opens_starts; [apply opens_emit, (sep_next d)|now apply def_starts].
  - change (comma :: [W "CONSTRAINT"; name_tok d (c_name k)] ++ con_toks d k) with ([comma; W "CONSTRAINT"; name_tok d (c_name k)] ++ con_toks d k).
    apply starts_writes; [|apply sepm_seq, sepm_emit; reflexivity]. apply opens_starts; [|now apply def_starts]. apply opens_emit.
    rewrite app_assoc. apply (pre_lit d _ [comma; W "CONSTRAINT"; name_tok d (c_name k)] " "%char []); [|reflexivity|now apply pre_blank].
    change [comma; W "CONSTRAINT"; name_tok d (c_name k)] with ([comma; W "CONSTRAINT"] ++ [name_tok d (c_name k)]).
    apply pre_toks; [prelit|apply toks_name, OK].
Qed.
Definition column_element (d : dialect) (l : column) : list tok := name_tok d (l_name l) :: frag d (l_type l) ++ column_clauses d l.
Definition table_elements (d : dialect) (c : create_table) : list (list tok) :=
  map (column_element d) (table_columns c) ++ map (con_element d) (table_constraints d c) ++ map (index_toks d) (alive ci_ignore (ct_indexes c)).
Definition create_table_toks (d : dialect) (c : create_table) : list tok :=
  [W "CREATE"; W "TABLE"] ++ (if ct_if_not_exists c then [W "IF"; W "NOT"; W "EXISTS"] else []) ++
  qual_toks d (t_schema (ct_table c)) (t_name (ct_table c)) ++ [lp] ++ commas (table_elements d c) ++ [rp].
Lemma flat_cons_map : forall A (g : A -> list tok) l, flat_map (fun x => comma :: g x) l = flat_map (cons comma) (map g l).
Proof. intros A g l. induction l as [|x l IH]; [reflexivity|]. cbn [flat_map map]. now rewrite IH. Qed.
Lemma create_table_starts : forall d c, create_table_ok d c -> ct_ignore c = false -> t_virtual (ct_table c) = [] -> (ct_indexes c <> [] -> is_mysql d = true) ->
  starts d (create_table_sql d c) (create_table_toks d c).
Proof.
  intros d c OK IG VI MY. unfold create_table_sql, create_table_toks. rewrite IG. cbn zeta. rewrite VI. cbn [is_empty negb andb].
  destruct (is_empty (t_name (ct_table c))); [apply starts_fail|].
  fold (alive ci_ignore (ct_indexes c)). change (filter (fun l => negb (l_ignore l)) (objects (t_columns (ct_table c)))) with (table_columns c).
  rewrite table_constraints_model.
  apply opens_starts; [apply opens_emit; prelit|].
  apply opens_starts; [apply opens_when; intros _; apply opens_emit; prelit|].
  apply starts_seq; [apply starts_emit, toks_qualified; apply OK|].
  change ([lp] ++ ?r) with ([] ++ [lp] ++ r). apply writes_seq; [apply writes_ret|].
  apply starts_writes; [|apply sepm_seq, sepm_emit; reflexivity].
  apply opens_starts; [apply opens_emit; lpre (@nil tok)|]. apply writes_starts.
  assert (SPLIT : commas (table_elements d c) = commas (map (column_element d) (table_columns c)) ++
    flat_map (cons comma) (map (con_element d) (table_constraints d c)) ++ flat_map (cons comma) (map (index_toks d) (alive ci_ignore (ct_indexes c)))).
  { unfold table_elements. destruct (table_columns c) as [|l ls] eqn:E; [now apply (okt_some _ _ OK) in E|].
    cbn [map app commas]. now rewrite !flat_map_app, <- !app_assoc. }
  rewrite SPLIT, <- !app_assoc.
  apply writes_seq. { apply elements_first. intros l L. apply column_toks. now apply (okt_columns _ _ OK). }
  change (flat_map (cons comma) (map (con_element d) (table_constraints d c)) ++ ?r) with ([] ++ [] ++ flat_map (cons comma) (map (con_element d) (table_constraints d c)) ++ r).
  apply writes_seq. { destruct (t_virtual_args (ct_table c)); [apply writes_ret|apply writes_fail]. }
  apply writes_seq; [apply writes_ret|].
  apply writes_seq.
  { rewrite <- flat_cons_map. apply writes_newline. intros k K. apply constraint_writes. now apply (okt_constraints _ _ OK). }
  apply writes_seq; [|apply writes_emit; [lit|reflexivity]].
  assert (XW : forall x, In x (alive ci_ignore (ct_indexes c)) -> writes d (emit (B "
    ,") ;; create_index_sql d x) (comma :: index_toks d x)).
  { intros x X. pose proof (okt_indexes _ _ OK x X) as OX. unfold alive in X. apply filter_In in X. destruct X as [IN X]. apply negb_true_iff in X.
    assert (M0 : is_mysql d = true) by (apply MY; intros Z; rewrite Z in IN; destruct IN).
    apply starts_writes; [|apply sepm_seq, sepm_emit; reflexivity]. change (comma :: index_toks d x) with ([comma] ++ index_toks d x).
    apply opens_starts; [apply opens_emit, (sep_next d)|]. eapply starts_cast; [now apply create_index_starts|]. unfold create_index_toks. now rewrite M0. }
  destruct (match ct_indexes c with [] => false | _ => true end) eqn:CI; [|destruct (ct_indexes c); [apply writes_ret|discriminate]]. cbn [when].
  change (flat_map (cons comma) ?r) with ([] ++ flat_map (cons comma) r). apply writes_seq; [destruct (negb (is_mysql d)); [apply writes_fail|apply writes_ret]|].
  rewrite <- flat_cons_map. destruct (map (table_constraint d) (table_constraints d c)); [now apply writes_newline|now apply writes_seqs].
Qed.

(** ** Reading elements *)
Lemma name_tok_stop : forall d stop n, (forall t, stop t = true -> t = comma) -> stop (name_tok d n) = false.
Proof. intros d stop n H. destruct (stop (name_tok d n)) eqn:E; [|reflexivity]. apply H in E. unfold name_tok in E. destruct (needs_quoting n); discriminate. Qed.
Lemma comma_stop_word : forall w, comma_stop (TWord w) = false.
Proof. reflexivity. Qed.
Ltac closes := repeat first [apply closed_app_true | apply closed_if | reflexivity | assumption
  | (apply closed_cons; [reflexivity|reflexivity|reflexivity|])].
Lemma plain_comma : forall d stop s, (forall t, comma_stop t = true -> stop t = true) -> plain_sql d stop s -> closed comma_stop 0 (frag d s) = true.
Proof. intros d stop s H P. apply plain_closed in P. eapply closed_weaken; [exact H|exact P]. Qed.
Lemma comma_in_clause : forall t, comma_stop t = true -> clause_stop t = true.
Proof. intros t H. unfold clause_stop. change (sym "," t) with (comma_stop t). rewrite H. apply orb_true_r. Qed.
Lemma comma_in_rule : forall t, comma_stop t = true -> rule_stop t = true.
Proof. intros t H. unfold rule_stop. change (sym "," t) with (comma_stop t). rewrite H. apply orb_true_r. Qed.
Lemma closed_paren : forall stop a, closed no_stop 0 a = true -> stop lp = false -> closed stop 0 (lp :: a ++ [rp]) = true.
Proof. intros stop a A L. change (lp :: a ++ [rp]) with (lp :: a ++ rp :: []). now apply closed_group. Qed.
Lemma closed_name : forall d stop n r, (forall t, stop t = true -> t = comma) -> closed stop 0 r = true -> closed stop 0 (name_tok d n :: r) = true.
Proof. intros d stop n r H R. apply closed_cons; [now apply name_tok_stop|apply name_tok_sym|apply name_tok_sym|exact R]. Qed.
Lemma comma_stop_comma : forall t, comma_stop t = true -> t = comma.
Proof. intros t H. now apply sym_true. Qed.
Lemma closed_generated : forall d l, column_ok d l -> closed comma_stop 0 (generated_toks d l) = true.
Proof.
  intros d l OK. unfold generated_toks, auto_toks. destruct (l_autoincrement l); [destruct d; reflexivity|].
  destruct (ok_identity _ _ OK) as [E|[E|[E|[]]]]; rewrite <- E; cbn [is_empty negb].
  - destruct (l_generated l) as [|a g] eqn:G; [reflexivity|]. cbn [is_empty negb]. rewrite <- G. cbn [app]. do 3 (apply closed_cons; [reflexivity..|]).
    change (lp :: frag d (l_generated l) ++ rp :: ?r) with (lp :: frag d (l_generated l) ++ rp :: r). apply closed_group; [apply plain_closed, (ok_generated _ _ OK)|now destruct (l_stored l)|reflexivity].
  - destruct d; vm_compute; reflexivity.
  - destruct d; vm_compute; reflexivity.
Qed.
Lemma closed_column : forall d l, column_ok d l -> closed comma_stop 0 (column_element d l) = true.
Proof.
  intros d l OK. pose proof (closed_generated d l OK) as G. destruct OK as [ON OT OD OG OI OC]. unfold column_element. apply closed_name; [apply comma_stop_comma|].
  apply closed_app_true; [now apply (plain_comma d clause_stop _ comma_in_clause)|]. unfold column_clauses.
  pose proof (plain_comma d clause_stop _ comma_in_clause OD) as D.
  repeat apply closed_app_true; try assumption; try apply closed_if; try reflexivity.
  - now apply closed_cons.
  - apply closed_cons; try reflexivity. unfold collate_tok. destruct (is_postgres d); reflexivity.
Qed.
Lemma closed_words_in : forall ns, closed comma_stop 0 (words_in ns) = true.
Proof. intros ns. unfold words_in. apply closed_paren; [apply closed_words|reflexivity]. Qed.
Lemma closed_con : forall d k, constraint_ok d k -> closed comma_stop 0 (con_toks d k) = true.
Proof.
  intros d k OK. unfold con_toks. apply closed_app_true.
  2:{ unfold deferrable_toks. destruct (c_deferrable k), (c_deferred k); reflexivity. }
  destruct OK as [ON OTY OCH OCO ORS ORT ORC [OM OM2] OU OD OME OEX OP]. unfold def_toks.
  pose proof (plain_comma d rule_stop _ comma_in_rule OM). pose proof (plain_comma d rule_stop _ comma_in_rule OU). pose proof (plain_comma d rule_stop _ comma_in_rule OD).
  destruct (beqb (c_type k) CHECK). { cbn [app]. apply closed_cons; [reflexivity..|]. apply closed_paren; [now apply plain_closed|reflexivity]. }
  destruct (beqb (c_type k) FOREIGN_KEY).
  { repeat apply closed_app_true; try apply closed_if; try reflexivity; try apply closed_words_in; try assumption; cbn [app]; repeat (apply closed_cons; [reflexivity..|]); assumption. }
  destruct (beqb (c_type k) EXCLUDE) eqn:EX.
  { apply beqb_eq in EX. specialize (OEX EX). apply closed_app_true; [repeat (apply closed_cons; [reflexivity..|]); reflexivity|]. cbn [app].
    apply closed_group; [|apply closed_if; [cbn [app]; apply closed_cons; [reflexivity..|]; apply closed_paren; [now apply plain_closed|reflexivity]|reflexivity]|reflexivity].
    apply closed_commas. apply Forall_forall. intros e H2. apply in_map_iff in H2. destruct H2 as (i & <- & H2). apply in_seq in H2. destruct (OEX i ltac:(lia)).
    apply (no_stop_weaken comma_stop). now apply closed_exclusion. }
  apply closed_app_true; [apply closed_if; reflexivity|apply closed_words_in].
Qed.
Lemma closed_con_element : forall d k, constraint_ok d k -> closed comma_stop 0 (con_element d k) = true.
Proof.
  intros d k OK. unfold con_element. apply closed_app_true; [|now apply closed_con]. apply closed_if; [reflexivity|].
  apply closed_cons; [reflexivity..|]. apply closed_name; [apply comma_stop_comma|reflexivity].
Qed.
Lemma closed_index : forall d c, index_ok d (ci_index c) -> x_predicate (ci_index c) = [] -> closed comma_stop 0 (index_toks d c) = true.
Proof.
  intros d c OK NP. unfold index_toks. rewrite NP. cbn [is_empty negb].
  assert (U : closed comma_stop 0 (using_toks c) = true) by (unfold using_toks; destruct (method_of _); reflexivity).
  assert (Q : forall s n, closed comma_stop 0 (qual_toks d s n) = true).
  { intros s n. apply closed_qual; [|intros; apply name_tok_stop, comma_stop_comma]. intros t T. apply sym_true in T. now subst. }
  assert (N : forall n, closed comma_stop 0 [name_tok d n] = true) by (intros n; apply closed_name; [apply comma_stop_comma|reflexivity]).
  set (P := commas (map (part_toks d c) _)).
  assert (PC : closed no_stop 0 P = true).
  { unfold P. apply closed_commas. eapply Forall_impl; [|exact (parts_closed d c OK)]. intros e [_ C]. now apply (no_stop_weaken comma_stop). }
  apply closed_app_true; [apply closed_if; [reflexivity|apply closed_if; reflexivity]|].
  apply closed_app_true; [reflexivity|]. apply closed_app_true; [apply closed_if; reflexivity|]. apply closed_app_true; [apply closed_if; reflexivity|].
  apply closed_app_true; [apply N|]. apply closed_app_true; [apply closed_if; [exact U|reflexivity]|].
  apply closed_app_true; [apply closed_if; [reflexivity|]; cbn [app]; apply closed_cons; [reflexivity..|]; apply Q|].
  apply closed_app_true; [apply closed_if; [exact U|reflexivity]|]. cbn [app]. apply closed_group; [exact PC| |reflexivity].
  apply closed_app_true; [|reflexivity]. apply closed_if; [|reflexivity]. cbn [app]. apply closed_cons; [reflexivity..|]. apply closed_paren; [apply closed_names|reflexivity].
Qed.

Lemma read_plain_column : forall d l, column_ok d l -> column_supported d l -> read_column (column_element d l) = Some (said_column d l [] None).
Proof.
  intros d l OK (AU & _). unfold column_element. rewrite <- (app_nil_r (column_clauses d l)). apply column_reads; [exact OK|exact AU|exact I|].
  intros [n ty nn df pk au ge ou co ch re] C R. cbn in C, R. subst. cbn. apply reads_nil.
Qed.
Lemma prefix_reads : forall d k r (nm : option bytes), constraint_ok d k -> follows r ->
  read_constraint_prefix (match nm with Some n => [W "CONSTRAINT"; name_tok d n] | None => [] end ++ con_toks d k ++ r) = Some (mk_table_con nm (said_def d k) (said_deferrable k), r).
Proof.
  intros d k r nm OK FO. unfold read_constraint_prefix. pose proof (def_reads d k r OK FO) as DR. cbn zeta in DR. unfold con_toks. rewrite <- app_assoc.
  destruct nm as [n|].
  - cbn [app]. change (words ["CONSTRAINT"]%string (W "CONSTRAINT" :: ?x)) with (Some x). cbn match. rewrite read_name_tok, DR.
    rewrite read_deferrable_toks by exact FO. reflexivity.
  - cbn [app]. assert (NC : words ["CONSTRAINT"]%string (def_toks d k ++ deferrable_toks (c_deferrable k) (c_deferred k) ++ r) = None).
    { destruct (okc_type _ _ OK) as [E|[E|[E|[E|[E|[]]]]]]; unfold def_toks; rewrite <- E; reflexivity. }
    rewrite NC, DR, read_deferrable_toks by exact FO. reflexivity.
Qed.
Lemma read_con_element : forall d k, constraint_ok d k -> read_constraint (con_element d k) = Some (said_constraint d k).
Proof.
  intros d k OK. unfold read_constraint, con_element, said_constraint.
  pose proof (prefix_reads d k [] (if is_empty (c_name k) || (is_mysql d && beqb (c_type k) PRIMARY_KEY) then None else Some (c_name k)) OK (or_introl eq_refl)) as P.
  rewrite app_nil_r in P. destruct (_ || _); now rewrite P.
Qed.
Lemma read_element_column : forall d l, column_ok d l -> column_supported d l -> (is_bare (l_name l) = true -> element_word (TWord (l_name l)) = false) ->
  read_element (column_element d l) = Some (EColumn (said_column d l [] None)).
Proof.
  intros d l OK SU NE. assert (E : element_word (name_tok d (l_name l)) = false).
  { rewrite <- (name_token_tok d). unfold name_token. destruct (is_bare (l_name l)) eqn:B0; [now apply NE|reflexivity]. }
  unfold read_element. unfold column_element at 1. rewrite E. unfold element_word in E. rewrite !orb_false_iff in E. decompose [and] E.
  repeat match goal with H : kw _ _ = false |- _ => rewrite H; clear H end. cbn [orb andb]. now rewrite read_plain_column.
Qed.
Lemma read_element_con : forall d k, constraint_ok d k -> read_element (con_element d k) = Some (EConstraint (said_constraint d k)).
Proof.
  intros d k OK. pose proof (read_con_element d k OK) as R. unfold read_element. destruct (con_element d k) as [|t r] eqn:E.
  { exfalso. revert E. unfold con_element, con_toks, def_toks. destruct (_ || _); [|discriminate]. destruct (okc_type _ _ OK) as [T|[T|[T|[T|[T|[]]]]]]; rewrite <- T; discriminate. }
  assert (K : kw "INDEX" t || kw "FULLTEXT" t || kw "SPATIAL" t || (kw "UNIQUE" t && match r with t2 :: _ => kw "INDEX" t2 | [] => false end) = false /\ element_word t = true).
  { revert E. unfold con_element, con_toks, def_toks. destruct (_ || _).
    - destruct (okc_type _ _ OK) as [T|[T|[T|[T|[T|[]]]]]]; rewrite <- T; intros E; injection E as <- <-; split; reflexivity.
    - intros E. injection E as <- <-. split; reflexivity. }
  destruct K as [K1 K2]. now rewrite K1, K2, R.
Qed.
Lemma read_element_index : forall d c, is_mysql d = true -> index_ok d (ci_index c) -> index_supported d c -> read_element (index_toks d c) = Some (EIndex (said_index d c)).
Proof.
  intros d c MY OK SU. pose proof (index_reads d c OK SU) as R. unfold read_element. destruct (index_toks d c) as [|t r] eqn:E.
  { exfalso. revert E. unfold index_toks. destruct (is_mysql d && _), (x_unique (ci_index c)); discriminate. }
  assert (K : kw "INDEX" t || kw "FULLTEXT" t || kw "SPATIAL" t || (kw "UNIQUE" t && match r with t2 :: _ => kw "INDEX" t2 | [] => false end) = true).
  { revert E. unfold index_toks. destruct (is_mysql d && special_type (x_type (ci_index c))) eqn:SP.
    - intros E. injection E as <- <-. apply andb_true_iff in SP. destruct SP as [_ SP]. pose proof (kw_special c SP) as KS.
      apply orb_true_iff in KS. destruct KS as [-> | ->]; rewrite ?orb_true_r; reflexivity.
    - destruct (x_unique (ci_index c)); intros E; injection E as <- <-; reflexivity. }
  now rewrite K, R.
Qed.
Lemma create_table_reads : forall d c, create_table_ok d c -> create_table_supported d c -> t_virtual (ct_table c) = [] ->
  read_create_table (create_table_toks d c) = Some (said_table d c).
Proof.
  intros d c OK (S1 & S2 & S3 & S4 & S5 & S6 & S7) VI. unfold read_create_table, create_table_toks.
  change (words ["CREATE"; "TABLE"]%string ([W "CREATE"; W "TABLE"] ++ ?x)) with (Some x). cbn match.
  set (rest := [lp] ++ commas (table_elements d c) ++ [rp]).
  assert (IFE : forall F : bool -> list tok -> option table_def, (let (ine, r) := option_words ["IF"; "NOT"; "EXISTS"]%string
     ((if ct_if_not_exists c then [W "IF"; W "NOT"; W "EXISTS"] else []) ++ qual_toks d (t_schema (ct_table c)) (t_name (ct_table c)) ++ rest) in F ine r)
     = F (ct_if_not_exists c) (qual_toks d (t_schema (ct_table c)) (t_name (ct_table c)) ++ rest)).
  { intros F. destruct (ct_if_not_exists c); [reflexivity|]. cbn [app]. unfold option_words.
    assert (N : words ["IF"; "NOT"; "EXISTS"]%string (qual_toks d (t_schema (ct_table c)) (t_name (ct_table c)) ++ rest) = None).
    { unfold qual_toks, rest. destruct (is_empty _); cbn [app words]; destruct (kw "IF" _); reflexivity. }
    now rewrite N. }
  rewrite IFE. rewrite read_qual_toks by reflexivity. unfold rest. cbn [app].
  assert (EL : Forall (fun e => e <> [] /\ closed comma_stop 0 e = true) (table_elements d c)).
  { unfold table_elements. rewrite !Forall_app. repeat split; apply Forall_forall; intros e H; apply in_map_iff in H; destruct H as (y & <- & H).
    - split; [discriminate|apply closed_column, (okt_columns _ _ OK), H].
    - split; [|apply closed_con_element, (okt_constraints _ _ OK), H]. pose proof (read_element_con d y (okt_constraints _ _ OK _ H)) as R. intros Z. rewrite Z in R. discriminate.
    - pose proof (S7 _ H) as SU. assert (MY : d = DMySQL) by (apply S6; intros Z; unfold alive in H; rewrite Z in H; destruct H).
      pose proof (okt_indexes _ _ OK _ H) as OX. split.
      + pose proof (read_element_index d y ltac:(now subst) OX SU) as R. intros Z. rewrite Z in R. discriminate.
      + apply closed_index; [exact OX|]. destruct SU as (_ & _ & _ & SP & _). destruct (x_predicate (ci_index y)); [reflexivity|].
        assert (NN : a :: b <> []) by discriminate. destruct (SP NN); subst; discriminate. }
  rewrite (read_group_closed no_stop).
  2:{ apply closed_commas. eapply Forall_impl; [|exact EL]. intros e [_ C]. now apply (no_stop_weaken comma_stop). }
  rewrite elements_commas by exact EL. unfold table_elements.
  erewrite read_all_app; [| |erewrite read_all_app; [reflexivity| |]].
  - reflexivity.
  - apply (read_all_map _ _ _ _ (fun l => EColumn (said_column d l [] None))). apply Forall_forall. intros l L. apply read_element_column; [now apply (okt_columns _ _ OK)|now apply S4|now apply (okt_columns _ _ OK)].
  - apply (read_all_map _ _ _ _ (fun k => EConstraint (said_constraint d k))). apply Forall_forall. intros k K. apply read_element_con. now apply (okt_constraints _ _ OK).
  - apply (read_all_map _ _ _ _ (fun i => EIndex (said_index d i))). apply Forall_forall. intros i H. assert (MY : d = DMySQL) by (apply S6; intros Z; unfold alive in H; rewrite Z in H; destruct H).
    apply read_element_index; [now subst|now apply (okt_indexes _ _ OK)|now apply S7].
Qed.
