(** * ScriptPf2: the WHERE clauses against the filter (C63) *)
From Coq Require Import Lia.
From Verif Require Import GoBase GoBaseFacts QuoteModel SpecLex QuoteFacts TemplateModel ScriptText SpecScript ScriptLex ScriptPf.

Lemma toks_eqb_eq a : forall b, toks_eqb a b = true -> a = b.
Proof. induction a as [|x a IH]; intros [|y b] H; try discriminate; [reflexivity|]. cbn [toks_eqb] in H. apply andb_true_iff in H. destruct H as (H1 & H2). apply tok_eqb_eq in H1. subst y. f_equal. now apply IH. Qed.
Lemma conds_eqb_eq a : forall b, conds_eqb a b = true -> a = b.
Proof. induction a as [|x a IH]; intros [|y b] H; try discriminate; [reflexivity|]. cbn [conds_eqb] in H. apply andb_true_iff in H. destruct H as (H1 & H2). apply toks_eqb_eq in H1. subst y. f_equal. now apply IH. Qed.
Lemma fill_none f l : forallb (fun t => negb (is_hole t)) l = true -> flat_map (fill f) l = l.
Proof. induction l as [|t l IH]; intros H; [reflexivity|]. cbn [forallb flat_map] in *. apply andb_true_iff in H. destruct H as (H1 & H2). apply negb_true_iff in H1. rewrite (fill_plain f t H1), (IH H2). reflexivity. Qed.
Lemma collapse_plain d l : Forall (plain_name d) l -> map (collapse "'") l = l.
Proof. intros H. induction H as [|x l (Hx & _) _ IH]; [reflexivity|]. cbn [map]. rewrite IH. f_equal. now apply collapse_id_iff. Qed.

(** ** No empty IN *)
Definition not_close (t : tok) : bool := negb (tok_eqb t CLOSE).
Lemma no_close_no_empty l : forallb not_close l = true -> has_empty_in l = false.
Proof.
  induction l as [|a l IH]; intros H; [reflexivity|]. cbn [forallb] in H. apply andb_true_iff in H. destruct H as (H1 & H2). destruct l as [|b [|c l]]; [reflexivity|reflexivity|].
  cbn [has_empty_in]. pose proof H2 as H3. cbn [forallb] in H3. apply andb_true_iff in H3. destruct H3 as (_ & H3). apply andb_true_iff in H3. destruct H3 as (H3 & _). unfold not_close in H3. apply negb_true_iff in H3. rewrite H3, andb_false_r. cbn [orb]. exact (IH H2).
Qed.
Lemma end_close_no_empty l t : forallb not_close l = true -> tok_eqb t OPEN = false -> not_close t = true -> has_empty_in (l ++ [t; CLOSE]) = false.
Proof.
  intros H To Tc. induction l as [|a l IH]; [reflexivity|]. cbn [forallb] in H. apply andb_true_iff in H. destruct H as (H1 & H2). specialize (IH H2).
  destruct l as [|b [|c l]]; cbn [app] in *.
  - cbn [has_empty_in]. now rewrite To, andb_false_r.
  - cbn [has_empty_in] in *. unfold not_close in Tc. apply negb_true_iff in Tc. rewrite Tc, andb_false_r. exact IH.
  - cbn [forallb] in H2. apply andb_true_iff in H2. destruct H2 as (_ & H2). apply andb_true_iff in H2. destruct H2 as (H2 & _). unfold not_close in H2. apply negb_true_iff in H2.
    change (has_empty_in (a :: b :: c :: l ++ [t; CLOSE])) with ((tok_eqb a (TWord (B "IN")) && tok_eqb b OPEN && tok_eqb c CLOSE) || has_empty_in (b :: c :: l ++ [t; CLOSE])). rewrite H2, andb_false_r. exact IH.
Qed.
Lemma in_cond_proper pre l : forallb not_close pre = true -> l <> [] -> has_empty_in (pre ++ in_cond l) = false.
Proof.
  intros P N. destruct l as [|v l]; [congruence|]. unfold in_cond. rewrite value_tokens_split. change (TWord (B "IN") :: OPEN :: ?x) with ([TWord (B "IN"); OPEN] ++ x). rewrite <- app_assoc. cbn [app]. 
  change (TWord (B "IN") :: OPEN :: ?x ++ [TStr ?y; CLOSE]) with ((TWord (B "IN") :: OPEN :: x) ++ [TStr y; CLOSE]). rewrite app_assoc. apply end_close_no_empty; [|reflexivity|reflexivity].
  rewrite forallb_app, P. cbn [forallb]. change (not_close (TWord (B "IN"))) with true. change (not_close OPEN) with true. cbn [andb].
  assert (V : forallb not_close (value_tokens (v :: l)) = true).
  { pose proof (value_neutral (v :: l)) as V. rewrite forallb_forall in *. intros x Hx. destruct (neutral_inv x (V x Hx)) as (_ & C & _). unfold not_close. now rewrite C. }
  rewrite value_tokens_split, forallb_app in V. apply andb_true_iff in V. apply V.
Qed.

Section Place.
  Context (d : dialect) (f : filter) (p : list bytes * bytes) (r : row).
  Context (Hd : d = DSQLite \/ d = DPostgres \/ d = DMySQL) (Pf : plain_filter d f) (Cc : cols_check d (Some p) = true).
  Let cols := columns_at d p r.
  Let says_true (c : list tok) : bool := match holds d cols (flat_map (fill f) c) with Some b => b | None => true end.
  Let good (c : list tok) : Prop := flat_map (fill f) c <> [] /\ has_empty_in (flat_map (fill f) c) = false.
  Definition col_ok (col : list tok) (v : bytes) : Prop :=
    finds cols col v /\ flat_map (fill f) col = col /\ forallb not_close col = true /\ col <> [].
  Lemma filled_app a b : flat_map (fill f) (a ++ b) = flat_map (fill f) a ++ flat_map (fill f) b.
  Proof. apply flat_map_app. Qed.
  Lemma when_list neg col v field l : col_ok col v -> list_field f field = l -> Forall (plain_name d) l ->
    forallb says_true (when (negb (is_nil (mark l))) (in_list neg col field)) = match l with [] => true | _ => xorb neg (among v l) end /\
    Forall good (when (negb (is_nil (mark l))) (in_list neg col field)).
  Proof.
    intros (F & Ho & Nc & Ne) L P. destruct l as [|x l]; [split; [reflexivity|constructor]|]. cbn [mark is_nil negb when].
    assert (E : flat_map (fill f) (in_list neg col field) = col ++ (if neg then not_in_cond (x :: l) else in_cond (x :: l))).
    { unfold in_list. rewrite !filled_app, Ho. f_equal. destruct neg; cbn [flat_map app]; rewrite fill_hole, L, (collapse_plain d _ P); reflexivity. }
    assert (N : x :: l <> []) by discriminate. unfold says_true, good. cbn [forallb]. rewrite E. split.
    - rewrite andb_true_r. destruct neg; rewrite (holds_finds d cols col v _ _ F (says_not_in d v _ N)) || rewrite (holds_finds d cols col v _ _ F (says_in d v _ N)); now destruct (among v (x :: l)).
    - constructor; [|constructor]. rewrite E. split; [destruct col; [congruence|discriminate]|]. destruct neg.
      + unfold not_in_cond. change (TWord (B "NOT") :: in_cond (x :: l)) with ([TWord (B "NOT")] ++ in_cond (x :: l)). rewrite app_assoc. apply in_cond_proper; [|exact N]. rewrite forallb_app, Nc. reflexivity.
      + now apply in_cond_proper.
  Qed.
  Lemma static_ok col v c b : col_ok col v -> flat_map (fill f) c = c -> says_of d v c = Some b -> has_empty_in (col ++ c) = false -> says_true (col ++ c) = b /\ good (col ++ c).
  Proof.
    intros (F & Ho & Nc & Ne) E S He. unfold says_true, good. rewrite filled_app, Ho, E. split; [now rewrite (holds_finds d cols col v c b F S)|]. split; [destruct col; [congruence|discriminate]|exact He].
  Qed.
  Lemma parts_ok c : c = name_col p \/ c = schema_col p \/ c = system_col p -> flat_map (fill f) c = c /\ forallb not_close c = true.
  Proof.
    intros H. assert (X : forallb (fun t => negb (is_hole t) && negb (tok_eqb t CLOSE)) c = true).
    { cbn [cols_check] in Cc. apply andb_true_iff in Cc. destruct Cc as (_ & C). rewrite !forallb_app in C. apply andb_true_iff in C. destruct C as (C1 & C2). apply andb_true_iff in C2. destruct C2 as (C2 & C3). destruct H as [H|[H|H]]; rewrite H; assumption. }
    split; [apply fill_none|]; rewrite forallb_forall in *; intros t Ht; specialize (X t Ht); apply andb_true_iff in X; apply X.
  Qed.
  Lemma clash_nonempty a b : clash a b = true -> a <> [] /\ b <> [].
  Proof. destruct a, b; try discriminate; intros _; split; discriminate. Qed.
  Lemma name_ok : col_ok (name_col p) (r_name r).
  Proof.
    destruct (parts_ok (name_col p)) as (A & C); [now left|]. unfold col_ok. split; [|split; [exact A|split; [exact C|]]].
    - unfold cols, columns_at. destruct d; cbn [finds]; left; split; reflexivity.
    - cbn [cols_check] in Cc. apply andb_true_iff in Cc. destruct Cc as (K & _). destruct Hd as [E|[E|E]]; rewrite E in K; cbv iota in K.
      + apply (clash_nonempty _ _ K).
      + apply andb_true_iff in K. destruct K as (K & _). apply andb_true_iff in K. destruct K as (K & _). apply andb_true_iff in K. destruct K as (K & _). apply (clash_nonempty _ _ K).
      + apply andb_true_iff in K. destruct K as (K & _). apply andb_true_iff in K. destruct K as (K & _). apply andb_true_iff in K. destruct K as (K & _). apply (clash_nonempty _ _ K).
  Qed.
  Lemma schemas_ok : d <> DSQLite -> col_ok (schema_col p) (r_schema r) /\ col_ok (system_col p) (r_schema r).
  Proof.
    intros Nd. assert (K : clash (name_col p) (schema_col p) = true /\ clash (name_col p) (system_col p) = true /\ (toks_eqb (schema_col p) (system_col p) = true \/ clash (schema_col p) (system_col p) = true) /\ match fst p with [_] => true | [_; _] => true | _ => false end = true).
    { cbn [cols_check] in Cc. apply andb_true_iff in Cc. destruct Cc as (K & _). destruct Hd as [E|[E|E]]; [congruence| |]; rewrite E in K; cbv iota in K; rewrite !andb_true_iff, orb_true_iff in K; destruct K as (((K1 & K2) & K3) & K4); auto. }
    destruct K as (K1 & K2 & K3 & K4).
    assert (Ec : cols = (name_col p, r_name r) :: map (fun c => (lex false c, r_schema r)) (fst p)) by (unfold cols, columns_at; destruct Hd as [E|[E|E]]; [congruence| |]; rewrite E; reflexivity).
    split.
    - destruct (parts_ok (schema_col p)) as (A & C); [now right; left|]. unfold col_ok. split; [|split; [exact A|split; [exact C|apply (clash_nonempty _ _ K1)]]].
      rewrite Ec. cbn [finds]. right. split; [exact K1|]. unfold schema_col. destruct (fst p) as [|a l]; [discriminate|]. cbn [map finds hd]. now left.
    - destruct (parts_ok (system_col p)) as (A & C); [now right; right|]. unfold col_ok. split; [|split; [exact A|split; [exact C|apply (clash_nonempty _ _ K2)]]].
      rewrite Ec. cbn [finds]. right. split; [exact K2|]. unfold schema_col, system_col in *. destruct (fst p) as [|a [|b [|c l]]]; try discriminate; cbn [map finds hd last] in *; [now left|].
      destruct K3 as [K3|K3]; [left; split; [now apply toks_eqb_eq|reflexivity]|right; split; [exact K3|now left]].
  Qed.
  Lemma sql_ok : d = DSQLite -> col_ok (lex false (B "sql")) (r_sql r).
  Proof.
    intros E. assert (K : clash (name_col p) (lex false (B "sql")) = true) by (cbn [cols_check] in Cc; apply andb_true_iff in Cc; destruct Cc as (K & _); rewrite E in K; exact K).
    unfold col_ok. split; [|split; [reflexivity|split; [reflexivity|discriminate]]]. unfold cols, columns_at. rewrite E. cbn [finds]. right. split; [exact K|]. now left.
  Qed.
  Lemma plain_field l : In l (lists_of f) -> Forall (plain_name d) l.
  Proof. intros H. unfold plain_filter in Pf. rewrite Forall_forall in Pf. exact (Pf l H). Qed.
  (** ** The conditions on system objects *)
  Lemma system_says : forallb says_true (wanted_system d p) = negb (system_object d r) /\ Forall good (wanted_system d p).
  Proof.
    destruct Hd as [E|[E|E]].
    - assert (X1 := static_ok (name_col p) (r_name r) (not_like_cond (B "sqlite_%")) _ name_ok eq_refl eq_refl).
      assert (X2 := static_ok (lex false (B "sql")) (r_sql r) (not_like_cond (B "CREATE TABLE '%")) _ (sql_ok E) eq_refl eq_refl).
      destruct X1 as (T1 & G1). { apply no_close_no_empty. rewrite forallb_app. destruct name_ok as (_ & _ & C & _). rewrite C. reflexivity. }
      destruct X2 as (T2 & G2). { reflexivity. }
      rewrite E in *. unfold wanted_system. split; [|constructor; [exact G1|constructor; [exact G2|constructor]]]. cbn [forallb]. rewrite T1, T2. unfold system_object. cbn [like_fold].
      change (B "sqlite_%") with (B "sqlite" ++ B "_%"). change (B "CREATE TABLE '%") with (B "CREATE TABLE '" ++ B "%"). rewrite like_prefix_one, like_prefix_any by reflexivity.
      rewrite (starts_fold_lower (B "CREATE TABLE '") (B "create table '") eq_refl). change (length (B "sqlite")) with 6. rewrite andb_true_r. now rewrite negb_orb.
    - assert (Nd : d <> DSQLite) by congruence. destruct (schemas_ok Nd) as (_ & S).
      assert (X1 := static_ok (system_col p) (r_schema r) (other_cond (B "information_schema")) _ S eq_refl eq_refl).
      assert (X2 := static_ok (system_col p) (r_schema r) (not_like_cond (B "pg_%")) _ S eq_refl eq_refl).
      destruct X1 as (T1 & G1). { apply no_close_no_empty. rewrite forallb_app. destruct S as (_ & _ & C & _). rewrite C. reflexivity. }
      destruct X2 as (T2 & G2). { apply no_close_no_empty. rewrite forallb_app. destruct S as (_ & _ & C & _). rewrite C. reflexivity. }
      rewrite E in *. unfold wanted_system. split; [|constructor; [exact G1|constructor; [exact G2|constructor]]]. cbn [forallb]. rewrite T1, T2. unfold system_object. cbn [like_fold].
      change (B "pg_%") with (B "pg" ++ B "_%"). rewrite like_prefix_one by reflexivity. change (length (B "pg")) with 2. rewrite andb_true_r. now rewrite negb_orb.
    - assert (Nd : d <> DSQLite) by congruence. destruct (schemas_ok Nd) as (_ & S).
      assert (X1 := static_ok (system_col p) (r_schema r) (not_in_cond [B "mysql"; B "information_schema"; B "performance_schema"; B "sys"]) _ S eq_refl eq_refl).
      destruct X1 as (T1 & G1). { unfold not_in_cond. change (TWord (B "NOT") :: in_cond ?l) with ([TWord (B "NOT")] ++ in_cond l). rewrite app_assoc. apply in_cond_proper; [|discriminate]. destruct S as (_ & _ & C & _). rewrite forallb_app, C. reflexivity. }
      rewrite E in *. unfold wanted_system. split; [|constructor; [exact G1|constructor]]. cbn [forallb]. rewrite T1, andb_true_r. reflexivity.
  Qed.
  Lemma pair_says with_ without fw fo col v : col_ok col v -> list_field f fw = with_ -> list_field f fo = without -> In with_ (lists_of f) -> In without (lists_of f) ->
    forallb says_true (when (negb (is_nil (mark with_))) (in_list false col fw) ++ when (negb (is_nil (mark without))) (in_list true col fo)) = allowed with_ without v /\
    Forall good (when (negb (is_nil (mark with_))) (in_list false col fw) ++ when (negb (is_nil (mark without))) (in_list true col fo)).
  Proof.
    intros C Lw Lo Iw Io. destruct (when_list false col v fw with_ C Lw (plain_field _ Iw)) as (A1 & A2). destruct (when_list true col v fo without C Lo (plain_field _ Io)) as (B1 & B2).
    split; [|apply Forall_app; split; assumption]. rewrite forallb_app, A1, B1. unfold allowed. f_equal; [destruct with_; [reflexivity|now destruct (among v (b :: with_))]|destruct without; [reflexivity|now destruct (among v (b :: without))]].
  Qed.
  Lemma wanted_says k : forallb says_true (wanted d k (shape f) p) = keeps d k f r /\ Forall good (wanted d k (shape f) p).
  Proof.
    assert (W0 : forallb says_true (if f_system f then [] else wanted_system d p) = f_system f || negb (system_object d r) /\ Forall good (if f_system f then [] else wanted_system d p)).
    { destruct (f_system f); [split; [reflexivity|constructor]|exact system_says]. }
    assert (W1 : d <> DSQLite -> forallb says_true (when (negb (is_nil (mark (f_with_schemas f)))) (in_list false (schema_col p) (B "WithSchemas")) ++ when (negb (is_nil (mark (f_without_schemas f)))) (in_list true (schema_col p) (B "WithoutSchemas"))) = allowed (f_with_schemas f) (f_without_schemas f) (r_schema r) /\ Forall good (when (negb (is_nil (mark (f_with_schemas f)))) (in_list false (schema_col p) (B "WithSchemas")) ++ when (negb (is_nil (mark (f_without_schemas f)))) (in_list true (schema_col p) (B "WithoutSchemas")))).
    { intros Nd. apply pair_says; [apply (schemas_ok Nd)|reflexivity|reflexivity|cbn; auto|cbn; auto]. }
    assert (W2 : forallb says_true (when (negb (is_nil (mark (f_with_tables f)))) (in_list false (name_col p) (B "WithTables")) ++ when (negb (is_nil (mark (f_without_tables f)))) (in_list true (name_col p) (B "WithoutTables"))) = allowed (f_with_tables f) (f_without_tables f) (r_name r) /\ Forall good (when (negb (is_nil (mark (f_with_tables f)))) (in_list false (name_col p) (B "WithTables")) ++ when (negb (is_nil (mark (f_without_tables f)))) (in_list true (name_col p) (B "WithoutTables")))).
    { apply pair_says; [exact name_ok|reflexivity|reflexivity|cbn; auto|cbn; auto 8]. }
    assert (W3 : forallb says_true (when (negb (is_nil (mark (f_with_functions f)))) (in_list false (name_col p) (B "WithFunctions")) ++ when (negb (is_nil (mark (f_without_functions f)))) (in_list true (name_col p) (B "WithoutFunctions"))) = allowed (f_with_functions f) (f_without_functions f) (r_name r) /\ Forall good (when (negb (is_nil (mark (f_with_functions f)))) (in_list false (name_col p) (B "WithFunctions")) ++ when (negb (is_nil (mark (f_without_functions f)))) (in_list true (name_col p) (B "WithoutFunctions")))).
    { apply pair_says; [exact name_ok|reflexivity|reflexivity|cbn; auto 8|cbn; auto 10]. }
    unfold wanted, wanted_lists, keeps. cbn [shape f_system f_with_schemas f_without_schemas f_with_tables f_without_tables f_with_functions f_without_functions].
    destruct W0 as (W0 & V0), W2 as (W2 & V2), W3 as (W3 & V3). rewrite forallb_app, W0. rewrite <- andb_assoc.
    destruct Hd as [E|[E|E]].
    - rewrite E. cbn [app]. split; [f_equal; destruct k; assumption|]. rewrite E in V0. apply Forall_app. split; [exact V0|destruct k; assumption].
    - destruct W1 as (W1 & V1); [congruence|]. rewrite E. split; [f_equal; rewrite (forallb_app says_true (_ ++ _)); f_equal; [exact W1|destruct k; assumption]|]. rewrite E in V0. apply Forall_app. split; [exact V0|]. apply Forall_app. split; [exact V1|destruct k; assumption].
    - destruct W1 as (W1 & V1); [congruence|]. rewrite E. split; [f_equal; rewrite (forallb_app says_true (_ ++ _)); f_equal; [exact W1|destruct k; assumption]|]. rewrite E in V0. apply Forall_app. split; [exact V0|]. apply Forall_app. split; [exact V1|destruct k; assumption].
  Qed.
  Lemma place_cols_of : map fst cols = place_cols d p.
  Proof. unfold cols, columns_at, place_cols. destruct d; cbn [map fst]; try reflexivity; rewrite map_map; reflexivity. Qed.
  Lemma base_says c : base_cond (place_cols d p) c = true -> says_true c = true /\ good c.
  Proof.
    unfold base_cond, plain_cond. rewrite !andb_true_iff. intros (((N & He) & Ho) & St). unfold says_true, good. rewrite (fill_none f c Ho). split; [|split; [destruct c; [discriminate|discriminate]|now apply negb_true_iff in He]].
    rewrite holds_none; [reflexivity|]. rewrite <- place_cols_of in St. rewrite forallb_forall in *. intros x Hx. apply (St (fst x)). now apply in_map.
  Qed.
  Lemma place_says k w : place_check d k (shape f) (Some p) w = true ->
    proper (flat_map (fill f) w) /\ admits d cols (flat_map (fill f) w) = keeps d k f r.
  Proof.
    intros H. cbn [place_check] in H. apply andb_true_iff in H. destruct H as (Hb & Hw). apply conds_eqb_eq in Hw. destruct (wanted_says k) as (W1 & W2). rewrite <- Hw in W1, W2. clear Hw.
    remember (length (conditions w) - length (wanted d k (shape f) p)) as n eqn:En. clear En.
    assert (G : Forall good (conditions w)).
    { rewrite <- (firstn_skipn n (conditions w)). apply Forall_app. split; [|exact W2]. rewrite Forall_forall. intros c Hc. rewrite forallb_forall in Hb. exact (proj2 (base_says c (Hb c Hc))). }
    assert (T : forallb says_true (conditions w) = keeps d k f r).
    { rewrite <- (firstn_skipn n (conditions w)), forallb_app, W1. replace (forallb says_true (firstn n (conditions w))) with true; [reflexivity|]. symmetry. rewrite forallb_forall in *. intros c Hc. exact (proj1 (base_says c (Hb c Hc))). }
    unfold proper, admits. rewrite where_conditions. split.
    - rewrite Forall_map. exact G.
    - rewrite <- T. clear. induction (conditions w) as [|c l IH]; [reflexivity|]. cbn [map forallb]. rewrite IH. reflexivity.
  Qed.
End Place.
(** A clause that does not select objects. *)
Lemma other_place f g d k w : place_check d k g None w = true -> proper (flat_map (fill f) w).
Proof.
  cbn [place_check]. intros H. unfold proper. rewrite where_conditions, Forall_map, Forall_forall. intros c Hc. rewrite forallb_forall in H. specialize (H c Hc). unfold plain_cond in H. rewrite !andb_true_iff in H. destruct H as ((N & He) & Ho).
  rewrite (fill_none f c Ho). split; [destruct c; [discriminate|discriminate]|now apply negb_true_iff in He].
Qed.
Lemma plain_silent d f : plain_filter d f -> filter_silent (backslashes d) f.
Proof.
  intros H. unfold filter_silent. eapply Forall_impl; [|exact H]. intros l Hl. eapply Forall_impl; [|exact Hl]. intros v (_ & Hv) Hb. destruct d; try discriminate Hb. now apply Hv.
Qed.
Definition selects (d : dialect) (k : object_kind) (f : filter) (p : option (list bytes * bytes)) (w : list tok) : Prop :=
  proper w /\ match p with Some p => forall r, admits d (columns_at d p r) w = keeps d k f r | None => True end.
Lemma places_say d k f ps : d = DSQLite \/ d = DPostgres \/ d = DMySQL -> plain_filter d f -> forallb (cols_check d) ps = true ->
  forall ws, places_check d k (shape f) ps ws = true -> Forall2 (selects d k f) ps (map (flat_map (fill f)) ws).
Proof.
  intros Hd Pf. induction ps as [|p ps IH]; intros Cc ws H; destruct ws as [|w ws]; try discriminate; [constructor|]. cbn [places_check forallb map] in *. apply andb_true_iff in H. destruct H as (H1 & H2). apply andb_true_iff in Cc. destruct Cc as (C1 & C2).
  constructor; [|now apply IH]. unfold selects. destruct p as [p|]; [|split; [now apply (other_place f (shape f) d k)|exact I]].
  split; [exact (proj1 (place_says d f p (mk_row [] [] []) Hd Pf C1 k w H1))|]. intros r. exact (proj2 (place_says d f p r Hd Pf C1 k w H1)).
Qed.
Lemma script_says s f : In s scripts -> plain_filter (s_dialect s) f -> excluded s f = false ->
  forall dflt, exists q, query_text dflt (Some f) (s_text s) = Some q /\
    Forall2 (selects (s_dialect s) (s_kind s) f) (s_places s) (wheres (lex (backslashes (s_dialect s)) q)).
Proof.
  intros Hs Pf Ex dflt. pose proof scripts_checked as C. rewrite forallb_forall in C. specialize (C s Hs). unfold script_check, template_of in C.
  destruct (parse_template (s_text s)) as [ns|] eqn:P; [|discriminate]. destruct (nodes_check _ _ ns) as [ks|] eqn:Nc; [|discriminate]. apply andb_true_iff in C. destruct C as (C & C3). apply andb_true_iff in C. destruct C as (C1 & C2).
  destruct (query_lexed _ f (s_text s) ns ks (plain_silent _ _ Pf) P Nc dflt) as (q & Q & L). exists q. split; [exact Q|]. rewrite L, (expand_sym f _ C1), wheres_fill.
  apply places_say; [|exact Pf|exact C2|].
  - clear -Hs. unfold scripts in Hs. cbn [In] in Hs. repeat (destruct Hs as [<-|Hs]; [cbn [s_dialect]; auto|]). destruct Hs.
  - rewrite forallb_forall in C3. specialize (C3 (shape f) (shapes_all f)). apply orb_true_iff in C3. destruct C3 as [C3|C3]; [|exact C3]. exfalso.
    unfold excluded in C3, Ex. cbn [shape f_without_tables f_system] in C3. destruct (f_without_tables f); cbn [mark is_nil negb] in *; congruence.
Qed.

(** ** Filters of the same shape *)
Definition like_tok (a b : tok) : Prop := a = b \/ exists v w, a = TStr v /\ b = TStr w.
Lemma like_refl ts : Forall2 like_tok ts ts.
Proof. induction ts; constructor; [now left|assumption]. Qed.
Lemma values_like a : forall b, length a = length b -> Forall2 like_tok (value_tokens a) (value_tokens b).
Proof.
  induction a as [|x a IH]; intros [|y b] H; try discriminate; [constructor|]. cbn [length] in H. assert (H1 : length a = length b) by congruence. specialize (IH b H1). destruct a as [|x2 a], b as [|y2 b]; try discriminate.
  - constructor; [right; now exists x, y|constructor].
  - change (value_tokens (x :: x2 :: a)) with (TStr x :: TSym "," :: value_tokens (x2 :: a)). change (value_tokens (y :: y2 :: b)) with (TStr y :: TSym "," :: value_tokens (y2 :: b)).
    constructor; [right; now exists x, y|]. constructor; [now left|exact IH].
Qed.
Definition same_lists (f g : filter) : Prop := Forall2 (fun a b => length a = length b) (lists_of f) (lists_of g).
Definition same_flags (f g : filter) : Prop := f_system f = f_system g /\ f_comments f = f_comments g /\ f_sort f = f_sort g.
Lemma mark_length {x y : list bytes} : length x = length y -> mark x = mark y.
Proof. destruct x, y; try discriminate; reflexivity. Qed.
Lemma same_shape f g : same_flags f g -> same_lists f g -> shape f = shape g.
Proof.
  intros (A & B0 & C) H. unfold same_lists, lists_of in H. unfold shape.
  repeat match goal with X : Forall2 _ (_ :: _) _ |- _ => inversion X; clear X; subst end.
  rewrite A, B0, C. f_equal; now apply mark_length.
Qed.
Lemma same_field f g n : same_lists f g -> length (list_field f n) = length (list_field g n).
Proof.
  intros H. unfold same_lists, lists_of in H. repeat match goal with X : Forall2 _ (_ :: _) _ |- _ => inversion X; clear X; subst end.
  unfold list_field, field_of. repeat (match goal with |- context [if beqb n ?x then _ else _] => destruct (beqb n x) end; [first [reflexivity|assumption]|]). reflexivity.
Qed.
Lemma fill_like f g ts : same_lists f g -> Forall2 like_tok (flat_map (fill f) ts) (flat_map (fill g) ts).
Proof.
  intros H. induction ts as [|t ts IH]; [constructor|]. cbn [flat_map]. apply Forall2_app; [|exact IH]. destruct (is_hole t) eqn:E; [|rewrite !fill_plain by exact E; apply like_refl].
  destruct t as [w|v|v|c|]; try discriminate. destruct v as [|c v]; [discriminate|]. unfold is_hole in E. assert (Ec : c = "."%char) by (destruct c as [[] [] [] [] [] [] [] []]; try discriminate E; reflexivity). subst c.
  apply values_like. rewrite !map_length. now apply same_field.
Qed.
Definition template_check (d : dialect) (s : bytes) : bool := match template_of d s with Some t => no_holes t | None => false end.
Lemma template_like d s f g : template_check d s = true -> filter_silent (backslashes d) f -> filter_silent (backslashes d) g -> same_flags f g -> same_lists f g ->
  forall dflt, exists q q', query_text dflt (Some f) s = Some q /\ query_text dflt (Some g) s = Some q' /\ Forall2 like_tok (lex (backslashes d) q) (lex (backslashes d) q').
Proof.
  unfold template_check, template_of. intros C Sf Sg F L dflt. destruct (parse_template s) as [ns|] eqn:P; [|discriminate]. destruct (nodes_check _ _ ns) as [ks|] eqn:Nc; [|discriminate].
  destruct (query_lexed _ f s ns ks Sf P Nc dflt) as (q & Q & Lq). destruct (query_lexed _ g s ns ks Sg P Nc dflt) as (q' & Q' & Lq'). exists q, q'. split; [exact Q|]. split; [exact Q'|].
  rewrite Lq, Lq', !expand_sym by exact C. rewrite (same_shape f g F L). now apply fill_like.
Qed.
