(** * LoadPf: one modifier after the other *)
From Coq Require Import Lia.
From Verif Require Import GoBase GoBaseFacts QuoteModel CacheModel SpecCache CacheFacts UpsertModel TokenModel NameModel DdlModel LoadModel SpecLoad LoadFacts.

Lemma one_final : forall names k v, final_named names [(k, v)] = if existsb (beqb k) names then Some (k, v) else None.
Proof. intros names k v. unfold final_named, named. cbn [filter fst]. now destruct (existsb (beqb k) names). Qed.
Lemma one_says : forall k k' v, says k [(k', v)] = beqb k' k.
Proof. intros. unfold says. cbn [existsb fst]. apply orb_false_r. Qed.
Lemma one_ignored : forall d k v, ignored_for d [(k, v)] = beqb k (B "ignore") && ignores d v.
Proof.
  intros d k v. unfold ignored_for, named, ignores. cbn [filter fst existsb]. rewrite orb_false_r.
  destruct (beqb k (B "ignore")); [|reflexivity]. cbn [existsb snd]. now rewrite orb_false_r.
Qed.
Ltac lits := repeat match goal with
  | |- context [beqb (B ?a) (B ?b)] =>
    let r := eval vm_compute in (beqb (B a) (B b)) in change (beqb (B a) (B b)) with r
  | H : context [beqb (B ?a) (B ?b)] |- _ =>
    let r := eval vm_compute in (beqb (B a) (B b)) in change (beqb (B a) (B b)) with r in H
  end.

(** ** Indexes *)
Lemma extend_index_cons : forall d m ms x, extend_index d (m :: ms) x = extend_index d ms (extend_index d [m] x).
Proof.
  intros d m ms x. unfold extend_index. cbn [x_schema x_table x_name x_type x_unique x_columns x_exprs x_include x_predicate x_sql x_comment x_ignore].
  rewrite (final_named_cons [B "using"]), (final_named_cons [B "include"]), value_or_cons, says_cons, ignored_cons, !orb_assoc.
  f_equal.
  - now destruct (final_named [B "using"] ms).
  - now destruct (final_named [B "include"] ms).
Qed.
Lemma extend_index_nil : forall d x, extend_index d [] x = x.
Proof. intros d [] . unfold extend_index. cbn. now rewrite !orb_false_r. Qed.
Definition index_words := [B "cols"; B "unique"; B "using"; B "where"; B "include"; B "ignore"].
Lemma index_modifier_spec : forall d tb x m,
  index_modifier d tb x m = if existsb (beqb (fst m)) index_words then LOk (extend_index d [m] x) else LErr.
Proof.
  intros d tb x [k v]. unfold index_modifier, extend_index, index_words, value_or. rewrite !one_final, !one_says, one_ignored. cbn [existsb fst].
  rewrite !orb_false_r.
  destruct x as [a1 a2 a3 a4 a5 a6 a7 a8 a9 a10 a11 a12].
  cbn [x_schema x_table x_name x_type x_unique x_columns x_exprs x_include x_predicate x_sql x_comment x_ignore apply_index_attr snd].
  destruct (beqb k (B "cols")) eqn:E1. { apply beqb_eq in E1. subst k. lits. cbn [orb andb]. now rewrite !orb_false_r. }
  destruct (beqb k (B "unique")) eqn:E2. { apply beqb_eq in E2. subst k. lits. cbn [orb andb]. now rewrite !orb_false_r, ?orb_true_r. }
  destruct (beqb k (B "using")) eqn:E3. { apply beqb_eq in E3. subst k. lits. cbn [orb andb]. now rewrite !orb_false_r, ?orb_true_r. }
  destruct (beqb k (B "where")) eqn:E4. { apply beqb_eq in E4. subst k. lits. cbn [orb andb]. now rewrite !orb_false_r, ?orb_true_r. }
  destruct (beqb k (B "include")) eqn:E5. { apply beqb_eq in E5. subst k. lits. cbn [orb andb]. now rewrite !orb_false_r, ?orb_true_r. }
  destruct (beqb k (B "ignore")) eqn:E6. { apply beqb_eq in E6. subst k. lits. cbn [orb andb]. rewrite !orb_false_r. unfold x_set_ignore. cbn. destruct (ignores d v); now rewrite ?orb_true_r, ?orb_false_r. }
  reflexivity.
Qed.
Lemma index_modifiers_ok : forall d tb ms x x', lfold (index_modifier d tb) ms x = LOk x' -> x' = extend_index d ms x.
Proof.
  induction ms as [|m ms IH]; intros x x' H; cbn [lfold] in H.
  - injection H as <-. symmetry. apply extend_index_nil.
  - apply lbind_ok in H. destruct H as (x1 & E & H). rewrite index_modifier_spec in E.
    destruct (existsb _ _); [|discriminate]. injection E as <-. rewrite extend_index_cons. now apply IH.
Qed.
Lemma existsb_in : forall k l, existsb (beqb k) l = true <-> In k l.
Proof.
  intros k l. rewrite existsb_exists. split.
  - intros (x & I & E). apply beqb_eq in E. now subst.
  - intros I. exists k. split; [exact I|]. now apply beqb_eq.
Qed.
Lemma index_modifiers_fine : forall d tb ms x, fine (lfold (index_modifier d tb) ms x) <-> Forall (fun m => In (fst m) index_words) ms.
Proof.
  intros d tb ms x. apply lfold_fine with (P := fun _ => True); [|easy|easy].
  intros s m _. rewrite index_modifier_spec, <- existsb_in. destruct (existsb _ _).
  - split; [easy|intros _; apply fine_ok].
  - split; [intros [? H]; discriminate|discriminate].
Qed.
Lemma config_columns_if : forall columns names,
  (if beqb names (B ".") || is_empty names then columns else split_byte "," names) = config_columns columns names.
Proof. reflexivity. Qed.
Lemma value_tokens_config : forall s r, value_tokens s = LOk r <-> config_of s = Some r.
Proof. intros s r. unfold config_of. destruct (value_tokens s); split; intros H; try discriminate; now injection H as <-. Qed.
Lemma fine_match_nil : forall A X (l : list X) (r : lexres A), fine (match l with [] => LErr | _ => r end) <-> l <> [] /\ fine r.
Proof. intros A X [|x l] r; split; [intros [? H]; discriminate|easy|intros H; split; [discriminate|exact H]|easy]. Qed.
Lemma fine_config : forall A config (f : bytes * list (bytes * bytes) -> lexres A) (P : bytes -> list (bytes * bytes) -> Prop),
  (forall value ms, fine (f (value, ms)) <-> P value ms) ->
  (fine (lbind (value_tokens config) f) <-> exists value ms, config_of config = Some (value, ms) /\ P value ms).
Proof.
  intros A config f P H. rewrite fine_bind. split.
  - intros ([value ms] & E & F). exists value, ms. split; [now apply value_tokens_config|now apply H].
  - intros (value & ms & E & F). exists (value, ms). split; [now apply value_tokens_config|now apply H].
Qed.
Lemma load_index_fine : forall d tb tname columns config s, fine (load_index d tb tname columns config s) <-> index_config_ok columns config.
Proof.
  intros d tb tname columns config s. unfold load_index, index_config_ok. apply fine_config. intros names ms.
  rewrite config_columns_if. rewrite fine_match_nil. apply and_iff_compat_l. cbv zeta. rewrite fine_then. apply store_fine.
  intros x _. rewrite fine_then. apply index_modifiers_fine.
Qed.
(** Success: the declared index is appended when its name is new. *)
Lemma load_index_ok : forall d tb columns config s s', load_index d tb (tb_name tb) columns config s = LOk s' ->
  appended x_name s s' (index_of d tb columns config).
Proof.
  intros d tb columns config s s' H. unfold load_index in H. apply lbind_ok in H. destruct H as ([names ms] & E & H).
  apply value_tokens_config in E. unfold index_of. rewrite E. rewrite config_columns_if in H.
  destruct (config_columns columns names) as [|c cs] eqn:C; [discriminate|]. cbv zeta in H. rewrite name_value in H.
  change INDEX with (B "INDEX") in H.
  apply lbind_ok in H. destruct H as ([s1 []] & H & K). injection K as <-. cbn [fst].
  apply store_appends in H. destruct H as (base & a & _ & Ea & H). apply lbind_ok in Ea. destruct Ea as (a' & Ea & K). injection K as <-.
  apply index_modifiers_ok in Ea. unfold appended. intros N.
  assert (A : ~ In (if is_empty (value_or [] (B "name") ms) then generate_name (B "INDEX") (tb_name tb) (c :: cs) else value_or [] (B "name") ms) (map x_name (objects s))).
  { rewrite map_app in N. apply NoDup_remove_2 in N. rewrite app_nil_r in N. unfold declared_index in N. rewrite C in N. exact N. }
  destruct (H A) as [-> H']. rewrite H'. f_equal. f_equal. rewrite Ea. unfold declared_index. rewrite C. reflexivity.
Qed.

(** ** Constraints *)
Lemma split_dots_target : forall value columns c, set_references value columns c =
  let '(s, t, cs) := ref_target columns value in
  let c' := c_references t cs c in match s with Some s => c_set_ref_schema s c' | None => c' end.
Proof.
  intros value columns c. unfold set_references, split_dots, ref_target. rewrite cut_index.
  destruct (index_byte "." value) as [i|]; [|reflexivity]. rewrite cut_index.
  destruct (index_byte "." (skipn (S i) value)) as [j|]; reflexivity.
Qed.
Lemma last_app : forall A (l l' : list A) x, last (l ++ l') x = last l' (last l x).
Proof.
  intros A l l' x. destruct l' as [|y l']; [now rewrite app_nil_r|]. revert x. induction l as [|z l IH]; intros x.
  - cbn [app]. revert y. induction l' as [|w l' IH]; intros y; [reflexivity|]. apply (IH w).
  - cbn [app]. change (last (z :: l ++ y :: l') x) with (match l ++ y :: l' with [] => z | _ => last (l ++ y :: l') x end).
    destruct l as [|w l]; [cbn [app]|]; [|cbn [app] in *; rewrite IH].
    + clear IH. revert y. induction l' as [|v l' IH]; intros y; [reflexivity|]. apply (IH v).
    + clear IH. revert y. induction l' as [|v l' IH]; intros y; [reflexivity|]. apply (IH v).
Qed.
Lemma extend_constraint_nil : forall d columns v c, extend_constraint d columns false v [] c = c.
Proof. intros d columns v []. unfold extend_constraint. cbn. now rewrite !andb_false_r, !orb_false_r. Qed.
Lemma extend_constraint_start : forall d columns refs value ms c, extend_constraint d columns refs value ms c =
  extend_constraint d columns false [] ms (if refs then set_references value columns c else c).
Proof.
  intros d columns [] value ms c; [|reflexivity]. rewrite split_dots_target. unfold extend_constraint. cbn [app].
  destruct (ref_target columns value) as [[s t] cs] eqn:E. cbn [map app]. rewrite E. unfold some_schemas. cbn [flat_map fst snd].
  rewrite final_cons, last_app. generalize (map (ref_target columns) (map snd (named [B "references"] ms))). intros L.
  destruct s as [s|]; destruct (final L); reflexivity.
Qed.
Definition rule_word (m : bytes * bytes) : Prop := In (fst m) [B "onupdate"; B "ondelete"] -> In (snd m) (map fst rules).
Lemma mget_rules : forall v, In v (map fst rules) -> exists r, mget v rules = Some r.
Proof. intros v H. cbn [map fst In rules] in H. destruct H as [<-|[<-|[<-|[<-|[<-|[]]]]]]; eexists; reflexivity. Qed.
Lemma mget_rules_in : forall v r, mget v rules = Some r -> In v (map fst rules).
Proof.
  intros v r. generalize rules. induction l as [|[k x] l IH]; cbn [mget map fst In]; [discriminate|].
  destruct (beqb v k) eqn:E; [apply beqb_eq in E; intros _; now left|]. intros H. right. now apply IH.
Qed.
Lemma final_named_in : forall names ms m, final_named names ms = Some m -> In m ms /\ In (fst m) names.
Proof.
  intros names ms m. unfold final_named. assert (G : forall l, final l = Some m -> In m l).
  { induction l as [|a l IH]; [discriminate|]. rewrite final_cons. destruct (final l); intros H; [injection H as ->; right; now apply IH|injection H as ->; now left]. }
  intros H. apply G in H. unfold named in H. apply filter_In in H. destruct H as [H1 H2]. split; [exact H1|now apply existsb_in].
Qed.
Lemma rule_or_cons : forall old k m ms, In k [B "onupdate"; B "ondelete"] -> Forall rule_word ms ->
  rule_or old k (m :: ms) = rule_or (rule_or old k [m]) k ms.
Proof.
  intros old k m ms K F. unfold rule_or. rewrite final_named_cons. destruct (final_named [k] ms) as [[k' v]|] eqn:E; [|reflexivity].
  apply final_named_in in E. destruct E as [I [N|[]]]. cbn [fst] in N. subst k'. rewrite Forall_forall in F.
  destruct (mget_rules v (F _ I K)) as [r ->]. reflexivity.
Qed.
Lemma orb_four : forall a b c e n : bool, (a || (n && ((b || c) || e))) = ((a || (n && b)) || (n && (c || e))).
Proof. intros [] [] [] [] []; reflexivity. Qed.
Lemma extend_constraint_cons : forall d columns v m ms c, Forall rule_word ms ->
  extend_constraint d columns false v (m :: ms) c = extend_constraint d columns false v ms (extend_constraint d columns false v [m] c).
Proof.
  intros d columns v m ms c F. unfold extend_constraint.
  cbn [c_schema c_table c_name c_type c_columns c_exprs c_ref_schema c_ref_table c_ref_columns c_update c_delete c_match c_check c_operators c_index_type c_predicate c_deferrable c_deferred c_comment c_ignore app].
  rewrite (named_cons [B "references"]), !map_app, !final_app. unfold some_schemas. rewrite flat_map_app, last_app.
  rewrite (rule_or_cons (c_update c) (B "onupdate") m ms (or_introl eq_refl) F),
    (rule_or_cons (c_delete c) (B "ondelete") m ms (or_intror (or_introl eq_refl)) F).
  rewrite (says_cons (B "deferrable")), (says_cons (B "deferred")), ignored_cons. f_equal.
  - now destruct (final (map (ref_target columns) (map snd (named [B "references"] ms)))).
  - now destruct (final (map (ref_target columns) (map snd (named [B "references"] ms)))).
  - destruct (is_mysql d), (c_deferrable c), (says (B "deferrable") [m]), (says (B "deferred") [m]), (says (B "deferrable") ms), (says (B "deferred") ms); reflexivity.
  - destruct (is_mysql d), (c_deferred c), (says (B "deferred") [m]), (says (B "deferred") ms); reflexivity.
  - apply orb_assoc.
Qed.
Lemma rule_of_rules : forall v, rule_of v = mget v rules.
Proof. reflexivity. Qed.
Lemma one_named : forall names k v, named names [(k, v)] = if existsb (beqb k) names then [(k, v)] else [].
Proof. intros. unfold named. cbn [filter fst]. reflexivity. Qed.
Definition modifier_indexes (d : dialect) (tb : table_id) (columns : list bytes) (ms : list (bytes * bytes)) : list index :=
  flat_map (fun i => index_of d tb columns (snd i)) (named [B "index"] ms).
Lemma constraint_modifier_spec : forall d tb columns c x k v c' x',
  constraint_modifier d tb (tb_name tb) columns (c, x) (k, v) = LOk (c', x') ->
  c' = extend_constraint d columns false [] [(k, v)] c /\ rule_word (k, v) /\
  appended x_name x x' (modifier_indexes d tb columns [(k, v)]).
Proof.
  intros d tb columns c x k v c' x' H. unfold constraint_modifier in H. unfold extend_constraint, rule_or, rule_word, modifier_indexes.
  rewrite !one_final, !one_says, one_ignored, !one_named. cbn [existsb fst app snd].
  rewrite !orb_false_r.
  destruct (beqb k (B "name") || beqb k (B "cols")) eqn:E1.
  { injection H as <- <-. apply orb_true_iff in E1.
    destruct E1 as [E1|E1]; apply beqb_eq in E1; subst k; lits; cbn [orb andb map flat_map]; rewrite !andb_false_r, !orb_false_r;
    (split; [now destruct c|split; [intros [I|[I|[]]]; discriminate|apply appended_none]]). }
  apply orb_false_iff in E1. destruct E1 as [_ _].
  destruct (beqb k (B "references")) eqn:E2.
  { apply beqb_eq in E2. subst k. injection H as <- <-. lits. cbn [orb andb map flat_map snd]. rewrite !andb_false_r, !orb_false_r.
    split; [|split; [intros [I|[I|[]]]; discriminate|apply appended_none]]. rewrite split_dots_target.
    destruct (ref_target columns v) as [[[s|] t] cs]; reflexivity. }
  destruct (beqb k (B "onupdate")) eqn:E3.
  { apply beqb_eq in E3. subst k. rewrite rule_of_rules in H. destruct (mget v rules) as [r|] eqn:R; [|discriminate].
    injection H as <- <-. lits. cbn [orb andb map flat_map snd]. rewrite !andb_false_r, !orb_false_r.
    split; [now destruct c|]. split; [|apply appended_none]. intros _. now apply mget_rules_in in R. }
  destruct (beqb k (B "ondelete")) eqn:E4.
  { apply beqb_eq in E4. subst k. rewrite rule_of_rules in H. destruct (mget v rules) as [r|] eqn:R; [|discriminate].
    injection H as <- <-. lits. cbn [orb andb map flat_map snd]. rewrite !andb_false_r, !orb_false_r.
    split; [now destruct c|]. split; [|apply appended_none]. intros _. now apply mget_rules_in in R. }
  destruct (beqb k (B "deferrable")) eqn:E5.
  { apply beqb_eq in E5. subst k. injection H as <- <-. lits. cbn [orb andb map flat_map snd]. rewrite !andb_false_r, !orb_false_r.
    split; [destruct c; unfold c_set_deferrable; destruct (is_mysql d); cbn; now rewrite ?orb_true_r, ?orb_false_r|].
    split; [intros [I|[I|[]]]; discriminate|apply appended_none]. }
  destruct (beqb k (B "deferred")) eqn:E6.
  { apply beqb_eq in E6. subst k. injection H as <- <-. lits. cbn [orb andb map flat_map snd]. rewrite !orb_false_r.
    split; [destruct c; unfold c_set_deferrable; destruct (is_mysql d); cbn; now rewrite ?orb_true_r, ?orb_false_r|].
    split; [intros [I|[I|[]]]; discriminate|apply appended_none]. }
  destruct (beqb k (B "ignore")) eqn:E7.
  { apply beqb_eq in E7. subst k. injection H as <- <-. lits. cbn [orb andb map flat_map snd]. rewrite !andb_false_r, !orb_false_r.
    split; [destruct c; unfold c_set_ignore; destruct (ignores d v); cbn; now rewrite ?orb_true_r, ?orb_false_r|].
    split; [intros [I|[I|[]]]; discriminate|apply appended_none]. }
  destruct (beqb k (B "index")) eqn:E8; [|discriminate].
  apply beqb_eq in E8. subst k. apply lbind_ok in H. destruct H as (x1 & H & K). injection K as <- <-.
  lits. cbn [orb andb map flat_map snd]. rewrite !andb_false_r, !orb_false_r, app_nil_r.
  split; [now destruct c|split; [intros [I|[I|[]]]; discriminate|]]. now apply load_index_ok.
Qed.
Lemma modifier_indexes_cons : forall d tb columns m ms,
  modifier_indexes d tb columns (m :: ms) = modifier_indexes d tb columns [m] ++ modifier_indexes d tb columns ms.
Proof. intros. unfold modifier_indexes. rewrite (named_cons _ m ms). apply flat_map_app. Qed.
Lemma constraint_modifiers_ok : forall d tb columns ms c x c' x',
  lfold (constraint_modifier d tb (tb_name tb) columns) ms (c, x) = LOk (c', x') ->
  c' = extend_constraint d columns false [] ms c /\ Forall rule_word ms /\ appended x_name x x' (modifier_indexes d tb columns ms).
Proof.
  intros d tb columns. induction ms as [|[k v] ms IH]; intros c x c' x' H; cbn [lfold] in H.
  - injection H as <- <-. rewrite extend_constraint_nil. split; [reflexivity|]. split; [constructor|apply appended_none].
  - apply lbind_ok in H. destruct H as ([c1 x1] & E & H). apply constraint_modifier_spec in E. destruct E as (-> & R & A).
    apply IH in H. destruct H as (-> & F & A2). rewrite (extend_constraint_cons _ _ _ _ _ _ F).
    split; [reflexivity|]. split; [now constructor|]. rewrite modifier_indexes_cons. now apply appended_then with x1.
Qed.
Lemma beqb_neq_lit : forall k a, beqb k a = false -> k <> a.
Proof. intros k a E ->. now rewrite beqb_refl in E. Qed.
Lemma in_lit : forall k a l, In k (a :: l) <-> beqb k a = true \/ In k l.
Proof. intros k a l. cbn [In]. rewrite beqb_eq. split; intros [H|H]; auto. Qed.
Lemma constraint_modifier_fine : forall d tb tname columns st m,
  fine (constraint_modifier d tb tname columns st m) <-> constraint_modifier_ok columns m.
Proof.
  intros d tb tname columns [c x] [k v]. unfold constraint_modifier, constraint_modifier_ok. cbn [fst snd].
  rewrite <- !existsb_in. cbn [existsb]. rewrite !orb_false_r, !rule_of_rules.
  assert (Y : forall A (a : A), fine (LOk a) <-> True) by (intros; split; [easy|intros _; apply fine_ok]).
  assert (N : forall A, fine (@LErr A) <-> False) by (intros; split; [intros [? Hx]; discriminate|easy]).
  assert (W : forall A (f : bytes -> A), fine (match mget v rules with Some r => LOk (f r) | None => LErr end) <-> existsb (beqb v) (map fst rules) = true).
  { intros A f. rewrite existsb_in. split.
    - intros [? H]. destruct (mget v rules) eqn:R; [|discriminate]. now apply mget_rules_in in R.
    - intros H. destruct (mget_rules v H) as [r ->]. apply fine_ok. }
  rewrite <- (beqb_eq k (B "index")).
  destruct (beqb k (B "name") || beqb k (B "cols")) eqn:E1.
  { rewrite Y. apply orb_true_iff in E1. destruct E1 as [E1|E1]; apply beqb_eq in E1; subst k; lits; cbn [orb]; split; auto. }
  apply orb_false_iff in E1. destruct E1 as [E0 E1]. rewrite E0, E1.
  destruct (beqb k (B "references")) eqn:E2. { rewrite Y. split; auto. }
  destruct (beqb k (B "onupdate")) eqn:E3.
  { rewrite (W _ (fun r => (c_on_update r c, x))). apply beqb_eq in E3. subst k. lits. cbn [orb]. split; [auto|].
    intros [H|[[_ H]|[H _]]]; [discriminate|exact H|discriminate]. }
  destruct (beqb k (B "ondelete")) eqn:E4.
  { rewrite (W _ (fun r => (c_on_delete r c, x))). apply beqb_eq in E4. subst k. lits. cbn [orb]. split; [auto|].
    intros [H|[[_ H]|[H _]]]; [discriminate|exact H|discriminate]. }
  destruct (beqb k (B "deferrable")) eqn:E5. { rewrite Y. split; auto. }
  destruct (beqb k (B "deferred")) eqn:E6. { rewrite Y. split; auto. }
  destruct (beqb k (B "ignore")) eqn:E7. { rewrite Y. split; auto. }
  cbn [orb]. destruct (beqb k (B "index")) eqn:E8.
  - rewrite (fine_then _ _ (load_index d tb tname columns v x)), load_index_fine. split; [auto|].
    intros [H|[[H _]|[_ H]]]; [discriminate|discriminate|exact H].
  - rewrite N. split; [easy|]. intros [H|[[H _]|[H _]]]; discriminate.
Qed.
Lemma load_constraint_fine : forall d tb ty refs schema tname columns config st,
  fine (load_constraint d tb ty refs schema tname columns config st) <-> constraint_config_ok refs columns config.
Proof.
  intros d tb ty refs schema tname columns config st. unfold load_constraint, constraint_config_ok. apply fine_config. intros value ms.
  assert (C : (if refs || beqb value (B ".") || is_empty value then columns else split_byte "," value)
              = (if refs then columns else config_columns columns value)) by (destruct refs; reflexivity).
  rewrite C. rewrite fine_match_nil. apply and_iff_compat_l. cbv zeta. apply store_fine. intros c _.
  apply lfold_fine with (P := fun _ => True); [|easy|easy]. intros st' m _. apply constraint_modifier_fine.
Qed.
Definition config_constraints (d : dialect) (tb : table_id) (ty : bytes) (refs : bool) (columns : list bytes) (config : bytes) : list constraint :=
  match config_of config with
  | Some (value, ms) => [declared_constraint d ty refs (tb_schema tb) (tb_name tb) columns value ms]
  | None => []
  end.
Definition config_indexes (d : dialect) (tb : table_id) (refs : bool) (columns : list bytes) (config : bytes) : list index :=
  match config_of config with
  | Some (value, ms) => modifier_indexes d tb (if refs then columns else config_columns columns value) ms
  | None => []
  end.
Lemma load_constraint_ok : forall d tb ty refs columns config ks xs ks' xs',
  load_constraint d tb ty refs (tb_schema tb) (tb_name tb) columns config (ks, xs) = LOk (ks', xs') ->
  appended c_name ks ks' (config_constraints d tb ty refs columns config) /\
  appended x_name xs xs' (config_indexes d tb refs columns config).
Proof.
  intros d tb ty refs columns config ks xs ks' xs' H. unfold load_constraint in H. apply lbind_ok in H. destruct H as ([value ms] & E & H).
  apply value_tokens_config in E. unfold config_constraints, config_indexes. rewrite E.
  assert (C : (if refs || beqb value (B ".") || is_empty value then columns else split_byte "," value)
              = (if refs then columns else config_columns columns value)) by (destruct refs; reflexivity).
  rewrite C in H. clear C. unfold declared_constraint. cbv zeta.
  destruct (if refs then columns else config_columns columns value) as [|q cs] eqn:C; [discriminate|]. cbv zeta in H. rewrite name_value in H.
  cbn [fst snd] in H. apply store_appends in H. destruct H as (base & a & _ & Ea & H).
  apply constraint_modifiers_ok in Ea. destruct Ea as (Ea & R & X).
  split; [|exact X]. unfold appended. intros N.
  assert (A : ~ In (if is_empty (value_or [] (B "name") ms) then generate_name ty (tb_name tb) (q :: cs) else value_or [] (B "name") ms) (map c_name (objects ks))).
  { rewrite map_app in N. apply NoDup_remove_2 in N. rewrite app_nil_r in N. exact N. }
  destruct (H A) as [-> H']. rewrite H'. f_equal. f_equal. rewrite Ea. symmetry. rewrite extend_constraint_start. reflexivity.
Qed.
