(** * LoadGood: what is loaded from a struct can be looked up (C61) *)
From Coq Require Import Lia.
From Verif Require Import GoBase GoBaseFacts QuoteModel CacheModel SpecCache CacheFacts UpsertModel TokenModel NameModel DdlModel MigrateModel SpecMigrate
  TriggerModel TriggerStore LoadModel LoadFacts LoadDdl SpecT SpecAuto.

Lemma nth_set {A} (l : list A) i a j : i < length l -> nth_error (list_set l i a) j = if Nat.eqb j i then Some a else nth_error l j.
  Proof.
    revert i j. induction l as [|x l IH]; intros i j L; [cbn in L; lia|]. destruct i as [|i], j as [|j]; cbn [list_set nth_error Nat.eqb]; try reflexivity. apply IH. cbn in L. lia.
  Qed.
Section Points.
  Context {A : Type} (name_of : A -> bytes) (ignored : A -> bool).
  (** The objects that the handles name are where the handles point. *)
  Definition points (s : cached A) (hs : list (nat * bytes)) : Prop :=
    Forall (fun h => exists a, nth_error (objects s) (fst h) = Some a /\ name_of a = snd h) hs.
  Lemma points_edit s i a a' hs : nth_error (objects s) i = Some a -> name_of a' = name_of a -> points s hs -> points (edit (list_set (objects s) i a') s) hs.
  Proof.
    intros E En. apply Forall_impl. intros (j & n) (b & Hb & Hn). cbn [fst snd] in *. cbn [edit objects].
    assert (L : i < length (objects s)) by (apply nth_error_Some; congruence). rewrite nth_set by exact L. destruct (Nat.eqb_spec j i) as [->|_]; [|eauto].
    exists a'. split; [reflexivity|]. congruence.
  Qed.
  Lemma points_append s a hs : points s hs -> points (snd (append name_of a s)) hs.
  Proof.
    apply Forall_impl. intros (j & n) (b & Hb & Hn). cbn [fst snd append objects] in *. exists b. split; [|exact Hn]. rewrite nth_error_app1; [exact Hb|]. apply nth_error_Some. congruence.
  Qed.
  Lemma points_lookup s n hs : points s hs -> points (snd (lookup name_of ignored false n s)) hs.
  Proof. unfold points. now rewrite lookup_objects. Qed.
End Points.

Section Sound.
  Context {A : Type} (name_of : A -> bytes) (ignored : A -> bool) (P : A -> Prop).
  Notation at_position := (at_position name_of ignored).
  Definition unique (l : list A) : Prop := forall n i j, at_position l n i -> at_position l n j -> i = j.
  Lemma unique_distinct l : unique l -> distinct name_of ignored l.
  Proof.
    unfold distinct. induction l as [|a l IH]; intros U; [constructor|].
    assert (U' : unique l). { intros n i j (x & X1 & X2) (y & Y1 & Y2). assert (S i = S j); [|lia]. apply (U n); [exists x|exists y]; auto. }
    cbn [filter]. destruct (ignored a) eqn:I; cbn [negb map]; [now apply IH|]. constructor; [|now apply IH].
    intros H. apply in_map_iff in H. destruct H as (b & E & H). apply filter_In in H. destruct H as (Hb & Ib). apply In_nth_error in Hb. destruct Hb as (k & Hk).
    assert (0 = S k); [|lia]. apply (U (name_of a)); [exists a; auto|]. exists b. split; [exact Hk|]. split; [exact E|]. now destruct (ignored b).
  Qed.
  Definition sound (s : cached A) : Prop :=
    fresh name_of ignored s /\ unique (objects s) /\ (forall a, In a (objects s) -> name_of a <> [] /\ P a).
  Lemma sound_good s : sound s -> good_slice name_of ignored false s.
  Proof.
    intros (F & U & N). split; [|split].
    - intros n NE (a & Ia & Ig & En). apply In_nth_error in Ia. destruct Ia as (i & Hi). exists i.
      apply lookup_complete_state; [exact F|exact NE|]. split; [exists a; auto|]. intros j Hj. assert (j = i); [|lia]. apply (U n); [exact Hj|exists a; auto].
    - now apply unique_distinct.
    - intros _ a Ia. now apply N.
  Qed.
  Lemma sound_new : sound cached_new.
  Proof. split; [|split]; [intros n i ((y & Y & _) & _); destruct i; discriminate|intros n i j (y & Y & _); destruct i; discriminate|intros a []]. Qed.
  Lemma sound_lookup n s : sound s -> sound (snd (lookup name_of ignored false n s)).
  Proof. intros (F & U & N). split; [now apply lookup_fresh|]. rewrite lookup_objects. auto. Qed.
  Lemma sound_append a s : sound s -> absent name_of ignored (objects s) (name_of a) -> name_of a <> [] -> P a -> sound (snd (append name_of a s)).
  Proof.
    intros (F & U & N) X NE Pa. split; [apply append_fresh; auto|]. cbn [append snd objects]. split.
    - intros n i j (x & X1 & X2 & X3) (y & Y1 & Y2 & Y3).
      destruct (Nat.lt_ge_cases i (length (objects s))) as [Li|Li], (Nat.lt_ge_cases j (length (objects s))) as [Lj|Lj].
      + rewrite nth_error_app1 in X1, Y1 by assumption. apply (U n); [exists x|exists y]; auto.
      + rewrite nth_error_app1 in X1 by assumption. rewrite nth_error_app2 in Y1 by assumption. destruct (j - length (objects s)) as [|k]; [|destruct k; discriminate].
        cbn in Y1. injection Y1 as ->. exfalso. apply (X i). exists x. split; [exact X1|]. split; [congruence|exact X3].
      + rewrite nth_error_app2 in X1 by assumption. rewrite nth_error_app1 in Y1 by assumption. destruct (i - length (objects s)) as [|k]; [|destruct k; discriminate].
        cbn in X1. injection X1 as ->. exfalso. apply (X j). exists y. split; [exact Y1|]. split; [congruence|exact Y3].
      + rewrite nth_error_app2 in X1, Y1 by assumption. destruct (i - length (objects s)) as [|k] eqn:E1; [|destruct k; discriminate]. destruct (j - length (objects s)) as [|k] eqn:E2; [|destruct k; discriminate]. lia.
    - intros b I. apply in_app_or in I. destruct I as [I|[<-|[]]]; [now apply N|auto].
  Qed.
  Lemma sound_edit s i a a' : sound s -> nth_error (objects s) i = Some a -> name_of a' = name_of a -> (ignored a = true -> ignored a' = true) -> (P a -> P a') ->
    sound (edit (list_set (objects s) i a') s).
  Proof.
    intros (F & U & N) E En Ei Ep. assert (L : i < length (objects s)) by (apply nth_error_Some; congruence).
    assert (T : forall n j, at_position (list_set (objects s) i a') n j -> at_position (objects s) n j).
    { intros n j (x & X1 & X2 & X3). rewrite nth_set in X1 by exact L. destruct (Nat.eqb_spec j i) as [->|_]; [|exists x; auto].
      injection X1 as <-. exists a. split; [exact E|]. split; [congruence|]. destruct (ignored a); [rewrite Ei in X3; auto|reflexivity]. }
    split; [|split].
    - intros n j (X & _). cbn [edit objects positions] in *. apply F. apply T in X. split; [exact X|]. intros k K. assert (k = j); [|lia]. now apply (U n).
    - cbn [edit objects]. intros n j k X Y. now apply (U n); apply T.
    - cbn [edit objects]. intros b I. apply In_nth_error in I. destruct I as (k & K). rewrite nth_set in K by exact L. destruct (Nat.eqb_spec k i) as [Ek|_].
      + injection K as <-. assert (Ia : In a (objects s)) by (now apply nth_error_In with i). destruct (N a Ia). split; [congruence|auto].
      + apply N. now apply nth_error_In with k.
  Qed.
  Lemma lookup_cases n s : sound s -> n <> [] ->
    (exists i a, lookup name_of ignored false n s = (Some i, snd (lookup name_of ignored false n s)) /\ nth_error (objects s) i = Some a /\ name_of a = n) \/
    (fst (lookup name_of ignored false n s) = None /\ absent name_of ignored (objects s) n).
  Proof.
    intros (F & _) N. destruct (fst (lookup name_of ignored false n s)) as [i|] eqn:E.
    - left. destruct (lookup_sound_state _ _ _ _ _ _ E) as (a & X1 & X2 & _). exists i, a. split; [|auto]. destruct (lookup _ _ _ _ _) as [o s1]. cbn in E. now subst o.
    - right. split; [reflexivity|]. now apply (lookup_exact_state name_of ignored false n s F (or_introl N)).
  Qed.
  Lemma upsert_sound name create update s hs i s' : sound s -> points name_of s hs -> name <> [] ->
    name_of create = name -> P create -> (forall a, name_of (update a) = name_of a /\ ignored (update a) = ignored a /\ (P a -> P (update a))) ->
    upsert name_of ignored name create update s = (i, s') -> sound s' /\ points name_of s' (hs ++ [(i, name)]).
  Proof.
    intros S H N Nc Pc Up E. unfold upsert in E. destruct (lookup_cases name s S N) as [(j & a & L & Hj & Ha)|(L & Ab)].
    - rewrite L in E. pose proof (sound_lookup name s S) as S1. pose proof (points_lookup name_of ignored s name hs H) as H1. set (s1 := snd (lookup name_of ignored false name s)) in *.
      assert (O : objects s1 = objects s) by apply lookup_objects. rewrite <- O in Hj. rewrite Hj in E. injection E as <- <-. destruct (Up a) as (U1 & U2 & U3). split.
      + apply sound_edit with (a := a); auto. congruence.
      + apply Forall_app. split; [apply points_edit with (a := a); auto|]. constructor; [|constructor]. cbn [fst snd edit objects]. exists (update a).
        rewrite nth_set by (apply nth_error_Some; congruence). rewrite Nat.eqb_refl. split; [reflexivity|congruence].
    - pose proof (sound_lookup name s S) as S1. pose proof (points_lookup name_of ignored s name hs H) as H1. pose proof (lookup_objects name_of ignored false name s) as O.
      destruct (lookup _ _ _ _ _) as [o s1]. cbn [fst snd] in *. subst o. assert (Ei : i = length (objects s1) /\ s' = snd (append name_of create s1)).
      { unfold append in *. rewrite app_length in E. cbn [length] in E. injection E as <- <-. split; [lia|]. cbn [snd]. rewrite app_length. reflexivity. }
      destruct Ei as (-> & ->). split.
      + apply sound_append; [exact S1|rewrite O, Nc; exact Ab|congruence|exact Pc].
      + apply Forall_app. split; [now apply points_append|]. constructor; [|constructor]. cbn [fst snd append objects]. exists create. rewrite nth_error_app2, Nat.sub_diag by lia. auto.
  Qed.
  Lemma store_sound {T : Type} name create found (f : A -> lexres (A * T)) s r (Q : T -> Prop) : sound s -> name <> [] ->
    name_of create = name -> P create -> (forall a, name_of (found a) = name_of a /\ ignored (found a) = ignored a /\ (P a -> P (found a))) ->
    (forall a a' x, f a = LOk (a', x) -> name_of a' = name_of a /\ (ignored a = true -> ignored a' = true) /\ (P a -> P a') /\ Q x) ->
    store name_of ignored name create found f s = LOk r -> sound (fst r) /\ Q (snd r).
  Proof.
    intros S N Nc Pc Fo Ff E. unfold store in E. destruct (lookup_cases name s S N) as [(j & a & L & Hj & Ha)|(L & Ab)].
    - rewrite L in E. pose proof (sound_lookup name s S) as S1. set (s1 := snd (lookup name_of ignored false name s)) in *.
      assert (O : objects s1 = objects s) by apply lookup_objects. rewrite <- O in Hj. rewrite Hj in E. apply lbind_ok in E. destruct E as ([a' x] & E & K). injection K as <-. cbn [fst snd].
      destruct (Ff _ _ _ E) as (F1 & F2 & F3 & F4). destruct (Fo a) as (G1 & G2 & G3). split; [|exact F4]. apply sound_edit with (a := a); auto; [congruence|]. intros I. apply F2. congruence.
    - pose proof (sound_lookup name s S) as S1. pose proof (lookup_objects name_of ignored false name s) as O.
      destruct (lookup _ _ _ _ _) as [o s1]. cbn [fst snd] in *. subst o. apply lbind_ok in E. destruct E as ([a' x] & E & K). injection K as <-. cbn [fst snd].
      destruct (Ff _ _ _ E) as (F1 & F2 & F3 & F4). split; [|exact F4]. apply sound_append; [exact S1|rewrite O, F1, Nc; exact Ab|congruence|auto].
  Qed.
End Sound.

(** ** Struct tags *)
Lemma generated_nonempty ty t columns : columns <> [] -> generate_name ty t columns <> [].
Proof.
  intros N E. apply (f_equal (@length ascii)) in E. unfold generate_name in E.
  set (buf := underscored t ++ flat_map (fun c => B "_" ++ underscored c) columns) in *.
  assert (L : 0 < length buf). { unfold buf. rewrite app_length. destruct columns as [|c cs]; [congruence|]. cbn [flat_map app]. change (B "_") with ["_"%char]. cbn [app length]. lia. }
  destruct (Nat.ltb 0 _) eqn:X.
  - apply Nat.ltb_lt in X. rewrite app_length, firstn_length in E. cbn [length] in E. lia.
  - rewrite app_length in E. cbn [length] in E. lia.
Qed.
Definition any {A} (a : A) : Prop := True.
Definition index_at (tb : table_id) (x : index) : Prop := x_schema x = tb_schema tb /\ x_table x = tb_name tb.
Definition trigger_at (tb : table_id) (g : trigger) : Prop := (g_schema g = [] \/ g_schema g = tb_schema tb) /\ g_table g = tb_name tb.
Notation sound_l := (sound l_name l_ignore any).
Notation sound_c := (sound c_name c_ignore any).
Notation sound_x tb := (sound x_name x_ignore (index_at tb)).
Notation sound_g tb := (sound g_name g_ignore (trigger_at tb)).

Lemma index_modifier_ok d tb x m x' : index_modifier d tb x m = LOk x' ->
  x_name x' = x_name x /\ (x_ignore x = true -> x_ignore x' = true) /\ (index_at tb x -> index_at tb x').
Proof.
  destruct m as [k v]. unfold index_modifier, index_at. cbv zeta. intros H.
  destruct (beqb k _); [injection H as <-; auto|]. destruct (beqb k _); [injection H as <-; auto|]. destruct (beqb k _); [injection H as <-; auto|].
  destruct (beqb k _); [injection H as <-; auto|]. destruct (beqb k _); [injection H as <-; auto|]. destruct (beqb k _); [|discriminate].
  injection H as <-. destruct (ignores d v); auto.
Qed.
Lemma load_index_sound d tb tname columns config s s' : sound_x tb s -> load_index d tb tname columns config s = LOk s' -> sound_x tb s'.
Proof.
  intros S H. unfold load_index in H. apply lbind_ok in H. destruct H as ([names ms] & _ & H).
  set (cs := if beqb names (B ".") || is_empty names then columns else split_byte "," names) in *. destruct cs as [|c cs]; [discriminate|].
  apply lbind_ok in H. destruct H as (r & H & K). injection K as <-. eapply store_sound with (Q := fun _ => True) in H; [apply H|exact S|..].
  - destruct (match modifier_value (B "name") ms with Some n => n | None => [] end); cbn [is_empty]; [now apply generated_nonempty|discriminate].
  - reflexivity.
  - split; reflexivity.
  - intros a. auto.
  - intros a a' x F. apply lbind_ok in F. destruct F as (y & F & K). injection K as <- <-.
    assert (G : x_name y = x_name a /\ (x_ignore a = true -> x_ignore y = true) /\ (index_at tb a -> index_at tb y)); [|destruct G as (G1 & G2 & G3); auto].
    apply (lfold_inv _ _ _ (fun y => x_name y = x_name a /\ (x_ignore a = true -> x_ignore y = true) /\ (index_at tb a -> index_at tb y))) with (s := a) (3 := F); [|auto].
    intros z m z' (Z1 & Z2 & Z3) E. apply index_modifier_ok in E. destruct E as (E1 & E2 & E3). split; [congruence|auto].
Qed.
Lemma set_references_ok v columns c : c_name (set_references v columns c) = c_name c /\ c_ignore (set_references v columns c) = c_ignore c.
Proof. unfold set_references. destruct (split_dots v) as [|a [|b [|e [|f l]]]]; auto. Qed.
Lemma constraint_modifier_ok d tb tname columns st m st' : constraint_modifier d tb tname columns st m = LOk st' ->
  c_name (fst st') = c_name (fst st) /\ (c_ignore (fst st) = true -> c_ignore (fst st') = true) /\ (sound_x tb (snd st) -> sound_x tb (snd st')).
Proof.
  destruct st as [c x], m as [k v]. unfold constraint_modifier. cbn [fst snd]. intros H.
  destruct (_ || _); [injection H as <-; auto|].
  destruct (beqb k _); [injection H as <-; cbn [fst snd]; destruct (set_references_ok v columns c) as (-> & ->); auto|].
  destruct (beqb k _); [destruct (rule_of v); [injection H as <-; cbn; auto|discriminate]|].
  destruct (beqb k _); [destruct (rule_of v); [injection H as <-; cbn; auto|discriminate]|].
  destruct (beqb k _); [injection H as <-; unfold c_set_deferrable; destruct (is_mysql d); cbn; auto|].
  destruct (beqb k _); [injection H as <-; unfold c_set_deferrable; destruct (is_mysql d); cbn; auto|].
  destruct (beqb k _); [injection H as <-; destruct (ignores d v); cbn; auto|].
  destruct (beqb k _); [|discriminate]. apply lbind_ok in H. destruct H as (x' & H & K). injection K as <-. cbn [fst snd]. split; [auto|]. split; [auto|]. intros S. now apply load_index_sound in H.
Qed.
Lemma load_constraint_sound d tb ty refs schema tname columns config st st' : sound_c (fst st) -> sound_x tb (snd st) ->
  load_constraint d tb ty refs schema tname columns config st = LOk st' -> sound_c (fst st') /\ sound_x tb (snd st').
Proof.
  intros S X H. unfold load_constraint in H. apply lbind_ok in H. destruct H as ([value ms] & _ & H).
  set (cs := if refs || beqb value (B ".") || is_empty value then columns else split_byte "," value) in *. destruct cs as [|c cs]; [discriminate|].
  eapply store_sound with (Q := sound_x tb) in H; [exact H|exact S|..].
  - destruct (match modifier_value (B "name") ms with Some n => n | None => [] end); cbn [is_empty]; [now apply generated_nonempty|discriminate].
  - reflexivity.
  - exact I.
  - intros a. auto.
  - intros a a' x F.
    assert (G : c_name (fst (a', x)) = c_name a /\ (c_ignore a = true -> c_ignore (fst (a', x)) = true) /\ sound_x tb (snd (a', x))); [|destruct G as (G1 & G2 & G3); auto].
    apply (lfold_inv _ _ _ (fun q => c_name (fst q) = c_name a /\ (c_ignore a = true -> c_ignore (fst q) = true) /\ sound_x tb (snd q))) with (3 := F).
    + intros z m z' (Z1 & Z2 & Z3) E. apply constraint_modifier_ok in E. destruct E as (E1 & E2 & E3). split; [congruence|auto].
    + cbn [fst snd]. destruct refs; [destruct (set_references_ok value (c :: cs) a) as (-> & ->)|]; auto.
Qed.
Section Numeric.
  Context (numeric : bytes -> bool).
  Lemma set_column_ok a l : l_name (set_column a l) = l_name l /\ (l_ignore l = true -> l_ignore (set_column a l) = true).
  Proof. destruct a; auto. Qed.
  Lemma column_modifier_ok d tb st m st' : column_modifier numeric d tb st m = LOk st' ->
    l_name (fst st') = l_name (fst st) /\ (l_ignore (fst st) = true -> l_ignore (fst st') = true) /\
    (sound_c (fst (snd st)) /\ sound_x tb (snd (snd st)) -> sound_c (fst (snd st')) /\ sound_x tb (snd (snd st'))).
  Proof.
    destruct st as [l s]. unfold column_modifier. cbn [fst snd]. intros H. destruct (strip_dialect _ _) as [k|]; [|injection H as <-; auto].
    destruct (column_setting _ _ _ _) as [attrs|].
    - injection H as <-. cbn [fst snd]. split; [|split; [|auto]].
      + revert l. induction attrs as [|a attrs IH]; intros l; [reflexivity|]. cbn [fold_left]. rewrite IH. apply set_column_ok.
      + revert l. induction attrs as [|a attrs IH]; intros l; [auto|]. cbn [fold_left]. intros I. apply IH. now apply set_column_ok.
    - destruct (constraint_kind k) as [[ty refs]|].
      + apply lbind_ok in H. destruct H as (s' & H & K). injection K as <-. cbn [fst snd]. split; [auto|]. split; [auto|]. intros (S1 & S2). now apply load_constraint_sound in H.
      + destruct (beqb k _); [|discriminate]. apply lbind_ok in H. destruct H as (x & H & K). injection K as <-. cbn [fst snd]. split; [auto|]. split; [auto|]. intros (S1 & S2). split; [exact S1|]. now apply load_index_sound in H.
  Qed.
  (** What holds of a table while it is loaded. *)
  Definition well_loaded (t : table) : Prop :=
    sound_l (t_columns t) /\ sound_c (t_constraints t) /\ sound_x (table_of t) (t_indexes t) /\ sound_g (table_of t) (t_triggers t).
  Lemma load_column_sound d name type tag t t' : well_loaded t -> name <> [] -> load_column numeric d name type tag t = LOk t' -> well_loaded t' /\ table_of t' = table_of t.
  Proof.
    intros (S1 & S2 & S3 & S4) N H. unfold load_column in H. apply lbind_ok in H. destruct H as (ms & _ & H). apply lbind_ok in H. destruct H as (r & H & K). injection K as <-.
    split; [|reflexivity]. unfold well_loaded. cbn [with_columns t_columns t_constraints t_indexes t_triggers].
    change (table_of (with_columns (fst r) (snd r) t)) with (table_of t).
    eapply store_sound with (Q := fun q => sound_c (fst q) /\ sound_x (table_of t) (snd q)) in H; [destruct H as (H1 & H2 & H3); exact (conj H1 (conj H2 (conj H3 S4)))|exact S1|exact N|reflexivity|exact I|auto|].
    intros a a' x F.
    assert (G : l_name (fst (a', x)) = l_name a /\ (l_ignore a = true -> l_ignore (fst (a', x)) = true) /\ (sound_c (fst (snd (a', x))) /\ sound_x (table_of t) (snd (snd (a', x))))); [|destruct G as (G1 & G2 & G3); split; [exact G1|]; split; [exact G2|]; split; [auto|exact G3]].
    apply (lfold_inv _ _ _ (fun q => l_name (fst q) = l_name a /\ (l_ignore a = true -> l_ignore (fst q) = true) /\ sound_c (fst (snd q)) /\ sound_x (table_of t) (snd (snd q)))) with (3 := F); [|auto].
    intros z m z' (Z1 & Z2 & Z3) E. apply column_modifier_ok in E. destruct E as (E1 & E2 & E3). split; [exact (eq_trans E1 Z1)|]. split; [intros Ig; exact (E2 (Z2 Ig))|exact (E3 Z3)].
  Qed.
  Lemma table_modifier_sound d t m t' : well_loaded t -> table_modifier d t m = LOk t' -> well_loaded t' /\ table_of t' = table_of t.
  Proof.
    intros W H. pose proof W as (S1 & S2 & S3 & S4). unfold table_modifier in H. destruct (strip_dialect _ _) as [k|]; [|injection H as <-; auto].
    destruct (beqb k _); [destruct (is_sqlite d); [apply lbind_ok in H; destruct H as (r & _ & H)|]; injection H as <-; split; auto|].
    destruct (constraint_kind k) as [[ty refs]|].
    - apply lbind_ok in H. destruct H as (s & H & K). injection K as <-. split; [|reflexivity]. apply load_constraint_sound in H; [|exact S2|exact S3]. destruct H as (H1 & H2). split; [exact S1|]. split; [exact H1|]. split; [exact H2|exact S4].
    - destruct (beqb k _).
      + apply lbind_ok in H. destruct H as (s & H & K). injection K as <-. split; [|reflexivity]. apply load_index_sound in H; [|exact S3]. split; [exact S1|]. split; [exact S2|]. split; [exact H|exact S4].
      + destruct (beqb k _); [|discriminate]. injection H as <-. destruct (ignores d _); split; auto.
  Qed.
  Lemma load_fields_sound d fs t r : well_loaded t -> load_fields numeric d fs t = LOk r -> well_loaded (fst r) /\ table_of (fst r) = table_of t.
  Proof.
    revert t. induction fs as [|f fs IH]; intros t W H; cbn [load_fields] in H; [injection H as <-; auto|]. destruct f as [tag|name kind tag].
    - apply lbind_ok in H. destruct H as (t' & E & H). assert (N : well_loaded t' /\ table_of t' = table_of t).
      { unfold load_table_tag in E. apply lbind_ok in E. destruct E as (ms & _ & E). apply (lfold_inv _ _ _ (fun q => well_loaded q /\ table_of q = table_of t)) with (s := t) (3 := E); [|auto].
        intros s m s' (W1 & W2) X. apply table_modifier_sound in X; [|exact W1]. destruct X as (X1 & X2). split; [exact X1|congruence]. }
      destruct N as (N1 & N2). destruct (t_ignore t'); [injection H as <-; auto|]. apply IH in H; [|exact N1]. destruct H as (H1 & H2). split; [exact H1|congruence].
    - destruct name as [|a name]; [discriminate|]. cbn [is_empty] in H. apply lbind_ok in H. destruct H as (t' & E & H). apply load_column_sound in E; [|exact W|discriminate]. destruct E as (E1 & E2).
      apply IH in H; [|exact E1]. destruct H as (H1 & H2). split; [exact H1|congruence].
  Qed.

  (** ** The DDL method *)
  Definition well_run (d : dialect) (st : t_state) : Prop :=
    let t := ts_table st in
    t_name t <> [] /\ sound_l (t_columns t) /\ points l_name (t_columns t) (ts_columns st) /\
    (d <> DSQLite -> sound_c (t_constraints t) /\ points c_name (t_constraints t) (ts_constraints st)) /\
    sound_x (table_of t) (t_indexes t) /\ points x_name (t_indexes t) (ts_indexes st) /\
    sound_g (table_of t) (t_triggers t).
  Lemma put_constraint_sound d tb ty name columns check s hs i s' : d <> DSQLite -> sound_c s -> points c_name s hs ->
    put_constraint d tb ty name columns check s = Some (i, s') -> sound_c s' /\ points c_name s' (hs ++ [(i, name)]).
  Proof.
    intros D S H E. unfold put_constraint in E. assert (Dn : is_sqlite d = false) by (destruct d; auto; congruence). rewrite Dn in E. cbn [negb andb] in E.
    destruct name as [|a name]; [discriminate|]. cbn [is_empty] in E. injection E as E. apply (upsert_sound c_name c_ignore any) with (hs := hs) in E; auto; try exact I. discriminate.
  Qed.
  Lemma constraint_step_sound d tb s hs c s' hs' : d <> DSQLite -> sound_c s -> points c_name s hs -> constraint_keeps c ->
    constraint_step d tb (Some (s, hs)) c = Some (s', hs') -> sound_c s' /\ points c_name s' hs'.
  Proof.
    intros D S H K E. cbn [constraint_step] in E. destruct c as [ty name columns check|name ixt columns exprs operators|h a].
    - destruct (put_constraint _ _ _ _ _ _ _) as [[i s1]|] eqn:Q; [|discriminate]. injection E as <- <-. now apply (put_constraint_sound d tb ty name columns check s hs).
    - destruct (put_exclusion _ _ _ _ _ _ _ _) as [[i s1]|] eqn:Q; [|discriminate]. injection E as <- <-. unfold put_exclusion in Q.
      destruct (negb (is_postgres d) || is_empty name) eqn:X; [discriminate|]. apply Bool.orb_false_iff in X. injection Q as Q.
      apply (upsert_sound c_name c_ignore any) with (hs := hs) in Q; auto; try exact I. destruct name; [destruct X; discriminate|discriminate].
    - destruct (nth_error hs h) as [[i name]|] eqn:Hh; [|discriminate]. destruct (nth_error (objects s) i) as [c|] eqn:Hc; [|discriminate]. injection E as <- <-.
      assert (Nc : c_name c = name). { unfold points in H. rewrite Forall_forall in H. destruct (H (i, name) (nth_error_In _ _ Hh)) as (c' & X & Y). cbn [fst snd] in *. congruence. }
      assert (Na : c_name (apply_attr d tb name a c) = c_name c /\ (c_ignore c = true -> c_ignore (apply_attr d tb name a c) = true)).
      { destruct a; cbn [apply_attr]; auto; unfold c_set_deferrable; try (destruct (is_mysql d); auto; fail). split; [exact (eq_sym Nc)|]. exact (K c). }
      destruct Na as (Na & Ni). split; [apply sound_edit with (a := c); auto|apply points_edit with (a := c); auto].
  Qed.
  Lemma index_step_sound tb s hs c s' hs' : sound_x tb s -> points x_name s hs -> index_keeps c ->
    index_step tb (Some (s, hs)) c = Some (s', hs') -> sound_x tb s' /\ points x_name s' hs'.
  Proof.
    intros S H K E. cbn [index_step] in E. destruct c as [name columns exprs|h a].
    - destruct (put_index _ _ _ _ _) as [[i s1]|] eqn:Q; [|discriminate]. injection E as <- <-. unfold put_index in Q. destruct name as [|a name]; [discriminate|]. cbn [is_empty] in Q. injection Q as Q.
      apply (upsert_sound x_name x_ignore (index_at tb)) with (hs := hs) in Q; auto; [discriminate|split; reflexivity|]. intros x. split; [reflexivity|]. split; [reflexivity|]. intros _. split; reflexivity.
    - destruct (nth_error hs h) as [[i name]|] eqn:Hh; [|discriminate]. destruct (nth_error (objects s) i) as [c|] eqn:Hc; [|discriminate]. injection E as <- <-.
      assert (Nc : x_name c = name). { unfold points in H. rewrite Forall_forall in H. destruct (H (i, name) (nth_error_In _ _ Hh)) as (c' & X & Y). cbn [fst snd] in *. congruence. }
      assert (Na : x_name (apply_index_attr tb name a c) = x_name c /\ (x_ignore c = true -> x_ignore (apply_index_attr tb name a c) = true) /\ (index_at tb c -> index_at tb (apply_index_attr tb name a c))).
      { destruct a; cbn [apply_index_attr]; auto. cbn [x_name x_ignore]. split; [exact (eq_sym Nc)|]. split; [exact (K c)|]. intros _. split; reflexivity. }
      destruct Na as (Na & Ni & Np). split; [apply sound_edit with (a := c); auto|apply points_edit with (a := c); auto].
  Qed.
  Lemma trigger_info_named fuel d sql g : trigger_info fuel d sql = LOk g -> g_table g <> [] -> g_name g <> [] /\ g_ignore g = false.
  Proof.
    unfold trigger_info. intros H T. destruct (trigger_loop _ _ _ _ _) as [[[n s] t]| | |] eqn:E; try discriminate.
    destruct (negb (is_empty sql) && (is_empty n || is_empty t)) eqn:X; [discriminate|]. injection H as <-. cbn [g_name g_ignore g_table] in *. split; [|reflexivity].
    intros ->. destruct sql as [|c sql]; [|discriminate]. assert (E' : trigger_loop fuel d PreTrigger [] [] = LOk ([], [], [])) by (now destruct fuel). rewrite E' in E. congruence.
  Qed.
  Lemma t_trigger_sound fuel d text t t' : t_name t <> [] -> sound_g (table_of t) (t_triggers t) -> t_trigger fuel d text t = LOk t' ->
    exists gs, t' = set_triggers gs t /\ sound_g (table_of t) gs.
  Proof.
    intros N S H. unfold t_trigger in H. destruct (trigger_info _ _ _) as [g| | |] eqn:E; try discriminate.
    destruct (negb (is_empty (g_schema g)) && negb (beqb (g_schema g) (t_schema t))) eqn:X; [discriminate|]. destruct (negb (beqb (g_table g) (t_name t))) eqn:Y; [discriminate|].
    apply Bool.negb_false_iff, beqb_eq in Y. destruct (trigger_info_named _ _ _ _ E) as (Gn & Gi); [congruence|].
    assert (Ga : trigger_at (table_of t) g). { split; [|exact Y]. apply Bool.andb_false_iff in X. destruct X as [X|X]; [left; now destruct (g_schema g)|right; now apply Bool.negb_false_iff, beqb_eq in X]. }
    destruct (lookup_cases g_name g_ignore _ (g_name g) (t_triggers t) S Gn) as [(j & a & L & Hj & Ha)|(L & Ab)].
    - rewrite L in H. pose proof (sound_lookup g_name g_ignore _ (g_name g) _ S) as S1. set (s1 := snd (lookup g_name g_ignore false (g_name g) (t_triggers t))) in *.
      assert (O : objects s1 = objects (t_triggers t)) by apply lookup_objects. rewrite <- O in Hj. rewrite Hj in H. injection H as <-. eexists. split; [reflexivity|].
      apply sound_edit with (a := a); auto.
    - pose proof (sound_lookup g_name g_ignore _ (g_name g) _ S) as S1. pose proof (lookup_objects g_name g_ignore false (g_name g) (t_triggers t)) as O.
      destruct (lookup _ _ _ _ _) as [o s1]. cbn [fst snd] in *. subst o. injection H as <-. eexists. split; [reflexivity|]. apply sound_append; auto. now rewrite O.
  Qed.
  Lemma t_step_sound d st call st' : well_run d st -> call_keeps call -> t_step numeric d st call = Some st' -> well_run d st'.
  Proof.
    intros W K H. pose proof W as (N & S1 & P1 & S2 & S3 & P3 & S4). unfold t_step in H. destruct call as [|module args|name|h c|c|c|[text|]].
    - injection H as <-. exact W.
    - injection H as <-. exact W.
    - pose proof (sound_lookup l_name l_ignore any name _ S1) as L1. pose proof (points_lookup l_name l_ignore _ name _ P1) as L2.
      pose proof (lookup_sound_state l_name l_ignore false name (t_columns (ts_table st))) as L3. pose proof (lookup_objects l_name l_ignore false name (t_columns (ts_table st))) as O.
      destruct (lookup _ _ _ _ _) as [[i|] cs]; [|discriminate]. cbn [fst snd] in *. injection H as <-. split; [exact N|]. split; [exact L1|]. split; [|auto].
      apply Forall_app. split; [exact L2|]. constructor; [|constructor]. cbn [fst snd ts_table with_columns t_columns]. rewrite O. destruct (L3 i eq_refl) as (a & A1 & A2 & _). eauto.
    - destruct (nth_error (ts_columns st) h) as [[i name]|] eqn:Hh; [|discriminate]. destruct (t_key c) as [ty|] eqn:Kc.
      + destruct (put_constraint _ _ _ _ _ _ _) as [[j ks]|] eqn:Q; [|discriminate]. injection H as <-. split; [exact N|]. split; [exact S1|]. split; [exact P1|]. split; [|auto].
        intros D. destruct (S2 D) as (T1 & T2). destruct (put_constraint_sound _ _ _ _ _ _ _ _ _ _ D T1 T2 Q) as (U1 & U2). split; [exact U1|]. apply Forall_app in U2. apply U2.
      + destruct (nth_error (objects (t_columns (ts_table st))) i) as [l|] eqn:Hl; [|discriminate]. injection H as <-.
        assert (Nl : l_name l = name). { unfold points in P1. rewrite Forall_forall in P1. destruct (P1 (i, name) (nth_error_In _ _ Hh)) as (c' & X & Y). cbn [fst snd] in *. congruence. }
        assert (Na : l_name (t_column_change numeric d (table_of (ts_table st)) name c l) = l_name l /\ (l_ignore l = true -> l_ignore (t_column_change numeric d (table_of (ts_table st)) name c l) = true)).
        { rewrite change_spec by exact Nl. split; [apply after_call_name|]. intros Ig. destruct c; cbn; try exact Ig; try reflexivity. now apply K. }
        destruct Na as (Na & Ni). split; [exact N|]. split; [apply sound_edit with (a := l); auto|]. split; [apply points_edit with (a := l); auto|auto].
    - destruct (constraint_step _ _ _ _) as [[ks hs]|] eqn:Q; [|discriminate]. injection H as <-. split; [exact N|]. split; [exact S1|]. split; [exact P1|]. split; [|auto].
      intros D. destruct (S2 D) as (T1 & T2). now apply (constraint_step_sound d _ _ _ _ _ _ D T1 T2 K Q).
    - destruct (index_step _ _ _) as [[xs hs]|] eqn:Q; [|discriminate]. injection H as <-. split; [exact N|]. split; [exact S1|]. split; [exact P1|]. split; [exact S2|].
      destruct (index_step_sound _ _ _ _ _ _ S3 P3 K Q) as (U1 & U2). split; [exact U1|]. split; [exact U2|exact S4].
    - destruct (t_trigger _ _ _ _) as [t'| | |] eqn:E; try discriminate. injection H as <-. apply t_trigger_sound in E; [|exact N|exact S4]. destruct E as (gs & -> & G). split; [exact N|]. auto 10.
    - discriminate.
  Qed.
  Lemma t_run_sound d calls st st' : well_run d st -> Forall call_keeps calls -> t_run numeric d calls st = Some st' -> well_run d st'.
  Proof.
    revert st. induction calls as [|c calls IH]; intros st W K H; cbn [t_run] in H; [now injection H as <-|]. inversion K; subst.
    destruct (t_step numeric d st c) as [s1|] eqn:E; [|discriminate]. apply t_step_sound in E; auto. now apply (IH s1).
  Qed.
  Lemma mark_column_sound cs c : sound_l cs -> sound_l (mark_column cs c).
  Proof.
    intros S. unfold mark_column. destruct (c_columns c) as [|name [|? ?]]; auto. pose proof (sound_lookup l_name l_ignore any name cs S) as S1.
    destruct (lookup _ _ _ _ _) as [[i|] cs1]; cbn [snd] in S1; auto. destruct (nth_error (objects cs1) i) as [l|] eqn:E; auto.
    destruct (beqb _ _); [apply sound_edit with (a := l); auto|]. destruct (beqb _ _); [apply sound_edit with (a := l); auto|auto].
  Qed.
  (** Everything Migrate asks of a wanted table, except that the triggers name
      the schema. *)
  Lemma load_table_good d schema name fs ddl t : load_table numeric d schema name fs ddl (empty_table schema name) = LOk t -> Forall call_keeps ddl ->
    (forall g, In g (objects (t_triggers t)) -> g_schema g = schema) -> good_table d schema t.
  Proof.
    intros H K G. unfold load_table in H. destruct name as [|a name]; [discriminate|]. cbn [is_empty empty_table t_columns t_constraints t_indexes t_triggers t_virtual t_virtual_args t_ignore] in H.
    apply lbind_ok in H. destruct H as ([t1 stop] & E & H). cbn [fst snd] in H.
    apply load_fields_sound in E; [|split; [apply sound_new|]; split; [apply sound_new|]; split; apply sound_new]. destruct E as ((S1 & S2 & S3 & S4) & Tb). cbn [fst] in *.
    unfold table_of in Tb. cbn [t_schema t_name] in Tb. injection Tb as T1 T2.
    assert (F : well_run d (mk_t t1 [] [] []) ). { split; [cbn [ts_table]; congruence|]. split; [exact S1|]. split; [constructor|]. split; [intros _; split; [exact S2|constructor]|]. split; [exact S3|]. split; [constructor|exact S4]. }
    assert (R : exists st, well_run d st /\ table_of (ts_table st) = mk_table_id schema (a :: name) /\
      t_schema t = schema /\ t_name t = a :: name /\ sound_l (t_columns t) /\ t_constraints t = t_constraints (ts_table st) /\ t_indexes t = t_indexes (ts_table st) /\ t_triggers t = t_triggers (ts_table st)).
    { destruct stop.
      - injection H as <-. exists (mk_t t1 [] [] []). split; [exact F|]. split; [unfold table_of; cbn [ts_table]; congruence|]. split; [congruence|]. split; [congruence|]. auto.
      - destruct (t_run numeric d ddl _) as [st|] eqn:Q; [|discriminate]. injection H as <-. exists st. pose proof (t_run_sound _ _ _ _ F K Q) as W. split; [exact W|].
        assert (Tn : table_of (ts_table st) = table_of t1).
        { clear - Q. enough (X : forall st0, t_run numeric d ddl st0 = Some st -> table_of (ts_table st) = table_of (ts_table st0)) by (exact (X _ Q)). clear Q.
          induction ddl as [|c l IH]; intros st0 H; cbn [t_run] in H; [now injection H as <-|]. destruct (t_step numeric d st0 c) as [s1|] eqn:E; [|discriminate]. apply IH in H. rewrite H. clear IH H.
          unfold t_step in E. destruct c as [|module args|nm|h c|c|c|[text|]].
          - now injection E as <-.
          - now injection E as <-.
          - destruct (lookup _ _ _ _ _) as [[i|] cs]; [|discriminate]. now injection E as <-.
          - destruct (nth_error _ _) as [[i nm]|]; [|discriminate]. destruct (t_key c).
            + destruct (put_constraint _ _ _ _ _ _ _) as [[j ks]|]; [|discriminate]. now injection E as <-.
            + destruct (nth_error _ _); [|discriminate]. now injection E as <-.
          - destruct (constraint_step _ _ _ _) as [[ks hs]|]; [|discriminate]. now injection E as <-.
          - destruct (index_step _ _ _) as [[ks hs]|]; [|discriminate]. now injection E as <-.
          - destruct (t_trigger _ _ _ _) as [t'| | |] eqn:Q; try discriminate. injection E as <-. apply t_trigger_same in Q. now destruct Q as (gs & ->).
          - discriminate. }
        unfold table_of in Tn at 1. injection Tn as U1 U2.
        split; [unfold table_of; congruence|]. unfold mark_columns. destruct (fts5_columns (ts_table st)) as (X1 & X2 & X3 & (Y1 & Y2 & Y3) & _). cbn [with_columns t_schema t_name t_columns t_constraints t_indexes t_triggers fst snd].
        rewrite X1, X2, X3, Y1, Y2, Y3. split; [congruence|]. split; [congruence|]. split; [|auto]. destruct W as (_ & W & _). clear - W. revert W. generalize (t_columns (ts_table st)). induction (objects (t_constraints (ts_table st))) as [|c l IH]; intros cs W; [exact W|]. cbn [fold_left]. apply IH. now apply mark_column_sound. }
    destruct R as (st & (_ & _ & _ & W2 & W3 & _ & W4) & Tb & R1 & R2 & R3 & R4 & R5 & R6). rewrite Tb in *. rewrite <- R4, <- R5, <- R6 in *.
    split; [exact R1|]. split; [eapply sound_good; exact R3|]. split; [intros D; eapply sound_good; apply W2; exact D|]. split; [eapply sound_good; exact W3|].
    split; [intros x Ix; rewrite R2; apply W3; exact Ix|]. split; [eapply sound_good; exact W4|]. intros g Ig. rewrite R2. split; [now apply G|]. destruct W4 as (_ & _ & W4). apply (W4 g Ig).
  Qed.
End Numeric.
