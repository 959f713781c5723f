(** * LoadGrow: loading only adds (C89) *)
From Coq Require Import Lia.
From Verif Require Import GoBase GoBaseFacts QuoteModel CacheModel SpecCache CacheFacts UpsertModel TokenModel NameModel DdlModel MigrateModel SpecMigrate
  TriggerModel TriggerStore LoadModel LoadFacts LoadDdl SpecT SpecAuto LoadGood DbModel SpecGrow.
From Verif Require SpecDeclare.
From Verif Require Import BuildModel.

Lemma forall2_refl {A} (R : A -> A -> Prop) : (forall a, R a a) -> forall l, Forall2 R l l.
Proof. intros Rf l. induction l; auto. Qed.
Lemma forall2_set {A} (R : A -> A -> Prop) l i a a' : (forall x, R x x) -> nth_error l i = Some a -> R a a' -> Forall2 R l (list_set l i a').
Proof.
  intros Rf. revert i. induction l as [|x l IH]; intros [|i] E H; try discriminate E; cbn [list_set].
  - injection E as ->. constructor; [exact H|now apply forall2_refl].
  - constructor; [apply Rf|]. now apply IH.
Qed.
Section Grown.
  Context {A : Type} (R : A -> A -> Prop) (Rr : forall a, R a a) (Rt : forall a b c, R a b -> R b c -> R a c).
  Lemma grown_refl l : grown R l l.
  Proof. exists l, []. rewrite app_nil_r. split; [reflexivity|now apply forall2_refl]. Qed.
  Lemma forall2_trans l1 l2 l3 : Forall2 R l1 l2 -> Forall2 R l2 l3 -> Forall2 R l1 l3.
  Proof. intros H. revert l3. induction H; intros l3 K; inversion K; subst; constructor; eauto. Qed.
  Lemma grown_trans l1 l2 l3 : grown R l1 l2 -> grown R l2 l3 -> grown R l1 l3.
  Proof.
    intros (k1 & m1 & -> & H1) (k2 & m2 & -> & H2). apply Forall2_app_inv_l in H2. destruct H2 as (a & b & Ha & Hb & ->).
    exists a, (b ++ m2). rewrite app_assoc. split; [reflexivity|]. now apply forall2_trans with k1.
  Qed.
  Lemma grown_set l i a a' : nth_error l i = Some a -> R a a' -> grown R l (list_set l i a').
  Proof. intros E H. exists (list_set l i a'), []. rewrite app_nil_r. split; [reflexivity|]. now apply forall2_set with a. Qed.
  Lemma grown_app l m : grown R l (l ++ m).
  Proof. exists l, m. split; [reflexivity|now apply forall2_refl]. Qed.
  Lemma grown_nth l l' i a : grown R l l' -> nth_error l i = Some a -> exists a', nth_error l' i = Some a' /\ R a a'.
  Proof.
    intros (k & m & -> & F) E. revert i E. induction F as [|x y l k H F IH]; intros [|i] E; try discriminate E.
    - injection E as ->. exists y. auto.
    - now apply IH.
  Qed.
End Grown.
Lemma grown_mono {A} (R R' : A -> A -> Prop) l l' : (forall a b, R a b -> R' a b) -> grown R l l' -> grown R' l l'.
Proof. intros H (k & m & E & F). exists k, m. split; [exact E|]. clear E. induction F; constructor; auto. Qed.
Lemma same_refl {A} (n : A -> bytes) a : same_name n a a. Proof. reflexivity. Qed.
Lemma same_trans {A} (n : A -> bytes) a b c : same_name n a b -> same_name n b c -> same_name n a c. Proof. unfold same_name. congruence. Qed.
#[local] Hint Resolve same_refl same_trans : core.

Section Stores.
  Context {A : Type} (name_of : A -> bytes) (ignored : A -> bool) (R : A -> A -> Prop)
    (Rr : forall a, R a a) (Rn : forall a b, R a b -> name_of b = name_of a).
  Lemma grown_points s s' hs : grown R (objects s) (objects s') -> points name_of s hs -> points name_of s' hs.
  Proof.
    intros G. apply Forall_impl. intros (i & n) (a & E & N). cbn [fst snd] in *. destruct (grown_nth R _ _ i a G E) as (a' & E' & H). exists a'. split; [exact E'|].
    rewrite (Rn _ _ H). exact N.
  Qed.
  Lemma upsert_grown name create update s hs i s' : points name_of s hs -> name_of create = name ->
    (forall a, name_of a = name -> R a (update a)) ->
    upsert name_of ignored name create update s = (i, s') -> grown R (objects s) (objects s') /\ points name_of s' (hs ++ [(i, name)]).
  Proof.
    intros H Nc Up E. unfold upsert in E. pose proof (lookup_objects name_of ignored false name s) as O.
    pose proof (lookup_sound_state name_of ignored false name s) as L. destruct (lookup _ _ _ _ _) as [[j|] s1]; cbn [fst snd] in *.
    - destruct (L j eq_refl) as (a & Ha & Na & _). rewrite O, Ha in E. injection E as <- <-. cbn [edit objects].
      assert (G : grown R (objects s) (list_set (objects s) j (update a))) by (apply grown_set with a; auto).
      split; [exact G|]. apply Forall_app. split; [now apply (grown_points s (edit (list_set (objects s) j (update a)) s1))|].
      constructor; [|constructor]. cbn [fst snd edit objects]. exists (update a). rewrite nth_set by (apply nth_error_Some; congruence). rewrite Nat.eqb_refl.
      split; [reflexivity|]. rewrite (Rn _ _ (Up a Na)). exact Na.
    - unfold append in E. rewrite app_length in E. cbn [length] in E. injection E as <- <-. cbn [objects]. rewrite O.
      assert (G : grown R (objects s) (objects s ++ [create])) by (now apply grown_app). split; [exact G|]. apply Forall_app. split.
      + apply Forall_impl with (2 := H). intros (k & n) (a & E & N). cbn [fst snd objects] in *. exists a. split; [|exact N]. rewrite nth_error_app1; [exact E|]. apply nth_error_Some. congruence.
      + constructor; [|constructor]. cbn [fst snd objects]. exists create. rewrite nth_error_app2 by lia.
        replace (length (objects s) + 1 - 1 - length (objects s)) with 0 by lia. auto.
  Qed.
  Lemma store_grown {T : Type} name create found (f : A -> lexres (A * T)) s r (Q : T -> Prop) :
    (forall a, name_of a = name -> forall a' x, f (found a) = LOk (a', x) -> R a a') -> (forall a a' x, f a = LOk (a', x) -> Q x) ->
    store name_of ignored name create found f s = LOk r -> grown R (objects s) (objects (fst r)) /\ Q (snd r).
  Proof.
    intros Ff Fq E. unfold store in E. pose proof (lookup_objects name_of ignored false name s) as O.
    pose proof (lookup_sound_state name_of ignored false name s) as L. destruct (lookup _ _ _ _ _) as [[j|] s1]; cbn [fst snd] in *.
    - destruct (L j eq_refl) as (a & Ha & Na & _). rewrite O, Ha in E. apply lbind_ok in E. destruct E as ([a' x] & E & K). injection K as <-. cbn [fst snd edit objects].
      split; [apply grown_set with a; eauto|eauto].
    - apply lbind_ok in E. destruct E as ([a' x] & E & K). injection K as <-. cbn [fst snd append objects]. rewrite O. split; [now apply grown_app|eauto].
  Qed.
  (** What was stored is there. *)
  Lemma store_there {T : Type} name create found (f : A -> lexres (A * T)) s r : name_of create = name ->
    (forall a, name_of (found a) = name_of a) -> (forall a a' x, f a = LOk (a', x) -> name_of a' = name_of a) ->
    store name_of ignored name create found f s = LOk r -> In name (map name_of (objects (fst r))).
  Proof.
    intros Nc Nf Ff E. unfold store in E. pose proof (lookup_objects name_of ignored false name s) as O.
    pose proof (lookup_sound_state name_of ignored false name s) as L. destruct (lookup _ _ _ _ _) as [[j|] s1]; cbn [fst snd] in *.
    - destruct (L j eq_refl) as (a & Ha & Na & _). rewrite O, Ha in E. apply lbind_ok in E. destruct E as ([a' x] & E & K). injection K as <-. cbn [fst snd edit objects].
      rewrite <- Na, <- (Nf a), <- (Ff _ _ _ E). apply in_map, (nth_error_In _ j). rewrite nth_set by (apply nth_error_Some; congruence). now rewrite Nat.eqb_refl.
    - apply lbind_ok in E. destruct E as ([a' x] & E & K). injection K as <-. cbn [fst snd append objects]. rewrite <- Nc, <- (Ff _ _ _ E).
      apply in_map, in_or_app. right. now left.
  Qed.
End Stores.

(** ** Struct tags *)
Notation grown_c s s' := (grown (same_name c_name) (objects s) (objects s')).
Notation grown_x s s' := (grown (same_name x_name) (objects s) (objects s')).
Notation grown_g s s' := (grown (same_name g_name) (objects s) (objects s')).
Lemma grown_c_refl s : grown_c s s. Proof. apply grown_refl; auto. Qed.
Lemma grown_x_refl s : grown_x s s. Proof. apply grown_refl; auto. Qed.
Lemma grown_g_refl s : grown_g s s. Proof. apply grown_refl; auto. Qed.
Lemma grown_c_trans (s1 s2 s3 : cached constraint) : grown_c s1 s2 -> grown_c s2 s3 -> grown_c s1 s3. Proof. apply grown_trans; eauto. Qed.
Lemma grown_x_trans (s1 s2 s3 : cached index) : grown_x s1 s2 -> grown_x s2 s3 -> grown_x s1 s3. Proof. apply grown_trans; eauto. Qed.
Lemma grown_g_trans (s1 s2 s3 : cached trigger) : grown_g s1 s2 -> grown_g s2 s3 -> grown_g s1 s3. Proof. apply grown_trans; eauto. Qed.
#[local] Hint Resolve grown_c_refl grown_x_refl grown_g_refl : core.

Lemma load_index_grown d tb tname columns config s s' : load_index d tb tname columns config s = LOk s' -> grown_x s s'.
Proof.
  intros H. unfold load_index in H. apply lbind_ok in H. destruct H as ([names ms] & _ & H).
  destruct (if beqb names (B ".") || is_empty names then columns else split_byte "," names) as [|c cs]; [discriminate|].
  apply lbind_ok in H. destruct H as (r & H & K). injection K as <-.
  eapply store_grown with (R := same_name x_name) (Q := fun _ => True) in H; [exact (proj1 H)|auto| |auto].
  intros a _ a' [] F. apply lbind_ok in F. destruct F as (x' & F & K). injection K as <-.
  apply (lfold_inv _ _ _ (fun q => x_name q = x_name a)) with (3 := F); [|reflexivity].
  intros z m z' Z E. apply index_modifier_ok in E. destruct E as (E1 & _). congruence.
Qed.
Lemma constraint_modifier_grown d tb tname columns st m st' : constraint_modifier d tb tname columns st m = LOk st' -> grown_x (snd st) (snd st').
Proof.
  destruct st as [c x], m as [k v]. unfold constraint_modifier. cbn [fst snd]. intros H.
  destruct (_ || _); [injection H as <-; auto|].
  destruct (beqb k _); [injection H as <-; auto|].
  destruct (beqb k _); [destruct (rule_of v); [injection H as <-; cbn; auto|discriminate]|].
  destruct (beqb k _); [destruct (rule_of v); [injection H as <-; cbn; auto|discriminate]|].
  destruct (beqb k _); [injection H as <-; auto|].
  destruct (beqb k _); [injection H as <-; auto|].
  destruct (beqb k _); [injection H as <-; auto|].
  destruct (beqb k _); [|discriminate]. apply lbind_ok in H. destruct H as (x' & H & K). injection K as <-. cbn [snd]. now apply load_index_grown in H.
Qed.
Lemma load_constraint_grown d tb ty refs schema tname columns config st st' :
  load_constraint d tb ty refs schema tname columns config st = LOk st' -> grown_c (fst st) (fst st') /\ grown_x (snd st) (snd st').
Proof.
  intros H. unfold load_constraint in H. apply lbind_ok in H. destruct H as ([value ms] & _ & H).
  destruct (if refs || beqb value (B ".") || is_empty value then columns else split_byte "," value) as [|c cs]; [discriminate|].
  eapply store_grown with (R := same_name c_name) (Q := fun x => grown_x (snd st) x) in H; [exact H|auto| |].
  - intros a _ a' x F. change (c_name (fst (a', x)) = c_name a).
    apply (lfold_inv _ _ _ (fun q => c_name (fst q) = c_name a)) with (3 := F).
    + intros z m z' Z E. apply constraint_modifier_ok in E. destruct E as (E1 & _). congruence.
    + cbn [fst]. destruct refs; [exact (proj1 (set_references_ok value (c :: cs) (c_set_type ty a)))|reflexivity].
  - intros a a' x F. change (grown_x (snd st) (snd (a', x))).
    apply (lfold_inv _ _ _ (fun q => grown_x (snd st) (snd q))) with (3 := F); [|cbn [snd]; auto].
    intros z m z' Z E. apply constraint_modifier_grown in E. now apply grown_x_trans with (snd z).
Qed.
Definition table_kept_by (R : column -> column -> Prop) (t t' : table) : Prop :=
  t_name t' = t_name t /\ grown R (objects (t_columns t)) (objects (t_columns t')) /\
  grown_c (t_constraints t) (t_constraints t') /\ grown_x (t_indexes t) (t_indexes t') /\ grown_g (t_triggers t) (t_triggers t').
Section Tables.
  Context (numeric : bytes -> bool) (fs0 : list struct_field) (ddl0 : list t_call).
  Notation R := (column_kept fs0 ddl0).
  Lemma marked_refl l : only_marked l l. Proof. split; [now destruct l|auto]. Qed.
  Lemma marked_trans a b c : only_marked a b -> only_marked b c -> only_marked a c.
  Proof. intros (E1 & U1 & P1) (E2 & U2 & P2). split; [|auto]. rewrite E2. rewrite E1. reflexivity. Qed.
  Lemma R_refl l : R l l. Proof. split; [reflexivity|]. intros _. apply marked_refl. Qed.
  Lemma R_trans a b c : R a b -> R b c -> R a c.
  Proof. intros (N1 & M1) (N2 & M2). split; [congruence|]. intros M. apply marked_trans with b; [auto|]. apply M2. now rewrite N1. Qed.
  Lemma R_name a b : R a b -> l_name b = l_name a. Proof. now intros []. Qed.
  Hint Resolve R_refl R_name : core.
  Notation kept := (table_kept_by R).
  Lemma kept_refl t : kept t t. Proof. split; [reflexivity|]. split; [now apply grown_refl|auto]. Qed.
  Lemma kept_trans a b c : kept a b -> kept b c -> kept a c.
  Proof.
    intros (A1 & A2 & A3 & A4 & A5) (B1 & B2 & B3 & B4 & B5). split; [congruence|]. split; [exact (grown_trans R R_trans _ _ _ A2 B2)|].
    split; [now apply grown_c_trans with (t_constraints b)|]. split; [now apply grown_x_trans with (t_indexes b)|]. now apply grown_g_trans with (t_triggers b).
  Qed.
  Lemma column_modifier_grown d tb st m st' : column_modifier numeric d tb st m = LOk st' ->
    grown_c (fst (snd st)) (fst (snd st')) /\ grown_x (snd (snd st)) (snd (snd st')).
  Proof.
    destruct st as [l s]. unfold column_modifier. cbn [fst snd]. intros H. destruct (strip_dialect _ _) as [k|]; [|injection H as <-; auto].
    destruct (column_setting _ _ _ _) as [attrs|]; [injection H as <-; auto|]. destruct (constraint_kind k) as [[ty refs]|].
    - apply lbind_ok in H. destruct H as (s' & H & K). injection K as <-. cbn [fst snd]. now apply load_constraint_grown in H.
    - destruct (beqb k _); [|discriminate]. apply lbind_ok in H. destruct H as (x & H & K). injection K as <-. cbn [fst snd]. split; [auto|]. now apply load_index_grown in H.
  Qed.
  Lemma load_column_grown d name type tag t t' : mentions fs0 ddl0 name -> load_column numeric d name type tag t = LOk t' ->
    kept t t' /\ In name (map l_name (objects (t_columns t'))).
  Proof.
    intros M H. unfold load_column in H. apply lbind_ok in H. destruct H as (ms & _ & H). apply lbind_ok in H. destruct H as (r & H & K). injection K as <-.
    assert (N : forall a a' x, lfold (column_modifier numeric d (table_of t)) ms (a, (t_constraints t, t_indexes t)) = LOk (a', x) -> l_name a' = l_name a).
    { intros a a' x F. change (l_name (fst (a', x)) = l_name a). apply (lfold_inv _ _ _ (fun q => l_name (fst q) = l_name a)) with (3 := F); [|reflexivity].
      intros z m z' Z E. apply column_modifier_ok in E. destruct E as (E1 & _). congruence. }
    split; [|eapply store_there with (4 := H); [reflexivity|reflexivity|exact N]].
    eapply store_grown with (R := R) (Q := fun q => grown_c (t_constraints t) (fst q) /\ grown_x (t_indexes t) (snd q)) in H; [|auto| |].
    - destruct H as (H1 & H2 & H3). split; [reflexivity|]. split; [exact H1|]. split; [exact H2|]. split; [exact H3|]. apply grown_g_refl.
    - intros a Na a' x F. apply N in F. split; [exact F|]. intros NM. elim NM. now rewrite Na.
    - intros a a' x F. change (grown_c (t_constraints t) (fst (snd (a', x))) /\ grown_x (t_indexes t) (snd (snd (a', x)))).
      apply (lfold_inv _ _ _ (fun q => grown_c (t_constraints t) (fst (snd q)) /\ grown_x (t_indexes t) (snd (snd q)))) with (3 := F); [|cbn [fst snd]; auto].
      intros z m z' (Z1 & Z2) E. apply column_modifier_grown in E. destruct E as (E1 & E2). split; [now apply grown_c_trans with (fst (snd z))|now apply grown_x_trans with (snd (snd z))].
  Qed.
  Lemma table_modifier_grown d t m t' : table_modifier d t m = LOk t' -> kept t t'.
  Proof.
    intros H. unfold table_modifier in H. destruct (strip_dialect _ _) as [k|]; [|injection H as <-; apply kept_refl].
    destruct (beqb k _); [destruct (is_sqlite d); [apply lbind_ok in H; destruct H as (r & _ & H)|]; injection H as <-; exact (kept_refl t)|].
    destruct (constraint_kind k) as [[ty refs]|].
    - apply lbind_ok in H. destruct H as (s & H & K). injection K as <-. apply load_constraint_grown in H. destruct H as (H1 & H2).
      split; [reflexivity|]. split; [now apply grown_refl|]. split; [exact H1|]. split; [exact H2|]. apply grown_g_refl.
    - destruct (beqb k _).
      + apply lbind_ok in H. destruct H as (s & H & K). injection K as <-. apply load_index_grown in H.
        split; [reflexivity|]. split; [now apply grown_refl|]. split; [apply grown_c_refl|]. split; [exact H|]. apply grown_g_refl.
      + destruct (beqb k _); [|discriminate]. injection H as <-. destruct (ignores d _); exact (kept_refl t).
  Qed.
  Lemma load_fields_grown d fs t r : (forall n k tag, In (SColumn n k tag) fs -> mentions fs0 ddl0 n) -> load_fields numeric d fs t = LOk r -> kept t (fst r).
  Proof.
    revert t. induction fs as [|f fs IH]; intros t M H; cbn [load_fields] in H; [injection H as <-; apply kept_refl|].
    assert (M' : forall n k tag, In (SColumn n k tag) fs -> mentions fs0 ddl0 n) by (intros n k tag I; apply (M n k tag); now right).
    destruct f as [tag|name kind tag].
    - apply lbind_ok in H. destruct H as (t' & E & H). assert (N : kept t t').
      { unfold load_table_tag in E. apply lbind_ok in E. destruct E as (ms & _ & E). apply (lfold_inv _ _ _ (fun q => kept t q)) with (s := t) (3 := E); [|apply kept_refl].
        intros s m s' W X. apply table_modifier_grown in X. now apply kept_trans with s. }
      destruct (t_ignore t'); [injection H as <-; exact N|]. apply IH in H; [|exact M']. now apply kept_trans with t'.
    - destruct (is_empty name); [discriminate|]. apply lbind_ok in H. destruct H as (t' & E & H). apply load_column_grown in E; [|apply (M name kind tag); now left].
      apply IH in H; [|exact M']. apply kept_trans with t'; [apply E|exact H].
  Qed.
  (** Every column of the fields is there, unless the table was ignored. *)
  Lemma in_kept n t t' : kept t t' -> In n (map l_name (objects (t_columns t))) -> In n (map l_name (objects (t_columns t'))).
  Proof.
    intros (_ & G & _) I. apply in_map_iff in I. destruct I as (l & <- & I). apply In_nth_error in I. destruct I as (i & I).
    destruct (grown_nth R _ _ i l G I) as (l' & E & Rl). rewrite <- (R_name _ _ Rl). apply in_map, (nth_error_In _ i), E.
  Qed.
  Lemma load_fields_there d fs t r : (forall n k tag, In (SColumn n k tag) fs -> mentions fs0 ddl0 n) -> load_fields numeric d fs t = LOk r -> snd r = false ->
    forall n k tag, In (SColumn n k tag) fs -> In n (map l_name (objects (t_columns (fst r)))).
  Proof.
    revert t. induction fs as [|f fs IH]; intros t M H S; cbn [load_fields] in H; [intros n k tag []|].
    assert (M' : forall n k tag, In (SColumn n k tag) fs -> mentions fs0 ddl0 n) by (intros n k tag I; apply (M n k tag); now right).
    destruct f as [tag|name kind tag].
    - apply lbind_ok in H. destruct H as (t' & E & H). destruct (t_ignore t'); [injection H as <-; discriminate S|].
      intros n k tg [I|I]; [discriminate I|]. exact (IH t' M' H S n k tg I).
    - destruct (is_empty name); [discriminate|]. apply lbind_ok in H. destruct H as (t' & E & H). apply load_column_grown in E; [|apply (M name kind tag); now left].
      intros n k tg [I|I]; [|exact (IH t' M' H S n k tg I)]. injection I as <- _ _. apply in_kept with t'; [|apply E]. now apply load_fields_grown in H.
  Qed.

  (** ** The DDL method *)
  Definition run_ok (st : t_state) : Prop :=
    points l_name (t_columns (ts_table st)) (ts_columns st) /\ points c_name (t_constraints (ts_table st)) (ts_constraints st) /\
    points x_name (t_indexes (ts_table st)) (ts_indexes st) /\ Forall (fun h => mentions fs0 ddl0 (snd h)) (ts_columns st).
  Lemma put_constraint_grown d tb ty name columns check s hs i s' : points c_name s hs ->
    put_constraint d tb ty name columns check s = Some (i, s') -> grown_c s s' /\ points c_name s' (hs ++ [(i, name)]).
  Proof.
    intros H E. unfold put_constraint in E. destruct (negb (is_sqlite d) && is_empty name); [discriminate|]. injection E as E.
    apply (upsert_grown c_name c_ignore (same_name c_name)) with (hs := hs) in E; [exact E|auto|intros ? ? X; exact X|exact H|reflexivity|intros a _; reflexivity].
  Qed.
  Lemma constraint_step_grown d tb s hs c s' hs' : points c_name s hs ->
    constraint_step d tb (Some (s, hs)) c = Some (s', hs') -> grown_c s s' /\ points c_name s' hs'.
  Proof.
    intros H E. cbn [constraint_step] in E. destruct c as [ty name columns check|name ixt columns exprs operators|h a].
    - destruct (put_constraint _ _ _ _ _ _ _) as [[i s1]|] eqn:Q; [|discriminate]. injection E as <- <-. now apply (put_constraint_grown d tb ty name columns check s hs).
    - destruct (put_exclusion _ _ _ _ _ _ _ _) as [[i s1]|] eqn:Q; [|discriminate]. injection E as <- <-. unfold put_exclusion in Q.
      destruct (negb (is_postgres d) || is_empty name); [discriminate|]. injection Q as Q.
      apply (upsert_grown c_name c_ignore (same_name c_name)) with (hs := hs) in Q; [exact Q|auto|intros ? ? X; exact X|exact H|reflexivity|intros a _; reflexivity].
    - destruct (nth_error hs h) as [[i name]|] eqn:Hh; [|discriminate]. destruct (nth_error (objects s) i) as [c|] eqn:Hc; [|discriminate]. injection E as <- <-.
      assert (Nc : c_name c = name). { unfold points in H. rewrite Forall_forall in H. destruct (H (i, name) (nth_error_In _ _ Hh)) as (c' & X & Y). cbn [fst snd] in *. congruence. }
      assert (Na : c_name (apply_attr d tb name a c) = c_name c).
      { destruct a; cbn [apply_attr]; unfold c_set_deferrable; try reflexivity; try (destruct (is_mysql d); reflexivity); exact (eq_sym Nc). }
      split; [apply grown_set with c; auto|apply points_edit with (a := c); auto].
  Qed.
  Lemma index_step_grown tb s hs c s' hs' : points x_name s hs -> index_step tb (Some (s, hs)) c = Some (s', hs') -> grown_x s s' /\ points x_name s' hs'.
  Proof.
    intros H E. cbn [index_step] in E. destruct c as [name columns exprs|h a].
    - destruct (put_index _ _ _ _ _) as [[i s1]|] eqn:Q; [|discriminate]. injection E as <- <-. unfold put_index in Q. destruct (is_empty name); [discriminate|]. injection Q as Q.
      apply (upsert_grown x_name x_ignore (same_name x_name)) with (hs := hs) in Q; [exact Q|auto|intros ? ? X; exact X|exact H|reflexivity|intros a _; reflexivity].
    - destruct (nth_error hs h) as [[i name]|] eqn:Hh; [|discriminate]. destruct (nth_error (objects s) i) as [c|] eqn:Hc; [|discriminate]. injection E as <- <-.
      assert (Nc : x_name c = name). { unfold points in H. rewrite Forall_forall in H. destruct (H (i, name) (nth_error_In _ _ Hh)) as (c' & X & Y). cbn [fst snd] in *. congruence. }
      assert (Na : x_name (apply_index_attr tb name a c) = x_name c) by (destruct a; cbn [apply_index_attr]; auto).
      split; [apply grown_set with c; auto|apply points_edit with (a := c); auto].
  Qed.
  Lemma t_trigger_grown fuel d text t t' : t_trigger fuel d text t = LOk t' -> exists gs, t' = set_triggers gs t /\ grown_g (t_triggers t) gs.
  Proof.
    intros H. unfold t_trigger in H. destruct (trigger_info _ _ _) as [g| | |] eqn:E; try discriminate.
    destruct (negb (is_empty (g_schema g)) && negb (beqb (g_schema g) (t_schema t))); [discriminate|]. destruct (negb (beqb (g_table g) (t_name t))); [discriminate|].
    pose proof (lookup_objects g_name g_ignore false (g_name g) (t_triggers t)) as O.
    destruct (lookup _ _ _ _ _) as [[j|] s1]; cbn [snd] in O.
    - destruct (nth_error (objects s1) j) as [a|] eqn:Hj; [|discriminate]. injection H as <-. eexists. split; [reflexivity|]. cbn [edit objects]. rewrite O in *. apply grown_set with a; auto; reflexivity.
    - injection H as <-. eexists. split; [reflexivity|]. cbn [append snd objects]. rewrite O. apply grown_app. auto.
  Qed.
  Lemma t_step_grown d st call st' : run_ok st -> (forall n, call = TColumn n -> mentions fs0 ddl0 n) -> t_step numeric d st call = Some st' ->
    run_ok st' /\ kept (ts_table st) (ts_table st').
  Proof.
    intros W M H. pose proof W as (P1 & P2 & P3 & P4). unfold t_step in H. destruct call as [|module args|name|h c|c|c|[text|]].
    - injection H as <-. split; [exact W|exact (kept_refl (ts_table st))].
    - injection H as <-. split; [exact W|exact (kept_refl (ts_table st))].
    - pose proof (points_lookup l_name l_ignore _ name _ P1) as L2.
      pose proof (lookup_sound_state l_name l_ignore false name (t_columns (ts_table st))) as L3. pose proof (lookup_objects l_name l_ignore false name (t_columns (ts_table st))) as O.
      destruct (lookup _ _ _ _ _) as [[i|] cs]; [|discriminate]. cbn [fst snd] in *. injection H as <-. split.
      + split; [|split; [exact P2|split; [exact P3|]]].
        * apply Forall_app. split; [exact L2|]. constructor; [|constructor]. cbn [fst snd ts_table with_columns t_columns]. rewrite O. destruct (L3 i eq_refl) as (a & A1 & A2 & _). eauto.
        * apply Forall_app. split; [exact P4|]. constructor; [|constructor]. now apply M.
      + split; [reflexivity|]. cbn [ts_table with_columns t_columns]. rewrite O. split; [now apply grown_refl|]. split; [apply grown_c_refl|]. split; [apply grown_x_refl|apply grown_g_refl].
    - destruct (nth_error (ts_columns st) h) as [[i name]|] eqn:Hh; [|discriminate]. destruct (t_key c) as [ty|] eqn:Kc.
      + destruct (put_constraint _ _ _ _ _ _ _) as [[j ks]|] eqn:Q; [|discriminate]. injection H as <-. apply put_constraint_grown with (hs := ts_constraints st) in Q; [|exact P2].
        destruct Q as (U1 & U2). apply Forall_app in U2. split; [split; [exact P1|]; split; [apply U2|]; split; [exact P3|exact P4]|].
        split; [reflexivity|]. split; [now apply grown_refl|]. split; [exact U1|]. split; [apply grown_x_refl|apply grown_g_refl].
      + destruct (nth_error (objects (t_columns (ts_table st))) i) as [l|] eqn:Hl; [|discriminate]. injection H as <-.
        assert (Nl : l_name l = name). { unfold points in P1. rewrite Forall_forall in P1. destruct (P1 (i, name) (nth_error_In _ _ Hh)) as (c' & X & Y). cbn [fst snd] in *. congruence. }
        assert (Na : l_name (t_column_change numeric d (table_of (ts_table st)) name c l) = l_name l) by (rewrite change_spec by exact Nl; apply after_call_name).
        assert (Nm : mentions fs0 ddl0 (l_name l)). { rewrite Nl. rewrite Forall_forall in P4. exact (P4 (i, name) (nth_error_In _ _ Hh)). }
        assert (G : grown R (objects (t_columns (ts_table st))) (list_set (objects (t_columns (ts_table st))) i (t_column_change numeric d (table_of (ts_table st)) name c l))).
        { apply grown_set with l; [auto|exact Hl|]. split; [exact Na|]. intros NM. now elim NM. }
        split; [split; [apply points_edit with (a := l); auto|auto]|]. split; [reflexivity|]. split; [exact G|]. split; [apply grown_c_refl|]. split; [apply grown_x_refl|apply grown_g_refl].
    - destruct (constraint_step _ _ _ _) as [[ks hs]|] eqn:Q; [|discriminate]. injection H as <-. apply constraint_step_grown in Q; [|exact P2]. destruct Q as (U1 & U2).
      split; [split; [exact P1|]; split; [exact U2|]; split; [exact P3|exact P4]|].
      split; [reflexivity|]. split; [now apply grown_refl|]. split; [exact U1|]. split; [apply grown_x_refl|apply grown_g_refl].
    - destruct (index_step _ _ _) as [[xs hs]|] eqn:Q; [|discriminate]. injection H as <-. apply index_step_grown in Q; [|exact P3]. destruct Q as (U1 & U2).
      split; [split; [exact P1|]; split; [exact P2|]; split; [exact U2|exact P4]|].
      split; [reflexivity|]. split; [now apply grown_refl|]. split; [apply grown_c_refl|]. split; [exact U1|apply grown_g_refl].
    - destruct (t_trigger _ _ _ _) as [t'| | |] eqn:E; try discriminate. injection H as <-. apply t_trigger_grown in E. destruct E as (gs & -> & G). split; [exact W|].
      split; [reflexivity|]. split; [now apply grown_refl|]. split; [apply grown_c_refl|]. split; [apply grown_x_refl|exact G].
    - discriminate.
  Qed.
  Lemma t_run_grown d calls st st' : run_ok st -> (forall n, In (TColumn n) calls -> mentions fs0 ddl0 n) -> t_run numeric d calls st = Some st' ->
    kept (ts_table st) (ts_table st').
  Proof.
    revert st. induction calls as [|c calls IH]; intros st W M H; cbn [t_run] in H; [injection H as <-; apply kept_refl|].
    destruct (t_step numeric d st c) as [s1|] eqn:E; [|discriminate]. apply t_step_grown in E; [|exact W|intros n ->; apply M; now left]. destruct E as (E1 & E2).
    apply IH in H; [|exact E1|intros n I; apply M; now right]. now apply kept_trans with (ts_table s1).
  Qed.
  Lemma mark_column_grown cs c : grown R (objects cs) (objects (mark_column cs c)).
  Proof.
    unfold mark_column. destruct (c_columns c) as [|name [|? ?]]; try (now apply grown_refl). pose proof (lookup_objects l_name l_ignore false name cs) as O.
    destruct (lookup _ _ _ _ _) as [[i|] cs1]; cbn [snd] in O; [|rewrite O; now apply grown_refl]. rewrite <- O. destruct (nth_error (objects cs1) i) as [l|] eqn:E; [|now apply grown_refl].
    destruct (beqb _ _); [|destruct (beqb _ _); [|now apply grown_refl]]; (apply grown_set with l; [auto|exact E|]); (split; [reflexivity|]); intros _; split; cbn; auto.
  Qed.
  Lemma mark_columns_grown t : kept t (mark_columns t).
  Proof.
    split; [reflexivity|]. split; [|split; [apply grown_c_refl|split; [apply grown_x_refl|apply grown_g_refl]]]. cbn [mark_columns with_columns t_columns].
    generalize (objects (t_constraints t)) as ks. intros ks. generalize (t_columns t) as cs. induction ks as [|k ks IH]; intros cs; cbn [fold_left]; [now apply grown_refl|].
    exact (grown_trans R R_trans _ _ _ (mark_column_grown cs k) (IH _)).
  Qed.
  Lemma load_table_kept d schema name t0 t : load_table numeric d schema name fs0 ddl0 t0 = LOk t -> t_name t0 = name ->
    kept t0 t /\ (t_ignore t = false -> forall n k tag, In (SColumn n k tag) fs0 -> In n (map l_name (objects (t_columns t)))).
  Proof.
    intros H N. unfold load_table in H. destruct (is_empty name); [discriminate|]. apply lbind_ok in H. destruct H as ([t1 stop] & E & H). cbn [fst snd] in H.
    assert (MF : forall n k tag, In (SColumn n k tag) fs0 -> mentions fs0 ddl0 n) by (intros n k tag I; left; eauto).
    pose proof (load_fields_grown _ _ _ _ MF E) as G. pose proof (load_fields_there _ _ _ _ MF E) as T. cbn [fst snd] in *.
    assert (G0 : kept t0 t1). { destruct G as (G1 & G2). split; [exact (eq_trans G1 (eq_sym N))|exact G2]. }
    destruct stop.
    - injection H as <-. split; [exact G0|]. intros Ig. assert (X : t_ignore t1 = true); [|congruence]. clear - E.
      enough (X : forall fs t, load_fields numeric d fs t = LOk (t1, true) -> t_ignore t1 = true) by (exact (X _ _ E)). clear E.
      induction fs as [|f fs IH]; intros t H; cbn [load_fields] in H; [discriminate|]. destruct f as [tag|nm kind tag].
      + apply lbind_ok in H. destruct H as (t' & _ & H). destruct (t_ignore t') eqn:I; [injection H as <-; exact I|]. exact (IH _ H).
      + destruct (is_empty nm); [discriminate|]. apply lbind_ok in H. destruct H as (t' & _ & H). exact (IH _ H).
    - destruct (t_run numeric d ddl0 _) as [st|] eqn:Q; [|discriminate]. injection H as <-.
      assert (W : run_ok (mk_t t1 [] [] [])) by (split; [constructor|]; split; [constructor|]; split; constructor).
      apply (t_run_grown d ddl0 _ _ W) in Q; [|intros n I; now right]. cbn [ts_table] in Q.
      assert (F : kept (ts_table st) (mark_columns (fts5_args (ts_table st)))).
      { apply kept_trans with (fts5_args (ts_table st)); [|apply mark_columns_grown]. unfold fts5_args. destruct (equal_fold _ _); exact (kept_refl (ts_table st)). }
      assert (K : kept t1 (mark_columns (fts5_args (ts_table st)))) by (now apply kept_trans with (ts_table st)).
      split; [now apply kept_trans with t1|]. intros _ n k tag I. apply in_kept with t1; [exact K|]. exact (T eq_refl n k tag I).
  Qed.
End Tables.

(** ** Schemas and options *)
Section Chain.
  Context {A : Type} (step : A -> A -> Prop).
  Lemma chain_trans a b c : chain step a b -> chain step b c -> chain step a c.
  Proof. intros H K. induction H as [a|a b' b H C IH]; [exact K|]. now apply chain_one with b'; auto. Qed.
  Lemma chain_step a b : step a b -> chain step a b.
  Proof. intros H. apply chain_one with b; [exact H|constructor]. Qed.
End Chain.
Lemma schema_grown_refl o s : schema_grown o s s.
Proof.
  split; [reflexivity|]. split; [reflexivity|]. split; [apply grown_refl; intros; constructor|]. split; [apply grown_refl; intros; constructor|]. apply grown_refl. reflexivity.
Qed.
Lemma schema_grown_trans o a b c : schema_grown o a b -> schema_grown o b c -> schema_grown o a c.
Proof.
  intros (A1 & A2 & A3 & A4 & A5) (B1 & B2 & B3 & B4 & B5). split; [congruence|]. split; [congruence|]. rewrite A1 in B3, B4.
  split; [exact (grown_trans _ (chain_trans _) _ _ _ A3 B3)|]. split; [exact (grown_trans _ (chain_trans _) _ _ _ A4 B4)|].
  refine (grown_trans _ _ _ _ _ A5 B5). congruence.
Qed.
Lemma on_schema_grown (RS : db_schema -> db_schema -> Prop) name f ss ss' : (forall s, RS s s) ->
  (forall s s', ds_name s = name -> f s = LOk s' -> RS s s') -> on_schema name f ss = LOk ss' -> grown RS (objects ss) (objects ss').
Proof.
  intros Rr F E. unfold on_schema in E. pose proof (lookup_objects ds_name ds_ignore true name ss) as O.
  pose proof (lookup_sound_state ds_name ds_ignore true name ss) as L. destruct (lookup _ _ _ _ _) as [[i|] s1]; cbn [fst snd] in *.
  - destruct (L i eq_refl) as (a & Ha & Na & _). rewrite O, Ha in E. apply lbind_ok in E. destruct E as (s' & E & K). injection K as <-. cbn [edit objects].
    apply grown_set with a; auto.
  - apply lbind_ok in E. destruct E as (s' & E & K). injection K as <-. cbn [append snd objects]. rewrite O. now apply grown_app.
Qed.
(** What [f] makes of the schema is in the metadata. *)
Lemma on_schema_there (P : db_schema -> Prop) name f ss ss' : (forall s s', ds_name s = name -> f s = LOk s' -> P s') ->
  on_schema name f ss = LOk ss' -> exists s, In s (objects ss') /\ P s.
Proof.
  intros F E. unfold on_schema in E. pose proof (lookup_objects ds_name ds_ignore true name ss) as O.
  pose proof (lookup_sound_state ds_name ds_ignore true name ss) as L. destruct (lookup _ _ _ _ _) as [[i|] s1]; cbn [fst snd] in *.
  - destruct (L i eq_refl) as (a & Ha & Na & _). rewrite O, Ha in E. apply lbind_ok in E. destruct E as (s' & E & K). injection K as <-. cbn [edit objects].
    exists s'. split; [|eauto]. apply (nth_error_In _ i). rewrite nth_set by (apply nth_error_Some; congruence). now rewrite Nat.eqb_refl.
  - apply lbind_ok in E. destruct E as (s' & E & K). injection K as <-. cbn [append snd objects]. exists s'. split; [apply in_or_app; right; now left|].
    apply (F (empty_ds name)); auto.
Qed.
Section Options.
  Context (numeric : bytes -> bool).
  Lemma table_in_grown d o l t s s' : o = OTables l -> In (Some t) l -> ds_name s = ts_schema t -> load_table_in numeric d t s = LOk s' ->
    schema_grown o s s' /\ (forall n k tag, In (SColumn n k tag) (ts_fields t) -> has_column [s'] (ts_schema t) (ts_name t) n).
  Proof.
    intros Eo I Ns E. unfold load_table_in in E. pose proof (lookup_objects t_name t_ignore false (ts_name t) (ds_tables s)) as O.
    pose proof (lookup_sound_state t_name t_ignore false (ts_name t) (ds_tables s)) as L. destruct (lookup _ _ _ _ _) as [[i|] s1]; cbn [fst snd] in *.
    - destruct (L i eq_refl) as (a & Ha & Na & Ig). rewrite O, Ha in E. apply lbind_ok in E. destruct E as (t' & E & K). injection K as <-.
      apply load_table_kept in E; [|exact Na]. destruct E as (G & Th). split.
      + split; [reflexivity|]. split; [reflexivity|]. cbn [with_tables ds_tables ds_views ds_functions edit objects]. split.
        * apply grown_set with a; [intros; constructor|exact Ha|]. apply chain_step. exists l, t. rewrite Na. split; [exact Eo|]. split; [exact I|]. split; [now symmetry|]. split; [reflexivity|]. split; [exact Ig|exact G].
        * split; [apply grown_refl; intros; constructor|]. apply grown_refl. reflexivity.
      + intros n k tag J. eexists _, t'. split; [left; reflexivity|]. split; [exact Ns|]. cbn [with_tables ds_tables edit objects]. split.
        * apply (nth_error_In _ i). rewrite nth_set by (apply nth_error_Some; congruence). now rewrite Nat.eqb_refl.
        * split; [rewrite (proj1 G); exact Na|]. destruct (t_ignore t') eqn:T; [now right|]. left. exact (Th eq_refl n k tag J).
    - apply lbind_ok in E. destruct E as (t' & E & K). injection K as <-. apply load_table_kept in E; [|reflexivity]. destruct E as (G & Th). split.
      + split; [reflexivity|]. split; [reflexivity|]. cbn [with_tables ds_tables ds_views ds_functions append snd objects]. rewrite O. split; [apply grown_app; intros; constructor|].
        split; [apply grown_refl; intros; constructor|]. apply grown_refl. reflexivity.
      + intros n k tag J. exists (with_tables (snd (append t_name t' s1)) s), t'. split; [now left|]. split; [exact Ns|]. cbn [with_tables ds_tables append snd objects]. split; [apply in_or_app; right; now left|].
        split; [exact (proj1 G)|]. destruct (t_ignore t') eqn:T; [now right|]. left. exact (Th eq_refl n k tag J).
  Qed.
  Lemma view_in_grown d o l v s s' : o = OViews l -> In (Some v) l -> ds_name s = vw_schema v -> load_view_in d v s = LOk s' -> schema_grown o s s'.
  Proof.
    intros Eo I Ns E. unfold load_view_in in E. pose proof (lookup_objects dv_name dv_ignore false (vw_name v) (ds_views s)) as O.
    pose proof (lookup_sound_state dv_name dv_ignore false (vw_name v) (ds_views s)) as L. destruct (lookup _ _ _ _ _) as [[i|] s1]; cbn [fst snd] in *.
    - destruct (L i eq_refl) as (a & Ha & Na & Ig). rewrite O, Ha in E. apply lbind_ok in E. destruct E as (st & E & K). injection K as <-.
      split; [reflexivity|]. split; [reflexivity|]. cbn [with_views ds_tables ds_views ds_functions edit objects]. split; [apply grown_refl; intros; constructor|]. split; [|apply grown_refl; reflexivity].
      apply grown_set with a; [intros; constructor|exact Ha|]. apply chain_step. exists l, v. cbn [dv_name dv_ignore]. rewrite Na. repeat split; auto.
    - apply lbind_ok in E. destruct E as (st & E & K). injection K as <-.
      split; [reflexivity|]. split; [reflexivity|]. cbn [with_views ds_tables ds_views ds_functions append snd objects]. rewrite O. split; [apply grown_refl; intros; constructor|].
      split; [apply grown_app; intros; constructor|]. apply grown_refl. reflexivity.
  Qed.
  Notation all_grown o := (grown (schema_grown o)).
  Lemma all_refl o ss : all_grown o ss ss. Proof. apply grown_refl, schema_grown_refl. Qed.
  Lemma all_trans o a b c : all_grown o a b -> all_grown o b c -> all_grown o a c. Proof. apply grown_trans, schema_grown_trans. Qed.
  Lemma table_option_grown d l ss t ss' : In t l -> load_table_option numeric d ss t = LOk ss' -> all_grown (OTables l) (objects ss) (objects ss').
  Proof.
    intros I E. destruct t as [t|]; [|discriminate]. cbn [load_table_option] in E. destruct (is_empty (ts_name t)); [discriminate|].
    apply on_schema_grown with (3 := E); [apply schema_grown_refl|]. intros s s' N H. now apply (table_in_grown d _ l t s s' eq_refl I N H).
  Qed.
  Lemma tables_grown d l0 l ss ss' : incl l l0 -> lfold (load_table_option numeric d) l ss = LOk ss' -> all_grown (OTables l0) (objects ss) (objects ss').
  Proof.
    revert ss. induction l as [|t l IH]; intros ss I E; cbn [lfold] in E; [injection E as <-; apply all_refl|].
    apply lbind_ok in E. destruct E as (s1 & E1 & E). apply all_trans with (objects s1); [|apply IH; [|exact E]; intros x X; apply I; now right].
    refine (table_option_grown d l0 ss t s1 _ E1). apply I. now left.
  Qed.
  Lemma run_option_grown b o b' : SpecDeclare.no_db o -> run_option numeric b o = LOk b' -> all_grown o (objects (b_schemas b)) (objects (b_schemas b')).
  Proof.
    intros N E. destruct o as [l|l|l|l|an]; cbn [run_option] in E; [| | | |destruct N].
    - apply lbind_ok in E. destruct E as (ss & E & K). injection K as <-. cbn [with_schemas b_schemas]. exact (tables_grown _ l l _ _ (incl_refl l) E).
    - apply lbind_ok in E. destruct E as (ss & E & K). injection K as <-. cbn [with_schemas b_schemas].
      enough (X : forall l1 s1, incl l1 l -> lfold (load_view_option (dialect_of (b_dialect b))) l1 s1 = LOk ss -> all_grown (OViews l) (objects s1) (objects ss)) by (exact (X l _ (incl_refl _) E)).
      clear E. induction l1 as [|v l1 IH]; intros s1 I E; cbn [lfold] in E; [injection E as <-; apply all_refl|].
      apply lbind_ok in E. destruct E as (s2 & E1 & E). apply all_trans with (objects s2); [|apply IH; [|exact E]; intros x X; apply I; now right].
      destruct v as [v|]; [|discriminate]. cbn [load_view_option] in E1. destruct (is_empty (vw_name v)); [discriminate|].
      apply on_schema_grown with (3 := E1); [apply schema_grown_refl|]. intros s s' Ns H. apply (view_in_grown (dialect_of (b_dialect b)) _ l v s s' eq_refl); [apply I; now left|exact Ns|exact H].
    - apply lbind_ok in E. destruct E as (ss & E & K). injection K as <-. cbn [with_schemas b_schemas].
      enough (X : forall l1 s1, lfold (load_function_option (dialect_of (b_dialect b))) l1 s1 = LOk ss -> all_grown (OFunctions l) (objects s1) (objects ss)) by (exact (X l _ E)).
      clear E. induction l1 as [|f l1 IH]; intros s1 E; cbn [lfold] in E; [injection E as <-; apply all_refl|].
      apply lbind_ok in E. destruct E as (s2 & E1 & E). apply all_trans with (objects s2); [|exact (IH _ E)].
      unfold load_function_option in E1. apply lbind_ok in E1. destruct E1 as (r & _ & E1). cbv zeta in E1. destruct (is_empty _); [discriminate|].
      apply on_schema_grown with (3 := E1); [apply schema_grown_refl|]. intros s s' Ns H. injection H as <-.
      split; [reflexivity|]. split; [reflexivity|]. split; [apply grown_refl; intros; constructor|]. split; [apply grown_refl; intros; constructor|].
      cbn [with_functions ds_functions fobjects]. apply grown_app. reflexivity.
    - injection E as <-. apply all_refl.
  Qed.
  Lemma grown_in {A} (R : A -> A -> Prop) l l' a : grown R l l' -> In a l -> exists a', In a' l' /\ R a a'.
  Proof. intros G I. apply In_nth_error in I. destruct I as (i & I). destruct (grown_nth R _ _ i a G I) as (a' & E & H). exists a'. split; [exact (nth_error_In _ i E)|exact H]. Qed.
  Lemma has_column_grown o ss ss' sc tn n : all_grown o ss ss' -> has_column ss sc tn n -> has_column ss' sc tn n.
  Proof.
    intros G (s & t & I & Ns & J & Nt & C). destruct (grown_in _ _ _ s G I) as (s' & I' & (N' & _ & Gt & _)). destruct (grown_in _ _ _ t Gt J) as (t' & J' & Ch).
    exists s', t'. split; [exact I'|]. split; [congruence|]. split; [exact J'|]. clear - Nt C Ch. induction Ch as [t|t t1 t' St Ch IH]; [auto|].
    destruct St as (l & ts & _ & _ & _ & _ & Ig & G). apply IH; [rewrite (proj1 G); exact Nt|]. destruct C as [C|C]; [|congruence]. left. now apply (in_kept (ts_fields ts) (ts_ddl ts) n t t1).
  Qed.
  Lemma has_column_incl ss ss' sc tn n : incl ss ss' -> has_column ss sc tn n -> has_column ss' sc tn n.
  Proof. intros H (s & t & I & C). exists s, t. split; [now apply H|exact C]. Qed.
  Lemma tables_there d l0 l ss ss' : incl l l0 -> lfold (load_table_option numeric d) l ss = LOk ss' ->
    forall t n k tag, In (Some t) l -> In (SColumn n k tag) (ts_fields t) -> has_column (objects ss') (ts_schema t) (ts_name t) n.
  Proof.
    revert ss. induction l as [|x l IH]; intros ss I E t n k tag; [intros []|]. intros [->|J] C; cbn [lfold] in E; apply lbind_ok in E; destruct E as (s1 & E1 & E).
    - apply has_column_grown with (o := OTables l0) (ss := objects s1).
      + refine (tables_grown d l0 l s1 ss' _ E). intros y Y. apply I. now right.
      + cbn [load_table_option] in E1. destruct (is_empty (ts_name t)); [discriminate|].
        destruct (on_schema_there (fun s => has_column [s] (ts_schema t) (ts_name t) n) _ _ _ _ (fun s s' N H => proj2 (table_in_grown d _ (Some t :: l) t s s' eq_refl (or_introl eq_refl) N H) n k tag C) E1) as (s & Is & Hs).
        apply has_column_incl with [s]; [|exact Hs]. intros y [<-|[]]. exact Is.
    - apply (IH s1) with (k := k) (tag := tag); auto. intros y Y. apply I. now right.
  Qed.
End Options.
