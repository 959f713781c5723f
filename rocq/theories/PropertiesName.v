(** * Statements: C34.  See SpecName. *)
From Coq Require Import Lia.
From Verif Require Import GoBase GoBaseFacts NameModel SpecName.

Lemma underscored_filled : forall s, blanks_filled s (underscored s).
Proof.
  induction s as [|a s IH]; [constructor|]. constructor; [|exact IH]. cbv beta.
  destruct (Ascii.eqb a " ") eqn:E.
  - left. split; [now apply Ascii.eqb_eq|reflexivity].
  - right. split; [|reflexivity]. intros ->. discriminate.
Qed.
Lemma blanks_filled_unique : forall s t u, blanks_filled s t -> blanks_filled s u -> t = u.
Proof.
  induction s as [|a s IH]; intros t u H1 H2; inversion H1; inversion H2; subst; [reflexivity|].
  f_equal; [|now apply IH]. intuition congruence.
Qed.
Lemma blanks_filled_no_blank : forall s t, blanks_filled s t -> ~ In " "%char t.
Proof.
  induction 1 as [|a b s t H _ IH]; [easy|]. intros [E|E]; [|now apply IH].
  destruct H as [[_ ->]|[H ->]]; [discriminate|now apply H].
Qed.
Lemma stem_of_model : forall table columns,
  stem (table :: columns) (underscored table ++ flat_map (fun c => B "_" ++ underscored c) columns).
Proof.
  intros table columns. revert table. induction columns as [|c cs IH]; intros table.
  - cbn [flat_map]. rewrite app_nil_r. constructor. apply underscored_filled.
  - cbn [flat_map]. apply (stem_cons table (underscored table) (c :: cs)); [apply underscored_filled|discriminate|apply IH].
Qed.
Lemma stem_unique : forall l s t, stem l s -> stem l t -> s = t.
Proof.
  intros l s t H. revert t. induction H as [a b H|a b rest s H NE _ IH]; intros t H2; inversion H2; subst; try congruence.
  - eapply blanks_filled_unique; eassumption.
  - assert (b = b0) by (eapply blanks_filled_unique; eassumption). subst. f_equal. f_equal. now apply IH.
Qed.
Lemma stem_no_blank : forall l s, stem l s -> ~ In " "%char s.
Proof.
  induction 1 as [a b H|a b rest s H NE _ IH]; [eapply blanks_filled_no_blank; eassumption|].
  rewrite in_app_iff. intros [E|[E|E]]; [eapply blanks_filled_no_blank; eassumption|discriminate|now apply IH].
Qed.
Lemma suffix_of_kind : forall k, name_suffix (kind_constant k) = kind_ending k.
Proof. now intros []. Qed.
Lemma ending_short : forall k, length (kind_ending k) <= 6.
Proof. intros []; cbn; lia. Qed.
Lemma ending_no_blank : forall k, ~ In " "%char (kind_ending k).
Proof. intros k. destruct k; cbn; intuition discriminate. Qed.

(** Whatever the table and column names are: the generated name has at most 63
    bytes, no blank, ends in the ending of its kind, is the full name if that
    fits and otherwise exactly 63 bytes: the beginning of the full name and
    the ending. *)
Theorem generated_name_fits : forall (k : named_kind) (table : bytes) (columns : list bytes) (s : bytes),
  stem (table :: columns) s ->
  let name := generate_name (kind_constant k) table columns in
  length name <= max_name /\ ~ In " "%char name /\
  (length (s ++ kind_ending k) <= max_name -> name = s ++ kind_ending k) /\
  (length (s ++ kind_ending k) > max_name ->
     length name = max_name /\ exists cut rest, s = cut ++ rest /\ name = cut ++ kind_ending k).
Proof.
  intros k table columns s H. cbv zeta. unfold generate_name, max_name.
  rewrite (stem_unique _ _ _ (stem_of_model table columns) H), suffix_of_kind.
  pose proof (ending_short k) as HS. pose proof (stem_no_blank _ _ H) as HB. rewrite app_length.
  destruct (Nat.ltb_spec 0 (length s + length (kind_ending k) - 63)) as [L|L].
  - set (n := length s - (length s + length (kind_ending k) - 63)).
    assert (E : length (firstn n s ++ kind_ending k) = 63) by (rewrite app_length, firstn_length; lia).
    split; [lia|]. split.
    { rewrite in_app_iff. intros [I|I]; [|now apply ending_no_blank in I].
      apply HB. rewrite <- (firstn_skipn n s). apply in_or_app. now left. }
    split; [lia|]. intros _. split; [exact E|]. exists (firstn n s), (skipn n s).
    split; [now rewrite firstn_skipn|reflexivity].
  - rewrite app_length. split; [lia|]. split.
    { rewrite in_app_iff. intros [I|I]; [now apply HB|now apply ending_no_blank in I]. }
    split; [reflexivity|lia].
Qed.
Print Assumptions generated_name_fits.
(** There is always such a stem, and only one. *)
Theorem stem_exists_unique : forall (table : bytes) (columns : list bytes),
  exists s, stem (table :: columns) s /\ forall t, stem (table :: columns) t -> t = s.
Proof.
  intros table columns. eexists. split; [apply stem_of_model|]. intros t H. eapply stem_unique; [exact H|apply stem_of_model].
Qed.
Print Assumptions stem_exists_unique.
Example generated_name_example :
  generate_name (kind_constant KForeignKey) (B "film actor") [B "film_id"; B "actor id"] = B "film_actor_film_id_actor_id_fkey" /\
  stem [B "film actor"; B "film_id"; B "actor id"] (B "film_actor_film_id_actor_id") /\
  generate_name (kind_constant KIndex) (B "a_table_with_quite_a_long_name_for_a_table") [B "and_a_column_that_is_long_too"]
    = B "a_table_with_quite_a_long_name_for_a_table_and_a_column_tha_idx".
Proof. split; [reflexivity|]. split; [|reflexivity]. exact (stem_of_model (B "film actor") [B "film_id"; B "actor id"]). Qed.

(** Findings: different objects can get the same name; a name can end inside a
    character; names of an unknown kind have no ending. *)
Theorem generated_names_collide_refuted :
  generate_name (B "UNIQUE") (B "a_b") [B "c"] = generate_name (B "UNIQUE") (B "a") [B "b_c"] /\
  generate_name (B "UNIQUE") (B "t") [B "a"; B "b"] = generate_name (B "UNIQUE") (B "t") [B "a b"] /\
  generate_name (B "INDEX") (B "t") [B "a_column_whose_name_has_more_than_sixty_bytes_in_total_which_is_long_1"]
    = generate_name (B "INDEX") (B "t") [B "a_column_whose_name_has_more_than_sixty_bytes_in_total_which_is_long_2"].
Proof. repeat split. Qed.
Print Assumptions generated_names_collide_refuted.
(** Collisions are not accidents: beyond the cut, column names do not matter. *)
Theorem long_names_collide : forall (ty table : bytes) (columns columns1 columns2 : list bytes),
  length (underscored table ++ flat_map (fun c => B "_" ++ underscored c) columns) >= max_name ->
  generate_name ty table (columns ++ columns1) = generate_name ty table (columns ++ columns2).
Proof.
  intros ty table columns c1 c2 H. unfold generate_name. unfold max_name in H.
  rewrite !flat_map_app, !app_assoc.
  set (s := underscored table ++ flat_map (fun c => B "_" ++ underscored c) columns) in *.
  set (x1 := flat_map _ c1). set (x2 := flat_map _ c2). rewrite !app_length.
  assert (E : forall x : bytes, (if Nat.ltb 0 (length s + length x + length (name_suffix ty) - 63)
      then firstn (length s + length x - (length s + length x + length (name_suffix ty) - 63)) (s ++ x) ++ name_suffix ty
      else (s ++ x) ++ name_suffix ty) = firstn (63 - length (name_suffix ty)) s ++ name_suffix ty).
  { intros x. destruct (Nat.ltb_spec 0 (length s + length x + length (name_suffix ty) - 63)) as [L|L].
    - f_equal. assert (length (name_suffix ty) <= 6).
      { unfold name_suffix. repeat (destruct (beqb _ _); [cbn; lia|]). cbn. lia. }
      replace (length s + length x - (length s + length x + length (name_suffix ty) - 63)) with (63 - length (name_suffix ty)) by lia.
      rewrite firstn_app. replace (63 - length (name_suffix ty) - length s) with 0 by lia. cbn [firstn]. apply app_nil_r.
    - assert (x = []) by (destruct x; [reflexivity|cbn [length] in L; lia]). subst.
      assert (length (name_suffix ty) = 0) by (cbn [length] in L; lia).
      destruct (name_suffix ty); [|discriminate]. rewrite !app_nil_r. symmetry. apply firstn_all2. cbn [length] in L |- *. lia. }
  exact (eq_trans (E x1) (eq_sym (E x2))).
Qed.
Print Assumptions long_names_collide.
Theorem generated_name_cuts_char_refuted :
  exists table, generate_name (B "PRIMARY KEY") table [] =
    firstn 58 table ++ B "_pkey" /\ decode_rune (skipn 57 table) = (233%N, 2).
Proof.
  exists (repeat "a"%char 57 ++ [chr 195; chr 169]). split; reflexivity.
Qed.
Print Assumptions generated_name_cuts_char_refuted.
Theorem generated_name_no_ending_refuted : generate_name (B "primary key") (B "t") [B "c"] = B "t_c".
Proof. reflexivity. Qed.
Print Assumptions generated_name_no_ending_refuted.
