(** * LoadTable: the fields of a table struct *)
From Coq Require Import Lia.
From Verif Require Import GoBase GoBaseFacts QuoteModel CacheModel SpecCache CacheFacts UpsertModel TokenModel NameModel DdlModel LoadModel SpecLoad LoadFacts LoadPf LoadColumn.

Section Numeric.
  Context (numeric : bytes -> bool).
  Notation load_column := (load_column numeric).
  Notation load_fields := (load_fields numeric).
  Definition rest_same (t t' : table) : Prop :=
    t_schema t' = t_schema t /\ t_name t' = t_name t /\ t_triggers t' = t_triggers t.
  Lemma tag_of_tokens : forall s ms, modifier_tokens s = LOk ms -> tag_of s = ms.
  Proof. intros s ms H. unfold tag_of. now rewrite H. Qed.
  Lemma default_kind : forall d k, default_type d k = kind_type d k.
  Proof. intros [] []; reflexivity. Qed.
  Lemma load_column_ok : forall d name type tag t t', ~ In name (map l_name (objects (t_columns t))) ->
    load_column d name type tag t = LOk t' ->
    objects (t_columns t') = objects (t_columns t) ++ [extend_column numeric d (tag_of tag) (blank_column (table_of t) name type)] /\
    (fresh l_name l_ignore (t_columns t) -> fresh l_name l_ignore (t_columns t')) /\
    appended c_name (t_constraints t) (t_constraints t') (constraints_of d (table_of t) [name] (tag_of tag)) /\
    appended x_name (t_indexes t) (t_indexes t') (indexes_of d (table_of t) [name] (tag_of tag)) /\
    t_virtual t' = t_virtual t /\ t_virtual_args t' = t_virtual_args t /\ t_ignore t' = t_ignore t /\ rest_same t t'.
  Proof.
    intros d name type tag t t' A H. unfold LoadModel.load_column in H. apply lbind_ok in H. destruct H as (ms & E & H).
    rewrite (tag_of_tokens _ _ E). apply lbind_ok in H. destruct H as ([cs [ks xs]] & H & K). injection K as <-.
    unfold with_columns. cbn [t_columns t_constraints t_indexes t_virtual t_virtual_args t_ignore fst snd].
    unfold store in H. pose proof (lookup_absent l_name l_ignore name _ A) as L.
    pose proof (lookup_objects l_name l_ignore false name (t_columns t)) as O.
    pose proof (lookup_fresh l_name l_ignore false name (t_columns t)) as F.
    destruct (lookup l_name l_ignore false name (t_columns t)) as [r s1]. cbn [fst snd] in *. subst r.
    apply lbind_ok in H. destruct H as ([l [ks1 xs1]] & H & K). cbn [fst snd append] in K. injection K as <- <- <-.
    apply (column_modifiers_ok numeric d (table_of t) name) in H; [|repeat split]. destruct H as (-> & H1 & H2).
    cbn [objects]. rewrite O. split; [reflexivity|]. split.
    - intros Fr. specialize (F Fr). rewrite <- O.
      refine (append_fresh l_name l_ignore _ s1 F _). right. intros i [b (Hb & Hn & _)]. apply A. rewrite <- O.
      apply in_map_iff. exists b. split; [exact Hn|now apply nth_error_In with i].
    - split; [exact H1|]. split; [exact H2|]. repeat split.
  Qed.
  Lemma load_column_fine : forall d name type tag t, fine (load_column d name type tag t) <->
    exists ms, modifier_tokens tag = LOk ms /\ Forall (fun m => In (fst m) column_words \/ declares_ok [name] m) (mine d ms).
  Proof.
    intros d name type tag t. unfold LoadModel.load_column. rewrite fine_bind.
    assert (G : forall ms, fine (lbind (store l_name l_ignore name
             (mk_column (t_schema t) (t_name t) name type [] false false false false false [] false [] [] false)
             (fun l => l)
             (fun l => lfold (column_modifier numeric d (table_of t)) ms (l, (t_constraints t, t_indexes t)))
             (t_columns t)) (fun r => LOk (with_columns (fst r) (snd r) t))) <-> Forall (fun m => In (fst m) column_words \/ declares_ok [name] m) (mine d ms)).
    { intros ms. rewrite fine_then. apply store_fine. intros a [->|(b & Nb & ->)]; now apply column_modifiers_fine. }
    split; intros (ms & E & F); exists ms; (split; [exact E|now apply G]).
  Qed.

  (** One modifier of the table. *)
  Definition tag_virtuals (d : dialect) (ms : list (bytes * bytes)) : list (bytes * list (bytes * bytes)) :=
    if is_sqlite d
    then flat_map (fun m => match config_of (snd m) with Some r => [r] | None => [] end) (named [B "virtual"] (mine d ms))
    else [].
  Definition table_reads (d : dialect) (t t' : table) (ks : list constraint) (xs : list index)
      (vs : list (bytes * list (bytes * bytes))) (ign : bool) : Prop :=
    t_columns t' = t_columns t /\
    appended c_name (t_constraints t) (t_constraints t') ks /\ appended x_name (t_indexes t) (t_indexes t') xs /\
    t_virtual t' = (match final vs with Some v => fst v | None => t_virtual t end) /\
    t_virtual_args t' = t_virtual_args t ++ map virtual_text (flat_map snd vs) /\
    t_ignore t' = t_ignore t || ign /\ rest_same t t'.
  Lemma table_reads_then : forall d t t1 t2 k1 k2 x1 x2 v1 v2 i1 i2,
    table_reads d t t1 k1 x1 v1 i1 -> table_reads d t1 t2 k2 x2 v2 i2 ->
    table_reads d t t2 (k1 ++ k2) (x1 ++ x2) (v1 ++ v2) (i1 || i2).
  Proof.
    intros d t t1 t2 k1 k2 x1 x2 v1 v2 i1 i2 (A1 & A2 & A3 & A4 & A5 & A6 & A7 & A8 & A9) (B1 & B2 & B3 & B4 & B5 & B6 & B7 & B8 & B9).
    unfold table_reads. rewrite final_app, flat_map_app, map_app, app_assoc, <- A5, <- B5, orb_assoc, <- A6, <- B6.
    split; [congruence|]. split; [now apply appended_then with (t_constraints t1)|]. split; [now apply appended_then with (t_indexes t1)|].
    split; [rewrite B4; destruct (final v2); [reflexivity|exact A4]|]. split; [reflexivity|]. split; [reflexivity|].
    repeat split; congruence.
  Qed.
  Lemma table_reads_none : forall d t, table_reads d t t [] [] [] false.
  Proof.
    intros d t. unfold table_reads. cbn. rewrite app_nil_r, orb_false_r.
    split; [reflexivity|]. split; [apply appended_none|]. split; [apply appended_none|]. repeat split.
  Qed.
  Lemma virtual_arg_text : forall m, virtual_arg m = virtual_text m.
  Proof. intros [k [|a v]]; unfold virtual_arg, virtual_text; cbn [fst snd is_empty]; [apply app_nil_r|reflexivity]. Qed.
  Lemma table_modifier_ok : forall d t m t', table_modifier d t m = LOk t' ->
    table_reads d t t' (constraints_of d (table_of t) [] [m]) (indexes_of d (table_of t) [] [m]) (tag_virtuals d [m])
      (ignored_for d (mine d [m])).
  Proof.
    intros d t m t' H. unfold table_modifier in H. unfold tag_virtuals. rewrite constraints_of_one, indexes_of_one, mine_strip.
    destruct (strip_dialect d (fst m)) as [k|].
    2:{ injection H as <-. cbn. destruct (is_sqlite d); apply table_reads_none. }
    rewrite one_named, one_ignored. cbn [existsb fst snd]. rewrite orb_false_r.
    destruct (beqb k (B "virtual")) eqn:E1.
    { apply beqb_eq in E1. subst k. change (mget (B "virtual") constraint_words) with (@None (bytes * bool)). lits. cbn [andb].
      destruct (is_sqlite d).
      2:{ injection H as <-. apply table_reads_none. }
      apply lbind_ok in H. destruct H as ([value ms] & E & K). injection K as <-. apply value_tokens_config in E.
      cbn [flat_map snd]. rewrite E, app_nil_r. unfold table_reads, set_virtual.
      cbn [t_columns t_constraints t_indexes t_virtual t_virtual_args t_ignore fst snd flat_map]. rewrite app_nil_r, orb_false_r.
      split; [reflexivity|]. split; [apply appended_none|]. split; [apply appended_none|]. split; [reflexivity|].
      split; [|repeat split]. f_equal. apply map_ext. exact virtual_arg_text. }
    rewrite constraint_kind_words in H.
    assert (Z : (if is_sqlite d then flat_map (fun m0 : bytes * bytes => match config_of (snd m0) with Some r => [r] | None => [] end) [] else []) = [])
      by now destruct (is_sqlite d).
    rewrite Z. clear Z.
    destruct (mget k constraint_words) as [[ty refs]|] eqn:W.
    { apply lbind_ok in H. destruct H as ([ks xs] & H & K). injection K as <-.
      apply (load_constraint_ok d (table_of t)) in H. destruct H as [H1 H2].
      assert (I : beqb k (B "ignore") = false).
      { destruct (beqb k (B "ignore")) eqn:E; [|reflexivity]. apply beqb_eq in E. subst k. discriminate. }
      rewrite I. unfold table_reads, with_columns. cbn [t_columns t_constraints t_indexes t_virtual t_virtual_args t_ignore fst snd flat_map andb map].
      rewrite app_nil_r, orb_false_r. split; [reflexivity|]. split; [exact H1|]. split; [exact H2|]. repeat split. }
    destruct (beqb k (B "index")) eqn:E2.
    { apply beqb_eq in E2. subst k. lits. apply lbind_ok in H. destruct H as (xs & H & K). injection K as <-.
      apply (load_index_ok d (table_of t)) in H. unfold table_reads, with_columns.
      cbn [t_columns t_constraints t_indexes t_virtual t_virtual_args t_ignore fst snd flat_map andb map].
      rewrite app_nil_r, orb_false_r. split; [reflexivity|]. split; [apply appended_none|]. split; [exact H|]. repeat split. }
    destruct (beqb k (B "ignore")) eqn:E3; [|discriminate]. injection H as <-. cbn [andb].
    destruct (ignores d (snd m)).
    - unfold table_reads, set_table_ignore. cbn [t_columns t_constraints t_indexes t_virtual t_virtual_args t_ignore fst snd flat_map andb map].
      rewrite app_nil_r, orb_true_r. split; [reflexivity|]. split; [apply appended_none|]. split; [apply appended_none|]. repeat split.
    - apply table_reads_none.
  Qed.
  Lemma tag_virtuals_cons : forall d m ms, tag_virtuals d (m :: ms) = tag_virtuals d [m] ++ tag_virtuals d ms.
  Proof.
    intros d m ms. unfold tag_virtuals. destruct (is_sqlite d); [|reflexivity]. rewrite (mine_cons d m ms). unfold named.
    now rewrite filter_app, flat_map_app.
  Qed.
  Lemma table_of_same : forall t t', rest_same t t' -> table_of t' = table_of t.
  Proof. intros t t' (H1 & H2 & _). unfold table_of. congruence. Qed.
  Lemma table_modifiers_ok : forall d ms t t', lfold (table_modifier d) ms t = LOk t' ->
    table_reads d t t' (constraints_of d (table_of t) [] ms) (indexes_of d (table_of t) [] ms) (tag_virtuals d ms)
      (ignored_for d (mine d ms)).
  Proof.
    intros d. induction ms as [|m ms IH]; intros t t' H; cbn [lfold] in H.
    - injection H as <-. unfold tag_virtuals. destruct (is_sqlite d); apply table_reads_none.
    - apply lbind_ok in H. destruct H as (t1 & E & H). apply table_modifier_ok in E. apply IH in H.
      rewrite (table_of_same t t1) in H by apply E.
      rewrite constraints_of_cons, indexes_of_cons, tag_virtuals_cons, (mine_cons d m ms), ignored_app.
      now apply table_reads_then with t1.
  Qed.
  Definition table_modifier_spec (d : dialect) (m : bytes * bytes) : Prop :=
    fst m = B "ignore" \/ declares_ok [] m \/ (fst m = B "virtual" /\ (d = DSQLite -> config_of (snd m) <> None)).
  Lemma sqlite_is : forall d, is_sqlite d = true <-> d = DSQLite.
  Proof. intros []; split; intros H; (reflexivity || discriminate). Qed.
  Lemma table_modifier_fine : forall d t m, fine (table_modifier d t m) <-> Forall (table_modifier_spec d) (mine d [m]).
  Proof.
    intros d t m. unfold table_modifier. rewrite mine_strip. destruct (strip_dialect d (fst m)) as [k|].
    2:{ split; [constructor|intros _; apply fine_ok]. }
    assert (Y : Forall (table_modifier_spec d) [(k, snd m)] <-> table_modifier_spec d (k, snd m)).
    { split; [intros F; now inversion F|intros F; constructor; [exact F|constructor]]. }
    rewrite Y. unfold table_modifier_spec, declares_ok. cbn [fst snd]. rewrite constraint_kind_words.
    destruct (beqb k (B "virtual")) eqn:E1.
    { apply beqb_eq in E1. subst k. destruct (is_sqlite d) eqn:D.
      - apply sqlite_is in D. rewrite fine_then. split.
        + intros [r F]. right. right. split; [reflexivity|]. intros _. apply value_tokens_config in F. rewrite F. discriminate.
        + intros [F|[[(ty & refs & F & _)|[F _]]|[_ F]]]; try discriminate F. specialize (F D).
          destruct (config_of (snd m)) as [r|] eqn:C; [|congruence]. apply value_tokens_config in C. rewrite C. apply fine_ok.
      - split; [intros _; right; right; split; [reflexivity|]|intros _; apply fine_ok]. intros ->. discriminate. }
    apply beqb_neq_lit in E1. destruct (mget k constraint_words) as [[ty refs]|] eqn:W.
    { rewrite fine_then, load_constraint_fine. split.
      - intros F. right. left. left. now exists ty, refs.
      - intros [F|[[(ty' & refs' & F & G)|[F _]]|[F _]]]; [subst k; discriminate|now injection F as <- <-|subst k; discriminate|contradiction]. }
    destruct (beqb k (B "index")) eqn:E2.
    { apply beqb_eq in E2. subst k. rewrite fine_then, load_index_fine. split.
      - intros F. right. left. now right.
      - intros [F|[[(ty' & refs' & F & G)|[_ F]]|[F _]]]; [discriminate F|discriminate F|exact F|contradiction]. }
    apply beqb_neq_lit in E2. destruct (beqb k (B "ignore")) eqn:E3.
    - apply beqb_eq in E3. split; [now left|intros _; apply fine_ok].
    - apply beqb_neq_lit in E3. split; [intros [? H]; discriminate|].
      intros [F|[[(ty' & refs' & F & G)|[F _]]|[F _]]]; [contradiction|discriminate F|contradiction|contradiction].
  Qed.
  Lemma table_modifiers_fine : forall d ms t, fine (lfold (table_modifier d) ms t) <-> Forall (table_modifier_spec d) (mine d ms).
  Proof.
    intros d ms t.
    assert (G : forall ms, Forall (fun m => Forall (table_modifier_spec d) (mine d [m])) ms <-> Forall (table_modifier_spec d) (mine d ms)).
    { induction ms0 as [|m ms0 IH]; [split; constructor|]. rewrite (mine_cons d m ms0), Forall_app, <- IH. split.
      - intros F. inversion F; subst. now split.
      - intros [F1 F2]. now constructor. }
    rewrite <- G. apply lfold_fine with (P := fun _ => True); [|easy|easy]. intros s m _. apply table_modifier_fine.
  Qed.

  Lemma load_column_ignore : forall d name type tag t t', load_column d name type tag t = LOk t' -> t_ignore t' = t_ignore t.
  Proof.
    intros d name type tag t t' H. unfold LoadModel.load_column in H. apply lbind_ok in H. destruct H as (ms & _ & H).
    apply lbind_ok in H. destruct H as (r & _ & H). now injection H as <-.
  Qed.
  Lemma ignored_one : forall d f, table_ignored d [f] = match f with SOther s => ignored_for d (mine d (tag_of s)) | _ => false end.
  Proof. intros d [s|n k s]; cbn [table_ignored existsb]; [apply orb_false_r|reflexivity]. Qed.
  Lemma ignored_fields_cons : forall d f fs, table_ignored d (f :: fs) = table_ignored d [f] || table_ignored d fs.
  Proof. intros d f fs. unfold table_ignored. cbn [existsb]. now rewrite orb_false_r. Qed.
  Lemma load_fields_fine : forall d fs t, t_ignore t = false ->
    (fine (load_fields d fs t) <-> Forall (field_ok d) (fields_read d fs)).
  Proof.
    intros d. induction fs as [|f fs IH]; intros t I; cbn [LoadModel.load_fields fields_read].
    - split; [constructor|intros _; apply fine_ok].
    - rewrite Forall_cons_iff, ignored_one. destruct f as [s|n k s].
      + rewrite fine_bind. unfold load_table_tag. split.
        * intros (t1 & E & F). apply lbind_ok in E. destruct E as (ms & E & M). split.
          -- exists ms. split; [exact E|]. apply (table_modifiers_fine d ms t). now exists t1.
          -- apply table_modifiers_ok in M. destruct M as (_ & _ & _ & _ & _ & G & _). rewrite I in G. cbn [orb] in G.
             rewrite (tag_of_tokens _ _ E), <- G. destruct (t_ignore t1) eqn:J; [constructor|]. now apply (IH t1 J).
        * intros [(ms & E & M) F]. apply (table_modifiers_fine d ms t) in M. destruct M as [t1 M]. exists t1. cbn [field_tag] in E.
          rewrite E. cbn [lbind]. split; [exact M|]. apply table_modifiers_ok in M. destruct M as (_ & _ & _ & _ & _ & G & _).
          rewrite I in G. cbn [orb] in G. rewrite (tag_of_tokens _ _ E), <- G in F. destruct (t_ignore t1) eqn:J; [apply fine_ok|]. now apply (IH t1 J).
      + unfold field_ok at 1. cbn [field_tag]. destruct n as [|n0 n]; cbn [is_empty].
        * split; [intros [? H]; discriminate|]. intros [(ms & _ & H & _) _]. congruence.
        * rewrite fine_bind. split.
          -- intros (t1 & E & F). split.
             ++ assert (G : fine (load_column d (n0 :: n) (default_type d k) s t)) by now exists t1.
                apply load_column_fine in G. destruct G as (ms & E1 & E2). exists ms. split; [exact E1|]. split; [discriminate|exact E2].
             ++ apply load_column_ignore in E. rewrite I in E. now apply (IH t1 E).
          -- intros [(ms & E & _ & M) F]. assert (G : fine (load_column d (n0 :: n) (default_type d k) s t)) by (apply load_column_fine; now exists ms).
             destruct G as [t1 G]. exists t1. split; [exact G|]. apply load_column_ignore in G. rewrite I in G. now apply (IH t1 G).
  Qed.
  Definition fields_loaded (d : dialect) (t t' : table) (fs : list struct_field) : Prop :=
    objects (t_columns t') = objects (t_columns t) ++ declared_columns numeric d (table_of t) fs /\
    (fresh l_name l_ignore (t_columns t) -> fresh l_name l_ignore (t_columns t')) /\
    appended c_name (t_constraints t) (t_constraints t') (declared_constraints d (table_of t) fs) /\
    appended x_name (t_indexes t) (t_indexes t') (declared_indexes d (table_of t) fs) /\
    t_virtual t' = (match final (virtuals d fs) with Some v => fst v | None => t_virtual t end) /\
    t_virtual_args t' = t_virtual_args t ++ map virtual_text (flat_map snd (virtuals d fs)) /\
    t_ignore t' = t_ignore t || table_ignored d fs /\ rest_same t t'.
  Lemma virtuals_cons : forall d f fs, virtuals d (f :: fs) = virtuals d [f] ++ virtuals d fs.
  Proof. intros d f fs. unfold virtuals. destruct (is_sqlite d); [|reflexivity]. cbn [flat_map]. now rewrite app_nil_r. Qed.
  Lemma fields_loaded_cons : forall d t t1 t2 f fs, fields_loaded d t t1 [f] -> fields_loaded d t1 t2 fs -> fields_loaded d t t2 (f :: fs).
  Proof.
    intros d t t1 t2 f fs (A1 & A2 & A3 & A4 & A5 & A6 & A7 & A8) (B1 & B2 & B3 & B4 & B5 & B6 & B7 & B8).
    rewrite (table_of_same _ _ A8) in *. unfold fields_loaded.
    unfold declared_columns, declared_constraints, declared_indexes in *. cbn [flat_map] in *. rewrite !app_nil_r in *.
    rewrite virtuals_cons, final_app, flat_map_app, map_app, ignored_fields_cons.
    split; [rewrite B1, A1; now rewrite <- app_assoc|]. split; [auto|].
    split; [now apply appended_then with (t_constraints t1)|]. split; [now apply appended_then with (t_indexes t1)|].
    split; [rewrite B5; destruct (final (virtuals d fs)); [reflexivity|exact A5]|].
    split; [rewrite B6, A6; now rewrite <- app_assoc|]. split; [rewrite B7, A7; now rewrite orb_assoc|].
    destruct A8 as (? & ? & ?), B8 as (? & ? & ?). repeat split; congruence.
  Qed.
  Lemma load_fields_ok : forall d fs t t' b, t_ignore t = false -> load_fields d fs t = LOk (t', b) ->
    NoDup (map l_name (objects (t_columns t) ++ declared_columns numeric d (table_of t) (fields_read d fs))) ->
    fields_loaded d t t' (fields_read d fs) /\ b = table_ignored d (fields_read d fs).
  Proof.
    intros d. induction fs as [|f fs IH]; intros t t' b I H N; cbn [LoadModel.load_fields fields_read] in *.
    - injection H as <- <-. split; [|reflexivity]. unfold fields_loaded, virtuals. cbn.
      assert (Z : (if is_sqlite d then [] else []) = @nil (bytes * list (bytes * bytes))) by now destruct (is_sqlite d). rewrite Z. cbn.
      rewrite !app_nil_r, orb_false_r. split; [reflexivity|]. split; [auto|]. split; [apply appended_none|]. split; [apply appended_none|]. repeat split.
    - destruct f as [s|n k s].
      + apply lbind_ok in H. destruct H as (t1 & E & H). unfold load_table_tag in E. apply lbind_ok in E. destruct E as (ms & E & M).
        apply table_modifiers_ok in M.
        assert (F : fields_loaded d t t1 [SOther s]).
        { destruct M as (M1 & M2 & M3 & M4 & M5 & M6 & M7). unfold fields_loaded, declared_columns, declared_constraints, declared_indexes, virtuals.
          cbn [flat_map field_columns field_tag]. rewrite !app_nil_r, (tag_of_tokens _ _ E), ignored_one, (tag_of_tokens _ _ E).
          change (if is_sqlite d then _ else _) with (tag_virtuals d ms). rewrite M1.
          split; [reflexivity|]. split; [auto|]. split; [exact M2|]. split; [exact M3|]. split; [exact M4|]. split; [exact M5|]. split; [exact M6|exact M7]. }
        assert (J : t_ignore t1 = table_ignored d [SOther s]) by (destruct F as (_ & _ & _ & _ & _ & _ & F & _); rewrite F, I; reflexivity).
        rewrite <- J in *. destruct (t_ignore t1) eqn:J1.
        * injection H as <- <-. split; [exact F|exact J].
        * apply IH in H; [|exact J1|].
          -- destruct H as [H ->]. split; [now apply fields_loaded_cons with t1|]. rewrite (ignored_fields_cons d (SOther s)), <- J. reflexivity.
          -- destruct F as (F1 & _ & _ & _ & _ & _ & _ & F8). rewrite (table_of_same _ _ F8), F1. cbn [declared_columns flat_map]. rewrite app_nil_r. exact N.
      + change (table_ignored d [SColumn n k s]) with false in *. cbn [orb] in *. destruct n as [|n0 n]; [discriminate|]. cbn [is_empty] in H.
        apply lbind_ok in H. destruct H as (t1 & E & H). unfold declared_columns in N. cbn [flat_map] in N. fold (declared_columns numeric d (table_of t) (fields_read d fs)) in N.
        assert (A : ~ In (n0 :: n) (map l_name (objects (t_columns t)))).
        { rewrite map_app in N. cbn [app map] in N. apply NoDup_remove_2 in N. intros X. apply N. apply in_or_app. now left. }
        pose proof (load_column_ok d _ _ _ _ _ A E) as (M1 & M2 & M3 & M4 & M5 & M6 & M7 & M8).
        assert (F : fields_loaded d t t1 [SColumn (n0 :: n) k s]).
        { unfold fields_loaded, declared_columns, declared_constraints, declared_indexes, virtuals.
          cbn [flat_map field_columns field_tag]. rewrite !app_nil_r. rewrite default_kind in M1.
          assert (Z : (if is_sqlite d then [] else []) = @nil (bytes * list (bytes * bytes))) by now destruct (is_sqlite d). rewrite Z. cbn [final map last flat_map].
          rewrite app_nil_r, M7. change (table_ignored d [SColumn (n0 :: n) k s]) with false. rewrite orb_false_r.
          split; [exact M1|]. split; [exact M2|]. split; [exact M3|]. split; [exact M4|]. split; [exact M5|]. split; [exact M6|]. split; [reflexivity|exact M8]. }
        apply IH in H; [|congruence|].
        * destruct H as [H ->]. split; [|reflexivity]. now apply fields_loaded_cons with t1.
        * rewrite (table_of_same _ _ M8), M1, <- app_assoc. rewrite default_kind. exact N.
  Qed.
End Numeric.
