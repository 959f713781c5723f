(** * LoadColumn: columns, tables *)
From Coq Require Import Lia.
From Verif Require Import GoBase GoBaseFacts QuoteModel CacheModel SpecCache CacheFacts UpsertModel TokenModel NameModel DdlModel LoadModel SpecLoad LoadFacts LoadPf.

Section Numeric.
  Context (numeric : bytes -> bool).
  Definition extended (d : dialect) (ms : list (bytes * bytes)) (l : column) : column :=
    mk_column (l_schema l) (l_table l) (l_name l)
      (value_or (l_type l) (B "type") ms)
      (match (if is_postgres d then final_named [B "identity"; B "alwaysidentity"] ms else None) with
       | Some (k, _) => if beqb k (B "identity") then B "BY DEFAULT AS IDENTITY" else B "ALWAYS AS IDENTITY"
       | None => l_identity l
       end)
      (l_autoincrement l || (is_mysql d && says (B "auto_increment") ms) || (is_sqlite d && says (B "autoincrement") ms))
      (l_not_null l || says (B "notnull") ms)
      (l_unique l) (l_primary_key l)
      (l_on_update l || (is_mysql d && says (B "onupdatecurrenttimestamp") ms))
      (match final_named [B "expr"; B "storedexpr"] ms with Some (_, v) => v | None => l_generated l end)
      (match final_named [B "expr"; B "storedexpr"] ms with Some (k, _) => beqb k (B "storedexpr") || is_postgres d | None => l_stored l end)
      (value_or (l_collation l) (B "collate") ms)
      (match final_named [B "default"] ms with
       | Some (_, v) => if is_postgres d || negb (needs_brackets numeric v) then v else B "(" ++ v ++ B ")"
       | None => l_default l
       end)
      (l_ignore l || ignored_for d ms).
  Lemma extend_extended : forall d tag l, extend_column numeric d tag l = extended d (mine d tag) l.
  Proof. reflexivity. Qed.
  Lemma extended_nil : forall d l, extended d [] l = l.
  Proof. intros d []. unfold extended. cbn. rewrite !andb_false_r, !orb_false_r. now destruct (is_postgres d). Qed.
  Lemma orb_mix : forall a b b' c c' : bool, (a || (b || b')) || (c || c') = ((a || b) || c) || b' || c'.
  Proof. intros [] [] [] [] []; reflexivity. Qed.
  Lemma extended_cons : forall d m ms l, extended d (m :: ms) l = extended d ms (extended d [m] l).
  Proof.
    intros d m ms l. unfold extended.
    cbn [l_schema l_table l_name l_type l_identity l_autoincrement l_not_null l_unique l_primary_key l_on_update l_generated l_stored l_collation l_default l_ignore].
    rewrite (value_or_cons (l_type l)), (value_or_cons (l_collation l)).
    rewrite (final_named_cons [B "identity"; B "alwaysidentity"] m ms), (final_named_cons [B "expr"; B "storedexpr"] m ms), (final_named_cons [B "default"] m ms).
    rewrite (says_cons (B "auto_increment") m ms), (says_cons (B "autoincrement") m ms), (says_cons (B "notnull") m ms), (says_cons (B "onupdatecurrenttimestamp") m ms).
    rewrite (ignored_cons d m ms), !andb_orb_distrib_r, orb_mix, !orb_assoc. f_equal.
    - destruct (is_postgres d); [|reflexivity]. now destruct (final_named [B "identity"; B "alwaysidentity"] ms).
    - now destruct (final_named [B "expr"; B "storedexpr"] ms).
    - now destruct (final_named [B "expr"; B "storedexpr"] ms).
    - now destruct (final_named [B "default"] ms).
  Qed.
  Lemma column_setting_spec : forall d k v attrs l, column_setting numeric d k v = Some attrs ->
    fold_left (fun l a => set_column a l) attrs l = extended d [(k, v)] l.
  Proof.
    intros d k v attrs l H. unfold column_setting in H. unfold extended, value_or.
    rewrite !one_final, !one_says, one_ignored. cbn [existsb fst snd]. rewrite !orb_false_r.
    destruct l as [a1 a2 a3 a4 a5 a6 a7 a8 a9 a10 a11 a12 a13 a14 a15].
    repeat match goal with
    | H : (if beqb ?k ?lit then _ else _) = Some _ |- _ =>
      let E := fresh "E" in destruct (beqb k lit) eqn:E;
      [apply beqb_eq in E; subst k; lits; injection H as <-|]
    end; try discriminate;
    cbn [l_schema l_table l_name l_type l_identity l_autoincrement l_not_null l_unique l_primary_key l_on_update l_generated l_stored l_collation l_default l_ignore orb andb];
    unfold tag_default;
    try (destruct (is_postgres d) eqn:?); try (destruct (is_mysql d) eqn:?); try (destruct (is_sqlite d) eqn:?);
    try (destruct (ignores d v) eqn:?); try (destruct (needs_brackets numeric v) eqn:?);
    cbn [fold_left set_column negb andb orb
      l_schema l_table l_name l_type l_identity l_autoincrement l_not_null l_unique l_primary_key l_on_update l_generated l_stored l_collation l_default l_ignore];
    rewrite ?orb_false_r, ?orb_true_r; reflexivity.
  Qed.
  Lemma column_setting_words : forall d k v, (exists attrs, column_setting numeric d k v = Some attrs) <-> In k column_words.
  Proof.
    intros d k v. rewrite <- existsb_in. unfold column_setting, column_words. cbn [existsb].
    repeat match goal with
    | |- context [if beqb ?k ?lit then _ else _] => destruct (beqb k lit); cbn [orb]; [split; [reflexivity|intros _; eexists; reflexivity]|]
    end.
    split; [intros [? H]; discriminate|discriminate].
  Qed.
  Lemma column_setting_none : forall d k v, column_setting numeric d k v = None -> ~ In k column_words.
  Proof. intros d k v H I. apply column_setting_words with (d := d) (v := v) in I. destruct I. congruence. Qed.
End Numeric.
Lemma constraint_kind_words : forall k, constraint_kind k = mget k constraint_words.
Proof.
  intros k. unfold constraint_kind, constraint_words. cbn [mget].
  destruct (beqb k (B "primarykey")); [reflexivity|].
  destruct (beqb k (B "references")) eqn:E; [apply beqb_eq in E; subst k; reflexivity|].
  destruct (beqb k (B "foreignkey")) eqn:E2; [apply beqb_eq in E2; subst k; reflexivity|].
  reflexivity.
Qed.
Lemma constraints_of_cons : forall d tb cs m ms, constraints_of d tb cs (m :: ms) = constraints_of d tb cs [m] ++ constraints_of d tb cs ms.
Proof. intros. unfold constraints_of. rewrite (mine_cons d m ms). apply flat_map_app. Qed.
Lemma indexes_of_cons : forall d tb cs m ms, indexes_of d tb cs (m :: ms) = indexes_of d tb cs [m] ++ indexes_of d tb cs ms.
Proof. intros. unfold indexes_of. rewrite (mine_cons d m ms). apply flat_map_app. Qed.
Lemma constraints_of_one : forall d tb cs m, constraints_of d tb cs [m] =
  match strip_dialect d (fst m) with
  | Some k => match mget k constraint_words with
              | Some (ty, refs) => config_constraints d tb ty refs cs (snd m)
              | None => []
              end
  | None => []
  end.
Proof.
  intros d tb cs m. unfold constraints_of. rewrite mine_strip. destruct (strip_dialect d (fst m)) as [k|]; [|reflexivity].
  cbn [flat_map fst snd]. rewrite app_nil_r. unfold config_constraints. destruct (mget k constraint_words) as [[ty refs]|]; [|reflexivity].
  now destruct (config_of (snd m)) as [[]|].
Qed.
Lemma not_index : forall k ty refs, mget k constraint_words = Some (ty, refs) -> beqb k (B "index") = false.
Proof.
  intros k ty refs H. destruct (beqb k (B "index")) eqn:E; [|reflexivity]. apply beqb_eq in E. subst k. discriminate.
Qed.
Lemma indexes_of_one : forall d tb cs m, indexes_of d tb cs [m] =
  match strip_dialect d (fst m) with
  | Some k => match mget k constraint_words with
              | Some (ty, refs) => config_indexes d tb refs cs (snd m)
              | None => if beqb k (B "index") then index_of d tb cs (snd m) else []
              end
  | None => []
  end.
Proof.
  intros d tb cs m. unfold indexes_of. rewrite mine_strip. destruct (strip_dialect d (fst m)) as [k|]; [|reflexivity].
  cbn [flat_map fst snd]. rewrite app_nil_r. unfold config_indexes, modifier_indexes.
  destruct (mget k constraint_words) as [[ty refs]|] eqn:W; [|reflexivity]. rewrite (not_index _ _ _ W).
  now destruct (config_of (snd m)) as [[]|].
Qed.
Section Column.
  Context (numeric : bytes -> bool).
  Definition of_table (tb : table_id) (n : bytes) (l : column) : Prop :=
    l_schema l = tb_schema tb /\ l_table l = tb_name tb /\ l_name l = n.
  Lemma column_setting_other : forall d k v ty refs, mget k constraint_words = Some (ty, refs) -> column_setting numeric d k v = None.
  Proof.
    intros d k v ty refs H. destruct (column_setting numeric d k v) eqn:E; [exfalso|reflexivity].
    assert (I : In k column_words) by (apply (column_setting_words numeric d k v); eexists; exact E).
    assert (J : In k (map fst constraint_words)).
    { revert H. generalize constraint_words. induction l0 as [|[k' x] l0 IH]; cbn [mget map fst In]; [discriminate|].
      destruct (beqb k k') eqn:Q; [apply beqb_eq in Q; intros _; now left|]. intros H. right. now apply IH. }
    apply existsb_in in I. cbn [map fst constraint_words In] in J. destruct J as [<-|[<-|[<-|[<-|[]]]]]; vm_compute in I; discriminate.
  Qed.
  Lemma extended_other : forall d k v l, column_setting numeric d k v = None -> extended numeric d [(k, v)] l = l.
  Proof.
    intros d k v l H. assert (N : ~ In k column_words) by now apply column_setting_none in H.
    assert (M : existsb (beqb k) column_words = false).
    { destruct (existsb (beqb k) column_words) eqn:E; [|reflexivity]. now apply existsb_in in E. }
    unfold column_words in M. cbn [existsb] in M. unfold extended, value_or. rewrite !one_final, !one_says, one_ignored. cbn [existsb fst snd].
    repeat (apply orb_false_iff in M; let E := fresh "M" in destruct M as [E M]; rewrite ?E). cbn [orb andb].
    rewrite !andb_false_r, !orb_false_r. destruct l. now destruct (is_postgres d).
  Qed.
  Lemma column_modifier_ok : forall d tb n m l ks xs l' ks' xs', of_table tb n l ->
    column_modifier numeric d tb (l, (ks, xs)) m = LOk (l', (ks', xs')) ->
    l' = extend_column numeric d [m] l /\ appended c_name ks ks' (constraints_of d tb [n] [m]) /\
    appended x_name xs xs' (indexes_of d tb [n] [m]).
  Proof.
    intros d tb n m l ks xs l' ks' xs' (T1 & T2 & T3) H. unfold column_modifier in H. rewrite constraints_of_one, indexes_of_one, extend_extended, mine_strip.
    destruct (strip_dialect d (fst m)) as [k|].
    2:{ injection H as <- <- <-. rewrite extended_nil. split; [reflexivity|]. split; apply appended_none. }
    destruct (column_setting numeric d k (snd m)) as [attrs|] eqn:A.
    { injection H as <- <- <-. split; [now apply column_setting_spec|].
      assert (W : mget k constraint_words = None).
      { destruct (mget k constraint_words) as [[ty refs]|] eqn:W; [|reflexivity]. rewrite (column_setting_other _ _ _ _ _ W) in A. discriminate. }
      rewrite W. assert (I : beqb k (B "index") = false).
      { destruct (beqb k (B "index")) eqn:E; [|reflexivity]. apply beqb_eq in E. subst k. discriminate. }
      rewrite I. split; apply appended_none. }
    rewrite constraint_kind_words in H. rewrite (extended_other _ _ _ _ A).
    destruct (mget k constraint_words) as [[ty refs]|].
    - apply lbind_ok in H. destruct H as ([ks1 xs1] & H & K). injection K as <- <- <-. rewrite T1, T2, T3 in H.
      apply load_constraint_ok in H. split; [reflexivity|exact H].
    - destruct (beqb k (B "index")); [|discriminate]. apply lbind_ok in H. destruct H as (xs1 & H & K). injection K as <- <- <-.
      cbn [fst snd] in *. rewrite T2, T3 in H. apply load_index_ok in H. split; [reflexivity|]. split; [apply appended_none|exact H].
  Qed.
  Lemma extend_of_table : forall d tb n tag l, of_table tb n l -> of_table tb n (extend_column numeric d tag l).
  Proof. intros d tb n tag l H. exact H. Qed.
  Lemma extend_column_cons : forall d m ms l, extend_column numeric d (m :: ms) l = extend_column numeric d ms (extend_column numeric d [m] l).
  Proof.
    intros d m ms l. rewrite !extend_extended, (mine_cons d m ms), mine_strip. destruct (strip_dialect d (fst m)) as [k|].
    - cbn [app]. apply extended_cons.
    - cbn [app]. now rewrite extended_nil.
  Qed.
  Lemma column_modifiers_ok : forall d tb n ms l ks xs l' ks' xs', of_table tb n l ->
    lfold (column_modifier numeric d tb) ms (l, (ks, xs)) = LOk (l', (ks', xs')) ->
    l' = extend_column numeric d ms l /\ appended c_name ks ks' (constraints_of d tb [n] ms) /\
    appended x_name xs xs' (indexes_of d tb [n] ms).
  Proof.
    intros d tb n. induction ms as [|m ms IH]; intros l ks xs l' ks' xs' T H; cbn [lfold] in H.
    - injection H as <- <- <-. split; [rewrite extend_extended; symmetry; apply extended_nil|]. split; apply appended_none.
    - apply lbind_ok in H. destruct H as ([l1 [ks1 xs1]] & E & H). apply (column_modifier_ok d tb n) in E; [|exact T].
      destruct E as (-> & A1 & A2). apply IH in H; [|now apply extend_of_table]. destruct H as (-> & A3 & A4).
      split; [symmetry; apply extend_column_cons|]. rewrite constraints_of_cons, indexes_of_cons.
      split; [now apply appended_then with ks1|now apply appended_then with xs1].
  Qed.
  Lemma column_modifier_fine : forall d tb n m l s, l_name l = n ->
    (fine (column_modifier numeric d tb (l, s) m) <-> Forall (fun m => In (fst m) column_words \/ declares_ok [n] m) (mine d [m])).
  Proof.
    intros d tb n m l s T3. unfold column_modifier. rewrite mine_strip. destruct (strip_dialect d (fst m)) as [k|].
    2:{ split; [constructor|intros _; apply fine_ok]. }
    assert (Y : forall P : Prop, Forall (fun m => In (fst m) column_words \/ declares_ok [n] m) [(k, snd m)] <-> (In k column_words \/ declares_ok [n] (k, snd m))).
    { intros _. split; [intros F; now inversion F|intros F; constructor; [exact F|constructor]]. }
    rewrite (Y True). destruct (column_setting numeric d k (snd m)) as [attrs|] eqn:A.
    { split; [intros _|intros _; apply fine_ok]. left. apply (column_setting_words numeric d k (snd m)). eexists; exact A. }
    apply column_setting_none in A. rewrite constraint_kind_words. unfold declares_ok. cbn [fst snd].
    destruct (mget k constraint_words) as [[ty refs]|] eqn:W.
    - rewrite fine_then, load_constraint_fine. rewrite T3. split.
      + intros F. right. left. now exists ty, refs.
      + intros [F|[(ty' & refs' & F & G)|[F _]]]; [contradiction|now injection F as <- <-|].
        apply not_index in W. apply beqb_neq_lit in W. contradiction.
    - destruct (beqb k (B "index")) eqn:I.
      + rewrite fine_then, load_index_fine, T3. apply beqb_eq in I. split; [auto|].
        intros [F|[(ty' & refs' & F & G)|[_ F]]]; [contradiction|discriminate|exact F].
      + split; [intros [? H]; discriminate|]. apply beqb_neq_lit in I.
        intros [F|[(ty' & refs' & F & G)|[F _]]]; [contradiction|discriminate|contradiction].
  Qed.
  Lemma column_modifiers_fine : forall d tb n ms l s, l_name l = n ->
    (fine (lfold (column_modifier numeric d tb) ms (l, s)) <-> Forall (fun m => In (fst m) column_words \/ declares_ok [n] m) (mine d ms)).
  Proof.
    intros d tb n ms l s T3.
    assert (G : forall ms, Forall (fun m => Forall (fun m => In (fst m) column_words \/ declares_ok [n] m) (mine d [m])) ms <->
      Forall (fun m => In (fst m) column_words \/ declares_ok [n] m) (mine d ms)).
    { induction ms0 as [|m ms0 IH]; [split; constructor|]. rewrite (mine_cons d m ms0), Forall_app, <- IH. split.
      - intros F. inversion F; subst. now split.
      - intros [F1 F2]. now constructor. }
    rewrite <- G. apply lfold_fine with (P := fun st => l_name (fst st) = n); [| |exact T3].
    - intros [l0 s0] m P. now apply column_modifier_fine.
    - intros [l0 s0] m [l1 s1] P H. cbn [fst] in *. unfold column_modifier in H. destruct (strip_dialect d (fst m)) as [k|]; [|now injection H as <- <-].
      destruct (column_setting numeric d k (snd m)) as [attrs|].
      + injection H as <- <-. revert l0 P. induction attrs as [|a attrs IH]; intros l0 P; cbn [fold_left]; [exact P|]. apply IH. now destruct a.
      + destruct (constraint_kind k) as [[ty refs]|].
        * apply lbind_ok in H. destruct H as (s2 & _ & K). now injection K as <- <-.
        * destruct (beqb k (B "index")); [|discriminate]. apply lbind_ok in H. destruct H as (s2 & _ & K). now injection K as <- <-.
  Qed.
End Column.
