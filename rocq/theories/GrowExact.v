(** * GrowExact: which columns a second declaration adds (C89) *)
From Coq Require Import Lia.
From Verif Require Import GoBase GoBaseFacts QuoteModel CacheModel SpecCache CacheFacts UpsertModel TokenModel NameModel DdlModel MigrateModel SpecMigrate
  TriggerModel TriggerStore LoadModel LoadFacts LoadDdl SpecT SpecAuto LoadGood DbModel SpecGrow SpecLoad LoadGrow.

Lemma map_set {A C} (f : A -> C) l i a a' : nth_error l i = Some a -> f a' = f a -> map f (list_set l i a') = map f l.
Proof. revert i. induction l as [|x l IH]; intros [|i] E N; try discriminate E; cbn [list_set map]; [injection E as ->; now rewrite N|now rewrite IH]. Qed.
Lemma in_set {A} (l : list A) i a a' x : nth_error l i = Some a -> In x (list_set l i a') -> x = a' \/ In x l.
Proof. revert i. induction l as [|y l IH]; intros [|i] E H; try discriminate E; cbn [list_set] in H; destruct H as [<-|H]; cbn; auto. destruct (IH i E H); auto. Qed.
Definition listed (l : list bytes) (n : bytes) : bool := existsb (beqb n) l.
Lemma listed_in l n : listed l n = true <-> In n l.
Proof.
  unfold listed. rewrite existsb_exists. split; [intros (x & I & E); apply beqb_eq in E; now subst|]. intros I. exists n. split; [exact I|]. now apply beqb_eq.
Qed.
Section Exact.
  Context (numeric : bytes -> bool).
  Notation columns t := (objects (t_columns t)).
  Notation names t := (map l_name (columns t)).
  Lemma load_column_exact d n type tag t t' : sound_l (t_columns t) -> n <> [] -> load_column numeric d n type tag t = LOk t' ->
    sound_l (t_columns t') /\
    (In n (names t) -> (forall l, In l (columns t) -> l_name l = n -> l_ignore l = false) ->
       names t' = names t /\ forall l, In l (columns t') -> l_name l <> n -> In l (columns t)) /\
    (~ In n (names t) -> exists l, columns t' = columns t ++ [l] /\ l_name l = n).
  Proof.
    intros S N H. unfold load_column in H. apply lbind_ok in H. destruct H as (ms & _ & H). apply lbind_ok in H. destruct H as (r & H & K). injection K as <-. cbn [with_columns t_columns].
    assert (F : forall a a' x, lfold (column_modifier numeric d (table_of t)) ms (a, (t_constraints t, t_indexes t)) = LOk (a', x) -> l_name a' = l_name a /\ (l_ignore a = true -> l_ignore a' = true)).
    { intros a a' x E. change (l_name (fst (a', x)) = l_name a /\ (l_ignore a = true -> l_ignore (fst (a', x)) = true)).
      apply (lfold_inv _ _ _ (fun q => l_name (fst q) = l_name a /\ (l_ignore a = true -> l_ignore (fst q) = true))) with (3 := E); [|auto].
      intros z m z' (Z1 & Z2) X. apply column_modifier_ok in X. destruct X as (X1 & X2 & _). split; [congruence|auto]. }
    split.
    { eapply store_sound with (Q := fun _ => True) in H; [exact (proj1 H)|exact S|exact N|reflexivity|exact I|auto|].
      intros a a' x E. destruct (F _ _ _ E) as (F1 & F2). unfold any. auto. }
    unfold store in H. destruct (lookup_cases l_name l_ignore any n (t_columns t) S N) as [(j & a & L & Hj & Ha)|(L & Ab)].
    - rewrite L in H. assert (O := lookup_objects l_name l_ignore false n (t_columns t)). set (s1 := snd (lookup l_name l_ignore false n (t_columns t))) in *. clearbody s1.
      rewrite O, Hj in H. apply lbind_ok in H. destruct H as ([a' x] & E & K). injection K as <-. cbn [fst snd edit objects]. destruct (F _ _ _ E) as (F1 & _). split.
      + intros _ _. split; [now apply map_set with a|]. intros l I Nl. apply in_set with (a := a) in I; [|exact Hj]. destruct I as [->|I]; [congruence|exact I].
      + intros NI. elim NI. rewrite <- Ha. apply in_map, (nth_error_In _ j), Hj.
    - assert (O := lookup_objects l_name l_ignore false n (t_columns t)). destruct (lookup _ _ _ _ _) as [o s1]. cbn [fst snd] in *. subst o.
      apply lbind_ok in H. destruct H as ([a' x] & E & K). injection K as <-. cbn [fst snd append objects]. destruct (F _ _ _ E) as (F1 & _). rewrite O. split.
      + intros I NI. exfalso. apply in_map_iff in I. destruct I as (l & Nl & I). apply In_nth_error in I as J. destruct J as (i & J). apply (Ab i). exists l. auto.
      + intros _. exists a'. auto.
  Qed.
  Lemma tag_columns d tag t t' : load_table_tag d tag t = LOk t' -> t_columns t' = t_columns t.
  Proof.
    intros E. unfold load_table_tag in E. apply lbind_ok in E. destruct E as (ms & _ & E). apply (lfold_inv _ _ _ (fun q => t_columns q = t_columns t)) with (s := t) (3 := E); [|reflexivity].
    intros s m s' W H. rewrite <- W. unfold table_modifier in H. destruct (strip_dialect _ _) as [k|]; [|now injection H as <-].
    destruct (beqb k _); [destruct (is_sqlite d); [apply lbind_ok in H; destruct H as (r & _ & H)|]; now injection H as <-|].
    destruct (constraint_kind k) as [[ty refs]|]; [apply lbind_ok in H; destruct H as (x & _ & H); now injection H as <-|].
    destruct (beqb k _); [apply lbind_ok in H; destruct H as (x & _ & H); now injection H as <-|].
    destruct (beqb k _); [|discriminate]. injection H as <-. now destruct (ignores d _).
  Qed.
  Lemma load_fields_l d fs t r : sound_l (t_columns t) -> load_fields numeric d fs t = LOk r -> sound_l (t_columns (fst r)).
  Proof.
    revert t. induction fs as [|f fs IH]; intros t S H; cbn [load_fields] in H; [now injection H as <-|]. destruct f as [tag|n kind tag].
    - apply lbind_ok in H. destruct H as (t' & E & H). apply tag_columns in E. rewrite <- E in S. destruct (t_ignore t'); [injection H as <-; exact S|exact (IH _ S H)].
    - destruct n as [|c n]; [discriminate|]. cbn [is_empty] in H. apply lbind_ok in H. destruct H as (t' & E & H). apply load_column_exact in E; [|exact S|discriminate]. exact (IH _ (proj1 E) H).
  Qed.
  Lemma load_fields_exact d fs t r : sound_l (t_columns t) -> NoDup (flat_map field_columns fs) ->
    (forall l, In l (columns t) -> In (l_name l) (flat_map field_columns fs) -> l_ignore l = false) ->
    load_fields numeric d fs t = LOk r -> snd r = false ->
    names (fst r) = names t ++ filter (fun n => negb (listed (names t) n)) (flat_map field_columns fs).
  Proof.
    revert t. induction fs as [|f fs IH]; intros t S ND A H Q; cbn [load_fields] in H; [injection H as <-; cbn; now rewrite app_nil_r|]. destruct f as [tag|n kind tag].
    - apply lbind_ok in H. destruct H as (t' & E & H). apply tag_columns in E. destruct (t_ignore t'); [injection H as <-; discriminate Q|].
      rewrite <- E in S, A |- *. exact (IH t' S ND A H Q).
    - cbn [flat_map field_columns app] in ND, A |- *. destruct n as [|c n]; [discriminate|]. cbn [is_empty] in H. set (m := c :: n) in *. apply lbind_ok in H. destruct H as (t' & E & H).
      apply load_column_exact in E; [|exact S|discriminate]. destruct E as (S' & Old & New). inversion ND as [|? ? NI ND']; subst. cbn [filter].
      destruct (listed (names t) m) eqn:Lm; cbn [negb].
      + apply listed_in in Lm. destruct (Old Lm) as (En & Ot); [intros l I Nl; apply A; [exact I|left; now symmetry]|].
        rewrite <- En. apply IH; auto. intros l I J. apply A; [|now right]. apply Ot; [exact I|]. intros X. apply NI. now rewrite <- X.
      + assert (Nm : ~ In m (names t)) by (intros X; apply listed_in in X; congruence). destruct (New Nm) as (l & Ec & Nl).
        rewrite (IH t' S' ND'); [|intros l' I J|exact H|exact Q].
        * rewrite Ec, map_app, <- app_assoc. cbn [map app]. rewrite Nl. do 2 f_equal. apply filter_ext_in. intros x Ix. f_equal.
          unfold listed. rewrite existsb_app. cbn [existsb]. rewrite Bool.orb_false_r. destruct (beqb x m) eqn:X; [|now rewrite Bool.orb_false_r].
          apply beqb_eq in X. subst x. contradiction.
        * rewrite Ec in I. apply in_app_or in I. destruct I as [I|[<-|[]]]; [apply A; [exact I|now right]|]. exfalso. apply NI. now rewrite <- Nl.
  Qed.
  (** The DDL method adds no column. *)
  Definition run_l (st : t_state) : Prop := points l_name (t_columns (ts_table st)) (ts_columns st).
  Lemma t_step_exact d st call st' : run_l st -> t_step numeric d st call = Some st' ->
    run_l st' /\ names (ts_table st') = names (ts_table st) /\
    (keeps_ignored call -> sound_l (t_columns (ts_table st)) -> sound_l (t_columns (ts_table st'))).
  Proof.
    intros P H. unfold run_l in *. unfold t_step in H. destruct call as [|module args|name|h c|c|c|[text|]].
    - injection H as <-. auto.
    - injection H as <-. auto.
    - pose proof (points_lookup l_name l_ignore _ name _ P) as L2. pose proof (sound_lookup l_name l_ignore any name (t_columns (ts_table st))) as SL.
      pose proof (lookup_sound_state l_name l_ignore false name (t_columns (ts_table st))) as L3. pose proof (lookup_objects l_name l_ignore false name (t_columns (ts_table st))) as O.
      destruct (lookup _ _ _ _ _) as [[i|] cs]; [|discriminate]. cbn [fst snd] in *. injection H as <-. cbn [ts_table ts_columns with_columns t_columns]. rewrite O. split; [|auto].
      apply Forall_app. split; [exact L2|]. constructor; [|constructor]. cbn [fst snd]. rewrite O. destruct (L3 i eq_refl) as (a & A1 & A2 & _). eauto.
    - destruct (nth_error (ts_columns st) h) as [[i name]|] eqn:Hh; [|discriminate]. destruct (t_key c) as [ty|] eqn:Kc.
      + destruct (put_constraint _ _ _ _ _ _ _) as [[j ks]|]; [|discriminate]. injection H as <-. auto.
      + destruct (nth_error (objects (t_columns (ts_table st))) i) as [l|] eqn:Hl; [|discriminate]. injection H as <-.
        assert (Nl : l_name l = name). { unfold points in P. rewrite Forall_forall in P. destruct (P (i, name) (nth_error_In _ _ Hh)) as (c' & X & Y). cbn [fst snd] in *. congruence. }
        assert (Na : l_name (t_column_change numeric d (table_of (ts_table st)) name c l) = l_name l) by (rewrite change_spec by exact Nl; apply after_call_name).
        cbn [ts_table ts_columns with_columns t_columns]. split; [apply points_edit with (a := l); auto|]. split; [cbn [edit objects]; now apply map_set with l|].
        intros K S. apply sound_edit with (a := l); auto. rewrite change_spec by exact Nl. intros Ig. destruct c; cbn; try exact Ig; try reflexivity. now apply K.
    - destruct (constraint_step _ _ _ _) as [[ks hs]|]; [|discriminate]. injection H as <-. auto.
    - destruct (index_step _ _ _) as [[xs hs]|]; [|discriminate]. injection H as <-. auto.
    - destruct (t_trigger _ _ _ _) as [t'| | |] eqn:E; try discriminate. injection H as <-. apply t_trigger_same in E. destruct E as (gs & ->). auto.
    - discriminate.
  Qed.
  Lemma t_run_exact d calls st st' : run_l st -> t_run numeric d calls st = Some st' ->
    names (ts_table st') = names (ts_table st) /\ (Forall keeps_ignored calls -> sound_l (t_columns (ts_table st)) -> sound_l (t_columns (ts_table st'))).
  Proof.
    revert st. induction calls as [|c calls IH]; intros st P H; cbn [t_run] in H; [injection H as <-; auto|].
    destruct (t_step numeric d st c) as [s1|] eqn:E; [|discriminate]. apply t_step_exact in E; [|exact P]. destruct E as (P1 & N1 & S1).
    destruct (IH s1 P1 H) as (N2 & S2). split; [congruence|]. intros K S. inversion K; subst. auto.
  Qed.
  Lemma mark_exact ks cs : map l_name (objects (fold_left mark_column ks cs)) = map l_name (objects cs) /\ (sound_l cs -> sound_l (fold_left mark_column ks cs)).
  Proof.
    revert cs. induction ks as [|c ks IH]; intros cs; cbn [fold_left]; [auto|]. destruct (IH (mark_column cs c)) as (N & S). rewrite N. split; [|intros X; now apply S, mark_column_sound].
    unfold mark_column. destruct (c_columns c) as [|name [|? ?]]; auto. pose proof (lookup_objects l_name l_ignore false name cs) as O.
    destruct (lookup _ _ _ _ _) as [[i|] cs1]; cbn [snd] in O; [|now rewrite O]. rewrite <- O. destruct (nth_error (objects cs1) i) as [l|] eqn:E; auto.
    destruct (beqb _ _); [cbn [edit objects]; now apply map_set with l|]. destruct (beqb _ _); [cbn [edit objects]; now apply map_set with l|reflexivity].
  Qed.
  Lemma load_table_sound_l d schema name fs ddl t0 t : sound_l (t_columns t0) -> Forall keeps_ignored ddl -> load_table numeric d schema name fs ddl t0 = LOk t -> sound_l (t_columns t).
  Proof.
    intros S K H. unfold load_table in H. destruct (is_empty name); [discriminate|]. apply lbind_ok in H. destruct H as ([t1 stop] & E & H). cbn [fst snd] in H.
    apply load_fields_l in E; [|exact S]. cbn [fst] in E. destruct stop; [injection H as <-; exact E|]. destruct (t_run numeric d ddl _) as [st|] eqn:Q; [|discriminate]. injection H as <-.
    apply t_run_exact in Q; [|constructor]. destruct Q as (_ & Q). cbn [mark_columns with_columns t_columns]. apply mark_exact. destruct (fts5_columns (ts_table st)) as (-> & _). exact (Q K E).
  Qed.
  Lemma load_table_exact d schema name fs ddl t0 t : sound_l (t_columns t0) -> NoDup (flat_map field_columns fs) ->
    (forall l, In l (columns t0) -> In (l_name l) (flat_map field_columns fs) -> l_ignore l = false) ->
    load_table numeric d schema name fs ddl t0 = LOk t -> t_ignore t = false ->
    names t = names t0 ++ filter (fun n => negb (listed (names t0) n)) (flat_map field_columns fs).
  Proof.
    intros S ND A H Ig. unfold load_table in H. destruct (is_empty name); [discriminate|]. apply lbind_ok in H. destruct H as ([t1 stop] & E & H). cbn [fst snd] in H. destruct stop.
    - injection H as <-. exfalso. assert (X : t_ignore t1 = true); [|congruence]. clear - E.
      enough (X : forall fs t, load_fields numeric d fs t = LOk (t1, true) -> t_ignore t1 = true) by (exact (X _ _ E)). clear E.
      induction fs0 as [|f fs0 IH]; intros t H; cbn [load_fields] in H; [discriminate|]. destruct f as [tag|nm kind tag].
      + apply lbind_ok in H. destruct H as (t' & _ & H). destruct (t_ignore t') eqn:I; [injection H as <-; exact I|]. exact (IH _ H).
      + destruct (is_empty nm); [discriminate|]. apply lbind_ok in H. destruct H as (t' & _ & H). exact (IH _ H).
    - apply load_fields_exact in E; [|exact S|exact ND|exact A|reflexivity]. cbn [fst t_columns] in E. destruct (t_run numeric d ddl _) as [st|] eqn:Q; [|discriminate]. injection H as <-.
      apply t_run_exact in Q; [|constructor]. destruct Q as (Q & _). cbn [mark_columns with_columns t_columns]. rewrite (proj1 (mark_exact _ _)). destruct (fts5_columns (ts_table st)) as (-> & _). rewrite Q. exact E.
  Qed.
End Exact.
