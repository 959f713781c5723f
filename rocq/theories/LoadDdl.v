(** * LoadDdl: the calls of a DDL method *)
From Coq Require Import Lia.
From Verif Require Import GoBase GoBaseFacts QuoteModel CacheModel SpecCache CacheFacts UpsertModel TokenModel NameModel DdlModel MigrateModel TriggerModel LoadModel SpecLoad SpecT LoadFacts LoadPf LoadColumn LoadTable LoadMark.

Lemma t_trigger_same : forall fuel d sql t t', t_trigger fuel d sql t = LOk t' -> exists gs, t' = set_triggers gs t.
Proof.
  intros fuel d sql t t' H. unfold t_trigger in H. destruct (trigger_info _ _ _) as [g| | |]; try discriminate.
  destruct (_ && _); [discriminate|]. destruct (negb _); [discriminate|]. destruct (lookup _ _ _ _ _) as [[n|] ts].
  - destruct (nth_error _ _); [|discriminate]. injection H as <-. eauto.
  - injection H as <-. eauto.
Qed.
Section Numeric.
  Context (numeric : bytes -> bool).
  Notation t_step := (t_step numeric).
  Notation t_run := (t_run numeric).
  Notation names t := (map l_name (objects (t_columns t))).
  Lemma change_spec : forall d tb n c l, l_name l = n -> t_column_change numeric d tb n c l = after_call numeric d tb c l.
  Proof.
    intros d tb n c l <-. unfold t_column_change. destruct c, l; try (destruct d; reflexivity); reflexivity.
  Qed.
  (** The TColumns point at the column they were asked for. *)
  Definition handles_ok (st : t_state) : Prop :=
    Forall (fun h => nth_error (names (ts_table st)) (fst h) = Some (snd h)) (ts_columns st).
  Lemma after_call_name : forall d tb c l, l_name (after_call numeric d tb c l) = l_name l.
  Proof. intros d tb [] l; reflexivity. Qed.
  Definition step_columns (d : dialect) (tb : table_id) (hs : list bytes) (call : t_call) (l : column) : column :=
    match call with
    | TColumnCall h c => match nth_error hs h with Some m => if beqb m (l_name l) then after_call numeric d tb c l else l | None => l end
    | _ => l
    end.
  Lemma after_key : forall d tb c l ty, t_key c = Some ty -> after_call numeric d tb c l = l.
  Proof. intros d tb c l ty H. destruct c; try discriminate; destruct l; reflexivity. Qed.
  Lemma t_step_columns : forall d st call st', handles_ok st -> NoDup (names (ts_table st)) -> t_step d st call = Some st' ->
    objects (t_columns (ts_table st')) =
      map (step_columns d (table_of (ts_table st)) (map snd (ts_columns st)) call) (objects (t_columns (ts_table st))) /\
    map snd (ts_columns st') = map snd (ts_columns st) ++ asked_columns [call] /\
    handles_ok st' /\ names (ts_table st') = names (ts_table st) /\
    table_of (ts_table st') = table_of (ts_table st).
  Proof.
    intros d st call st' HO D H.
    assert (ID : forall l : list column, l = map (fun l => l) l) by (intros; symmetry; apply map_id).
    unfold LoadModel.t_step in H. destruct call as [|module args|name|h c|c|c|[text|]]; cbn [asked_columns flat_map app] in *; rewrite ?app_nil_r.
    - injection H as <-. cbn. split; [apply ID|]. split; [reflexivity|]. split; [exact HO|]. repeat split.
    - injection H as <-. cbn. split; [apply ID|]. split; [reflexivity|]. split; [exact HO|]. repeat split.
    - pose proof (lookup_sound_state l_name l_ignore false name (t_columns (ts_table st))) as S.
      pose proof (lookup_objects l_name l_ignore false name (t_columns (ts_table st))) as O.
      destruct (lookup l_name l_ignore false name (t_columns (ts_table st))) as [[i|] cs]; [|discriminate]. injection H as <-.
      cbn [fst snd] in *. cbn [ts_table with_columns t_columns ts_columns fst snd]. rewrite O.
      split; [apply ID|]. split; [now rewrite map_app|]. split; [|repeat split].
      unfold handles_ok. cbn [ts_table ts_columns with_columns t_columns]. rewrite O. apply Forall_app. split; [exact HO|].
      constructor; [|constructor]. cbn [fst snd]. destruct (S i eq_refl) as (a & Ea & Na & _).
      rewrite nth_error_map, Ea. cbn. now rewrite Na.
    - destruct (nth_error (ts_columns st) h) as [[i n]|] eqn:E; [|discriminate].
      assert (NH : nth_error (map snd (ts_columns st)) h = Some n) by (rewrite nth_error_map, E; reflexivity).
      assert (HI : nth_error (names (ts_table st)) i = Some n).
      { unfold handles_ok in HO. rewrite Forall_forall in HO. apply (HO (i, n)). now apply nth_error_In with h. }
      destruct (t_key c) as [ty|] eqn:K.
      + destruct (put_constraint _ _ _ _ _ _ _) as [[j ks]|]; [|discriminate]. injection H as <-. cbn.
        split; [|split; [reflexivity|split; [exact HO|repeat split]]]. cbn [step_columns].
        rewrite (ID (objects (t_columns (ts_table st)))) at 1. apply map_ext. intros l. unfold step_columns. rewrite NH, (after_key _ _ _ _ _ K). now destruct (beqb n (l_name l)).
      + destruct (nth_error (objects (t_columns (ts_table st))) i) as [l|] eqn:L; [|discriminate]. injection H as <-.
        rewrite nth_error_map, L in HI. cbn in HI. injection HI as HI. rewrite (change_spec _ _ _ _ _ HI).
        cbn [ts_table with_columns t_columns ts_columns fst snd edit objects].
        assert (M : list_set (objects (t_columns (ts_table st))) i (after_call numeric d (table_of (ts_table st)) c l) =
          map (step_columns d (table_of (ts_table st)) (map snd (ts_columns st)) (TColumnCall h c)) (objects (t_columns (ts_table st)))).
        { unfold step_columns. rewrite NH. rewrite <- (set_unique _ _ l_name (fun l0 => if beqb n (l_name l0) then after_call numeric d (table_of (ts_table st)) c l0 else l0)
            (objects (t_columns (ts_table st))) i l D L).
          - rewrite HI, beqb_refl. reflexivity.
          - intros b _ NE. destruct (beqb n (l_name b)) eqn:X; [|reflexivity]. apply beqb_eq in X. congruence. }
        assert (NM : map l_name (list_set (objects (t_columns (ts_table st))) i (after_call numeric d (table_of (ts_table st)) c l)) = names (ts_table st)).
        { rewrite M, map_map. apply map_ext. intros b. unfold step_columns. rewrite NH. destruct (beqb n (l_name b)); [apply after_call_name|reflexivity]. }
        split; [exact M|]. split; [reflexivity|]. split; [|split; [exact NM|repeat split]].
        unfold handles_ok. cbn [ts_table ts_columns with_columns t_columns edit objects]. rewrite NM. exact HO.
    - destruct (constraint_step _ _ _ _) as [[ks hs]|]; [|discriminate]. injection H as <-. cbn. split; [apply ID|]. split; [reflexivity|]. split; [exact HO|]. repeat split.
    - destruct (index_step _ _ _) as [[xs hs]|]; [|discriminate]. injection H as <-. cbn. split; [apply ID|]. split; [reflexivity|]. split; [exact HO|]. repeat split.
    - destruct (t_trigger _ _ _ _) as [t'| | |] eqn:E; try discriminate. injection H as <-. apply t_trigger_same in E. destruct E as (gs & ->). cbn. split; [apply ID|]. split; [reflexivity|]. split; [exact HO|]. repeat split.
    - discriminate.
  Qed.
  Definition fold_calls (d : dialect) (tb : table_id) (cs : list t_column_call) (l : column) : column :=
    fold_left (fun l c => after_call numeric d tb c l) cs l.
  Lemma fold_calls_name : forall d tb cs l, l_name (fold_calls d tb cs l) = l_name l.
  Proof. induction cs as [|c cs IH]; intros l; [reflexivity|]. unfold fold_calls in *. cbn [fold_left]. rewrite IH. apply after_call_name. Qed.
  Lemma t_run_columns : forall d calls st st', handles_ok st -> NoDup (names (ts_table st)) -> t_run d calls st = Some st' ->
    objects (t_columns (ts_table st')) =
      map (fun l => fold_calls d (table_of (ts_table st)) (calls_on (map snd (ts_columns st)) (l_name l) calls) l) (objects (t_columns (ts_table st))) /\
    map snd (ts_columns st') = map snd (ts_columns st) ++ asked_columns calls /\ handles_ok st' /\
    names (ts_table st') = names (ts_table st) /\ table_of (ts_table st') = table_of (ts_table st).
  Proof.
    intros d. induction calls as [|c calls IH]; intros st st' HO D H; cbn [LoadModel.t_run] in H.
    - injection H as <-. cbn. split; [symmetry; apply map_id|]. split; [now rewrite app_nil_r|]. split; [exact HO|]. repeat split.
    - destruct (t_step d st c) as [st1|] eqn:E; [|discriminate]. apply t_step_columns in E; [|exact HO|exact D].
      destruct E as (E1 & E2 & E3 & E4 & E5). apply IH in H; [|exact E3|now rewrite E4]. destruct H as (H1 & H2 & H3 & H4 & H5).
      rewrite E5 in H1. split; [|split; [|split; [exact H3|split; [congruence|]]]].
      + rewrite H1, E1, map_map. apply map_ext. intros l.
        assert (NM : l_name (step_columns d (table_of (ts_table st)) (map snd (ts_columns st)) c l) = l_name l).
        { destruct c; unfold step_columns; try reflexivity. destruct (nth_error _ _) as [m|]; [|reflexivity]. destruct (beqb m (l_name l)); [apply after_call_name|reflexivity]. }
        rewrite NM, E2. destruct c; cbn [asked_columns flat_map app calls_on]; unfold step_columns; rewrite ?app_nil_r; try reflexivity.
        destruct (nth_error (map snd (ts_columns st)) handle) as [m|]; [|reflexivity]. destruct (beqb m (l_name l)); reflexivity.
      + rewrite H2, E2. rewrite <- app_assoc. f_equal. unfold asked_columns. cbn [flat_map]. now rewrite app_nil_r.
      + congruence.
  Qed.

  Lemma edit_fresh_ignore : forall l (s : cached column), fresh l_name l_ignore s -> NoDup (map l_name (objects s)) ->
    Forall2 (fun a b => l_name b = l_name a /\ (l_ignore a = true -> l_ignore b = true)) (objects s) l ->
    fresh l_name l_ignore (edit l s).
  Proof.
    intros l s F D H name i [[b (Hb & Hn & Hi)] _]. cbn [edit objects positions] in *. apply F.
    assert (G : forall os l i b, Forall2 (fun a b => l_name b = l_name a /\ (l_ignore a = true -> l_ignore b = true)) os l ->
      nth_error l i = Some b -> exists a, nth_error os i = Some a /\ l_name b = l_name a /\ (l_ignore a = true -> l_ignore b = true)).
    { clear. intros os l i b H. revert i. induction H as [|a b' os l H1 H2 IH]; intros i E; [destruct i; discriminate|].
      destruct i as [|i]; cbn [nth_error] in *; [injection E as <-; exists a; auto|now apply IH]. }
    destruct (G _ _ _ _ H Hb) as (a & Ea & Na & Ia). split.
    - exists a. split; [exact Ea|]. split; [congruence|]. destruct (l_ignore a); [rewrite Ia in Hi; auto|reflexivity].
    - intros j [c (Hc & Hcn & _)]. assert (j = i); [|lia].
      pose proof (proj1 (NoDup_nth_error _) D j i) as X. apply X.
      + rewrite map_length. apply nth_error_Some. congruence.
      + rewrite !nth_error_map, Hc, Ea. cbn. congruence.
  Qed.
  Lemma t_step_fresh : forall d st call st', handles_ok st -> NoDup (names (ts_table st)) -> keeps_ignored call ->
    fresh l_name l_ignore (t_columns (ts_table st)) -> t_step d st call = Some st' -> fresh l_name l_ignore (t_columns (ts_table st')).
  Proof.
    intros d st call st' HO D KI F H. unfold LoadModel.t_step in H. destruct call as [|module args|name|h c|c|c|[text|]].
    - now injection H as <-.
    - now injection H as <-.
    - pose proof (lookup_fresh l_name l_ignore false name (t_columns (ts_table st)) F) as F1.
      destruct (lookup l_name l_ignore false name (t_columns (ts_table st))) as [[i|] cs]; [|discriminate]. now injection H as <-.
    - destruct (nth_error (ts_columns st) h) as [[i n]|] eqn:E; [|discriminate].
      destruct (t_key c) as [ty|].
      + destruct (put_constraint _ _ _ _ _ _ _) as [[j ks]|]; [|discriminate]. now injection H as <-.
      + destruct (nth_error (objects (t_columns (ts_table st))) i) as [l|] eqn:L; [|discriminate]. injection H as <-.
        assert (HI : l_name l = n).
        { unfold handles_ok in HO. rewrite Forall_forall in HO. specialize (HO (i, n) (nth_error_In _ _ E)). cbn [fst snd] in HO.
          rewrite nth_error_map, L in HO. now injection HO as <-. }
        rewrite (change_spec _ _ _ _ _ HI). cbn [ts_table with_columns t_columns]. apply edit_fresh_ignore; [exact F|exact D|].
        assert (P : l_ignore l = true -> l_ignore (after_call numeric d (table_of (ts_table st)) c l) = true).
        { intros I. destruct c; cbn; try exact I; try reflexivity. now apply KI. }
        clear - L P. revert i L. induction (objects (t_columns (ts_table st))) as [|a os IH]; intros i L; [destruct i; discriminate|].
        destruct i as [|i]; cbn [nth_error list_set] in *.
        * injection L as ->. constructor; [split; [apply after_call_name|exact P]|]. clear. induction os; constructor; auto.
        * constructor; [auto|]. now apply IH.
    - destruct (constraint_step _ _ _ _) as [[ks hs]|]; [|discriminate]. now injection H as <-.
    - destruct (index_step _ _ _) as [[xs hs]|]; [|discriminate]. now injection H as <-.
    - destruct (t_trigger _ _ _ _) as [t'| | |] eqn:E; try discriminate. injection H as <-. apply t_trigger_same in E. now destruct E as (gs & ->).
    - discriminate.
  Qed.
  Lemma t_run_fresh : forall d calls st st', handles_ok st -> NoDup (names (ts_table st)) -> Forall keeps_ignored calls ->
    fresh l_name l_ignore (t_columns (ts_table st)) -> t_run d calls st = Some st' -> fresh l_name l_ignore (t_columns (ts_table st')).
  Proof.
    intros d. induction calls as [|c calls IH]; intros st st' HO D KI F H; cbn [LoadModel.t_run] in H.
    - now injection H as <-.
    - inversion KI as [|? ? K1 K2]; subst. destruct (t_step d st c) as [st1|] eqn:E; [|discriminate].
      pose proof (t_step_fresh _ _ _ _ HO D K1 F E) as F1. apply t_step_columns in E; [|exact HO|exact D].
      destruct E as (_ & _ & E3 & E4 & _). apply (IH st1); auto. now rewrite E4.
  Qed.
  (** A call on a TColumn panics never; Column exactly when there is no such column. *)
  Lemma column_panics : forall d st n, fresh l_name l_ignore (t_columns (ts_table st)) ->
    (t_step d st (TColumn n) = None <-> n = [] \/ ~ exists l, In l (objects (t_columns (ts_table st))) /\ l_name l = n /\ l_ignore l = false).
  Proof.
    intros d st n F. unfold LoadModel.t_step. destruct n as [|a n].
    - split; [auto|]. intros _. reflexivity.
    - assert (N0 : a :: n <> []) by discriminate.
      destruct (lookup_exact_state l_name l_ignore false (a :: n) _ F (or_introl N0)) as [L1 L2].
      destruct (lookup l_name l_ignore false (a :: n) (t_columns (ts_table st))) as [[i|] cs] eqn:E; cbn [fst] in *.
      + split; [discriminate|]. intros [X|X]; [discriminate|]. exfalso. apply X. destruct (L1 i) as [L _]. destruct (L eq_refl) as [(l & H1 & H2 & H3) _].
        exists l. split; [now apply nth_error_In with i|auto].
      + split; [|reflexivity]. intros _. right. intros (l & I & H). apply In_nth_error in I. destruct I as [j J].
        destruct L2 as [L _]. apply (L eq_refl j). exists l. auto.
  Qed.
End Numeric.

(** ** The whole table *)
Section Whole.
  Context (numeric : bytes -> bool).
  Lemma fields_read_all : forall d fs, table_ignored d fs = false -> fields_read d fs = fs.
  Proof.
    intros d. induction fs as [|f fs IH]; intros H; [reflexivity|]. rewrite ignored_fields_cons in H. apply orb_false_iff in H. destruct H as [H1 H2].
    cbn [fields_read]. rewrite H1. now rewrite IH.
  Qed.
  Lemma ignored_read : forall d fs, table_ignored d (fields_read d fs) = table_ignored d fs.
  Proof.
    intros d. induction fs as [|f fs IH]; [reflexivity|]. cbn [fields_read]. rewrite ignored_fields_cons, (ignored_fields_cons d f fs).
    destruct (table_ignored d [f]); [reflexivity|]. cbn [orb]. exact IH.
  Qed.
  Lemma declared_names : forall d tb fs, map l_name (declared_columns numeric d tb fs) = flat_map field_columns fs.
  Proof.
    intros d tb. induction fs as [|f fs IH]; [reflexivity|]. unfold declared_columns in *. cbn [flat_map]. rewrite map_app, IH. now destruct f.
  Qed.
  Lemma new_fresh : fresh l_name l_ignore (@cached_new column).
  Proof. intros n i [[a (H & _)] _]. destruct i; discriminate. Qed.
  Definition base_table (schema name : bytes) : table := empty_table schema name.
  Lemma load_table_unfold : forall d schema name fs ddl t,
    load_table numeric d schema name fs ddl (empty_table [] []) = LOk t ->
    name <> [] /\ exists t1 b, load_fields numeric d fs (empty_table schema name) = LOk (t1, b) /\
    (if b then t = t1 else exists st, t_run numeric d ddl (mk_t t1 [] [] []) = Some st /\ t = mark_columns (fts5_args (ts_table st))).
  Proof.
    intros d schema name fs ddl t H. unfold load_table in H. destruct name as [|a name]; [discriminate|]. cbn [is_empty] in H.
    split; [discriminate|]. apply lbind_ok in H. destruct H as ([t1 b] & H & K). exists t1, b. split; [exact H|]. cbn [fst snd] in K.
    destruct b; [now injection K as <-|]. destruct (t_run numeric d ddl (mk_t t1 [] [] [])) as [st|]; [|discriminate].
    injection K as <-. now exists st.
  Qed.
  Lemma fts5_columns : forall t, t_columns (fts5_args t) = t_columns t /\ t_constraints (fts5_args t) = t_constraints t /\
    t_indexes (fts5_args t) = t_indexes t /\ rest_same t (fts5_args t) /\ t_ignore (fts5_args t) = t_ignore t /\ t_virtual (fts5_args t) = t_virtual t.
  Proof. intros t. unfold fts5_args. destruct (equal_fold _ _); cbn; repeat split. Qed.
  Lemma names_nonempty : forall d fs t r, load_fields numeric d fs t = LOk r -> t_ignore t = false ->
    Forall (fun n => n <> []) (flat_map field_columns (fields_read d fs)).
  Proof.
    intros d fs t r H I. assert (F : fine (load_fields numeric d fs t)) by now exists r. apply load_fields_fine in F; [|exact I].
    induction (fields_read d fs) as [|f l IH]; [constructor|]. inversion F as [|? ? F1 F2]; subst. cbn [flat_map]. apply Forall_app. split; [|now apply IH].
    destruct f; [constructor|]. constructor; [|constructor]. destruct F1 as (ms & _ & N & _). exact N.
  Qed.
  Lemma load_table_ok : forall d schema name fs ddl t,
    load_table numeric d schema name fs ddl (empty_table [] []) = LOk t -> table_ignored d fs = false ->
    NoDup (flat_map field_columns fs) ->
    exists t1 st, fields_loaded numeric d (empty_table schema name) t1 fs /\ t_run numeric d ddl (mk_t t1 [] [] []) = Some st /\
      t = mark_columns (fts5_args (ts_table st)) /\ objects (t_columns t1) = declared_columns numeric d (mk_table_id schema name) fs /\
      fresh l_name l_ignore (t_columns t1) /\ Forall (fun n => n <> []) (flat_map field_columns fs) /\ NoDup (map l_name (objects (t_columns t1))).
  Proof.
    intros d schema name fs ddl t H I N. apply load_table_unfold in H. destruct H as (NE & t1 & b & H & K).
    pose proof (names_nonempty _ _ _ _ H eq_refl) as P. apply load_fields_ok in H; [|reflexivity|].
    2:{ cbn [empty_table t_columns cached_new objects app]. rewrite declared_names, fields_read_all by exact I. exact N. }
    rewrite fields_read_all in * by exact I. destruct H as [F ->]. rewrite I in K. destruct K as (st & R & ->).
    pose proof F as F'. destruct F' as (F1 & F2 & _). cbn [empty_table t_columns cached_new objects app table_of t_schema t_name] in F1.
    exists t1, st. split; [exact F|]. split; [exact R|]. split; [reflexivity|]. split; [exact F1|]. split; [apply F2, new_fresh|]. split; [exact P|].
    rewrite F1. change (table_of (mk_table schema name cached_new cached_new cached_new cached_new [] [] false)) with (mk_table_id schema name).
    rewrite declared_names. exact N.
  Qed.
  Lemma load_table_columns : forall d schema name fs ddl t,
    load_table numeric d schema name fs ddl (empty_table [] []) = LOk t -> table_ignored d fs = false ->
    NoDup (flat_map field_columns fs) -> Forall keeps_ignored ddl ->
    t_schema t = schema /\ t_name t = name /\
    objects (t_columns t) = map (fun l => mark (objects (t_constraints t)) (after_calls numeric d (mk_table_id schema name) ddl l))
      (declared_columns numeric d (mk_table_id schema name) fs).
  Proof.
    intros d schema name fs ddl t H I N KI. apply load_table_ok in H; [|exact I|exact N].
    destruct H as (t1 & st & F & R & -> & O & Fr & P & ND). destruct F as (_ & _ & _ & _ & _ & _ & _ & F8).
    assert (HO : handles_ok (mk_t t1 [] [] [])) by constructor.
    pose proof (t_run_columns numeric d ddl _ _ HO ND R) as (C1 & _ & _ & C4 & C5). cbn [ts_table ts_columns map] in *.
    pose proof (t_run_fresh numeric d ddl _ _ HO ND KI Fr R) as F1. cbn [ts_table] in *.
    destruct (fts5_columns (ts_table st)) as (X1 & X2 & X3 & X4 & _). unfold mark_columns. rewrite X1, X2, X3.
    cbn [with_columns t_schema t_name t_columns t_constraints fst snd].
    unfold table_of in C5. injection C5 as Z1 Z2. destruct X4 as (Y1 & Y2 & _), F8 as (W1 & W2 & _). cbn [empty_table t_schema t_name] in W1, W2.
    split; [congruence|]. split; [congruence|]. rewrite mark_columns_ok; [|exact F1|].
    - rewrite C1, map_map. rewrite O. apply map_ext. intros l. unfold after_calls, fold_calls.
      assert (TB : table_of t1 = mk_table_id schema name) by (unfold table_of; congruence). rewrite TB. reflexivity.
    - split; [rewrite C4; exact ND|]. apply Forall_map with (f := l_name) (P := fun n => n <> []). rewrite C4, O, declared_names. exact P.
  Qed.
  Lemma load_table_rest : forall d schema name fs t,
    load_table numeric d schema name fs [] (empty_table [] []) = LOk t -> table_ignored d fs = false -> NoDup (flat_map field_columns fs) ->
    t_ignore t = false /\ t_triggers t = cached_new /\
    (NoDup (map c_name (declared_constraints d (mk_table_id schema name) fs)) ->
     objects (t_constraints t) = declared_constraints d (mk_table_id schema name) fs) /\
    (NoDup (map x_name (declared_indexes d (mk_table_id schema name) fs)) ->
     objects (t_indexes t) = declared_indexes d (mk_table_id schema name) fs) /\
    t_virtual t = (match final (virtuals d fs) with Some v => fst v | None => [] end) /\
    t_virtual_args t = (if equal_fold (t_virtual t) (B "FTS5")
      then map l_name (filter (fun l => negb (l_ignore l) && equal_fold (l_type l) (B "TEXT")) (objects (t_columns t))) else [])
      ++ map virtual_text (flat_map snd (virtuals d fs)).
  Proof.
    intros d schema name fs t H I N. pose proof H as H'. apply load_table_columns in H'; [|exact I|exact N|constructor]. destruct H' as (_ & _ & OC).
    apply load_table_ok in H; [|exact I|exact N].
    destruct H as (t1 & st & F & R & E & O & Fr & P & ND). cbn [t_run] in R. injection R as <-. cbn [ts_table] in E.
    destruct F as (_ & _ & F3 & F4 & F5 & F6 & F7 & (F8 & F9 & F10)). cbn [empty_table t_constraints t_indexes t_virtual t_virtual_args t_ignore t_triggers orb app] in *.
    change (table_of (mk_table schema name cached_new cached_new cached_new cached_new [] [] false)) with (mk_table_id schema name) in *.
    destruct (fts5_columns t1) as (X1 & X2 & X3 & (Y1 & Y2 & Y3) & X5 & X6).
    assert (G : t_ignore t = t_ignore t1 /\ t_triggers t = t_triggers t1 /\ t_constraints t = t_constraints t1 /\ t_indexes t = t_indexes t1 /\ t_virtual t = t_virtual t1 /\
      t_virtual_args t = t_virtual_args (fts5_args t1)).
    { subst t. unfold mark_columns. cbn [with_columns t_ignore t_triggers t_constraints t_indexes t_virtual t_virtual_args fst snd]. rewrite X5, Y3, X2, X3, X6. repeat split. }
    destruct G as (G1 & G2 & G3 & G4 & G5 & G6).
    split; [congruence|]. split; [congruence|]. split; [rewrite G3; exact F3|]. split; [rewrite G4; exact F4|]. split; [congruence|].
    rewrite G6, G5. unfold fts5_args. rewrite F6. destruct (equal_fold (t_virtual t1) (B "FTS5")); [|exact F6].
    cbn [set_virtual t_virtual_args]. f_equal. rewrite OC, O.
    assert (Z : forall ks ls, map l_name (filter (fun l => negb (l_ignore l) && equal_fold (l_type l) (B "TEXT")) (map (fun l => mark ks (after_calls numeric d (mk_table_id schema name) [] l)) ls)) =
      map l_name (filter (fun l => negb (l_ignore l) && equal_fold (l_type l) (B "TEXT")) ls)).
    { intros ks. induction ls as [|l ls IH]; [reflexivity|]. cbn [map filter]. unfold after_calls at 1 2. cbn [calls_on fold_left].
      assert (M : negb (l_ignore (mark ks l)) && equal_fold (l_type (mark ks l)) (B "TEXT") = negb (l_ignore l) && equal_fold (l_type l) (B "TEXT")).
      { rewrite mark_ignore. unfold mark. now destruct (l_ignore l). }
      rewrite M. destruct (negb (l_ignore l) && equal_fold (l_type l) (B "TEXT")); [cbn [map]; rewrite mark_name; now rewrite IH|exact IH]. }
    now rewrite Z.
  Qed.
  Lemma load_table_fine : forall d schema name fs,
    (exists t, load_table numeric d schema name fs [] (empty_table [] []) = LOk t) <-> name <> [] /\ Forall (field_ok d) (fields_read d fs).
  Proof.
    intros d schema name fs. split.
    - intros [t H]. apply load_table_unfold in H. destruct H as (NE & t1 & b & H & _). split; [exact NE|].
      apply (load_fields_fine numeric d fs (empty_table schema name)); [reflexivity|]. now exists (t1, b).
    - intros [NE F]. apply (load_fields_fine numeric d fs (empty_table schema name)) in F; [|reflexivity]. destruct F as [[t1 b] F].
      unfold load_table. destruct name as [|a name]; [congruence|]. cbn [is_empty]. cbv zeta.
      change (mk_table schema (a :: name) _ _ _ _ _ _ _) with (empty_table schema (a :: name)). rewrite F. cbn [lbind fst snd].
      destruct b; [now exists t1|]. cbn [t_run]. eexists. reflexivity.
  Qed.
  Lemma load_table_ignored : forall d schema name fs ddl t,
    load_table numeric d schema name fs ddl (empty_table [] []) = LOk t -> table_ignored d fs = true ->
    NoDup (flat_map field_columns (fields_read d fs)) -> t_ignore t = true.
  Proof.
    intros d schema name fs ddl t H I N. apply load_table_unfold in H. destruct H as (NE & t1 & b & H & K).
    apply load_fields_ok in H; [|reflexivity|].
    2:{ cbn [empty_table t_columns cached_new objects app]. now rewrite declared_names. }
    destruct H as [F ->]. rewrite ignored_read, I in K. subst t1. destruct F as (_ & _ & _ & _ & _ & _ & F & _). rewrite F, ignored_read, I. reflexivity.
  Qed.
End Whole.
