(** * MigrateCheck: decision procedures for the hypotheses of the migration theorems

    Used to show that concrete catalogs meet them. *)
From Coq Require Import Lia.
From Verif Require Import GoBase GoBaseFacts QuoteModel CacheModel UpsertModel DdlModel MigrateModel SpecMigrate.

Fixpoint nodupb (l : list bytes) : bool :=
  match l with
  | [] => true
  | n :: l' => negb (existsb (beqb n) l') && nodupb l'
  end.
Lemma nodupb_ok : forall l, nodupb l = true -> NoDup l.
Proof.
  induction l as [|n l IH]; intros H; [constructor|]. cbn [nodupb] in H. apply andb_prop in H. destruct H as [H1 H2].
  constructor; [|now apply IH]. intros I. apply negb_true_iff in H1.
  assert (existsb (beqb n) l = true) by (apply existsb_exists; exists n; split; [exact I|now apply beqb_eq]). congruence.
Qed.

Section Slices.
  Context {A : Type} (name_of : A -> bytes) (ignored : A -> bool) (allow_empty : bool).
  Definition check_slice (c : cached A) : bool :=
    forallb (fun a => ignored a || (is_empty (name_of a) && negb allow_empty)
                      || match fst (lookup name_of ignored allow_empty (name_of a) c) with Some _ => true | None => false end)
      (objects c)
    && nodupb (map name_of (filter (fun a => negb (ignored a)) (objects c)))
    && (allow_empty || forallb (fun a => negb (is_empty (name_of a))) (objects c)).
  Lemma check_slice_ok : forall c, check_slice c = true -> good_slice name_of ignored allow_empty c.
  Proof.
    intros c H. unfold check_slice in H. apply andb_prop in H. destruct H as [H H3]. apply andb_prop in H. destruct H as [H1 H2].
    rewrite forallb_forall in H1. repeat split.
    - intros n NE (a & I & G & <-). specialize (H1 a I). rewrite G in H1. cbn [orb] in H1.
      destruct (fst (lookup name_of ignored allow_empty (name_of a) c)) as [i|]; [eauto|].
      rewrite orb_false_r in H1. apply andb_prop in H1. destruct H1 as [H1 H1'].
      destruct NE as [NE|NE]; [destruct (name_of a); [congruence|discriminate]|rewrite NE in H1'; discriminate].
    - now apply nodupb_ok.
    - intros AE. rewrite AE in H3. cbn [orb] in H3. rewrite forallb_forall in H3. intros a I E. specialize (H3 a I). rewrite E in H3. discriminate.
  Qed.
End Slices.
Definition check_functions (c : fcached func) : bool :=
  forallb (fun f => negb (is_empty (f_name f))
                    && Bool.eqb (negb (match fst (flookup f_name (f_name f) c) with [] => true | _ => false end))
                         (existsb (fun g => negb (f_ignore g) && beqb (f_name g) (f_name f)) (fobjects c)))
    (fobjects c).
Lemma check_functions_ok : forall c, check_functions c = true -> good_functions c.
Proof.
  intros c H. unfold check_functions in H. rewrite forallb_forall in H. split.
  - intros f I E. specialize (H f I). rewrite E in H. discriminate.
  - intros n NE.
    assert (X : forall f, In f (fobjects c) -> f_name f = n ->
      (fst (flookup f_name n c) <> [] <-> present f_name f_ignore (fobjects c) n)).
    { intros f I E. specialize (H f I). rewrite E in H. apply andb_prop in H. destruct H as [_ H].
      apply Bool.eqb_prop in H. split.
      - intros L. destruct (fst (flookup f_name n c)); [congruence|]. symmetry in H. apply existsb_exists in H.
        destruct H as (g & Ig & Hg). apply andb_prop in Hg. destruct Hg as [G1 G2]. apply beqb_eq in G2.
        apply negb_true_iff in G1. now exists g.
      - intros (g & Ig & G1 & G2) L. rewrite L in H. cbn [negb] in H. symmetry in H.
        assert (existsb (fun g => negb (f_ignore g) && beqb (f_name g) n) (fobjects c) = true).
        { apply existsb_exists. exists g. split; [exact Ig|]. rewrite G1, G2. cbn [negb andb]. now apply beqb_eq. }
        congruence. }
    split.
    + intros L. destruct (fst (flookup f_name n c)) as [|k ks] eqn:E; [congruence|].
      unfold flookup in E. destruct (is_empty n); [discriminate|]. destruct (mget n (fpositions c)) as [l|]; [|discriminate].
      cbn [fst] in E. assert (I : In k (k :: ks)) by now left. rewrite <- E in I. apply filter_In in I. destruct I as [_ I].
      destruct (nth_error (fobjects c) k) as [f|] eqn:N; [|discriminate]. apply beqb_eq in I.
      apply (X f); [eapply nth_error_In; eauto|exact I|congruence].
    + intros P. destruct P as (f & I & G & E). apply (X f I E). now exists f.
Qed.
Definition check_table (d : dialect) (s : bytes) (t : table) : bool :=
  beqb (t_schema t) s
  && check_slice l_name l_ignore false (t_columns t)
  && (is_sqlite d || check_slice c_name c_ignore false (t_constraints t))
  && check_slice x_name x_ignore false (t_indexes t)
  && forallb (fun x => beqb (x_schema x) s && beqb (x_table x) (t_name t)) (objects (t_indexes t))
  && check_slice g_name g_ignore false (t_triggers t)
  && forallb (fun g => beqb (g_schema g) s && beqb (g_table g) (t_name t)) (objects (t_triggers t)).
Lemma check_table_ok : forall d s t, check_table d s t = true -> good_table d s t.
Proof.
  intros d s t H. unfold check_table in H. repeat (apply andb_prop in H; destruct H as [H ?]).
  unfold good_table. rewrite forallb_forall in H0, H2.
  split; [now apply beqb_eq|]. split; [now apply check_slice_ok|].
  split; [intros ND; apply check_slice_ok; destruct d; try exact H4; now destruct ND|].
  split; [now apply check_slice_ok|].
  split; [intros x K; specialize (H2 x K); apply andb_prop in H2; split; now apply beqb_eq|].
  split; [now apply check_slice_ok|].
  intros x K; specialize (H0 x K); apply andb_prop in H0; split; now apply beqb_eq.
Qed.
Definition check_schema (d : dialect) (current : bytes) (sc : schema) : bool :=
  (negb (is_empty (s_name sc)) || is_empty current)
  && check_slice t_name t_ignore false (s_tables sc)
  && forallb (check_table d (s_name sc)) (objects (s_tables sc))
  && check_slice v_name v_ignore false (s_views sc)
  && forallb (fun v => beqb (v_schema v) (s_name sc)) (objects (s_views sc))
  && check_functions (s_functions sc)
  && forallb (fun f => beqb (f_schema f) (s_name sc)) (fobjects (s_functions sc)).
Lemma check_schema_ok : forall d current sc, check_schema d current sc = true -> good_schema d current sc.
Proof.
  intros d current sc H. unfold check_schema in H. repeat (apply andb_prop in H; destruct H as [H ?]).
  rewrite forallb_forall in H0, H2, H4. unfold good_schema. split.
  { apply orb_prop in H. destruct H as [H|H]; [left; intros E; rewrite E in H; discriminate|right; now destruct current]. }
  split; [now apply check_slice_ok|]. split; [intros t I; now apply check_table_ok, H4|].
  split; [now apply check_slice_ok|]. split; [intros v I; now apply beqb_eq, H2|].
  split; [now apply check_functions_ok|]. intros f I. now apply beqb_eq, H0.
Qed.
Definition check_catalog (d : dialect) (current : bytes) (db : metadata) : bool :=
  check_slice s_name s_ignore true (d_schemas db) && forallb (check_schema d current) (objects (d_schemas db)).
Lemma check_catalog_ok : forall d current db, check_catalog d current db = true -> catalog d current db.
Proof.
  intros d current db H. apply andb_prop in H. destruct H as [H1 H2]. split; [now apply check_slice_ok|].
  rewrite forallb_forall in H2. intros sc I. now apply check_schema_ok, H2.
Qed.

Definition check_nothing_ignored (db : metadata) : bool :=
  forallb (fun sc => negb (s_ignore sc)
    && forallb (fun t => negb (t_ignore t)
         && forallb (fun l => negb (l_ignore l)) (objects (t_columns t))
         && forallb (fun l => negb (c_ignore l)) (objects (t_constraints t))
         && forallb (fun l => negb (x_ignore l)) (objects (t_indexes t))
         && forallb (fun l => negb (g_ignore l)) (objects (t_triggers t))) (objects (s_tables sc))
    && forallb (fun v => negb (v_ignore v)) (objects (s_views sc))
    && forallb (fun f => negb (f_ignore f)) (fobjects (s_functions sc))) (objects (d_schemas db)).
Lemma check_nothing_ignored_ok : forall db, check_nothing_ignored db = true -> nothing_ignored db.
Proof.
  intros db H sc I. unfold check_nothing_ignored in H. rewrite forallb_forall in H. specialize (H sc I).
  repeat (apply andb_prop in H; destruct H as [H ?]). rewrite forallb_forall in H0, H1, H2. split; [now apply negb_true_iff|].
  split; [|split; intros ? J; now apply negb_true_iff; auto].
  intros t J. specialize (H2 t J). repeat (apply andb_prop in H2; destruct H2 as [H2 ?]).
  rewrite forallb_forall in H3, H4, H5, H6. split; [now apply negb_true_iff|].
  repeat split; intros ? K; apply negb_true_iff; auto.
Qed.

(** The indexes and triggers of a catalog: schema, table, name. *)
Definition all_indexes (db : metadata) : list (bytes * bytes * bytes) :=
  flat_map (fun sc => flat_map (fun t => map (fun x => (s_name sc, t_name t, x_name x)) (objects (t_indexes t)))
                        (objects (s_tables sc))) (objects (d_schemas db)).
Definition all_triggers (db : metadata) : list (bytes * bytes * bytes) :=
  flat_map (fun sc => flat_map (fun t => map (fun x => (s_name sc, t_name t, g_name x)) (objects (t_triggers t)))
                        (objects (s_tables sc))) (objects (d_schemas db)).
Definition agree (l : list (bytes * bytes * bytes)) : bool :=
  forallb (fun a => forallb (fun b => negb (beqb (fst (fst a)) (fst (fst b)) && beqb (snd a) (snd b))
                                      || beqb (snd (fst a)) (snd (fst b))) l) l.
Lemma agree_ok : forall l s t t' x, agree l = true -> In (s, t, x) l -> In (s, t', x) l -> t = t'.
Proof.
  intros l s t t' x H I J. unfold agree in H. rewrite forallb_forall in H. specialize (H _ I). rewrite forallb_forall in H.
  specialize (H _ J). cbn [fst snd] in H. assert (E : beqb s s = true) by now apply beqb_eq.
  assert (F : beqb x x = true) by now apply beqb_eq. rewrite E, F in H. cbn [andb negb orb] in H. now apply beqb_eq.
Qed.
Lemma all_indexes_ok : forall db s t x, lists db (IIndex s t x) -> In (s, t, x) (all_indexes db).
Proof.
  intros db s t x (sc & I & G & tb & J & _ & E1 & E2 & a & K & _ & E3). subst. apply in_flat_map. exists sc. split; [exact I|].
  apply in_flat_map. exists tb. split; [exact J|]. apply in_map_iff. now exists a.
Qed.
Lemma all_triggers_ok : forall db s t x, lists db (ITrigger s t x) -> In (s, t, x) (all_triggers db).
Proof.
  intros db s t x (sc & I & G & tb & J & _ & E1 & E2 & a & K & _ & E3). subst. apply in_flat_map. exists sc. split; [exact I|].
  apply in_flat_map. exists tb. split; [exact J|]. apply in_map_iff. now exists a.
Qed.
Definition check_names_agree (got want : metadata) : bool :=
  agree (all_indexes got ++ all_indexes want) && agree (all_triggers got ++ all_triggers want).
Lemma check_names_agree_ok : forall got want, check_names_agree got want = true -> names_agree got want.
Proof.
  intros got want H. apply andb_prop in H. destruct H as [H1 H2]. split; intros s t t' x A A'.
  - apply (agree_ok _ s t t' x H1); apply in_or_app; destruct A, A'; auto using all_indexes_ok.
  - apply (agree_ok _ s t t' x H2); apply in_or_app; destruct A, A'; auto using all_triggers_ok.
Qed.
Definition check_plain_views (db : metadata) : bool :=
  forallb (fun sc => forallb (fun v => is_nil (v_indexes v) && is_nil (v_triggers v)) (objects (s_views sc))) (objects (d_schemas db)).
Lemma check_plain_views_ok : forall db, check_plain_views db = true -> plain_views db.
Proof.
  intros db H sc v I J. unfold check_plain_views in H. rewrite forallb_forall in H. specialize (H sc I).
  rewrite forallb_forall in H. specialize (H v J). apply andb_prop in H. destruct H as [H1 H2].
  destruct (v_indexes v), (v_triggers v); try discriminate. now split.
Qed.
(** Whether a catalog lists an object. *)
Definition has {A} (name_of : A -> bytes) (ignored : A -> bool) (l : list A) (n : bytes) : bool :=
  existsb (fun a => negb (ignored a) && beqb (name_of a) n) l.
Lemma has_ok : forall A (name_of : A -> bytes) ignored l n, has name_of ignored l n = true <-> present name_of ignored l n.
Proof.
  intros. unfold has. rewrite existsb_exists. split.
  - intros (a & I & H). apply andb_prop in H. destruct H as [H1 H2]. apply negb_true_iff in H1. apply beqb_eq in H2. now exists a.
  - intros (a & I & H & E). exists a. split; [exact I|]. rewrite H, E. cbn [negb andb]. now apply beqb_eq.
Qed.
Definition table_hasb (s : bytes) (t : table) (i : item) : bool :=
  match i with
  | ITable s' n => beqb s' s && beqb n (t_name t)
  | IColumn s' n c => beqb s' s && beqb n (t_name t) && has l_name l_ignore (objects (t_columns t)) c
  | IConstraint s' n k => beqb s' s && beqb n (t_name t) && has c_name c_ignore (objects (t_constraints t)) k
  | IIndex s' n x => beqb s' s && beqb n (t_name t) && has x_name x_ignore (objects (t_indexes t)) x
  | ITrigger s' n g => beqb s' s && beqb n (t_name t) && has g_name g_ignore (objects (t_triggers t)) g
  | _ => false
  end.
Definition listsb (db : metadata) (i : item) : bool :=
  existsb (fun sc => negb (s_ignore sc) &&
    match i with
    | ISchema s => beqb s (s_name sc)
    | IView s v => beqb s (s_name sc) && has v_name v_ignore (objects (s_views sc)) v
    | IFunction s f => beqb s (s_name sc) && has f_name f_ignore (fobjects (s_functions sc)) f
    | _ => existsb (fun t => negb (t_ignore t) && table_hasb (s_name sc) t i) (objects (s_tables sc))
    end) (objects (d_schemas db)).
Lemma table_hasb_ok : forall s t i, table_hasb s t i = true <-> table_has s t i.
Proof.
  intros s t i. destruct i; cbn [table_hasb table_has]; try (now split); rewrite ?andb_true_iff, ?has_ok, ?beqb_eq; tauto.
Qed.
Lemma listsb_ok : forall db i, listsb db i = true <-> lists db i.
Proof.
  intros db i. unfold listsb, lists. rewrite existsb_exists.
  assert (X : forall sc, existsb (fun t => negb (t_ignore t) && table_hasb (s_name sc) t i) (objects (s_tables sc)) = true
              <-> exists t, In t (objects (s_tables sc)) /\ t_ignore t = false /\ table_has (s_name sc) t i).
  { intros sc. rewrite existsb_exists. split; intros (t & I & H).
    - apply andb_prop in H. destruct H as [H1 H2]. exists t. rewrite <- table_hasb_ok. apply negb_true_iff in H1. auto.
    - exists t. split; [exact I|]. destruct H as [H1 H2]. rewrite H1. now apply table_hasb_ok. }
  split; intros (sc & I & H); exists sc; (split; [exact I|]).
  - apply andb_prop in H. destruct H as [H1 H2]. apply negb_true_iff in H1. split; [exact H1|].
    destruct i; cbn [schema_has]; rewrite ?andb_true_iff, ?has_ok, ?beqb_eq in H2; try exact H2; now apply X.
  - destruct H as [H1 H2]. rewrite H1. cbn [negb andb].
    destruct i; cbn [schema_has] in H2; rewrite ?andb_true_iff, ?has_ok, ?beqb_eq; try exact H2; now apply X.
Qed.
