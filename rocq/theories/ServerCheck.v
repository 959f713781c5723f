(** * ServerCheck: deciding the conditions of C83 for given catalogs (used in examples) *)
From Verif Require Import GoBase GoBaseFacts QuoteModel QuoteFacts SpecText SpecLex SpecIdent SpecSql.
From Verif Require Import CacheModel UpsertModel DdlModel MigrateModel SpecDdl SpecDrop SpecMigrate SpecColumn SpecServer MigrateFacts MigrateCheck ServerFacts.

Definition good_nameb (d : dialect) (n : bytes) : bool := beqb (collapse (snd (identifier_quotes d)) n) n.
Lemma good_nameb_ok : forall d n, good_nameb d n = true -> good_name d n.
Proof. intros d n H. apply beqb_eq in H. now apply collapse_id_iff. Qed.
Definition plain_sqlb (d : dialect) (stop : tok -> bool) (s : bytes) : bool := match tokens d s with Some ts => closed stop 0 ts | None => false end.
Lemma plain_sqlb_ok : forall d p s, plain_sqlb d p s = true -> plain_sql d p s.
Proof. intros d p s H. unfold plain_sqlb in H. destruct (tokens d s) as [ts|] eqn:E; [|discriminate]. exists ts. auto. Qed.
Definition plain_wordb (d : dialect) (s : bytes) : bool := match tokens d s with Some [TWord w] => beqb w s | _ => false end.
Lemma plain_wordb_ok : forall d s, plain_wordb d s = true -> plain_word d s.
Proof.
  intros d s H. unfold plain_wordb in H. unfold plain_word. destruct (tokens d s) as [[|t [|t' l]]|]; try discriminate; destruct t; try discriminate.
  apply beqb_eq in H. now subst.
Qed.
Definition word_or_noneb (d : dialect) (s : bytes) : bool := is_empty s || plain_wordb d s.
Lemma word_or_noneb_ok : forall d s, word_or_noneb d s = true -> word_or_none d s.
Proof. intros d s H. apply orb_true_iff in H. destruct H as [H|H]; [left; now destruct s|right; now apply plain_wordb_ok]. Qed.
Definition memb (x : bytes) (l : list bytes) : bool := existsb (beqb x) l.
Lemma memb_ok : forall x l, memb x l = true <-> In x l.
Proof. intros x l. unfold memb. rewrite existsb_exists. split; [intros (y & I & E); apply beqb_eq in E; now subst|]. intros I. exists x. split; [exact I|now apply beqb_eq]. Qed.
Definition column_okb (d : dialect) (l : column) : bool :=
  good_nameb d (l_name l) && plain_sqlb d clause_stop (l_type l) && plain_sqlb d clause_stop (l_default l) && plain_sqlb d no_stop (l_generated l) &&
  memb (l_identity l) [[]; BY_DEFAULT; ALWAYS] && (is_empty (l_collation l) || (if is_postgres d then good_nameb d (l_collation l) else plain_wordb d (l_collation l))).
Ltac ands H := repeat (let H' := fresh in apply andb_true_iff in H; destruct H as [H H']).
Lemma column_okb_ok : forall d l, column_okb d l = true -> column_ok d l.
Proof.
  intros d l H. unfold column_okb in H. ands H. constructor; try (now apply plain_sqlb_ok); try (now apply good_nameb_ok); try (now apply memb_ok).
  unfold collation_ok. match goal with H : _ || _ = true |- _ => apply orb_true_iff in H; destruct H as [C|C]; [left; now destruct (l_collation l)|right] end.
  destruct (is_postgres d); [now apply good_nameb_ok|now apply plain_wordb_ok].
Qed.
(** Not EXCLUDE. *)
Definition constraint_okb (d : dialect) (k : constraint) : bool :=
  good_nameb d (c_name k) && memb (c_type k) [CHECK; UNIQUE; PRIMARY_KEY; FOREIGN_KEY] && plain_sqlb d no_stop (c_check k) &&
  forallb (plain_wordb d) (c_columns k) && word_or_noneb d (c_ref_schema k) && (negb (beqb (c_type k) FOREIGN_KEY) || plain_wordb d (c_ref_table k)) &&
  forallb (plain_wordb d) (c_ref_columns k) && plain_sqlb d rule_stop (c_match k) && match frag d (c_match k) with TSym _ :: _ => false | _ => true end &&
  plain_sqlb d rule_stop (c_update k) && plain_sqlb d rule_stop (c_delete k) && word_or_noneb d (c_index_type k) && plain_sqlb d no_stop (c_predicate k).
Lemma words_ok : forall d l, forallb (plain_wordb d) l = true -> Forall (plain_word d) l.
Proof. intros d l H. rewrite forallb_forall in H. apply Forall_forall. intros x I. apply plain_wordb_ok. auto. Qed.
Lemma constraint_okb_ok : forall d k, constraint_okb d k = true -> constraint_ok d k.
Proof.
  intros d k H. unfold constraint_okb in H. ands H.
  assert (T : In (c_type k) [CHECK; UNIQUE; PRIMARY_KEY; FOREIGN_KEY]) by now apply memb_ok.
  constructor; try (now apply plain_sqlb_ok); try (now apply good_nameb_ok); try (now apply word_or_noneb_ok); try (now apply words_ok).
  - destruct T as [T|[T|[T|[T|[]]]]]; rewrite <- T; cbn; tauto.
  - intros _. now apply words_ok.
  - intros E. match goal with H : _ || _ = true |- _ => apply orb_true_iff in H; destruct H as [C|C] end; [|now apply plain_wordb_ok]. apply negb_true_iff in C. rewrite E in C. discriminate C.
  - split; [now apply plain_sqlb_ok|]. destruct (frag d (c_match k)) as [|[]]; auto. discriminate.
  - intros E. exfalso. rewrite E in T. destruct T as [T|[T|[T|[T|[]]]]]; discriminate T.
Qed.
(** Columns only. *)
Definition index_okb (d : dialect) (x : index) : bool :=
  good_nameb d (x_name x) && negb (beqb (map fold_case (x_name x)) (B "CONCURRENTLY")) && good_nameb d (x_schema x) && good_nameb d (x_table x) && word_or_noneb d (x_type x) &&
  forallb (fun n => negb (is_empty n) && good_nameb d n) (x_columns x) && forallb (good_nameb d) (x_include x) && plain_sqlb d no_stop (x_predicate x).
Lemma index_okb_ok : forall d x, index_okb d x = true -> index_ok d x.
Proof.
  intros d x H. unfold index_okb in H. ands H. constructor; try (now apply plain_sqlb_ok); try (now apply good_nameb_ok); try (now apply word_or_noneb_ok).
  - intros _ E. rewrite E in *. match goal with H : negb _ = true |- _ => discriminate H end.
  - intros i n N. apply nth_error_In in N. match goal with H : forallb (fun n => negb _ && _) _ = true |- _ => rewrite forallb_forall in H; specialize (H n N); apply andb_true_iff in H; destruct H as [A C] end.
    destruct n; [discriminate A|now apply good_nameb_ok].
  - apply Forall_forall. intros n N. apply good_nameb_ok. match goal with H : forallb (good_nameb d) _ = true |- _ => rewrite forallb_forall in H; auto end.
Qed.
Definition trigger_readableb (d : dialect) (current : bytes) (g : trigger) : bool :=
  match tokens d (g_sql g) with
  | Some ts => match read_create_trigger ts with
    | Some (mk_trigger_def (s, n) (s', t)) => beqb n (g_name g) && beqb t (g_table g) && beqb (trigger_schema current s s') (resolve current (g_schema g))
    | None => false end
  | None => false end.
Lemma trigger_readableb_ok : forall d c g, trigger_readableb d c g = true -> trigger_readable d c g.
Proof.
  intros d c g H. unfold trigger_readableb in H. destruct (tokens d (g_sql g)) as [ts|] eqn:T; [|discriminate]. destruct (read_create_trigger ts) as [[[s n] [s' t]]|] eqn:R; [|discriminate].
  ands H. apply beqb_eq in H. repeat match goal with H : beqb _ _ = true |- _ => apply beqb_eq in H end. subst. exists ts, s, s'. auto.
Qed.
Definition function_readableb (d : dialect) (current : bytes) (f : func) : bool :=
  match tokens d (f_sql f) with
  | Some ts => match read_create_function ts with
    | Some (_, s, n) => beqb n (f_name f) && beqb (resolve current s) (resolve current (f_schema f))
    | None => false end
  | None => false end.
Lemma function_readableb_ok : forall d c f, function_readableb d c f = true -> function_readable d c f.
Proof.
  intros d c f H. unfold function_readableb in H. destruct (tokens d (f_sql f)) as [ts|] eqn:T; [|discriminate]. destruct (read_create_function ts) as [[[rp s] n]|] eqn:R; [|discriminate].
  ands H. repeat match goal with H : beqb _ _ = true |- _ => apply beqb_eq in H end. subst. exists ts, rp, s. auto.
Qed.
Definition is_sqliteb (d : dialect) : bool := match d with DSQLite => true | _ => false end.
Definition alive_of {A} (ignored : A -> bool) (c : cached A) : list A := filter (fun a => negb (ignored a)) (objects c).
Lemma alive_of_ok : forall A ig (c : cached A) a, In a (objects c) -> ig a = false -> In a (alive_of ig c).
Proof. intros A ig c a I E. apply filter_In. now rewrite E. Qed.
Definition key_okb (d : dialect) (want : metadata) (current : bytes) (tb : table) (k : constraint) : bool :=
  negb (is_empty (c_name k)) && (negb (is_mysql d && beqb (c_type k) PRIMARY_KEY) || beqb (c_name k) (B "PRIMARY")) &&
  forallb (fun n => existsb (fun l => beqb (l_name l) n) (alive_of l_ignore (t_columns tb))) (c_columns k) &&
  (negb (beqb (c_type k) FOREIGN_KEY) ||
   let s := resolve current (c_ref_schema k) in
   listsb want (ITable s (c_ref_table k)) && forallb (fun n => listsb want (IColumn s (c_ref_table k) n)) (c_ref_columns k)).
Lemma key_okb_ok : forall d want current tb k, key_okb d want current tb k = true -> named_constraint d k /\ key_of_columns (lists want) current tb k.
Proof.
  intros d want current tb k H. unfold key_okb in H. apply andb_true_iff in H. destruct H as [H H3]. apply andb_true_iff in H. destruct H as [H H2]. apply andb_true_iff in H. destruct H as [H0 H1]. split; split.
  - intros E. rewrite E in H0. discriminate.
  - intros -> E. rewrite E in H1. cbn [is_mysql andb] in H1. rewrite (proj2 (beqb_eq PRIMARY_KEY PRIMARY_KEY) eq_refl) in H1. now apply beqb_eq.
  - intros _ n N. rewrite forallb_forall in H2. specialize (H2 n N). apply existsb_exists in H2. destruct H2 as (l & L & E). apply beqb_eq in E. apply filter_In in L. destruct L as [L1 L2]. apply negb_true_iff in L2. exists l. split; [split; auto|exact E].
  - intros E. rewrite E, (proj2 (beqb_eq FOREIGN_KEY FOREIGN_KEY) eq_refl) in H3. cbn [negb orb] in H3. cbv zeta in H3 |- *. apply andb_true_iff in H3. destruct H3 as [A C]. split; [now apply listsb_ok|].
    intros n N. rewrite forallb_forall in C. apply listsb_ok. auto.
Qed.
Definition wanted_tableb (d : dialect) (current : bytes) (want : metadata) (tb : table) : bool :=
  good_nameb d (t_schema tb) && good_nameb d (t_name tb) && is_empty (t_virtual tb) && negb (is_nil (alive_of l_ignore (t_columns tb))) &&
  forallb (fun l => column_okb d l && negb (element_word (TWord (l_name l)))) (alive_of l_ignore (t_columns tb)) &&
  forallb (fun k => constraint_okb d k && (is_sqliteb d || key_okb d want current tb k)) (alive_of c_ignore (t_constraints tb)) &&
  forallb (index_okb d) (alive_of x_ignore (t_indexes tb)) && forallb (trigger_readableb d current) (alive_of g_ignore (t_triggers tb)).
Lemma wanted_tableb_ok : forall d current want tb, wanted_tableb d current want tb = true -> wanted_table_ok d current (lists want) tb.
Proof.
  intros d current want tb H. unfold wanted_tableb in H. do 7 (let H' := fresh "H" in apply andb_true_iff in H; destruct H as [H H']). constructor.
  - now apply good_nameb_ok.
  - now apply good_nameb_ok.
  - now destruct (t_virtual tb).
  - destruct (alive_of l_ignore (t_columns tb)) as [|l ls] eqn:E; [discriminate|]. exists l. assert (I : In l (alive_of l_ignore (t_columns tb))) by (rewrite E; now left).
    apply filter_In in I. destruct I as [I J]. apply negb_true_iff in J. split; auto.
  - intros l [L1 L2]. rewrite forallb_forall in H3. specialize (H3 l (alive_of_ok _ _ _ _ L1 L2)). apply andb_true_iff in H3. destruct H3 as [A C]. split; [now apply column_okb_ok|]. intros _. now apply negb_true_iff.
  - intros k [L1 L2]. rewrite forallb_forall in H2. specialize (H2 k (alive_of_ok _ _ _ _ L1 L2)). apply andb_true_iff in H2. destruct H2 as [A C]. split; [now apply constraint_okb_ok|].
    intros NS. apply orb_true_iff in C. destruct C as [C|C]; [destruct d; try discriminate C; congruence|]. now apply key_okb_ok in C.
  - intros x [L1 L2]. rewrite forallb_forall in H1. apply index_okb_ok. apply H1. now apply alive_of_ok.
  - intros x [L1 L2]. rewrite forallb_forall in H0. apply trigger_readableb_ok. apply H0. now apply alive_of_ok.
Qed.
Definition wanted_okb (d : dialect) (current : bytes) (want : metadata) : bool :=
  is_nil (d_extensions want) &&
  forallb (fun sc => (is_empty (s_name sc) || plain_wordb d (s_name sc)) && forallb (wanted_tableb d current want) (alive_of t_ignore (s_tables sc)) &&
    forallb (fun v => good_nameb d (v_schema v) && good_nameb d (v_name v) && match tokens d (v_sql v) with Some _ => true | None => false end) (alive_of v_ignore (s_views sc)) &&
    forallb (function_readableb d current) (filter (fun f => negb (f_ignore f)) (fobjects (s_functions sc)))) (alive_of s_ignore (d_schemas want)).
Lemma wanted_okb_ok : forall d current want, wanted_okb d current want = true -> wanted_ok d current want.
Proof.
  intros d current want H. unfold wanted_okb in H. apply andb_true_iff in H. destruct H as [E H]. rewrite forallb_forall in H.
  assert (X : forall sc, In sc (objects (d_schemas want)) -> s_ignore sc = false -> _) by (intros sc I J; exact (H sc (alive_of_ok _ _ _ _ I J))). clear H. constructor.
  - intros s NE (sc & A & C & ->). specialize (X sc A C). ands X. apply orb_true_iff in X. destruct X as [X|X]; [destruct (s_name sc); [congruence|discriminate]|now apply plain_wordb_ok].
  - intros s tb (sc & A & C & _ & D & F). specialize (X sc A C). ands X. apply wanted_tableb_ok. rewrite forallb_forall in H1. apply H1. now apply alive_of_ok.
  - intros v (sc & A & C & D & F). specialize (X sc A C). ands X. rewrite forallb_forall in H0. specialize (H0 v (alive_of_ok _ _ _ _ D F)). ands H0.
    split; [now apply good_nameb_ok|]. split; [now apply good_nameb_ok|]. intros T. rewrite T in *. discriminate.
  - intros f (sc & A & C & D & F). specialize (X sc A C). ands X. apply function_readableb_ok. rewrite forallb_forall in H. apply H. apply filter_In. now rewrite F.
  - intros e I. destruct (d_extensions want); [destruct I|discriminate].
Qed.
Definition not_wordb (w : string) (n : bytes) : bool := negb (beqb (map fold_case n) (B w)).
Definition present_tableb (d : dialect) (tb : table) : bool :=
  good_nameb d (t_schema tb) && not_wordb "CONCURRENTLY" (t_schema tb) && good_nameb d (t_name tb) &&
  forallb (fun l => good_nameb d (l_name l)) (objects (t_columns tb)) && forallb (fun k => good_nameb d (c_name k)) (objects (t_constraints tb)) &&
  forallb (fun x => good_nameb d (x_name x) && not_wordb "CONCURRENTLY" (x_name x)) (objects (t_indexes tb)) && forallb (fun g => good_nameb d (g_name g)) (objects (t_triggers tb)).
Lemma not_wordb_ok : forall w n, not_wordb w n = true -> is_not_word w n.
Proof. intros w n H. unfold is_not_word. intros _. intros E. unfold not_wordb in H. rewrite E in H. rewrite (proj2 (beqb_eq (B w) (B w)) eq_refl) in H. discriminate H. Qed.
Lemma present_tableb_ok : forall d tb, present_tableb d tb = true -> present_table_ok d tb.
Proof.
  intros d tb H. unfold present_tableb in H. do 6 (let H' := fresh "H" in apply andb_true_iff in H; destruct H as [H H']). rewrite !forallb_forall in *. constructor.
  - split; [now apply good_nameb_ok|now apply not_wordb_ok].
  - now apply good_nameb_ok.
  - intros l [L _]. apply good_nameb_ok. auto.
  - intros l [L _]. apply good_nameb_ok. auto.
  - intros x [L _]. specialize (H1 x L). apply andb_true_iff in H1. split; [now apply good_nameb_ok|now apply not_wordb_ok].
  - intros l [L _]. apply good_nameb_ok. auto.
Qed.
Definition present_okb (d : dialect) (got : metadata) : bool :=
  is_nil (d_extensions got) &&
  forallb (fun sc => forallb (present_tableb d) (objects (s_tables sc)) && forallb (fun v => good_nameb d (v_schema v) && good_nameb d (v_name v)) (objects (s_views sc)) &&
    forallb (fun f => good_nameb d (f_schema f) && good_nameb d (f_name f) && plain_sqlb d no_stop (f_args f)) (fobjects (s_functions sc))) (objects (d_schemas got)).
Lemma present_okb_ok : forall d got, present_okb d got = true -> present_ok d got.
Proof.
  intros d got H. unfold present_okb in H. apply andb_true_iff in H. destruct H as [E H]. rewrite forallb_forall in H. constructor.
  - intros s tb (sc & A & C & _ & D & F). specialize (H sc A). ands H. apply present_tableb_ok. rewrite forallb_forall in H. auto.
  - intros v (sc & A & C & D & F). specialize (H sc A). ands H. rewrite forallb_forall in H1. specialize (H1 v D). ands H1. split; now apply good_nameb_ok.
  - intros f (sc & A & C & D & F). specialize (H sc A). ands H. rewrite forallb_forall in H0. specialize (H0 f D). ands H0. split; [now apply good_nameb_ok|]. split; [now apply good_nameb_ok|now apply plain_sqlb_ok].
  - intros e I. destruct (d_extensions got); [destruct I|discriminate].
Qed.
(** The database has the objects of the catalog. *)
Definition items_of_table (s : bytes) (t : table) : list item :=
  ITable s (t_name t) :: map (fun l => IColumn s (t_name t) (l_name l)) (alive_of l_ignore (t_columns t)) ++ map (fun k => IConstraint s (t_name t) (c_name k)) (alive_of c_ignore (t_constraints t)) ++
  map (fun x => IIndex s (t_name t) (x_name x)) (alive_of x_ignore (t_indexes t)) ++ map (fun g => ITrigger s (t_name t) (g_name g)) (alive_of g_ignore (t_triggers t)).
Definition items_of (db : metadata) : list item :=
  flat_map (fun sc => ISchema (s_name sc) :: flat_map (items_of_table (s_name sc)) (alive_of t_ignore (s_tables sc)) ++
    map (fun v => IView (s_name sc) (v_name v)) (alive_of v_ignore (s_views sc)) ++ map (fun f => IFunction (s_name sc) (f_name f)) (filter (fun f => negb (f_ignore f)) (fobjects (s_functions sc))))
    (alive_of s_ignore (d_schemas db)).
Lemma items_of_ok : forall db i, In i (items_of db) <-> lists db i.
Proof.
  intros db i. unfold items_of, lists. rewrite in_flat_map.
  assert (AL : forall A (ig : A -> bool) c a, In a (alive_of ig c) <-> In a (objects c) /\ ig a = false).
  { intros A ig c a. unfold alive_of. rewrite filter_In. destruct (ig a); cbn [negb]; split; intros [? ?]; split; auto; discriminate. }
  assert (PR : forall A (nm : A -> bytes) ig c n, present nm ig (objects c) n <-> exists a, In a (alive_of ig c) /\ nm a = n).
  { intros A nm ig c n. split; [intros (a & X & Y & Z); exists a; rewrite AL; auto|intros (a & X & Z); rewrite AL in X; destruct X; exists a; auto]. }
  split; intros (sc & A & C).
  - apply AL in A. destruct A as [A1 A2]. exists sc. split; [exact A1|]. split; [exact A2|]. destruct C as [<-|C]; [reflexivity|]. rewrite !in_app_iff, in_flat_map in C.
    destruct C as [(t & T & C)|[C|C]].
    + apply AL in T. destruct T as [T1 T2]. destruct C as [<-|C]; [exists t; cbn [table_has]; auto|]. rewrite !in_app_iff, !in_map_iff in C.
      destruct C as [(y & <- & Y)|[(y & <- & Y)|[(y & <- & Y)|(y & <- & Y)]]]; exists t; (split; [exact T1|]); (split; [exact T2|]); cbn [table_has]; (split; [reflexivity|]); (split; [reflexivity|]); apply PR; eauto.
    + apply in_map_iff in C. destruct C as (y & <- & Y). split; [reflexivity|]. apply PR. eauto.
    + apply in_map_iff in C. destruct C as (y & <- & Y). split; [reflexivity|]. apply filter_In in Y. destruct Y as [Y1 Y2]. apply negb_true_iff in Y2. exists y. auto.
  - destruct C as [A2 C]. exists sc. split; [now apply AL|]. destruct i; cbn [schema_has] in C.
    + left. now subst.
    + right. apply in_or_app. left. destruct C as (t0 & T1 & T2 & -> & ->). apply in_flat_map. exists t0. split; [now apply AL|now left].
    + right. apply in_or_app. left. destruct C as (t0 & T1 & T2 & -> & -> & P). apply in_flat_map. exists t0. split; [now apply AL|]. right. rewrite !in_app_iff, !in_map_iff. left. apply PR in P. destruct P as (y & Y & <-). eauto.
    + right. apply in_or_app. left. destruct C as (t0 & T1 & T2 & -> & -> & P). apply in_flat_map. exists t0. split; [now apply AL|]. right. rewrite !in_app_iff, !in_map_iff. right. left. apply PR in P. destruct P as (y & Y & <-). eauto.
    + right. apply in_or_app. left. destruct C as (t0 & T1 & T2 & -> & -> & P). apply in_flat_map. exists t0. split; [now apply AL|]. right. rewrite !in_app_iff, !in_map_iff. do 2 right. left. apply PR in P. destruct P as (y & Y & <-). eauto.
    + right. apply in_or_app. left. destruct C as (t0 & T1 & T2 & -> & -> & P). apply in_flat_map. exists t0. split; [now apply AL|]. right. rewrite !in_app_iff, !in_map_iff. do 3 right. apply PR in P. destruct P as (y & Y & <-). eauto.
    + right. rewrite !in_app_iff, !in_map_iff. right. left. destruct C as [-> P]. apply PR in P. destruct P as (y & Y & <-). eauto.
    + right. rewrite !in_app_iff, !in_map_iff. do 2 right. destruct C as [-> (y & Y1 & Y2 & <-)]. exists y. split; [reflexivity|]. apply filter_In. now rewrite Y2.
Qed.
(** A database with the objects of the catalog. *)
Lemma database_of : forall d db got, map fst db = items_of got -> shows_catalog d db got.
Proof.
  intros d db got E i _. rewrite has_in, <- items_of_ok, <- E, in_map_iff. split.
  - intros (v & V). exists (i, v). auto.
  - intros ([j v] & <- & V). exists v. exact V.
Qed.
(** The dialect has what is wanted (sufficient: nothing special is used). *)
Definition listedb (db : metadata) (i : item) : bool := existsb (fun j => same_item j i) (items_of db).
Lemma listedb_ok : forall db i, listedb db i = true -> lists db i.
Proof. intros db i H. apply items_of_ok. apply existsb_exists in H. destruct H as (j & I & E). apply same_item_eq in E. now subst. Qed.
Lemma listedb_false : forall db i, listedb db i = false -> ~ lists db i.
Proof. intros db i H L. apply items_of_ok in L. assert (X : listedb db i = true); [|congruence]. apply existsb_exists. exists i. split; [exact L|now apply same_item_eq]. Qed.
Definition ordinary_column (l : column) : bool := negb (l_autoincrement l) && is_empty (l_identity l) && is_empty (l_generated l) && negb (l_on_update l).
Definition usable_default (s : bytes) : bool := match s with c :: _ => negb (Ascii.eqb c "("%char) && negb (beqb (map fold_case s) (B "NULL")) | [] => false end.
Lemma usable_default_ok : forall s, usable_default s = true -> ~ null_default s /\ ~ (hd "0"%char s = "("%char /\ last s "0"%char = ")"%char).
Proof.
  intros [|c s] H; [discriminate|]. unfold usable_default in H. apply andb_true_iff in H. destruct H as [A C]. apply negb_true_iff in A, C. split.
  - intros [N|N]; [discriminate|]. rewrite N in C. discriminate C.
  - intros [N _]. cbn [hd] in N. subst c. discriminate A.
Qed.
Definition expressible_table (d : dialect) (got : metadata) (s : bytes) (tb : table) : bool :=
  negb (is_empty (t_name tb)) && is_nil (t_virtual_args tb) &&
  forallb (fun l => ordinary_column l && (negb (is_sqliteb d) || negb (listedb got (ITable s (t_name tb))) || listedb got (IColumn s (t_name tb) (l_name l)) || (negb (l_primary_key l) && negb (l_unique l) && (negb (l_not_null l) || usable_default (l_default l)))))
    (alive_of l_ignore (t_columns tb)) &&
  forallb (fun k => negb (beqb (c_type k) EXCLUDE) && negb (c_deferrable k)) (alive_of c_ignore (t_constraints tb)) &&
  forallb (fun x => is_nil (x_include x) && is_empty (x_predicate x) && forallb (fun n => negb (is_empty n)) (x_columns x)) (alive_of x_ignore (t_indexes tb)).
Definition expressibleb (d : dialect) (got want : metadata) : bool :=
  forallb (fun sc => (negb (is_sqliteb d) || listedb got (ISchema (s_name sc))) && forallb (expressible_table d got (s_name sc)) (alive_of t_ignore (s_tables sc)))
    (alive_of s_ignore (d_schemas want)) &&
  forallb (fun sc => forallb (fun v => negb (v_materialized v)) (objects (s_views sc)) && (negb (is_sqliteb d) || is_nil (fobjects (s_functions sc)))) (objects (d_schemas got)) &&
  is_nil (d_extensions got).
Lemma expressible_table_ok : forall d got s tb, expressible_table d got s tb = true ->
  t_name tb <> [] /\ t_virtual_args tb = [] /\
  (forall l, table_column tb l -> column_supported d l /\ (d = DSQLite -> lists got (ITable s (t_name tb)) -> ~ lists got (IColumn s (t_name tb) (l_name l)) -> addable l)) /\
  (forall k, SpecColumn.table_constraint tb k -> constraint_supported d k) /\
  (forall x, table_index tb x -> (x_include x <> [] -> d = DPostgres) /\ (x_predicate x <> [] -> d = DPostgres \/ d = DSQLite) /\
    (forall i, nth_error (x_columns x) i = Some [] -> i < length (x_exprs x))).
Proof.
  intros d got s tb H. unfold expressible_table in H. ands H. rewrite forallb_forall in H2, H1, H0.
  split; [intros E; rewrite E in H; discriminate H|]. split; [now destruct (t_virtual_args tb)|]. split; [|split].
  - intros l [L1 L2]. specialize (H2 l (alive_of_ok _ _ _ _ L1 L2)). apply andb_true_iff in H2. destruct H2 as [O A]. unfold ordinary_column in O. apply andb_true_iff in O. destruct O as [O O4]. apply andb_true_iff in O. destruct O as [O O3]. apply andb_true_iff in O. destruct O as [O O2].
    apply negb_true_iff in O, O4. split.
    + unfold column_supported. rewrite O, O4. destruct (l_identity l); [|discriminate]. destruct (l_generated l); [|discriminate]. split; [discriminate|]. split; [now intros []|]. split; [now intros _ _ _ []|discriminate].
    + intros -> LT NG. cbn [is_sqliteb negb orb] in A. apply orb_true_iff in A. rewrite orb_true_iff in A. destruct A as [[A|A]|A]; [apply negb_true_iff in A; now apply listedb_false in A|now apply listedb_ok in A|]. apply andb_true_iff in A. destruct A as [A A3]. apply andb_true_iff in A. destruct A as [A A2]. apply negb_true_iff in A, A2.
      unfold addable. rewrite A, A2. split; [reflexivity|]. split; [reflexivity|]. split; [intros NN; rewrite NN in A3; now apply usable_default_ok|]. intros _. destruct (l_generated l); [reflexivity|discriminate].
  - intros k [L1 L2]. specialize (H1 k (alive_of_ok _ _ _ _ L1 L2)). apply andb_true_iff in H1. destruct H1 as [A C]. apply negb_true_iff in A, C. unfold constraint_supported. rewrite C.
    split; [|discriminate]. intros E. rewrite E in A. discriminate A.
  - intros x [L1 L2]. specialize (H0 x (alive_of_ok _ _ _ _ L1 L2)). apply andb_true_iff in H0. destruct H0 as [A A3]. apply andb_true_iff in A. destruct A as [A A2]. split; [destruct (x_include x); [now intros []|discriminate]|].
    split; [destruct (x_predicate x); [now intros []|discriminate]|]. intros i N. apply nth_error_In in N. rewrite forallb_forall in A3. apply A3 in N. discriminate N.
Qed.
Lemma expressibleb_ok : forall d got want, expressibleb d got want = true -> expressible d got want.
Proof.
  intros d got want H. unfold expressibleb in H. apply andb_true_iff in H. destruct H as [H HX]. apply andb_true_iff in H. destruct H as [HW HG]. rewrite forallb_forall in HW, HG.
  assert (X : forall sc, In sc (objects (d_schemas want)) -> s_ignore sc = false -> _) by (intros sc I J; exact (HW sc (alive_of_ok _ _ _ _ I J))). clear HW.
  assert (T : forall s tb, has_table want s tb -> expressible_table d got s tb = true).
  { intros s tb (sc & A & C & <- & D & F). specialize (X sc A C). apply andb_true_iff in X. destruct X as [_ X]. rewrite forallb_forall in X. apply X. now apply alive_of_ok. }
  constructor.
  - intros -> s NE (sc & A & C & ->). specialize (X sc A C). apply andb_true_iff in X. destruct X as [X _]. now apply listedb_ok.
  - intros s tb HT. destruct (expressible_table_ok _ _ _ _ (T s tb HT)) as (A & C & D & E & F). constructor; auto.
  - intros v (sc & A & C & D & F) M. specialize (HG sc A). apply andb_true_iff in HG. destruct HG as [HG _]. rewrite forallb_forall in HG. specialize (HG v D). rewrite M in HG. discriminate HG.
  - intros -> f (sc & A & C & D & F). specialize (HG sc A). apply andb_true_iff in HG. destruct HG as [_ HG]. cbn [is_sqliteb negb orb] in HG. destruct (fobjects (s_functions sc)); [destruct D|discriminate HG].
  - intros _. now destruct (d_extensions got).
Qed.
