(** * DbPf: proofs for C56 *)
From Coq Require Import Lia.
From Verif Require Import GoBase GoBaseFacts CacheModel SpecCache CacheFacts UpsertModel DdlModel MigrateModel LoadModel SpecLoad LoadMark TriggerModel TriggerStore ViewModel DbModel SpecDb.

Lemma nodup_split {A N} (f : A -> N) b x a : NoDup (map f (b ++ x :: a)) ->
  (forall y, In y b -> f y <> f x) /\ (forall y, In y a -> f y <> f x).
Proof.
  rewrite map_app. cbn [map]. intros D. apply NoDup_remove in D. destruct D as (_ & D). split; intros y I E; apply D, in_or_app.
  - left. rewrite <- E. now apply in_map.
  - right. rewrite <- E. now apply in_map.
Qed.
Lemma nodup_snoc {A} (l : list A) x : NoDup l -> ~ In x l -> NoDup (l ++ [x]).
Proof.
  induction l as [|y l IH]; intros D H; cbn [app]; [repeat constructor; tauto|]. inversion D; subst. constructor.
  - intros X. apply in_app_or in X. destruct X as [X|[<-|[]]]; [contradiction|]. apply H. now left.
  - apply IH; [assumption|]. intros X. apply H. now right.
Qed.
Definition at_name {A} (nm : A -> bytes) (n : bytes) (f : A -> A) (x : A) : A := if beqb (nm x) n then f x else x.
Lemma at_name_split {A} (nm : A -> bytes) f b x a : NoDup (map nm (b ++ x :: a)) ->
  map (at_name nm (nm x) f) (b ++ x :: a) = b ++ f x :: a.
Proof.
  intros D. destruct (nodup_split nm b x a D) as (D1 & D2).
  assert (I : forall l, (forall y, In y l -> nm y <> nm x) -> map (at_name nm (nm x) f) l = l).
  { intros l H. rewrite <- map_id. apply map_ext_in. intros y Y. unfold at_name. destruct (beqb (nm y) (nm x)) eqn:E; [|reflexivity]. apply beqb_eq in E. now apply H in E. }
  rewrite map_app. cbn [map]. rewrite !I by assumption. unfold at_name. now rewrite beqb_refl.
Qed.
Lemma at_name_absent {A} (nm : A -> bytes) n f l : ~ In n (map nm l) -> map (at_name nm n f) l = l.
Proof.
  intros H. rewrite <- map_id. apply map_ext_in. intros y Y. unfold at_name. destruct (beqb (nm y) n) eqn:E; [|reflexivity].
  apply beqb_eq in E. destruct H. rewrite <- E. now apply in_map.
Qed.
Lemma at_name_names {A} (nm : A -> bytes) n f l : (forall x, nm (f x) = nm x) -> map nm (map (at_name nm n f) l) = map nm l.
Proof. intros H. rewrite map_map. apply map_ext. intros x. unfold at_name. now destruct (beqb _ _). Qed.
Definition memb (n : bytes) (l : list bytes) : bool := existsb (beqb n) l.
Lemma memb_in n l : memb n l = true <-> In n l.
Proof.
  unfold memb. rewrite existsb_exists. split.
  - intros (x & I & E). apply beqb_eq in E. now subst.
  - intros I. exists n. now rewrite beqb_refl.
Qed.
Lemma memb_not n l : memb n l = false <-> ~ In n l.
Proof. rewrite <- memb_in. destruct (memb n l); split; congruence. Qed.

(** ** Up to date caches, stale entries allowed *)
Section Tidy.
  Context {A : Type} (nm : A -> bytes) (ig : A -> bool) (allow : bool).
  Definition tidy (c : cached A) : Prop :=
    fresh nm ig c /\ NoDup (map nm (objects c)) /\ (forall x, In x (objects c) -> ig x = false).
  Lemma tidy_lookup n c : tidy c -> n <> [] \/ allow = true ->
    (exists b x a, objects c = b ++ x :: a /\ nm x = n /\ lookup nm ig allow n c = (Some (length b), c)) \/
    (~ In n (map nm (objects c)) /\ fst (lookup nm ig allow n c) = None).
  Proof.
    intros (F & D & I) N. destruct (lookup_split nm ig allow n c F N) as [(E & H)|(b & x & a & O & E & Nx & _ & _)].
    - right. split; [|exact E]. intros X. apply in_map_iff in X. destruct X as (x & Nx & Ix). rewrite <- Nx in *. specialize (H x Ix eq_refl). rewrite (I x Ix) in H. discriminate.
    - left. exists b, x, a. split; [exact O|]. split; [exact Nx|]. revert E. unfold lookup. destruct (_ && _); [discriminate|]. destruct (mget _ _); [|discriminate].
      destruct (nth_error _ _); [|discriminate]. destruct (_ || _); [discriminate|]. cbn [fst]. now intros ->.
  Qed.
  Lemma tidy_append x c : tidy c -> ~ In (nm x) (map nm (objects c)) -> ig x = false -> tidy (snd (append nm x c)).
  Proof.
    intros (F & D & I) X G. split; [|split].
    - apply append_fresh; auto.
    - cbn [append snd objects]. rewrite map_app. cbn [map]. now apply nodup_snoc.
    - cbn [append snd objects]. intros y Y. apply in_app_or in Y. destruct Y as [Y|[<-|[]]]; auto.
  Qed.
  Lemma tidy_edit n f c : tidy c -> (forall x, nm (f x) = nm x /\ ig (f x) = ig x) -> tidy (edit (map (at_name nm n f) (objects c)) c).
  Proof.
    intros (F & D & I) H. split; [|split].
    - apply edit_fresh; [exact F|]. clear - H. induction (objects c) as [|x l IH]; constructor; [|exact IH]. unfold at_name. destruct (H x), (beqb _ _); auto.
    - cbn [edit objects]. rewrite at_name_names by (intros x; apply H). exact D.
    - cbn [edit objects]. intros y Y. apply in_map_iff in Y. destruct Y as (x & <- & X). unfold at_name. destruct (H x) as (_ & Hx). destruct (beqb _ _); [rewrite Hx|]; now apply I.
  Qed.
  Lemma tidy_lookup_state n c : tidy c -> tidy (snd (lookup nm ig allow n c)).
  Proof. intros (F & D & I). split; [now apply lookup_fresh|]. rewrite lookup_objects. auto. Qed.
End Tidy.
Lemma tidy_empty {A} (nm : A -> bytes) ig m : tidy nm ig (mk_cached [] m).
Proof. split; [|split; [constructor|intros x []]]. intros n i ((x & X & _) & _). destruct i; discriminate. Qed.

(** ** Exact caches *)
Section Neat.
  Context {A : Type} (nm : A -> bytes) (ig : A -> bool).
  Definition neat (c : cached A) : Prop :=
    NoDup (map nm (objects c)) /\ (forall x, In x (objects c) -> ig x = false /\ nm x <> []) /\
    (forall n i, mget n (positions c) = Some i <-> nth_error (map nm (objects c)) i = Some n).
  Lemma neat_new : neat cached_new.
  Proof. split; [constructor|]. split; [intros x []|]. intros n i. cbn. destruct i; split; discriminate. Qed.
  Lemma neat_append x c : neat c -> ~ In (nm x) (map nm (objects c)) -> ig x = false -> nm x <> [] -> neat (snd (append nm x c)).
  Proof.
    intros (D & I & P) X G N. cbn [append snd]. unfold neat. cbn [objects positions]. rewrite app_length. cbn [length]. replace (length (objects c) + 1 - 1) with (length (objects c)) by lia. split; [|split].
    - rewrite map_app. cbn [map]. now apply nodup_snoc.
    - intros y Y. apply in_app_or in Y. destruct Y as [Y|[<-|[]]]; auto.
    - intros n i. rewrite map_app. cbn [map]. destruct (list_eq_dec Ascii.ascii_dec n (nm x)) as [->|E].
      + rewrite mget_mset_same. split.
        * intros H. injection H as <-. rewrite nth_error_app2 by (rewrite map_length; lia). now rewrite map_length, Nat.sub_diag.
        * intros H. f_equal. destruct (Nat.lt_ge_cases i (length (map nm (objects c)))) as [L|L].
          -- rewrite nth_error_app1 in H by exact L. destruct X. now apply nth_error_In in H.
          -- rewrite nth_error_app2 in H by exact L. rewrite map_length in *. destruct (i - length (objects c)) as [|k] eqn:K; [lia|]. destruct k; discriminate.
      + rewrite mget_mset_other by exact E. rewrite P. destruct (Nat.lt_ge_cases i (length (map nm (objects c)))) as [L|L].
        * now rewrite nth_error_app1 by exact L.
        * rewrite nth_error_app2 by exact L. rewrite (proj2 (nth_error_None _ _) L). destruct (i - length (map nm (objects c))) as [|k]; cbn; [|destruct k; split; discriminate].
          split; [discriminate|congruence].
  Qed.
  Lemma neat_lookup n c : neat c ->
    (exists b x a, objects c = b ++ x :: a /\ nm x = n /\ lookup nm ig false n c = (Some (length b), c)) \/
    (~ In n (map nm (objects c)) /\ lookup nm ig false n c = (None, c)).
  Proof.
    intros (D & I & P). unfold lookup. destruct (is_empty n) eqn:E; cbn [andb negb].
    - right. split; [|reflexivity]. destruct n; [|discriminate]. intros X. apply in_map_iff in X. destruct X as (x & Nx & X). now destruct (I x X).
    - destruct (mget n (positions c)) as [i|] eqn:M.
      + left. apply P in M. rewrite nth_error_map in M. destruct (nth_error (objects c) i) as [x|] eqn:X; [|discriminate]. cbn in M. injection M as M.
        destruct (nth_error_split _ _ X) as (b & a & O & L). exists b, x, a. split; [exact O|]. split; [exact M|]. rewrite M, beqb_refl.
        rewrite (proj1 (I x (nth_error_In _ _ X))). cbn. now subst i.
      + right. split; [|reflexivity]. intros X. apply In_nth_error in X. destruct X as (i & X). apply P in X. congruence.
  Qed.
  Definition mapped (g : A -> A) (c : cached A) : cached A := mk_cached (map g (objects c)) (positions c).
  Lemma neat_mapped g c : neat c -> (forall x, nm (g x) = nm x /\ ig (g x) = ig x) -> neat (mapped g c).
  Proof.
    intros (D & I & P) H. unfold neat, mapped. cbn [objects positions].
    assert (E : map nm (map g (objects c)) = map nm (objects c)) by (rewrite map_map; apply map_ext; intros x; apply H). rewrite E. split; [exact D|]. split; [|exact P].
    intros x X. apply in_map_iff in X. destruct X as (y & <- & Y). destruct (H y) as (-> & ->). now apply I.
  Qed.
  Lemma neat_change n g c : neat c ->
    match lookup nm ig false n c with
    | (Some i, c1) => change_at i g c1
    | (None, c1) => c1
    end = mapped (at_name nm n g) c.
  Proof.
    intros N. destruct (neat_lookup n c N) as [(b & x & a & O & X & ->)|(X & ->)].
    - unfold change_at. rewrite O, nth_split, set_split. unfold mapped, edit. subst n. rewrite O, at_name_split; [reflexivity|]. rewrite <- O. apply N.
    - unfold mapped. rewrite at_name_absent by exact X. now destruct c.
  Qed.
  Lemma neat_fresh c : neat c -> fresh nm ig c.
  Proof. intros (_ & _ & P) n i ((x & X & Nx & _) & _). apply P. rewrite nth_error_map, X. cbn. now rewrite Nx. Qed.
End Neat.
Lemma mapped_mapped {A} (f g : A -> A) c : mapped g (mapped f c) = mapped (fun x => g (f x)) c.
Proof. unfold mapped. cbn. now rewrite map_map. Qed.
Lemma mapped_ext {A} (f g : A -> A) c : (forall x, In x (objects c) -> f x = g x) -> mapped f c = mapped g c.
Proof. intros H. unfold mapped. f_equal. now apply map_ext_in. Qed.
Lemma mapped_id {A} (c : cached A) : mapped (fun x => x) c = c.
Proof. unfold mapped. rewrite map_id. now destruct c. Qed.

(** ** Rows into schemas *)
Definition steady (f : db_schema -> db_schema) : Prop := forall s, ds_name (f s) = ds_name s /\ ds_ignore (f s) = ds_ignore s.
Lemma in_schema_spec create n f ss : tidy ds_name ds_ignore ss -> steady f ->
  tidy ds_name ds_ignore (in_schema create n f ss) /\
  objects (in_schema create n f ss) =
  map (at_name ds_name n f) (objects ss ++ (if create && negb (memb n (map ds_name (objects ss))) then [empty_ds n] else [])).
Proof.
  intros T S. unfold in_schema. destruct (tidy_lookup ds_name ds_ignore true n ss T) as [(b & x & a & O & X & L)|(X & L)]; [now right| |].
  - rewrite L. unfold change_at. rewrite O, nth_split, set_split. assert (M : memb n (map ds_name (objects ss)) = true).
    { apply memb_in. rewrite O, map_app. apply in_or_app. right. now left. } rewrite <- O, M. rewrite andb_false_r, app_nil_r.
    assert (E : b ++ f x :: a = map (at_name ds_name n f) (objects ss)).
    { rewrite O, <- X, at_name_split; [reflexivity|]. rewrite <- O. apply T. } rewrite E. split; [|reflexivity]. now apply tidy_edit.
  - destruct (lookup _ _ _ _ _) as [o ss1] eqn:Q. cbn [fst] in L. subst o. assert (O : objects ss1 = objects ss) by (rewrite <- (lookup_objects ds_name ds_ignore true n ss), Q; reflexivity).
    assert (T1 : tidy ds_name ds_ignore ss1) by (pose proof (tidy_lookup_state ds_name ds_ignore true n ss T) as T1; now rewrite Q in T1).
    rewrite (proj2 (memb_not _ _) X). destruct create; cbn [andb negb].
    + assert (T2 : tidy ds_name ds_ignore (snd (append ds_name (empty_ds n) ss1))) by (apply tidy_append; [exact T1|rewrite O; exact X|reflexivity]).
      destruct (append ds_name (empty_ds n) ss1) as [i ss2] eqn:A. cbn [snd] in T2. unfold append in A. injection A as <- <-. cbn [ds_name empty_ds] in T2. unfold change_at. cbn [objects] in *.
      rewrite app_length in *. cbn [length] in *. replace (length (objects ss1) + 1 - 1) with (length (objects ss1)) in * by lia. rewrite nth_split, set_split.
      assert (E : objects ss1 ++ [f (empty_ds n)] = map (at_name ds_name n f) (objects ss1 ++ [empty_ds n])).
      { change n with (ds_name (empty_ds n)) at 2. rewrite at_name_split; [reflexivity|]. apply T2. }
      rewrite E. rewrite O. split; [|reflexivity]. rewrite <- O.
      exact (tidy_edit ds_name ds_ignore n f _ T2 S).
    + split; [exact T1|]. rewrite app_nil_r, O, at_name_absent; [reflexivity|exact X].
Qed.
(** All rows of a kind. *)
Section Rows.
  Context {R : Type} (key : R -> bytes) (f : R -> db_schema -> db_schema).
  Definition pass (rows : list R) (s : db_schema) : db_schema :=
    fold_left (fun s r => if beqb (key r) (ds_name s) then f r s else s) rows s.
  Context (S : forall r, steady (f r)).
  Lemma step_steady r : steady (fun s => if beqb (key r) (ds_name s) then f r s else s).
  Proof. intros s. destruct (beqb _ _); [apply S|auto]. Qed.
  Lemma pass_steady rows : steady (pass rows).
  Proof. unfold pass. induction rows as [|r rows IH]; intros s; cbn [fold_left]; [auto|]. destruct (IH (if beqb (key r) (ds_name s) then f r s else s)) as (-> & ->). apply step_steady. Qed.
  Lemma pass_filter rows s : pass rows s = fold_left (fun s r => f r s) (filter (fun r => beqb (key r) (ds_name s)) rows) s.
  Proof.
    unfold pass. revert s. induction rows as [|r rows IH]; intros s; cbn [fold_left filter]; [reflexivity|]. rewrite IH. destruct (beqb (key r) (ds_name s)) eqn:E; cbn [fold_left]; [|reflexivity].
    destruct (S r s) as (-> & _). reflexivity.
  Qed.
  Lemma rows_spec create rows ss : tidy ds_name ds_ignore ss ->
    let ss' := fold_left (fun ss r => in_schema create (key r) (f r) ss) rows ss in
    tidy ds_name ds_ignore ss' /\
    objects ss' = map (pass rows) (objects ss ++ map empty_ds (if create then first_seen (map ds_name (objects ss)) (map key rows) else [])).
  Proof.
    revert ss. induction rows as [|r rows IH]; intros ss T; cbn [fold_left map].
    - split; [exact T|]. assert (E : (if create then first_seen (map ds_name (objects ss)) [] else []) = []) by (destruct create; reflexivity). rewrite E. cbn [map]. rewrite app_nil_r. symmetry. apply map_id.
    - destruct (in_schema_spec create (key r) (f r) ss T (S r)) as (T1 & O1). destruct (IH _ T1) as (T2 & O2). split; [exact T2|]. rewrite O2, O1. clear IH O2 O1 T2.
      rewrite at_name_names by (intros s; apply S). rewrite !map_app.
      assert (P : forall s, pass rows (at_name ds_name (key r) (f r) s) = pass (r :: rows) s).
      { intros s. unfold pass. cbn [fold_left]. unfold at_name. now rewrite (beqb_sym (ds_name s)). }
      assert (P2 : forall l, map (pass rows) (map (at_name ds_name (key r) (f r)) l) = map (pass (r :: rows)) l) by (intros l; rewrite map_map; apply map_ext; exact P).
      assert (P3 : forall l, ~ In (key r) l -> map (pass rows) (map empty_ds l) = map (pass (r :: rows)) (map empty_ds l)).
      { intros l H. rewrite !map_map. apply map_ext_in. intros n I. unfold pass. cbn [fold_left ds_name empty_ds]. destruct (beqb (key r) n) eqn:E; [|reflexivity]. apply beqb_eq in E. now subst. }
      rewrite !P2. rewrite <- app_assoc. f_equal. destruct create; cbn [andb]; [|reflexivity]. cbn [first_seen]. change (existsb (beqb (key r)) (map ds_name (objects ss))) with (memb (key r) (map ds_name (objects ss))).
      assert (NF : forall seen l, In (key r) seen -> ~ In (key r) (first_seen seen l)).
      { intros seen l. revert seen. induction l as [|k l IH]; intros seen I; cbn [first_seen]; [auto|]. destruct (existsb (beqb k) seen) eqn:E; [now apply IH|].
        intros [X|X]; [subst k; apply memb_not in E; contradiction|]. revert X. apply IH. apply in_or_app. now left. }
      destruct (memb (key r) (map ds_name (objects ss))) eqn:M; cbn [negb map].
      + rewrite app_nil_r. apply P3. apply NF. now apply memb_in.
      + cbn [app]. f_equal. cbn [ds_name empty_ds]. apply P3. apply NF. apply in_or_app. right. now left.
  Qed.
End Rows.
