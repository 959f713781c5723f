(** * Statements: C29.  See SpecCache. *)
From Coq Require Import Lia Sorted.
From Verif Require Import GoBase GoBaseFacts CacheModel SpecCache CacheFacts CacheFnFacts.

(** In every state, whatever the program did to the slice: a position that a
    lookup returns holds an object of that name that is not ignored. *)
Theorem lookup_never_wrong : forall (A : Type) (name_of : A -> bytes) (ignored : A -> bool) (allow_empty : bool)
    (h : list (cache_op A)) (name : bytes) (i : nat),
  fst (lookup name_of ignored allow_empty name (cache_run name_of ignored allow_empty h)) = Some i ->
  at_position name_of ignored (slice_after h) name i.
Proof.
  intros A name_of ignored ae h name i H. apply lookup_sound_state in H. now rewrite run_objects in H.
Qed.
Print Assumptions lookup_never_wrong.

(** After a history by the rules the lookup is exact: it returns the last
    object of that name, and -1 iff there is none. *)
Theorem lookup_exact : forall (A : Type) (name_of : A -> bytes) (ignored : A -> bool) (allow_empty : bool)
    (h : list (cache_op A)) (name : bytes),
  up_to_date name_of ignored h -> name <> [] \/ allow_empty = true ->
  let result := fst (lookup name_of ignored allow_empty name (cache_run name_of ignored allow_empty h)) in
  (forall i, result = Some i <-> last_position name_of ignored (slice_after h) name i) /\
  (result = None <-> absent name_of ignored (slice_after h) name).
Proof.
  intros A name_of ignored ae h name U NE. rewrite <- (run_objects name_of ignored ae h).
  apply lookup_exact_state; [now apply run_fresh|exact NE].
Qed.
Print Assumptions lookup_exact.

(** The slice itself is what the program made it; lookups and refreshes do not
    change it, and an append returns the position of its object. *)
Theorem cache_keeps_objects : forall (A : Type) (name_of : A -> bytes) (ignored : A -> bool) (allow_empty : bool)
    (h : list (cache_op A)),
  objects (cache_run name_of ignored allow_empty h) = slice_after h.
Proof. intros. apply run_objects. Qed.
Print Assumptions cache_keeps_objects.
Theorem append_position : forall (A : Type) (name_of : A -> bytes) (a : A) (s : cached A),
  nth_error (objects (snd (append name_of a s))) (fst (append name_of a s)) = Some a.
Proof.
  intros A name_of a s. cbn [append fst snd objects]. rewrite app_length. cbn [length].
  replace (length (objects s) + 1 - 1) with (length (objects s)) by lia.
  rewrite nth_error_app2, Nat.sub_diag by lia. reflexivity.
Qed.
Print Assumptions append_position.

Definition obj := (bytes * bool)%type.
Definition ex_history : list (cache_op obj) :=
  [OAppend (B "a", false); OAppend (B "b", false); OEdit [(B "b", false); (B "a", true); (B "c", false)];
   OLookup (B "c"); ORefresh; OAppend (B "b", false); OLookup (B "zz")].
Example cache_example :
  up_to_date fst snd ex_history /\
  map (fun n => fst (lookup fst snd false n (cache_run fst snd false ex_history))) [B "a"; B "b"; B "c"; B "d"]
    = [None; Some 3; Some 2; None].
Proof.
  split; [|reflexivity].
  apply (utd_lookup fst snd [_; _; _; _; _; _]), (utd_append fst snd [_; _; _; _; _]), or_introl; [|reflexivity].
  apply (utd_refresh fst snd [_; _; _; _]).
Qed.

(** Functions: the positions of all functions of that name, in order. *)
Theorem functions_exact : forall (A : Type) (name_of : A -> bytes) (ignored : A -> bool)
    (h : list (cache_op A)) (name : bytes),
  up_to_date name_of ignored h -> (forall a, In (OAppend a) h -> ignored a = false) -> name <> [] ->
  let result := fst (flookup name_of name (fcache_run name_of ignored h)) in
  StronglySorted lt result /\ forall i, In i result <-> at_position name_of ignored (slice_after h) name i.
Proof.
  intros A name_of ignored h name U N NE. cbv zeta.
  destruct (flookup_state name_of ignored name (fcache_run name_of ignored h)) as [E _]; [now apply frun_fresh|exact NE|].
  rewrite E, frun_objects. split; [apply hits_sorted|]. intros i. apply hits_in.
Qed.
Print Assumptions functions_exact.
(** In every state, a returned position holds a function of that name. *)
Theorem functions_never_wrong : forall (A : Type) (name_of : A -> bytes) (ignored : A -> bool)
    (h : list (cache_op A)) (name : bytes) (i : nat),
  In i (fst (flookup name_of name (fcache_run name_of ignored h))) ->
  exists a, nth_error (slice_after h) i = Some a /\ name_of a = name.
Proof.
  intros A name_of ignored h name i. rewrite <- (frun_objects name_of ignored h).
  unfold flookup. destruct (is_empty name); [intros []|]. destruct (mget _ _); [|intros []].
  cbn [fst]. intros H. apply filter_In in H. destruct H as [_ H].
  destruct (nth_error _ i) as [a|]; [|discriminate]. exists a. split; [reflexivity|]. now apply beqb_eq.
Qed.
Print Assumptions functions_never_wrong.
Example functions_example :
  let h := [OAppend (B "f", false); OAppend (B "g", false); OAppend (B "f", false)] in
  up_to_date fst snd h /\ fst (flookup fst (B "f") (fcache_run fst snd h)) = [0; 2].
Proof.
  split; [|reflexivity].
  apply (utd_append fst snd [_; _]); [|now left]. apply (utd_append fst snd [_]); [|now left].
  apply (utd_append fst snd []); [constructor|now left].
Qed.

(** ** Findings *)
(** Appending an ignored object hides an earlier object of the same name. *)
Theorem ignored_append_hides_refuted :
  let h := [OAppend (B "a", false); OAppend (B "a", true)] in
  fst (lookup fst snd false (B "a") (cache_run fst snd false h)) = None /\
  at_position fst snd (slice_after h) (B "a") 0.
Proof. split; [reflexivity|]. exists (B "a", false). repeat split. Qed.
Print Assumptions ignored_append_hides_refuted.
(** A stale lookup removes the entry, so even undoing the edit does not bring
    the object back. *)
Theorem lookup_forgets_refuted :
  let h := [OAppend (B "a", false); OEdit [(B "a", true)]; OLookup (B "a"); OEdit [(B "a", false)]] in
  fst (lookup fst snd false (B "a") (cache_run fst snd false h)) = None /\
  fst (lookup fst snd false (B "a") (cache_run fst snd false
        [OAppend (B "a", false); OEdit [(B "a", true)]; OEdit [(B "a", false)]])) = Some 0.
Proof. split; reflexivity. Qed.
Print Assumptions lookup_forgets_refuted.
(** Ignored functions are returned. *)
Theorem ignored_function_refuted :
  fst (flookup fst (B "f") (fcache_run fst snd [OAppend (B "f", true)])) = [0].
Proof. reflexivity. Qed.
Print Assumptions ignored_function_refuted.
(** Extensions: not found if there are fewer schemas; a panic if the slice was
    shortened; found under a name that is only a prefix; and a failed lookup
    makes the schema of the same name unfindable. *)
Theorem extension_lookup_refuted :
  fst (ext_lookup (B "hstore") (ext_append (B "hstore@1.4") (mk_ext [] [] 0 []))) = Ok None /\
  fst (ext_lookup (B "hstore") (mk_ext [] [(B "hstore", 0)] 1 [])) = Panic /\
  fst (ext_lookup (B "pg") (mk_ext [B "pgcrypto"] [(B "pg", 0)] 1 [])) = Ok (Some 0) /\
  mget (B "hstore") (x_schema_cache (snd (ext_lookup (B "hstore")
     (ext_append (B "hstore@1.4") (ext_append (B "citext") (mk_ext [] [] 1 [(B "hstore", 0)])))))) = None.
Proof. repeat split. Qed.
Print Assumptions extension_lookup_refuted.
(** With at least as many schemas as extensions it works: any extensions that
    were appended (names distinct) are found, others are not. *)
Fixpoint append_all (l : list bytes) (s : ext_state) : ext_state :=
  match l with [] => s | e :: l' => append_all l' (ext_append e s) end.
Lemma has_prefix_firstn : forall s n, has_prefix s (firstn n s) = true.
Proof.
  induction s as [|c s IH]; intros [|n]; try reflexivity. cbn [firstn has_prefix].
  rewrite IH, (proj2 (Ascii.eqb_eq c c) eq_refl). reflexivity.
Qed.
Lemma has_prefix_ext_name : forall e, has_prefix e (ext_name e) = true.
Proof.
  intros e. unfold ext_name. destruct (index_byte _ e) as [i|]; [apply has_prefix_firstn|].
  pose proof (has_prefix_firstn e (length e)) as H. now rewrite firstn_all in H.
Qed.
Lemma append_all_state : forall l s,
  x_extensions (append_all l s) = x_extensions s ++ l /\ x_schemas (append_all l s) = x_schemas s.
Proof.
  induction l as [|e l IH]; intros s; cbn [append_all]; [now rewrite app_nil_r|].
  destruct (IH (ext_append e s)) as [H1 H2]. rewrite H1, H2. cbn [ext_append x_extensions x_schemas].
  now rewrite <- app_assoc.
Qed.
Lemma append_all_cache : forall l s name i,
  NoDup (map ext_name l) ->
  (mget name (x_cache (append_all l s)) = Some i <->
   (exists e, nth_error l (i - length (x_extensions s)) = Some e /\ length (x_extensions s) <= i /\ ext_name e = name) \/
   (~ In name (map ext_name l) /\ mget name (x_cache s) = Some i)).
Proof.
  induction l as [|e l IH]; intros s name i ND; cbn [append_all map].
  - split; [right; split; [intros []|assumption]|]. intros [[e [H _]]|[_ H]]; [|exact H].
    destruct (i - length (x_extensions s)); discriminate.
  - inversion ND as [|x y HN ND']; subst. rewrite IH by exact ND'. cbn [ext_append x_extensions x_cache].
    rewrite app_length. cbn [length]. split.
    + intros [[f (H1 & H2 & H3)]|[H1 H2]].
      * left. exists f. split; [|split; [lia|exact H3]].
        replace (i - length (x_extensions s)) with (S (i - (length (x_extensions s) + 1))) by lia. exact H1.
      * rewrite mget_mset in H2. destruct (beqb name (ext_name e)) eqn:B.
        -- apply beqb_eq in B. assert (i = length (x_extensions s)) by congruence. subst i. left. exists e.
           rewrite Nat.sub_diag. repeat split; auto.
        -- right. split; [|exact H2]. intros [X|X]; [|contradiction]. rewrite X, (proj2 (beqb_eq name name) eq_refl) in B. discriminate.
    + intros [[f (H1 & H2 & H3)]|[H1 H2]].
      * destruct (i - length (x_extensions s)) as [|k] eqn:K.
        -- cbn [nth_error] in H1. assert (e = f) by congruence. subst f. right. subst name. split; [exact HN|].
           rewrite mget_mset_same. f_equal. lia.
        -- left. exists f. cbn [nth_error] in H1. replace (i - (length (x_extensions s) + 1)) with k by lia.
           split; [exact H1|]. split; [lia|exact H3].
      * right. split; [intros X; apply H1; now right|]. rewrite mget_mset_other; [exact H2|].
        intros X. apply H1. now left.
Qed.
Theorem extension_lookup_exact : forall (l : list bytes) (schemas : nat) (cache : list (bytes * nat)) (name : bytes) (i : nat),
  NoDup (map ext_name l) -> length l <= schemas -> index_byte "@" name = None ->
  fst (ext_lookup name (append_all l (mk_ext [] [] schemas cache))) = Ok (Some i) <->
  exists e, nth_error l i = Some e /\ ext_name e = name.
Proof.
  intros l schemas cache name i ND L NA.
  destruct (append_all_state l (mk_ext [] [] schemas cache)) as [E1 E2]. cbn [x_extensions x_schemas app] in E1, E2.
  assert (EN : ext_name name = name) by (unfold ext_name; now rewrite NA).
  pose proof (append_all_cache l (mk_ext [] [] schemas cache) name) as C. cbn [x_extensions x_cache length mget] in C.
  unfold ext_lookup. rewrite EN.
  destruct (mget name (x_cache (append_all l (mk_ext [] [] schemas cache)))) as [j|] eqn:M.
  - destruct (proj1 (C j ND) eq_refl) as [[e (H1 & _ & H3)]|[_ H]]; [|discriminate].
    rewrite Nat.sub_0_r in H1. assert (j < length l) by (apply nth_error_Some; congruence).
    rewrite E2. destruct (Nat.leb_spec schemas j); [lia|]. rewrite E1, H1.
    assert (P : has_prefix e name = true) by (rewrite <- H3; apply has_prefix_ext_name). rewrite P. cbn [fst]. split.
    + intros X. assert (i = j) by congruence. subst. exists e. auto.
    + intros [f [F1 F2]]. f_equal. f_equal.
      assert (N : nth_error (map ext_name l) i = nth_error (map ext_name l) j).
      { rewrite (map_nth_error ext_name _ _ F1), (map_nth_error ext_name _ _ H1). congruence. }
      symmetry. rewrite NoDup_nth_error in ND. apply ND; [|exact N]. rewrite map_length.
      apply nth_error_Some. congruence.
  - cbn [fst]. split; [discriminate|]. intros [e [F1 F2]]. exfalso.
    assert (X : Some i = None); [|discriminate]. symmetry. apply (C i ND). left. exists e. rewrite Nat.sub_0_r. split; [exact F1|]. split; [lia|exact F2].
Qed.
Print Assumptions extension_lookup_exact.
