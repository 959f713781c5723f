(** * CacheFacts: proofs for C29 *)
From Coq Require Import Lia.
From Verif Require Import GoBase GoBaseFacts CacheModel SpecCache.

Section Pf.
  Context {A : Type} (name_of : A -> bytes) (ignored : A -> bool) (allow_empty : bool).
  Notation at_position := (at_position name_of ignored).
  Notation last_position := (last_position name_of ignored).
  Notation absent := (absent name_of ignored).
  Notation up_to_date := (up_to_date name_of ignored).
  Notation cache_run := (cache_run name_of ignored allow_empty).
  Notation lookup := (lookup name_of ignored allow_empty).
  Notation refresh_from := (refresh_from name_of ignored).

  Lemma lookup_objects : forall name s, objects (snd (lookup name s)) = objects s.
  Proof.
    intros name s. unfold CacheModel.lookup.
    destruct (_ && _); [reflexivity|]. destruct (mget _ _) as [i|]; [|reflexivity].
    destruct (nth_error _ _); [|reflexivity]. destruct (_ || _); reflexivity.
  Qed.
  Lemma step_objects : forall s o, objects (cache_step name_of ignored allow_empty s o) = slice_step (objects s) o.
  Proof. intros s []; try reflexivity. apply lookup_objects. Qed.
  Lemma run_objects : forall h, objects (cache_run h) = slice_after h.
  Proof.
    intros h. unfold CacheModel.cache_run, slice_after. change (@nil A) with (objects (@cached_new A)).
    generalize (@cached_new A). induction h as [|o h IH]; intros s; [reflexivity|].
    cbn [fold_left]. rewrite IH. f_equal. apply step_objects.
  Qed.
  Lemma run_snoc : forall h o, cache_run (h ++ [o]) = cache_step name_of ignored allow_empty (cache_run h) o.
  Proof. intros h o. unfold CacheModel.cache_run. now rewrite fold_left_app. Qed.
  Lemma slice_snoc : forall h (o : cache_op A), slice_after (h ++ [o]) = slice_step (slice_after h) o.
  Proof. intros h o. unfold slice_after. now rewrite fold_left_app. Qed.

  (** *** Soundness: in every state *)
  Lemma lookup_sound_state : forall name s i, fst (lookup name s) = Some i -> at_position (objects s) name i.
  Proof.
    intros name s i. unfold CacheModel.lookup.
    destruct (_ && _); [discriminate|]. destruct (mget _ _) as [j|]; [|discriminate].
    destruct (nth_error _ _) as [a|] eqn:E; [|discriminate].
    destruct (negb _ || _) eqn:F; [discriminate|]. cbn [fst]. intros H. assert (j = i) by congruence. subst.
    apply Bool.orb_false_iff in F. destruct F as [F1 F2]. exists a. repeat split; auto.
    apply beqb_eq. now destruct (beqb (name_of a) name).
  Qed.

  (** *** Completeness *)
  Definition fresh (s : cached A) : Prop :=
    forall name i, last_position (objects s) name i -> mget name (positions s) = Some i.

  Lemma refresh_from_other : forall l i m name,
    (forall j a, nth_error l j = Some a -> name_of a = name -> ignored a = true) ->
    mget name (refresh_from i l m) = mget name m.
  Proof.
    induction l as [|a l IH]; intros i m name H; [reflexivity|]. cbn [CacheModel.refresh_from].
    rewrite IH by (intros j b; apply (H (S j) b)).
    destruct (ignored a) eqn:I; [reflexivity|]. apply mget_mset_other. intros E. symmetry in E.
    rewrite (H 0 a eq_refl E) in I. discriminate.
  Qed.
  Lemma refresh_from_last : forall l i m name j,
    last_position l name j -> mget name (refresh_from i l m) = Some (i + j).
  Proof.
    induction l as [|a l IH]; intros i m name j [[b (Hb & Hn & Hi)] HL]; [destruct j; discriminate|].
    cbn [CacheModel.refresh_from]. destruct j as [|j].
    - cbn [nth_error] in Hb. assert (a = b) by congruence. subst b. rewrite Hi.
      rewrite refresh_from_other.
      + rewrite Hn, mget_mset_same. f_equal. lia.
      + intros k c Hk E. destruct (ignored c) eqn:I; [reflexivity|].
        assert (S k <= 0) by (apply HL; exists c; auto). lia.
    - rewrite (IH (S i) _ name j); [f_equal; lia|]. split; [exists b; auto|].
      intros k [c Hc]. assert (S k <= S j) by (apply HL; exists c; auto). lia.
  Qed.
  Lemma refresh_fresh : forall s, fresh (refresh name_of ignored s).
  Proof.
    intros s name i H. cbn [refresh objects positions] in *.
    now rewrite (refresh_from_last _ 0 _ _ i H).
  Qed.
  Lemma append_fresh : forall a s, fresh s -> (ignored a = false \/ absent (objects s) (name_of a)) ->
    fresh (snd (append name_of a s)).
  Proof.
    intros a s F H name i [[b (Hb & Hn & Hi)] HL]. cbn [append snd objects positions] in *.
    rewrite app_length in *. cbn [length] in *.
    assert (LEN : length (objects s) + 1 - 1 = length (objects s)) by lia. rewrite LEN.
    destruct (Nat.lt_trichotomy i (length (objects s))) as [L|[L|L]].
    - rewrite nth_error_app1 in Hb by exact L.
      assert (NE : name <> name_of a).
      { intros E. destruct H as [H|H].
        - assert (length (objects s) <= i); [|lia]. apply HL. exists a. rewrite nth_error_app2, Nat.sub_diag by lia. auto.
        - apply (H i). exists b. rewrite <- E. auto. }
      rewrite mget_mset_other by exact NE. apply F. split; [exists b; auto|].
      intros j [c (Hc & Hc2)]. apply HL. exists c. split; [|exact Hc2]. rewrite nth_error_app1; [exact Hc|].
      apply nth_error_Some. congruence.
    - subst i. rewrite nth_error_app2, Nat.sub_diag in Hb by lia. cbn [nth_error] in Hb.
      assert (a = b) by congruence. subst b. rewrite <- Hn. apply mget_mset_same.
    - rewrite nth_error_app2 in Hb by lia. destruct (i - length (objects s)) as [|k] eqn:E; [lia|].
      cbn [nth_error] in Hb. destruct k; discriminate.
  Qed.
  Lemma in_place_at : forall l l' name i,
    Forall2 (fun a b => name_of a = name_of b /\ ignored a = ignored b) l l' ->
    at_position l' name i -> at_position l name i.
  Proof.
    intros l l' name i F. revert i. induction F as [|a b l l' H F IH]; intros i [c (Hc & Hn & Hi)].
    - destruct i; discriminate.
    - destruct i as [|i].
      + cbn [nth_error] in Hc. assert (b = c) by congruence. subst c. exists a. destruct H. repeat split; congruence.
      + destruct (IH i) as [d Hd]; [exists c; auto|]. exists d. auto.
  Qed.
  Lemma in_place_at_inv : forall l l' name i,
    Forall2 (fun a b => name_of a = name_of b /\ ignored a = ignored b) l l' ->
    at_position l name i -> at_position l' name i.
  Proof.
    intros l l' name i F. revert i. induction F as [|a b l l' H F IH]; intros i [c (Hc & Hn & Hi)].
    - destruct i; discriminate.
    - destruct i as [|i].
      + cbn [nth_error] in Hc. assert (a = c) by congruence. subst c. exists b. destruct H. repeat split; congruence.
      + destruct (IH i) as [d Hd]; [exists c; auto|]. exists d. auto.
  Qed.
  Lemma edit_fresh : forall l s, fresh s ->
    Forall2 (fun a b => name_of a = name_of b /\ ignored a = ignored b) (objects s) l -> fresh (edit l s).
  Proof.
    intros l s F H name i [H1 H2]. cbn [edit objects positions] in *. apply F. split.
    - eapply in_place_at; eassumption.
    - intros j Hj. apply H2. eapply in_place_at_inv; eassumption.
  Qed.
  Lemma lookup_fresh : forall name s, fresh s -> fresh (snd (lookup name s)).
  Proof.
    intros name s F name' i H. rewrite lookup_objects in H. specialize (F name' i H).
    unfold CacheModel.lookup. destruct (_ && _); [exact F|]. destruct (mget name (positions s)) as [j|] eqn:E; [|exact F].
    destruct H as [[b (Hb & Hn & Hi)] _].
    destruct (nth_error (objects s) j) as [a|] eqn:N.
    - destruct (negb (beqb (name_of a) name) || ignored a) eqn:G; [|exact F].
      cbn [snd positions]. rewrite mget_mdel. destruct (beqb name' name) eqn:B; [|exact F].
      apply beqb_eq in B. assert (i = j) by congruence. subst j.
      assert (a = b) by congruence. subst b. rewrite Hi, Hn, B in G. rewrite (proj2 (beqb_eq name name) eq_refl) in G. discriminate.
    - cbn [snd positions]. rewrite mget_mdel. destruct (beqb name' name) eqn:B; [|exact F].
      apply beqb_eq in B. assert (i = j) by congruence. subst j. congruence.
  Qed.
  Lemma run_fresh : forall h, up_to_date h -> fresh (cache_run h).
  Proof.
    induction 1 as [|h a U IH H|h l U IH H|h|h name U IH]; try rewrite run_snoc; cbn [cache_step].
    - intros name i [[a (Ha & _)] _]. destruct i; discriminate.
    - apply append_fresh; [exact IH|]. now rewrite run_objects.
    - apply edit_fresh; [exact IH|]. now rewrite run_objects.
    - apply refresh_fresh.
    - now apply lookup_fresh.
  Qed.

  Lemma at_position_dec : forall l name, (exists i, last_position l name i) \/ absent l name.
  Proof.
    intros l name. induction l as [|a l IH] using rev_ind.
    - right. intros i [b (Hb & _)]. destruct i; discriminate.
    - destruct (Bool.bool_dec (beqb (name_of a) name && negb (ignored a)) true) as [E|E].
      + left. exists (length l). apply andb_prop in E. destruct E as [E1 E2]. apply beqb_eq in E1.
        split.
        * exists a. rewrite nth_error_app2, Nat.sub_diag by lia. repeat split; auto. now destruct (ignored a).
        * intros j [b (Hb & _)]. assert (j < length (l ++ [a])) by (apply nth_error_Some; congruence).
          rewrite app_length in *. cbn [length] in *. lia.
      + assert (X : forall i, at_position (l ++ [a]) name i <-> at_position l name i).
        { intros i. split; intros [b (Hb & Hn & Hi)].
          - destruct (Nat.lt_ge_cases i (length l)) as [L|L].
            + rewrite nth_error_app1 in Hb by exact L. exists b. auto.
            + exfalso. rewrite nth_error_app2 in Hb by exact L. destruct (i - length l) as [|k]; [|destruct k; discriminate].
              cbn [nth_error] in Hb. assert (a = b) by congruence. subst b. apply E.
              rewrite Hi, Hn. now rewrite (proj2 (beqb_eq name name) eq_refl).
          - exists b. split; [|auto]. rewrite nth_error_app1; [exact Hb|]. apply nth_error_Some. congruence. }
        destruct IH as [[i [H1 H2]]|H].
        * left. exists i. split; [now apply X|]. intros j Hj. apply H2. now apply X.
        * right. intros i Hi. apply X in Hi. now apply (H i).
  Qed.
  Lemma lookup_complete_state : forall name s i, fresh s -> name <> [] \/ allow_empty = true ->
    last_position (objects s) name i -> fst (lookup name s) = Some i.
  Proof.
    intros name s i F NE H. pose proof (F name i H) as E. unfold CacheModel.lookup.
    assert (X : is_empty name && negb allow_empty = false).
    { destruct NE as [NE|NE]; [destruct name; [congruence|reflexivity]|]. rewrite NE. now destruct (is_empty name). }
    rewrite X, E. destruct H as [[a (Ha & Hn & Hi)] _]. rewrite Ha, Hn, Hi, (proj2 (beqb_eq name name) eq_refl). reflexivity.
  Qed.
  Lemma lookup_exact_state : forall name s, fresh s -> name <> [] \/ allow_empty = true ->
    (forall i, fst (lookup name s) = Some i <-> last_position (objects s) name i) /\
    (fst (lookup name s) = None <-> absent (objects s) name).
  Proof.
    intros name s F NE. destruct (at_position_dec (objects s) name) as [[i H]|H].
    - pose proof (lookup_complete_state name s i F NE H) as E. rewrite E. split.
      + intros j. split.
        * intros X. assert (i = j) by congruence. now subst.
        * intros [H1 H2]. destruct H as [H3 H4]. f_equal. apply Nat.le_antisymm; auto.
      + split; [discriminate|]. intros X. destruct H as [H _]. now apply X in H.
    - assert (E : fst (lookup name s) = None).
      { destruct (fst (lookup name s)) as [i|] eqn:E; [|reflexivity]. apply lookup_sound_state in E. now apply H in E. }
      rewrite E. split; [|tauto]. intros i. split; [discriminate|]. intros [X _]. now apply H in X.
  Qed.
End Pf.
