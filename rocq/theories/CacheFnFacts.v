(** * CacheFnFacts: proofs for C29, functions *)
From Coq Require Import Lia Sorted.
From Verif Require Import GoBase GoBaseFacts CacheModel SpecCache.

Section Pf.
  Context {A : Type} (name_of : A -> bytes) (ignored : A -> bool).
  Notation at_position := (at_position name_of ignored).
  Notation up_to_date := (up_to_date name_of ignored).
  Notation fcache_run := (fcache_run name_of ignored).
  Notation frefresh_from := (frefresh_from name_of ignored).

  Definition hit (l : list A) (name : bytes) (i : nat) : bool :=
    match nth_error l i with Some a => beqb (name_of a) name && negb (ignored a) | None => false end.
  Definition hits (l : list A) (name : bytes) : list nat := filter (hit l name) (seq 0 (length l)).

  Lemma hit_iff : forall l name i, hit l name i = true <-> at_position l name i.
  Proof.
    intros l name i. unfold hit. split.
    - destruct (nth_error l i) as [a|] eqn:E; [|discriminate]. intros H. apply andb_prop in H. destruct H as [H1 H2].
      exists a. apply beqb_eq in H1. repeat split; auto. now destruct (ignored a).
    - intros [a (Ha & Hn & Hi)]. rewrite Ha, Hi, Hn, (proj2 (beqb_eq name name) eq_refl). reflexivity.
  Qed.
  Lemma hits_in : forall l name i, In i (hits l name) <-> at_position l name i.
  Proof.
    intros l name i. unfold hits. rewrite filter_In, hit_iff. split; [tauto|]. intros H. split; [|exact H].
    apply in_seq. destruct H as [a (Ha & _)]. assert (i < length l) by (apply nth_error_Some; congruence). lia.
  Qed.
  Lemma seq_sorted : forall n i, StronglySorted lt (seq i n).
  Proof.
    induction n as [|n IH]; intros i; constructor; [apply IH|].
    apply Forall_forall. intros x H. apply in_seq in H. lia.
  Qed.
  Lemma filter_sorted : forall (f : nat -> bool) l, StronglySorted lt l -> StronglySorted lt (filter f l).
  Proof.
    induction 1 as [|a l H IH F]; [constructor|]. cbn [filter]. destruct (f a); [|exact IH].
    constructor; [exact IH|]. apply Forall_forall. intros x Hx. apply filter_In in Hx.
    rewrite Forall_forall in F. now apply F.
  Qed.
  Lemma hits_sorted : forall l name, StronglySorted lt (hits l name).
  Proof. intros l name. apply filter_sorted, seq_sorted. Qed.

  Lemma hits_snoc : forall l a name,
    hits (l ++ [a]) name = hits l name ++ (if beqb (name_of a) name && negb (ignored a) then [length l] else []).
  Proof.
    intros l a name. unfold hits. rewrite app_length. cbn [length]. rewrite seq_app, filter_app. f_equal.
    - apply filter_ext_in. intros i H. apply in_seq in H. unfold hit. rewrite nth_error_app1 by lia. reflexivity.
    - cbn [seq filter Nat.add]. unfold hit. rewrite nth_error_app2, Nat.sub_diag by lia. cbn [nth_error]. reflexivity.
  Qed.

  Definition ffresh (s : fcached A) : Prop :=
    forall name, fget name (fpositions s) = hits (fobjects s) name.

  Lemma fget_mset : forall name name' v m, fget name (mset name' v m) = if beqb name name' then v else fget name m.
  Proof. intros. unfold fget. rewrite mget_mset. destruct (beqb _ _); reflexivity. Qed.
  Lemma frefresh_from_app : forall l1 l2 i m,
    frefresh_from i (l1 ++ l2) m = frefresh_from (i + length l1) l2 (frefresh_from i l1 m).
  Proof.
    induction l1 as [|a l1 IH]; intros l2 i m; cbn [app CacheModel.frefresh_from length].
    - now rewrite Nat.add_0_r.
    - rewrite IH. f_equal. lia.
  Qed.
  Lemma frefresh_hits : forall l m name, (forall n, fget n m = []) ->
    fget name (frefresh_from 0 l m) = hits l name.
  Proof.
    induction l as [|a l IH] using rev_ind; intros m name E; [apply E|].
    rewrite frefresh_from_app, hits_snoc. cbn [CacheModel.frefresh_from Nat.add].
    destruct (ignored a).
    - rewrite Bool.andb_false_r, app_nil_r. now apply IH.
    - rewrite Bool.andb_true_r, fget_mset. destruct (beqb name (name_of a)) eqn:B.
      + apply beqb_eq in B. rewrite <- B, (proj2 (beqb_eq name name) eq_refl). f_equal. now apply IH.
      + destruct (beqb (name_of a) name) eqn:B2.
        * apply beqb_eq in B2. rewrite B2, (proj2 (beqb_eq name name) eq_refl) in B. discriminate.
        * rewrite app_nil_r. now apply IH.
  Qed.
  Lemma emptied : forall (m : list (bytes * list nat)) n, fget n (map (fun kv => (fst kv, [])) m) = [].
  Proof.
    intros m n. unfold fget. induction m as [|[k v] m IH]; [reflexivity|]. cbn [map mget fst].
    destruct (beqb n k); [reflexivity|exact IH].
  Qed.
  Lemma frefresh_fresh : forall s, ffresh (frefresh name_of ignored s).
  Proof. intros s name. cbn [frefresh fpositions fobjects]. apply frefresh_hits. intros n. apply emptied. Qed.
  Lemma fappend_fresh : forall a s, ffresh s -> ignored a = false -> ffresh (snd (fappend name_of a s)).
  Proof.
    intros a s F I name. cbn [fappend snd fpositions fobjects]. rewrite hits_snoc, I, Bool.andb_true_r, fget_mset.
    rewrite app_length. cbn [length]. replace (length (fobjects s) + 1 - 1) with (length (fobjects s)) by lia.
    destruct (beqb name (name_of a)) eqn:B.
    - apply beqb_eq in B. rewrite <- B, (proj2 (beqb_eq name name) eq_refl). now rewrite F.
    - destruct (beqb (name_of a) name) eqn:B2.
      + apply beqb_eq in B2. rewrite B2, (proj2 (beqb_eq name name) eq_refl) in B. discriminate.
      + now rewrite app_nil_r.
  Qed.
  Lemma flookup_objects : forall name s, fobjects (snd (flookup name_of name s)) = fobjects s.
  Proof.
    intros name s. unfold flookup. destruct (is_empty name); [reflexivity|].
    destruct (mget _ _); [|reflexivity]. cbn [snd]. reflexivity.
  Qed.
  Lemma filter_all {T} (f : T -> bool) l : forallb f l = true -> filter f l = l.
  Proof.
    induction l as [|a l IH]; [reflexivity|]. cbn [forallb filter]. destruct (f a); [|discriminate].
    cbn [andb]. intros H. f_equal. now apply IH.
  Qed.
  Lemma flookup_state : forall name s, ffresh s -> name <> [] ->
    fst (flookup name_of name s) = hits (fobjects s) name /\ snd (flookup name_of name s) = s.
  Proof.
    intros name s F NE. pose proof (F name) as E. unfold fget in E. unfold flookup.
    destruct name as [|c name0]; [congruence|]. cbn [is_empty]. set (name := c :: name0) in *.
    destruct (mget name (fpositions s)) as [l|] eqn:M; [|now split].
    assert (X : forallb (fun n => match nth_error (fobjects s) n with Some a => beqb (name_of a) name | None => false end) l = true).
    { apply forallb_forall. intros n H. rewrite E in H. apply hits_in in H. destruct H as [a (Ha & Hn & _)].
      rewrite Ha, Hn. apply beqb_eq. reflexivity. }
    cbn [fst snd]. rewrite (filter_all _ _ X), X. split; [exact E|]. now destruct s.
  Qed.
  Lemma frun_objects : forall h, fobjects (fcache_run h) = slice_after h.
  Proof.
    intros h. unfold CacheModel.fcache_run, slice_after. change (@nil A) with (fobjects (@fcached_new A)).
    generalize (@fcached_new A). induction h as [|o h IH]; intros s; [reflexivity|].
    cbn [fold_left]. rewrite IH. f_equal. destruct o; try reflexivity. apply flookup_objects.
  Qed.
  Lemma frun_snoc : forall h o, fcache_run (h ++ [o]) = fcache_step name_of ignored (fcache_run h) o.
  Proof. intros h o. unfold CacheModel.fcache_run. now rewrite fold_left_app. Qed.
  Lemma hit_in_place : forall l l' name i,
    Forall2 (fun a b => name_of a = name_of b /\ ignored a = ignored b) l l' -> hit l' name i = hit l name i.
  Proof.
    intros l l' name i F. unfold hit. revert i. induction F as [|a b l l' H F IH]; intros i; [reflexivity|].
    destruct i as [|i]; cbn [nth_error]; [|apply IH]. destruct H as [H1 H2]. now rewrite H1, H2.
  Qed.
  Lemma frun_fresh : forall h, up_to_date h -> (forall a, In (OAppend a) h -> ignored a = false) -> ffresh (fcache_run h).
  Proof.
    induction 1 as [|h a U IH H|h l U IH H|h|h name U IH]; intros N; try rewrite frun_snoc; cbn [fcache_step].
    - intros name. reflexivity.
    - apply fappend_fresh; [|apply N, in_or_app; right; now left]. apply IH. intros b Hb. apply N, in_or_app. now left.
    - intros name. cbn [fedit fpositions fobjects]. rewrite IH by (intros b Hb; apply N, in_or_app; now left).
      rewrite frun_objects. unfold hits.
      assert (L : length l = length (slice_after h)) by (symmetry; clear - H; induction H; cbn [length]; congruence).
      rewrite L. apply filter_ext. intros i. symmetry. now apply hit_in_place.
    - apply frefresh_fresh.
    - assert (F : ffresh (fcache_run h)) by (apply IH; intros b Hb; apply N, in_or_app; now left).
      destruct name as [|c name]; [exact F|]. destruct (flookup_state (c :: name) _ F) as [_ E]; [discriminate|].
      now rewrite E.
  Qed.
End Pf.
