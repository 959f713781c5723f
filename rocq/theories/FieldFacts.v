(** * FieldFacts: binary search over the excluded qualifiers *)
From Coq Require Import Lia.
From Verif Require Import GoBase GoBaseFacts QuoteModel SprintModel TokenModel EffectModel RenderModel RenderRel.
Local Open Scope m_scope.

Lemma bltb_irrefl a : bltb a a = false.
Proof. induction a; cbn; auto. now rewrite N.ltb_irrefl. Qed.
Lemma bltb_eq_false (a q : bytes) : a = q -> bltb a q = false.
Proof. intros ->. apply bltb_irrefl. Qed.
Lemma bltb_total a : forall b, bltb a b = false -> bltb b a = false -> a = b.
Proof.
  induction a as [|c a IH]; intros [|d b]; cbn; auto; try discriminate.
  destruct (N.ltb_spec (ord c) (ord d)), (N.ltb_spec (ord d) (ord c)); try discriminate; try lia.
  intros H1 H2. assert (E : ord c = ord d) by lia. apply ord_inj in E. subst. f_equal. auto.
Qed.
Lemma bltb_asym a : forall b, bltb a b = true -> bltb b a = false.
Proof.
  induction a as [|c a IH]; intros [|d b]; cbn; auto; try discriminate.
  destruct (N.ltb_spec (ord c) (ord d)), (N.ltb_spec (ord d) (ord c)); try discriminate; try lia; auto.
Qed.
Lemma bltb_trans a : forall b c, bltb a b = true -> bltb b c = true -> bltb a c = true.
Proof.
  induction a as [|x a IH]; intros [|y b] [|z c]; cbn; auto; try discriminate.
  destruct (N.ltb_spec (ord x) (ord y)), (N.ltb_spec (ord y) (ord x)), (N.ltb_spec (ord y) (ord z)),
    (N.ltb_spec (ord z) (ord y)), (N.ltb_spec (ord x) (ord z)), (N.ltb_spec (ord z) (ord x));
    try discriminate; try lia; auto. apply IH.
Qed.
Lemma bltb_le_trans a b c : bltb b a = false -> bltb c b = false -> bltb c a = false.
Proof.
  intros H1 H2. destruct (bltb c a) eqn:E; auto.
  destruct (bltb a b) eqn:E2.
  - rewrite (bltb_trans c a b) in H2; auto.
  - rewrite (bltb_total a b) in E; auto. congruence.
Qed.

(** Ascending order. *)
Definition ascending (l : list bytes) : Prop :=
  forall i j, i <= j -> j < length l -> bltb (nth j l []) (nth i l []) = false.

Lemma search_loop_spec a x fuel : forall i j,
  ascending a -> j <= length a -> i <= j -> j - i <= fuel ->
  (forall k, k < i -> bltb (nth k a []) x = true) ->
  (forall k, j <= k -> k < length a -> bltb (nth k a []) x = false) ->
  let r := search_loop fuel a x i j in
  r <= length a /\ (forall k, k < r -> bltb (nth k a []) x = true) /\
  (forall k, r <= k -> k < length a -> bltb (nth k a []) x = false).
Proof.
  induction fuel as [|f IH]; intros i j HA Hj Hij Hf HL HR; cbn [search_loop].
  - assert (i = j) by lia. subst. repeat split; auto.
  - destruct (Nat.ltb_spec i j).
    2: { assert (i = j) by lia. subst. repeat split; auto. }
    set (h := Nat.div (i + j) 2).
    assert (Hh : i <= h < j).
    { unfold h. split; [apply Nat.div_le_lower_bound; lia|apply Nat.div_lt_upper_bound; lia]. }
    destruct (bltb (nth h a []) x) eqn:E.
    + apply IH; auto; try lia. intros k Hk. destruct (bltb (nth k a []) x) eqn:EK; auto.
      pose proof (HA k h ltac:(lia) ltac:(lia)) as HK.
      rewrite (bltb_le_trans x (nth k a []) (nth h a [])) in E; auto.
    + apply IH; auto; try lia. intros k Hk Hl. apply (bltb_le_trans x (nth h a [])); auto.
Qed.

Lemma excluded_iff x q : ascending x -> excluded x q = true <-> In q x.
Proof.
  intros HA. unfold excluded, search_strings.
  destruct (search_loop_spec x q (length x) 0 (length x)) as (R1 & R2 & R3); auto; try lia.
  set (r := search_loop (length x) x q 0 (length x)) in *. clearbody r. split.
  - intros H. apply andb_true_iff in H. destruct H as [H1 H2]. apply Nat.ltb_lt in H1. apply beqb_eq in H2.
    rewrite <- H2. now apply nth_In.
  - intros I. apply (In_nth _ _ []) in I. destruct I as (k & Hk & E).
    assert (Hrk : r <= k).
    { destruct (Nat.le_gt_cases r k) as [H|H]; auto. exfalso. discriminate (eq_trans (eq_sym (R2 k H)) (bltb_eq_false _ _ E)). }
    assert (Hr : r < length x) by exact (Nat.le_lt_trans _ _ _ Hrk Hk).
    apply andb_true_iff. split; [now apply Nat.ltb_lt|]. apply beqb_eq. apply bltb_total.
    + apply R3; auto.
    + exact (eq_trans (f_equal (fun z : bytes => bltb z (nth r x [])) (eq_sym E)) (HA r k Hrk Hk)).
Qed.
Lemma ascending_one q : ascending [q].
Proof.
  intros i j H1 H2. cbn in H2. assert (i = 0 /\ j = 0) as [-> ->] by lia. apply bltb_irrefl.
Qed.
