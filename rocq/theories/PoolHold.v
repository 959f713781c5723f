(** * PoolHold: calls that hold several pooled objects at once *)
From Coq Require Import Lia.
From Verif Require Import GoBase GoBaseFacts QuoteModel SprintModel PoolModel SpecPool PoolFacts.

Section Hold.
  Context {Q A J : Type}.
  Notation prog := (prog Q A J).
  Notation event := (event Q A J).

  Definition holds (x : nat) (os : list obj) (s : locals) : Prop := forall i o, nth_error os i = Some o -> s (x + i) = Some o.
  (** The objects held are those of the variables [x], [x+1], ...; deeper
      variables are free. *)
  Definition holding {R} (x : nat) (os : list obj) (p : prog R) (P : R -> list obj -> list event -> Prop) : Prop :=
    forall s, holds x os s -> (forall y, x + length os <= y -> s y = None) ->
      wp p s (fun r s' t => exists os', length os' = length os /\ holds x os' s' /\
        (forall y, y < x \/ x + length os <= y -> s' y = s y) /\ P r os' t).

  Lemma holding_ret {R} x os (r : R) (P : R -> list obj -> list event -> Prop) : P r os [] -> holding x os (Ret r) P.
  Proof. intros H s E Z. cbn. exists os. now repeat split. Qed.
  Lemma holding_mono {R} x os (p : prog R) (P P' : R -> list obj -> list event -> Prop) :
    (forall r os' t, P r os' t -> P' r os' t) -> holding x os p P -> holding x os p P'.
  Proof.
    intros M W s E Z. eapply wp_mono; [|exact (W s E Z)]. cbn. intros r s' t (os' & L & H & F & K). exists os'. auto.
  Qed.
  Lemma nth_error_list_set {T} (l : list T) : forall i (v : T) j, nth_error (list_set l i v) j =
    if Nat.eqb i j then option_map (fun _ => v) (nth_error l j) else nth_error l j.
  Proof.
    induction l as [|a l IH]; intros [|i] v [|j]; cbn; try reflexivity.
    - now destruct (Nat.eqb i j).
    - apply IH.
  Qed.
  Lemma list_set_length {T} (l : list T) : forall i (v : T), length (list_set l i v) = length l.
  Proof. induction l as [|a l IH]; intros [|i] v; cbn; auto. Qed.
  Lemma holds_set x os s i v o : holds x os s -> nth_error os i = Some o -> holds x (list_set os i v) (upd s (x + i) (Some v)).
  Proof.
    intros H E j o' Ej. rewrite nth_error_list_set in Ej. destruct (Nat.eqb i j) eqn:Eij.
    - apply Nat.eqb_eq in Eij. subst j. rewrite E in Ej. cbn in Ej. injection Ej as <-. apply upd_same.
    - apply Nat.eqb_neq in Eij. rewrite upd_other by lia. now apply H.
  Qed.
  Lemma holding_upd {R} x os i o v (p : prog R) P s : nth_error os i = Some o ->
    holding x (list_set os i v) p P -> holds x os s -> (forall y, x + length os <= y -> s y = None) ->
    wp p (upd s (x + i) (Some v)) (fun r s' t => exists os', length os' = length os /\ holds x os' s' /\
        (forall y, y < x \/ x + length os <= y -> s' y = s y) /\ P r os' t).
  Proof.
    intros E W H Z. assert (Li : i < length os) by (apply nth_error_Some; congruence).
    eapply wp_mono; [|apply W].
    - cbn. intros r s' t (os' & L & H' & F & K). rewrite list_set_length in *. exists os'. split; [exact L|]. split; [exact H'|].
      split; [|exact K]. intros y Ly. rewrite F by exact Ly. apply upd_other. lia.
    - eapply holds_set; eauto.
    - intros y Ly. rewrite list_set_length in Ly. rewrite upd_other by lia. now apply Z.
  Qed.
  Lemma holding_write {R} x os i o b (p : prog R) P y : nth_error os i = Some o -> y = x + i ->
    holding x (list_set os i (fst o ++ b, snd o)) p P -> holding x os (Write y b p) P.
  Proof. intros E -> W s H Z. cbn. exists o. split; [now apply H|]. eapply holding_upd; eauto. Qed.
  Lemma holding_args {R} x os i o l (p : prog R) P y : nth_error os i = Some o -> y = x + i ->
    holding x (list_set os i (fst o, l)) p P -> holding x os (Args y l p) P.
  Proof. intros E -> W s H Z. cbn. exists o. split; [now apply H|]. eapply holding_upd; eauto. Qed.
  Lemma holding_reset {R} x os i o (p : prog R) P y : nth_error os i = Some o -> y = x + i ->
    holding x (list_set os i blank) p P -> holding x os (Reset y p) P.
  Proof. intros E -> W s H Z. cbn. exists o. split; [now apply H|]. eapply holding_upd; eauto. Qed.
  Lemma holding_read {R} x os i o (p : obj -> prog R) P y : nth_error os i = Some o -> y = x + i ->
    holding x os (p o) P -> holding x os (Read y p) P.
  Proof. intros E -> W s H Z. cbn. exists o. split; [now apply H|]. now apply W. Qed.
  Lemma holding_ask {R} x os q (p : A -> prog R) P :
    (forall a, holding x os (p a) (fun r os' t => P r os' (Asked q a :: t))) -> holding x os (Ask q p) P.
  Proof. intros W s H Z. cbn. intros a. exact (W a s H Z). Qed.
  Lemma holding_spawn {R} x os j (p : prog R) P :
    holding x os p (fun r os' t => P r os' (Spawned j :: t)) -> holding x os (Spawn j p) P.
  Proof. intros W s H Z. cbn. exact (W s H Z). Qed.
  Lemma holding_bind {R S} x os (p : prog R) P (f : R -> prog S) P' :
    holding x os p P ->
    (forall r os' t, length os' = length os -> P r os' t -> holding x os' (f r) (fun r' os'' t' => P' r' os'' (t ++ t'))) ->
    holding x os (bind p f) P'.
  Proof.
    intros W K s H Z. apply wp_bind. eapply wp_mono; [|exact (W s H Z)]. cbn. intros r s' t (os' & L & H' & F & Pr).
    eapply wp_mono; [|apply (K r os' t L Pr s' H')].
    - cbn. intros r' s'' t' (os'' & L2 & H2 & F2 & Pr2). exists os''. split; [lia|]. split; [exact H2|]. split; [|exact Pr2].
      intros y Ly. rewrite F2 by lia. now apply F.
    - intros y Ly. rewrite F by lia. apply Z. lia.
  Qed.
  Lemma holding_helper {R S} x os hi (p : prog R) P (f : R -> prog S) P' : hi = x + length os ->
    helper hi p P -> (forall r t, P r t -> holding x os (f r) (fun r' os' t' => P' r' os' (t ++ t'))) ->
    holding x os (bind p f) P'.
  Proof.
    intros -> H K s E Z. eapply wp_call; [exact H|exact Z|]. intros r t s' Pr Es.
    eapply wp_mono; [|apply (K r t Pr s')].
    - cbn. intros r' s'' t' (os' & L & H1 & F & Pr'). exists os'. split; [exact L|]. split; [exact H1|]. split; [|exact Pr'].
      intros y Ly. rewrite F by exact Ly. apply Es.
    - intros i o Ei. rewrite Es. now apply E.
    - intros y Ly. rewrite Es. now apply Z.
  Qed.

  Lemma wp_gets {R} (k : prog R) P : forall n x s, (forall y, x <= y -> s y = None) ->
    (forall s', holds x (repeat blank n) s' -> (forall y, y < x \/ x + n <= y -> s' y = s y) -> wp k s' P) ->
    wp (gets x n k) s P.
  Proof.
    induction n as [|n IH]; intros x s Z K; cbn [gets wp].
    - apply K; [|reflexivity]. intros i o E. now rewrite nth_error_nil in E || (destruct i; discriminate).
    - split; [apply Z; lia|]. apply IH.
      + intros y Ly. rewrite upd_other by lia. apply Z. lia.
      + intros s' H F. apply K.
        * intros [|i] o E; cbn [repeat nth_error] in E.
          -- injection E as <-. rewrite F by lia. rewrite Nat.add_0_r. apply upd_same.
          -- rewrite Nat.add_succ_r. apply (H i o E).
        * intros y Ly. rewrite F by lia. apply upd_other. lia.
  Qed.
  Lemma wp_resets {R} (k : prog R) P : forall n x s, (forall i, i < n -> exists o, s (x + i) = Some o) ->
    (forall s', holds x (repeat blank n) s' -> (forall y, y < x \/ x + n <= y -> s' y = s y) -> wp k s' P) ->
    wp (resets x n k) s P.
  Proof.
    induction n as [|n IH]; intros x s Z K; cbn [resets wp].
    - apply K; [|reflexivity]. intros i o E. destruct i; discriminate.
    - destruct (Z 0 ltac:(lia)) as (o & E). rewrite Nat.add_0_r in E. exists o. split; [exact E|]. apply IH.
      + intros i Li. rewrite upd_other by lia. destruct (Z (S i) ltac:(lia)) as (o' & E'). exists o'. rewrite <- E'. f_equal. lia.
      + intros s' H F. apply K.
        * intros [|i] o' E'; cbn [repeat nth_error] in E'.
          -- injection E' as <-. rewrite F by lia. rewrite Nat.add_0_r. apply upd_same.
          -- rewrite Nat.add_succ_r. apply (H i o' E').
        * intros y Ly. rewrite F by lia. apply upd_other. lia.
  Qed.
  Lemma wp_puts {R} (k : prog R) P : forall n x s, holds x (repeat blank n) s ->
    (forall s', (forall y, x <= y < x + n -> s' y = None) -> (forall y, y < x \/ x + n <= y -> s' y = s y) -> wp k s' P) ->
    wp (puts x n k) s P.
  Proof.
    induction n as [|n IH]; intros x s H K; cbn [puts wp].
    - apply K; [intros y Ly; lia|reflexivity].
    - split; [rewrite <- (H 0 blank eq_refl); f_equal; lia|]. apply IH.
      + intros i o E. rewrite upd_other by lia. replace (S x + i) with (x + S i) by lia. now apply H.
      + intros s' E F. apply K.
        * intros y Ly. destruct (Nat.eq_dec y x) as [->|N]; [rewrite F by lia; apply upd_same|]. apply E. lia.
        * intros y Ly. rewrite F by lia. apply upd_other. lia.
  Qed.
  Lemma helper_pooled_n {R} n x (p : prog R) (P : R -> list event -> Prop) :
    holding x (repeat blank n) p (fun r _ t => P r t) -> helper x (pooled_n n x p) P.
  Proof.
    intros W s Z. unfold pooled_n. apply wp_gets; [exact Z|]. intros s1 H1 F1. apply wp_bind.
    eapply wp_mono; [|apply W; [exact H1|]].
    - cbn. intros r s2 t (os & L & H2 & F2 & Pr). rewrite repeat_length in *. apply wp_resets.
      + intros i Li. destruct (nth_error os i) as [o|] eqn:Eo; [|apply nth_error_None in Eo; lia]. exists o. now apply H2.
      + intros s3 H3 F3. apply wp_puts; [exact H3|]. intros s4 E4 F4. cbn. rewrite app_nil_r. split; [|exact Pr].
        intros y. destruct (le_lt_dec x y) as [Lx|Lx].
        * destruct (le_lt_dec (x + n) y) as [Ly|Ly].
          -- rewrite F4, F3, F2, F1 by lia. reflexivity.
          -- rewrite E4 by lia. symmetry. now apply Z.
        * rewrite F4, F3, F2, F1 by lia. reflexivity.
    - intros y Ly. rewrite repeat_length in Ly. rewrite F1 by lia. apply Z. lia.
  Qed.
End Hold.

Section More.
  Context {Q A J : Type}.
  Notation prog := (prog Q A J).
  Notation event := (event Q A J).
  (** A call that works on the last of the objects only. *)
  Lemma holding_frame {R} x pre os (p : prog R) P y : y = x + length pre ->
    holding y os p P -> holding x (pre ++ os) p (fun r os' t => exists os2, os' = pre ++ os2 /\ length os2 = length os /\ P r os2 t).
  Proof.
    intros -> W s H Z. rewrite app_length in *. eapply wp_mono; [|apply W].
    - cbn. intros r s' t (os' & L & H' & F & K). exists (pre ++ os'). split; [rewrite !app_length; lia|]. split; [|split].
      + intros i o E. destruct (le_lt_dec (length pre) i) as [Li|Li].
        * rewrite nth_error_app2 in E by exact Li. replace (x + i) with (x + length pre + (i - length pre)) by lia. now apply H'.
        * rewrite F by lia. apply H. rewrite nth_error_app1 in * by exact Li. exact E.
      + intros y Ly. apply F. lia.
      + exists os'. now split.
    - intros i o E. replace (x + length pre + i) with (x + (length pre + i)) by lia. apply H.
      rewrite nth_error_app2 by lia. replace (length pre + i - length pre) with i by lia. exact E.
    - intros y Ly. apply Z. lia.
  Qed.
  (** A call that works on one of them. *)
  Lemma holding_working {R} x os i o (p : prog R) P y hi : nth_error os i = Some o -> y = x + i -> hi = x + length os ->
    working y hi o p P -> holding x os p (fun r os' t => exists o', os' = list_set os i o' /\ P r o' t).
  Proof.
    intros E -> -> W s H Z. eapply wp_mono; [|apply W; [now apply H|exact Z]].
    assert (Li : i < length os) by (apply nth_error_Some; congruence).
    cbn. intros r s' t (o' & E1 & F & K). exists (list_set os i o'). split; [apply list_set_length|]. split; [|split].
    - intros j o2 Ej. rewrite nth_error_list_set in Ej. destruct (Nat.eqb i j) eqn:Eij.
      + apply Nat.eqb_eq in Eij. subst j. rewrite E in Ej. cbn in Ej. injection Ej as <-. exact E1.
      + apply Nat.eqb_neq in Eij. rewrite F by lia. now apply H.
    - intros y Ly. apply F. lia.
    - now exists o'.
  Qed.
End More.
