(** * LoadDefault: default values *)
From Coq Require Import Lia.
From Verif Require Import GoBase GoBaseFacts QuoteModel DdlModel LoadModel SpecT.

Lemma last_byte_app : forall s c, last_byte (s ++ [c]) = c.
Proof. intros s c. unfold last_byte. apply last_last. Qed.
Lemma enclosed_spec : forall o c s, enclosed o c s = true <-> exists a, s = [o] ++ a ++ [c].
Proof.
  intros o c s. unfold enclosed. split.
  - destruct s as [|x [|y s]]; try discriminate. intros H. apply andb_prop in H. destruct H as [H1 H2]. apply Ascii.eqb_eq in H1, H2. subst x.
    assert (N : y :: s <> []) by discriminate. destruct (exists_last N) as (a & z & E). exists a. rewrite E in *.
    change (o :: a ++ [z]) with ((o :: a) ++ [z]) in H2. rewrite last_byte_app in H2. now subst z.
  - intros [a ->]. cbn [app]. destruct (a ++ [c]) as [|y r] eqn:E; [destruct a; discriminate|]. rewrite Ascii.eqb_refl.
    rewrite <- E. change (o :: a ++ [c]) with ((o :: a) ++ [c]). rewrite last_byte_app, Ascii.eqb_refl. reflexivity.
Qed.
Section Numeric.
  Context (numeric : bytes -> bool).
  Lemma keywords_spec : forall s l, existsb (equal_fold s) l = true <-> exists w, In w l /\ equal_fold s w = true.
  Proof. intros s l. rewrite existsb_exists. reflexivity. Qed.
  Lemma constant_spec : forall s, constant_text numeric s <->
    enclosed "'" "'" s || existsb (equal_fold s) constant_words || numeric s = true.
  Proof.
    intros s. unfold constant_text, quoted_text. rewrite !orb_true_iff, keywords_spec, enclosed_spec.
    change keywords with constant_words. split; [intros [H|[H|H]]; auto|intros [[H|H]|H]; auto].
  Qed.
  Lemma needs_spec : forall s, needs_brackets numeric s = false <-> constant_text numeric s \/ null_text s \/ bracketed s.
  Proof.
    intros s. unfold needs_brackets, null_text, bracketed. rewrite constant_spec, negb_false_iff, existsb_app. cbn [existsb].
    rewrite orb_false_r, !orb_true_iff, !(enclosed_spec "("). cbn [app].
    split; [intros [[[H|[H|H]]|H]|H]; auto|intros [[[H|H]|H]|[H|H]]; auto].
  Qed.
  Lemma needs_wrapped : forall s, needs_brackets numeric (B "(" ++ s ++ B ")") = false.
  Proof. intros s. apply needs_spec. right. right. now exists s. Qed.
  Lemma needs_quoted : forall s, needs_brackets numeric (B "'" ++ s ++ B "'") = false.
  Proof. intros s. apply needs_spec. left. left. now exists s. Qed.
End Numeric.
