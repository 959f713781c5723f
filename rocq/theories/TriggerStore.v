(** * TriggerStore: finding an object by name, in terms of the list of objects *)
From Coq Require Import Lia.
From Verif Require Import GoBase GoBaseFacts CacheModel SpecCache CacheFacts MigrateModel SpecTrigger TrimPf.

Lemma trimmed_space s core : trimmed s core -> trim_space s = core.
Proof. intros (a & c & b & -> & -> & S & A1 & A2 & A3 & A4). now apply trim_space_spec. Qed.
Lemma nth_split {A} (b : list A) x a : nth_error (b ++ x :: a) (length b) = Some x.
Proof. rewrite nth_error_app2, Nat.sub_diag by lia. reflexivity. Qed.
Lemma set_split {A} (b : list A) x a v : list_set (b ++ x :: a) (length b) v = b ++ v :: a.
Proof. induction b as [|y b IH]; [reflexivity|]. cbn. now rewrite IH. Qed.
Lemma forall2_self {A} (R : A -> A -> Prop) l : (forall x, R x x) -> Forall2 R l l.
Proof. intros H. induction l; constructor; auto. Qed.

Section Split.
  Context {A : Type} (name_of : A -> bytes) (ignored : A -> bool).
  Lemma lookup_split allow name s : fresh name_of ignored s -> name <> [] \/ allow = true ->
    (fst (lookup name_of ignored allow name s) = None /\ forall a, In a (objects s) -> name_of a = name -> ignored a = true) \/
    (exists before old after, objects s = before ++ old :: after /\ fst (lookup name_of ignored allow name s) = Some (length before) /\
       name_of old = name /\ ignored old = false /\ forall a, In a after -> name_of a = name -> ignored a = true).
  Proof.
    intros F N. destruct (lookup_exact_state name_of ignored allow name s F N) as (L1 & L2).
    destruct (fst (lookup name_of ignored allow name s)) as [i|] eqn:E.
    - right. destruct (proj1 (L1 i) eq_refl) as ((old & Eo & No & Io) & L). destruct (nth_error_split _ _ Eo) as (b & a & Es & Lb).
      exists b, old, a. split; [exact Es|]. split; [now subst i|]. split; [exact No|]. split; [exact Io|].
      intros x X Nx. destruct (ignored x) eqn:Ix; [reflexivity|]. exfalso. apply In_nth_error in X. destruct X as (j & Ej).
      assert (i + S j <= i); [|lia]. apply L. exists x. split; [|auto]. rewrite Es, nth_error_app2 by lia. subst i.
      replace (length b + S j - length b) with (S j) by lia. exact Ej.
    - left. split; [reflexivity|]. destruct L2 as (L2 & _). specialize (L2 eq_refl). intros a X Na. destruct (ignored a) eqn:Ia; [reflexivity|].
      apply In_nth_error in X. destruct X as (j & Ej). destruct (L2 j). exists a. auto.
  Qed.
  Lemma split_unique name b b' x x' a a' : b ++ x :: a = b' ++ x' :: a' -> name_of x = name -> ignored x = false -> name_of x' = name -> ignored x' = false ->
    (forall y, In y a -> name_of y = name -> ignored y = true) -> (forall y, In y a' -> name_of y = name -> ignored y = true) -> b = b' /\ x = x' /\ a = a'.
  Proof.
    revert b'. induction b as [|y b IH]; intros b' E N I N' I' H H'; destruct b' as [|y' b']; cbn [app] in E.
    - injection E as -> ->. auto.
    - injection E as -> ->. rewrite (H x') in I'; [discriminate| |exact N']. apply in_or_app. right. now left.
    - injection E as -> <-. rewrite (H' x) in I; [discriminate| |exact N]. apply in_or_app. right. now left.
    - injection E as -> E. destruct (IH b' E N I N' I' H H') as (-> & -> & ->). auto.
  Qed.
End Split.
