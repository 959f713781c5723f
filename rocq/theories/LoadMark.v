(** * LoadMark: marking the key columns; a whole table *)
From Coq Require Import Lia.
From Verif Require Import GoBase GoBaseFacts QuoteModel CacheModel SpecCache CacheFacts UpsertModel TokenModel NameModel DdlModel LoadModel SpecLoad LoadFacts LoadPf LoadColumn LoadTable.

Lemma set_unique : forall A N (f : A -> N) (g : A -> A) l i a, NoDup (map f l) -> nth_error l i = Some a ->
  (forall b, In b l -> f b <> f a -> g b = b) -> list_set l i (g a) = map g l.
Proof.
  intros A N f g. induction l as [|b l IH]; intros i a D E H; [destruct i; discriminate|].
  cbn [map] in *. inversion D as [|? ? D1 D2]; subst. destruct i as [|i].
  - cbn [nth_error] in E. injection E as ->. cbn [list_set]. f_equal.
    rewrite <- map_id at 1. apply map_ext_in. intros c I. symmetry. apply H; [now right|]. intros X. apply D1. rewrite <- X. now apply in_map.
  - cbn [nth_error list_set] in *. f_equal.
    + symmetry. apply H; [now left|]. intros X. apply D1. rewrite X. apply in_map. now apply nth_error_In with i.
    + apply IH; auto. intros c I. apply H. now right.
Qed.
Lemma mark_name : forall ks l, l_name (mark ks l) = l_name l.
Proof. intros ks l. unfold mark. now destruct (l_ignore l). Qed.
Lemma mark_ignore : forall ks l, l_ignore (mark ks l) = l_ignore l.
Proof. intros ks l. unfold mark. destruct (l_ignore l) eqn:E; [exact E|reflexivity]. Qed.
Lemma mark_nil : forall l, mark [] l = l.
Proof. intros l. unfold mark. destruct (l_ignore l) eqn:E; [reflexivity|]. destruct l. cbn in *. now rewrite !orb_false_r, E. Qed.
Lemma mark_cons : forall c ks l, mark ks (mark [c] l) = mark (c :: ks) l.
Proof.
  intros c ks l. unfold mark at 1. rewrite mark_ignore, mark_name. unfold mark. destruct (l_ignore l); [reflexivity|].
  cbn [l_schema l_table l_name l_type l_identity l_autoincrement l_not_null l_unique l_primary_key l_on_update l_generated l_stored l_collation l_default l_ignore].
  unfold alone. cbn [existsb]. now rewrite !orb_false_r, !orb_assoc.
Qed.
Lemma mark_other : forall c l, (forall n, c_columns c = [n] -> n <> l_name l) -> mark [c] l = l.
Proof.
  intros c l H. unfold mark. destruct (l_ignore l) eqn:E; [reflexivity|]. unfold alone. cbn [existsb].
  assert (M : match c_columns c with [n] => beqb n (l_name l) | _ => false end = false).
  { destruct (c_columns c) as [|n [|]]; try reflexivity. destruct (beqb n (l_name l)) eqn:B1; [|reflexivity]. apply beqb_eq in B1. now destruct (H n eq_refl). }
  rewrite M, !andb_false_r. destruct l. cbn in *. now rewrite !orb_false_r, E.
Qed.
Definition plain_names (ls : list column) : Prop := NoDup (map l_name ls) /\ Forall (fun l => l_name l <> []) ls.
Lemma mark_column_ok : forall cs c, fresh l_name l_ignore cs -> plain_names (objects cs) ->
  objects (mark_column cs c) = map (mark [c]) (objects cs) /\ fresh l_name l_ignore (mark_column cs c).
Proof.
  intros cs c F [D P].
  assert (NO : (forall l, In l (objects cs) -> mark [c] l = l) -> map (mark [c]) (objects cs) = objects cs).
  { intros H. rewrite <- map_id. apply map_ext_in. exact H. }
  unfold mark_column. destruct (c_columns c) as [|n [|n2 ns]] eqn:C.
  1,3: split; [|exact F]; symmetry; apply NO; intros l _; apply mark_other; intros m X; rewrite C in X; discriminate.
  pose proof (lookup_objects l_name l_ignore false n cs) as O. pose proof (lookup_fresh l_name l_ignore false n cs F) as F1.
  assert (X : n = [] \/ n <> []) by (destruct n; [now left|right; discriminate]).
  destruct (lookup l_name l_ignore false n cs) as [r cs1] eqn:L. cbn [snd] in *.
  assert (FL : fst (lookup l_name l_ignore false n cs) = r) by now rewrite L.
  destruct r as [i|].
  - pose proof (lookup_sound_state l_name l_ignore false n cs i FL) as (l & El & Nl & Il). rewrite O, El.
    assert (S : forall g, (forall a, l_name (g a) = l_name a /\ l_ignore (g a) = l_ignore a) -> g l = mark [c] l ->
      objects (edit (list_set (objects cs) i (g l)) cs1) = map (mark [c]) (objects cs) /\ fresh l_name l_ignore (edit (list_set (objects cs) i (g l)) cs1)).
    { intros g G1 G2. cbn [edit objects]. split.
      - rewrite G2. apply (set_unique _ _ l_name (mark [c]) (objects cs) i l D El). intros b I NE. apply mark_other.
        intros m Y. rewrite C in Y. injection Y as <-. congruence.
      - apply edit_fresh; [exact F1|]. rewrite O. clear - El G1. revert i El. induction (objects cs) as [|a os IH]; intros i El; [destruct i; discriminate|].
        destruct i as [|i]; cbn [nth_error list_set] in *.
        + injection El as ->. constructor; [destruct (G1 l); auto|]. clear. induction os; constructor; auto.
        + constructor; [auto|]. now apply IH. }
    assert (M : forall ty, alone ty [c] (l_name l) = beqb (c_type c) ty).
    { intros ty. unfold alone. cbn [existsb]. rewrite C, orb_false_r, <- Nl, beqb_refl. apply andb_true_r. }
    destruct (beqb (c_type c) PRIMARY_KEY) eqn:K1.
    + apply (S (set_column LPrimaryKey)); [intros a; split; reflexivity|]. unfold mark. rewrite Il, !M, K1.
      apply beqb_eq in K1. rewrite K1. change (beqb PRIMARY_KEY UNIQUE) with false. rewrite orb_false_r, orb_true_r. destruct l; cbn in Il |- *; now rewrite Il.
    + destruct (beqb (c_type c) UNIQUE) eqn:K2.
      * apply (S (set_column LUnique)); [intros a; split; reflexivity|]. unfold mark. rewrite Il, !M, K1, K2. rewrite orb_false_r, orb_true_r. destruct l; cbn in Il |- *; now rewrite Il.
      * split; [|exact F1]. rewrite O. symmetry. apply NO. intros b I. unfold mark. destruct (l_ignore b) eqn:Ib; [reflexivity|].
        unfold alone. cbn [existsb]. rewrite K1, K2. cbn [andb orb]. rewrite !orb_false_r. destruct b. cbn in *. now rewrite Ib.
  - split; [|exact F1]. rewrite O. symmetry. apply NO. intros l I.
    destruct (l_ignore l) eqn:Il; [unfold mark; now rewrite Il|]. apply mark_other. intros m Y. rewrite C in Y. injection Y as <-. intros E.
    rewrite Forall_forall in P. pose proof (P l I) as PL.
    assert (N0 : n <> []) by congruence.
    destruct (lookup_exact_state l_name l_ignore false n cs F (or_introl N0)) as [_ [A _]]. specialize (A FL).
    apply In_nth_error in I. destruct I as [j J]. apply (A j). exists l. auto.
Qed.
Lemma mark_columns_ok : forall ks cs, fresh l_name l_ignore cs -> plain_names (objects cs) ->
  objects (fold_left mark_column ks cs) = map (mark ks) (objects cs).
Proof.
  induction ks as [|c ks IH]; intros cs F P; cbn [fold_left].
  - symmetry. rewrite <- map_id. apply map_ext. exact mark_nil.
  - pose proof (mark_column_ok cs c F P) as [O F1]. rewrite IH; [|exact F1|].
    + rewrite O, map_map. apply map_ext. intros l. apply mark_cons.
    + rewrite O. destruct P as [P1 P2]. split.
      * rewrite map_map. erewrite map_ext; [exact P1|]. intros l. apply mark_name.
      * rewrite Forall_map. eapply Forall_impl; [|exact P2]. intros l. cbn. now rewrite mark_name.
Qed.
