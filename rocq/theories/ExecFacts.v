(** * ExecFacts: invariants of the state under the primitive effects *)
From Coq Require Import Lia.
From Verif Require Import GoBase GoBaseFacts QuoteModel SprintModel EffectModel.

(** ** Association lists *)
Lemma mget_mset_same {V} k (v : V) m : mget k (mset k v m) = Some v.
Proof. cbn. now rewrite beqb_refl. Qed.
Lemma mget_mset_other {V} k k' (v : V) m : k <> k' -> mget k (mset k' v m) = mget k m.
Proof. intros H. cbn. destruct (beqb k k') eqn:E; auto. apply beqb_eq in E. contradiction. Qed.
Lemma mget_mdel_same {V} k (m : list (bytes * V)) : mget k (mdel k m) = None.
Proof.
  induction m as [|[k' v] m IH]; cbn; auto. destruct (beqb k k') eqn:E; cbn; auto. now rewrite E.
Qed.
Lemma mget_mdel_other {V} k k' (m : list (bytes * V)) : k <> k' -> mget k (mdel k' m) = mget k m.
Proof.
  intros H. induction m as [|[k2 v] m IH]; cbn; auto.
  destruct (beqb k' k2) eqn:E; cbn.
  - apply beqb_eq in E. subst k2. unfold mdel in IH. rewrite IH. destruct (beqb k k') eqn:E2; auto.
    apply beqb_eq in E2. contradiction.
  - unfold mdel in IH. now rewrite IH.
Qed.
Lemma pget_mset k k' l m : pget k (mset k' l m) = if beqb k k' then l else pget k m.
Proof. unfold pget. cbn. now destruct (beqb k k'). Qed.
Lemma pget_mdel k k' m : pget k (mdel k' m) = if beqb k k' then [] else pget k m.
Proof.
  unfold pget. destruct (beqb k k') eqn:E.
  - apply beqb_eq in E. subst. now rewrite mget_mdel_same.
  - rewrite mget_mdel_other; auto. intros ->. now rewrite beqb_refl in E.
Qed.
Lemma pget_dels k names : forall m,
  pget k (fold_left (fun m n => mdel n m) names m) = [] \/
  (pget k (fold_left (fun m n => mdel n m) names m) = pget k m /\ ~ In k names).
Proof.
  induction names as [|a l IH]; intros m; cbn; auto.
  destruct (IH (mdel a m)) as [H|[H N]]; auto. rewrite H, pget_mdel.
  destruct (beqb k a) eqn:E; auto. right. split; auto. intros [->|I]; auto.
  now rewrite beqb_refl in E.
Qed.
Lemma pget_dels_in k names : forall m, In k names ->
  pget k (fold_left (fun m n => mdel n m) names m) = [].
Proof. intros m I. destruct (pget_dels k names m) as [H|[_ H]]; tauto. Qed.
Lemma pget_dels_notin k names : forall m, ~ In k names ->
  pget k (fold_left (fun m n => mdel n m) names m) = pget k m.
Proof.
  induction names as [|a l IH]; intros m H; cbn; auto.
  rewrite IH by (intros I; apply H; now right). rewrite pget_mdel.
  destruct (beqb k a) eqn:E; auto. apply beqb_eq in E. subst. destruct H. now left.
Qed.

Lemma list_set_length {A} (l : list A) i v : length (list_set l i v) = length l.
Proof. revert i; induction l; intros [|i]; cbn; auto. Qed.
Lemma list_set_same {A} (l : list A) i v : i < length l -> nth_error (list_set l i v) i = Some v.
Proof. revert i; induction l; intros [|i]; cbn; intros; try lia; auto. apply IHl. lia. Qed.
Lemma list_set_other {A} (l : list A) i j v : i <> j -> nth_error (list_set l i v) j = nth_error l j.
Proof.
  revert i j; induction l; intros [|i] [|j] H; cbn; auto; try contradiction.
Qed.
Lemma list_set_id {A} (l : list A) i v : nth_error l i = Some v -> list_set l i v = l.
Proof. revert i; induction l; intros [|i]; cbn; intros; auto; [congruence|]. f_equal; auto. Qed.

(** ** One induction principle for [exec] *)
Lemma exec_ind (d : dialect) (P : st -> Prop) :
  (forall s c, P s -> P (exec1 d s c)) -> forall cs s, P s -> P (exec d s cs).
Proof. intros H cs. induction cs; cbn; auto. intros s Hs. apply IHcs. auto. Qed.
Lemma exec_ind_forall (d : dialect) (C : cmd -> Prop) (P : st -> Prop) :
  (forall s c, C c -> P s -> P (exec1 d s c)) -> forall cs s, Forall C cs -> P s -> P (exec d s cs).
Proof.
  intros H cs. induction cs; cbn; auto. intros s HC Hs. inversion HC; subst. apply IHcs; auto.
Qed.
Lemma exec_app d s a b : exec d s (a ++ b) = exec d (exec d s a) b.
Proof. unfold exec. apply fold_left_app. Qed.

Lemma out_text_app d a b : out_text d (a ++ b) = out_text d a ++ out_text d b.
Proof. unfold out_text. now rewrite flat_map_app. Qed.

(** ** C10: only appending *)
Lemma exec1_out d s c : exists ks, st_out (exec1 d s c) = st_out s ++ ks.
Proof.
  destruct c; cbn.
  - now eexists.
  - destruct (numbered d); cbn; [destruct (if is_empty pname then _ else _)|]; now eexists.
  - destruct (pget name _); now eexists.
  - destruct (numbered d); [destruct (pget name _)|]; now eexists.
  - exists []. now rewrite app_nil_r.
Qed.
Lemma exec_out d cs s : exists ks, st_out (exec d s cs) = st_out s ++ ks.
Proof.
  revert s. induction cs as [|c cs IH]; intros s; cbn.
  - exists []. now rewrite app_nil_r.
  - destruct (IH (exec1 d s c)) as [k2 E2]. destruct (exec1_out d s c) as [k1 E1].
    exists (k1 ++ k2). fold (exec d (exec1 d s c) cs). now rewrite E2, E1, app_assoc.
Qed.

(** Indices registered in the params map come from the initial map or are new. *)
Definition fresh_or_old (s0 s : st) : Prop :=
  forall name i, In i (pget name (st_params s)) ->
    length (st_args s0) <= i \/ exists name0, In i (pget name0 (st_params s0)).
Definition kept (s0 s : st) : Prop :=
  forall i, i < length (st_args s0) -> (forall name, ~ In i (pget name (st_params s0))) ->
    nth_error (st_args s) i = nth_error (st_args s0) i.

Lemma nth_error_app_lt {A} (l l' : list A) i : i < length l -> nth_error (l ++ l') i = nth_error l i.
Proof. intros. now apply nth_error_app1. Qed.

Lemma exec1_keeps d s0 s c :
  length (st_args s0) <= length (st_args s) /\ fresh_or_old s0 s /\ kept s0 s ->
  length (st_args s0) <= length (st_args (exec1 d s c)) /\
  fresh_or_old s0 (exec1 d s c) /\ kept s0 (exec1 d s c).
Proof.
  intros (HL & HF & HK).
  assert (A1 : forall v, length (st_args s0) <= length (st_args s ++ [v]))
    by (intros; rewrite app_length; lia).
  assert (A2 : forall v i, i < length (st_args s0) -> (forall name, ~ In i (pget name (st_params s0))) ->
     nth_error (st_args s ++ [v]) i = nth_error (st_args s0) i).
  { intros v i Hi Hn. rewrite nth_error_app_lt by lia. now apply HK. }
  assert (A3 : forall pname name i l,
     (forall j, In j l -> length (st_args s0) <= j \/ exists name0, In j (pget name0 (st_params s0))) ->
     In i (pget name (mset pname l (st_params s))) ->
     length (st_args s0) <= i \/ exists name0, In i (pget name0 (st_params s0))).
  { intros pname name i l Hl. rewrite pget_mset. destruct (beqb name pname); [apply Hl|]. apply HF. }
  assert (A4 : forall name v i j, In i (pget name (st_params s)) -> j < length (st_args s0) ->
     (forall name, ~ In j (pget name (st_params s0))) ->
     nth_error (list_set (st_args s) i v) j = nth_error (st_args s0) j).
  { intros name v i j Hi Hj Hn. rewrite list_set_other; [now apply HK|]. intros ->.
    destruct (HF _ _ Hi) as [|[n0 Hn0]]; [lia|]. now apply (Hn n0). }
  assert (A5 : forall j, In j [length (st_args s)] -> length (st_args s0) <= j \/ exists name0, In j (pget name0 (st_params s0))).
  { intros j [<-|[]]. now left. }
  assert (A6 : forall name j, In j (pget name (st_params s) ++ [length (st_args s)]) ->
     length (st_args s0) <= j \/ exists name0, In j (pget name0 (st_params s0))).
  { intros name j I. apply in_app_or in I. destruct I as [I|I]; [now apply (HF _ _ I)|now apply A5]. }
  destruct c as [b|pname v|name v|name v|names]; cbn.
  - auto.
  - destruct (numbered d) eqn:N; [destruct (if is_empty pname then _ else _)|]; cbn; repeat split; auto.
    + destruct (is_empty pname); auto. intros n i. now apply A3.
    + intros i Hi Hn. now apply A2.
    + intros i Hi Hn. now apply A2.
  - destruct (pget name (st_params s)) as [|i l] eqn:E; cbn; repeat split; auto.
    + intros n j. now apply A3.
    + intros j Hj Hn. now apply A2.
    + now rewrite list_set_length.
    + intros j Hj Hn. apply (A4 name); auto. rewrite E. now left.
  - destruct (numbered d).
    + destruct (pget name (st_params s)) as [|i l] eqn:E; cbn; repeat split; auto.
      * intros n j. now apply A3.
      * intros j Hj Hn. now apply A2.
      * now rewrite list_set_length.
      * intros j Hj Hn. apply (A4 name); auto. rewrite E. now left.
    + cbn. repeat split; auto.
      * intros n j. apply A3. apply A6.
      * intros j Hj Hn. now apply A2.
  - repeat split; auto. intros n i I. destruct (pget_dels n names (st_params s)) as [H|[H _]];
      cbn in I; rewrite H in I; [contradiction|]. now apply (HF n).
Qed.
Lemma exec_keeps d cs s :
  length (st_args s) <= length (st_args (exec d s cs)) /\ kept s (exec d s cs).
Proof.
  assert (H : length (st_args s) <= length (st_args (exec d s cs)) /\
              fresh_or_old s (exec d s cs) /\ kept s (exec d s cs)).
  { apply (exec_ind d (fun s' => length (st_args s) <= length (st_args s') /\ fresh_or_old s s' /\ kept s s')).
    - intros s' c. apply exec1_keeps.
    - repeat split; auto. intros name i I. right. now exists name. }
  tauto.
Qed.

(** ** C11: '?' dialects *)
Fixpoint marks (ks : list chunk) : list gval :=
  match ks with [] => [] | KMark v :: ks' => v :: marks ks' | _ :: ks' => marks ks' end.
Lemma marks_app a b : marks (a ++ b) = marks a ++ marks b.
Proof. induction a as [|k a IH]; cbn; auto. destruct k; cbn; now rewrite IH. Qed.
Definition not_named (c : cmd) : Prop := match c with CNamedArg _ _ => False | _ => True end.
Definition text_or_mark (k : chunk) : Prop := match k with KText _ | KMark _ => True | _ => False end.

Lemma exec_marks d cs s : numbered d = false -> Forall not_named cs ->
  exists ks, st_out (exec d s cs) = st_out s ++ ks /\ Forall text_or_mark ks /\
             st_args (exec d s cs) = st_args s ++ marks ks.
Proof.
  intros N. revert s. induction cs as [|c cs IH]; intros s HC; cbn.
  - exists []. now rewrite !app_nil_r.
  - inversion HC as [|? ? Hc HC']; subst.
    destruct (IH (exec1 d s c) HC') as (ks & E1 & E2 & E3). fold (exec d (exec1 d s c) cs).
    rewrite E1, E3. destruct c as [b|pname v|name v|name v|names]; cbn [exec1] in *; rewrite ?N in *.
    + exists (KText b :: ks). cbn. rewrite <- app_assoc. repeat split; auto; constructor; cbn; auto.
    + exists (KMark v :: ks). cbn. rewrite N, <- !app_assoc. repeat split; auto; constructor; cbn; auto.
    + contradiction.
    + exists (KMark v :: ks). cbn. rewrite N, <- !app_assoc. repeat split; auto; constructor; cbn; auto.
    + exists ks. auto.
Qed.

(** ** C12: ordinals and arguments *)
Definition has_placeholder (s : st) (i : nat) : Prop :=
  (exists v, In (KOrd i v) (st_out s)) \/
  (exists name v w, In (KNamed name v) (st_out s) /\ nth_error (st_args s) i = Some (GNamedArg name w)).
Record good (s : st) : Prop := mk_good {
  g_params : forall name i, In i (pget name (st_params s)) -> i < length (st_args s);
  g_ords : forall i v, In (KOrd i v) (st_out s) -> i < length (st_args s);
  g_used : forall i, i < length (st_args s) -> has_placeholder s i }.

Lemma good0 : good st0.
Proof. constructor; cbn; intros; try contradiction; auto; lia. Qed.

Lemma used_mono s s' : (forall k, In k (st_out s) -> In k (st_out s')) ->
  forall i, nth_error (st_args s') i = nth_error (st_args s) i ->
  has_placeholder s i -> has_placeholder s' i.
Proof.
  intros H i E [[v I]|(name & v & w & I & N)]; [left|right].
  - exists v. auto.
  - exists name, v, w. rewrite E. auto.
Qed.

Lemma exec1_good d s c : numbered d = true -> good s -> good (exec1 d s c).
Proof.
  intros N G. destruct G as [G1 G2 G4] eqn:EG. clear EG.
  assert (P : forall v m, (forall name i, In i (pget name m) -> i < S (length (st_args s))) ->
              good (push d s v m)).
  { intros v m Hm. constructor; cbn; rewrite ?app_length, ?N; cbn.
    - intros name i I. apply Hm in I. lia.
    - intros i w I. apply in_app_or in I. destruct I as [I|[I|[]]].
      + apply G2 in I. lia.
      + inversion I; lia.
    - intros i Hi. destruct (Nat.eq_dec i (length (st_args s))) as [->|Ne].
      + left. exists v. cbn. rewrite N. apply in_or_app. right. now left.
      + apply (used_mono s).
        * cbn. intros; apply in_or_app; auto.
        * cbn. apply nth_error_app_lt. lia.
        * apply G4. lia. }
  assert (M1 : forall pname name i, In i (pget name (mset pname [length (st_args s)] (st_params s))) ->
     i < S (length (st_args s))).
  { intros pname name i. rewrite pget_mset. destruct (beqb name pname).
    - intros [<-|[]]. lia.
    - intros I. apply G1 in I. lia. }
  assert (M2 : forall name i, In i (pget name (st_params s)) -> i < S (length (st_args s))).
  { intros name i I. apply G1 in I. lia. }
  destruct c as [b|pname v|name v|name v|names]; cbn.
  - constructor; cbn; auto.
    + intros i v I. apply in_app_or in I. destruct I as [I|[I|[]]]; [eauto|discriminate].
    + intros i Hi. apply (used_mono s); cbn; auto. intros; apply in_or_app; auto.
  - rewrite N. destruct (if is_empty pname then _ else _) as [|i l] eqn:E.
    + apply P. destruct (is_empty pname); auto. intros; eapply M1; eauto.
    + destruct (is_empty pname); [discriminate|].
      assert (Hi : i < length (st_args s)) by (apply (G1 pname); rewrite E; now left).
      constructor; cbn; auto.
      * intros j w I. apply in_app_or in I. destruct I as [I|[I|[]]]; [eauto|]. now inversion I; subst.
      * intros j Hj. apply (used_mono s); cbn; auto. intros; apply in_or_app; auto.
  - destruct (pget name (st_params s)) as [|i l] eqn:E.
    + constructor; cbn; rewrite ?app_length; cbn.
      * intros n i I. apply M1 in I. lia.
      * intros i w I. apply in_app_or in I. destruct I as [I|[I|[]]]; [apply G2 in I; lia|discriminate].
      * intros i Hi. destruct (Nat.eq_dec i (length (st_args s))) as [->|Ne].
        -- right. exists name, v, v. cbn. split; [apply in_or_app; right; now left|].
           rewrite nth_error_app2, Nat.sub_diag by lia. reflexivity.
        -- apply (used_mono s); cbn.
           ++ intros; apply in_or_app; auto.
           ++ apply nth_error_app_lt. lia.
           ++ apply G4. lia.
    + assert (Hi : i < length (st_args s)) by (apply (G1 name); rewrite E; now left).
      constructor; cbn; rewrite ?list_set_length; auto.
      * intros j w I. apply in_app_or in I. destruct I as [I|[I|[]]]; [eauto|discriminate].
      * intros j Hj. destruct (Nat.eq_dec i j) as [->|Ne].
        -- right. exists name, v, v. cbn. split; [apply in_or_app; right; now left|].
           now apply list_set_same.
        -- apply (used_mono s); cbn; [intros; apply in_or_app; auto|now apply list_set_other|auto].
  - rewrite N. destruct (pget name (st_params s)) as [|i l] eqn:E.
    + cbn. apply P. intros; eapply M1; eauto.
    + assert (Hi : i < length (st_args s)) by (apply (G1 name); rewrite E; now left).
      constructor; cbn; rewrite ?list_set_length; auto.
      * intros j w I. apply in_app_or in I. destruct I as [I|[I|[]]]; [eauto|]. now inversion I; subst.
      * intros j Hj. destruct (Nat.eq_dec i j) as [->|Ne].
        -- left. exists v. apply in_or_app. right. now left.
        -- apply (used_mono s); cbn; [intros; apply in_or_app; auto|now apply list_set_other|auto].
  - constructor; cbn; auto.
    intros n i I. destruct (pget_dels n names (st_params s)) as [H|[H _]];
      rewrite H in I; [contradiction|eauto].
Qed.
Lemma exec_good d cs s : numbered d = true -> good s -> good (exec d s cs).
Proof. intros N. apply exec_ind. intros; now apply exec1_good. Qed.

(** Indices of the params map are valid in every dialect. *)
Definition params_in_range (s : st) : Prop :=
  forall name i, In i (pget name (st_params s)) -> i < length (st_args s).
Lemma exec_params_in_range d cs s : params_in_range s -> params_in_range (exec d s cs).
Proof.
  apply exec_ind. clear s. intros s c G1. unfold params_in_range in *.
  assert (M1 : forall pname name i l, (forall j, In j l -> j < S (length (st_args s))) ->
     In i (pget name (mset pname l (st_params s))) -> i < S (length (st_args s))).
  { intros pname name i l Hl. rewrite pget_mset. destruct (beqb name pname); auto.
    intros I. apply G1 in I. lia. }
  assert (M2 : forall name i, In i (pget name (st_params s)) -> i < S (length (st_args s))).
  { intros name i I. apply G1 in I. lia. }
  assert (M3 : forall j, In j [length (st_args s)] -> j < S (length (st_args s))).
  { intros j [<-|[]]. lia. }
  destruct c as [b|pname v|name v|name v|names]; cbn; auto.
  - destruct (numbered d); [destruct (if is_empty pname then _ else _)|]; cbn; rewrite ?app_length; cbn;
      rewrite ?Nat.add_1_r; auto.
    destruct (is_empty pname); auto. intros; eapply M1; eauto.
  - destruct (pget name (st_params s)) eqn:E; cbn; rewrite ?app_length, ?list_set_length, ?Nat.add_1_r; auto.
    intros; eapply M1; eauto.
  - destruct (numbered d); [destruct (pget name (st_params s)) eqn:E|]; cbn;
      rewrite ?app_length, ?list_set_length, ?Nat.add_1_r; auto.
    + intros; eapply M1; eauto.
    + intros n i. apply M1. intros j I. apply in_app_or in I. destruct I as [I|I]; [|now apply M3].
      apply (M2 name). exact I.
  - intros n i I. destruct (pget_dels n names (st_params s)) as [H|[H _]];
      rewrite H in I; [contradiction|eauto].
Qed.
