(** * LoadFacts: the loader against SpecLoad *)
From Coq Require Import Lia.
From Verif Require Import GoBase GoBaseFacts QuoteModel CacheModel SpecCache CacheFacts UpsertModel TokenModel NameModel DdlModel LoadModel SpecLoad.

(** ** Texts *)
Lemma cut_index : forall c s, cut c s = match index_byte c s with Some i => Some (firstn i s, skipn (S i) s) | None => None end.
Proof.
  induction s as [|a s IH]; [reflexivity|]. cbn [cut index_byte]. destruct (Ascii.eqb a c); [reflexivity|].
  rewrite IH. destruct (index_byte c s) as [i|]; reflexivity.
Qed.
Lemma mine_cons : forall d m ms, mine d (m :: ms) = mine d [m] ++ mine d ms.
Proof. intros. unfold mine. cbn [flat_map]. now rewrite app_nil_r. Qed.
Lemma mine_strip : forall d m, mine d [m] = match strip_dialect d (fst m) with Some k => [(k, snd m)] | None => [] end.
Proof.
  intros d [k v]. unfold mine, strip_dialect. cbn [flat_map fst snd]. rewrite app_nil_r, cut_index.
  destruct (index_byte ":" k); [|reflexivity]. now destruct (beqb _ _).
Qed.
Lemma final_cons : forall A (x : A) l, final (x :: l) = match final l with Some y => Some y | None => Some x end.
Proof.
  intros A x l. unfold final. revert x. induction l as [|y l IH]; intros x; [reflexivity|].
  change (last (map Some (x :: y :: l)) None) with (last (map Some (y :: l)) None). rewrite IH. destruct (last (map Some l) None); reflexivity.
Qed.
Lemma final_app : forall A (l l' : list A), final (l ++ l') = match final l' with Some y => Some y | None => final l end.
Proof.
  intros A l l'. induction l as [|x l IH]; cbn [app]; [now destruct (final l')|]. rewrite !final_cons, IH.
  destruct (final l'); [reflexivity|]. reflexivity.
Qed.
Lemma named_cons : forall names m ms, named names (m :: ms) = named names [m] ++ named names ms.
Proof. intros. unfold named. cbn [filter]. destruct (existsb _ names); reflexivity. Qed.
Lemma final_named_cons : forall names m ms, final_named names (m :: ms) =
  match final_named names ms with Some x => Some x | None => final_named names [m] end.
Proof. intros. unfold final_named. rewrite named_cons, final_app. reflexivity. Qed.
Lemma value_or_cons : forall old k m ms, value_or old k (m :: ms) = value_or (value_or old k [m]) k ms.
Proof. intros. unfold value_or. rewrite final_named_cons. now destruct (final_named [k] ms). Qed.
Lemma says_cons : forall k m ms, says k (m :: ms) = says k [m] || says k ms.
Proof. intros. unfold says. cbn [existsb]. now rewrite orb_false_r. Qed.
Lemma ignored_cons : forall d m ms, ignored_for d (m :: ms) = ignored_for d [m] || ignored_for d ms.
Proof. intros. unfold ignored_for. rewrite named_cons. apply existsb_app. Qed.
Lemma ignored_app : forall d ms ms', ignored_for d (ms ++ ms') = ignored_for d ms || ignored_for d ms'.
Proof. intros d ms ms'. unfold ignored_for, named. rewrite filter_app. apply existsb_app. Qed.
Lemma modifier_value_final : forall k ms, modifier_value k ms = match final_named [k] ms with Some m => Some (snd m) | None => None end.
Proof.
  intros k ms. unfold modifier_value.
  assert (H : forall ms r, fold_left (fun r m => if beqb (fst m) k then Some (snd m) else r) ms r =
    match final_named [k] ms with Some m => Some (snd m) | None => r end).
  { induction ms0 as [|m ms0 IH]; intros r; [reflexivity|]. cbn [fold_left]. rewrite IH, final_named_cons.
    destruct (final_named [k] ms0) as [x|]; [reflexivity|]. unfold final_named, named. cbn [filter existsb].
    rewrite orb_false_r. now destruct (beqb (fst m) k). }
  apply H.
Qed.
Lemma name_value : forall ms, match modifier_value (B "name") ms with Some n => n | None => [] end = value_or [] (B "name") ms.
Proof. intros ms. rewrite modifier_value_final. unfold value_or. now destruct (final_named _ ms). Qed.
Lemma split_byte_nonempty : forall c s, split_byte c s <> [].
Proof. intros c [|a s]; cbn [split_byte]; [discriminate|]. destruct (Ascii.eqb a c); [discriminate|]. destruct (split_byte c s); discriminate. Qed.

(** ** lexres *)
Lemma lbind_ok : forall A C (r : lexres A) (f : A -> lexres C) c, lbind r f = LOk c -> exists a, r = LOk a /\ f a = LOk c.
Proof. intros A C [a| | |] f c H; try discriminate. now exists a. Qed.
Definition fine {A} (r : lexres A) : Prop := exists a, r = LOk a.
Lemma fine_bind : forall A C (r : lexres A) (f : A -> lexres C), fine (lbind r f) <-> exists a, r = LOk a /\ fine (f a).
Proof.
  intros A C r f. split.
  - intros [c H]. apply lbind_ok in H. destruct H as (a & H1 & H2). exists a. split; [exact H1|now exists c].
  - intros (a & -> & H). exact H.
Qed.
Lemma fine_ok : forall A (a : A), fine (LOk a). Proof. intros A a. now exists a. Qed.
Lemma fine_then : forall A C (r : lexres A) (f : A -> C), fine (lbind r (fun a => LOk (f a))) <-> fine r.
Proof.
  intros A C r f. rewrite fine_bind. split; [intros (a & E & _); now exists a|]. intros [a E]. exists a. split; [exact E|apply fine_ok].
Qed.
(** A loop whose steps succeed independently of the state. *)
Lemma lfold_fine : forall S X (f : S -> X -> lexres S) (P : S -> Prop) (ok : X -> Prop),
  (forall s x, P s -> (fine (f s x) <-> ok x)) -> (forall s x s', P s -> f s x = LOk s' -> P s') ->
  forall l s, P s -> (fine (lfold f l s) <-> Forall ok l).
Proof.
  intros S X f P ok H K. induction l as [|x l IH]; intros s Hs; cbn [lfold].
  - split; [constructor|intros _; apply fine_ok].
  - rewrite fine_bind. split.
    + intros (s' & E & F). constructor.
      * apply (H s); [exact Hs|]. exists s'. exact E.
      * apply (IH s'); [|exact F]. now apply (K s x).
    + intros F. inversion F as [|? ? O F']; subst. apply (H s) in O; [|exact Hs]. destruct O as [s' E]. exists s'.
      split; [exact E|]. apply IH; [|exact F']. now apply (K s x).
Qed.
Lemma lfold_inv : forall S X (f : S -> X -> lexres S) (P : S -> Prop) l s s',
  (forall s x s', P s -> f s x = LOk s' -> P s') -> P s -> lfold f l s = LOk s' -> P s'.
Proof.
  intros S X f P l. induction l as [|x l IH]; intros s s' K Hs H; cbn [lfold] in H.
  - injection H as <-. exact Hs.
  - apply lbind_ok in H. destruct H as (s1 & E & H). apply (IH s1 s' K); [now apply (K s x)|exact H].
Qed.

(** ** Storing *)
Section Store.
  Context {A T : Type} (name_of : A -> bytes) (ignored : A -> bool).
  Definition appended (s s' : cached A) (l : list A) : Prop :=
    NoDup (map name_of (objects s ++ l)) -> objects s' = objects s ++ l.
  Lemma appended_none : forall s, appended s s [].
  Proof. intros s _. now rewrite app_nil_r. Qed.
  Lemma nodup_left : forall (l l' : list A), NoDup (map name_of (l ++ l')) -> NoDup (map name_of l).
  Proof.
    induction l as [|a l IH]; intros l' H; [constructor|]. cbn [map app] in *. inversion H; subst. constructor; [|now apply (IH l')].
    intros I. apply H2. rewrite map_app. apply in_or_app. now left.
  Qed.
  Lemma appended_then : forall s s1 s2 l1 l2, appended s s1 l1 -> appended s1 s2 l2 -> appended s s2 (l1 ++ l2).
  Proof.
    intros s s1 s2 l1 l2 H1 H2 N. rewrite app_assoc in N. pose proof (H1 (nodup_left _ _ N)) as E. unfold appended in H2.
    rewrite E in H2. rewrite (H2 N). now rewrite app_assoc.
  Qed.
  Lemma lookup_absent : forall name (s : cached A), ~ In name (map name_of (objects s)) -> fst (lookup name_of ignored false name s) = None.
  Proof.
    intros name s H. destruct (fst (lookup name_of ignored false name s)) as [i|] eqn:E; [|reflexivity].
    apply lookup_sound_state in E. destruct E as (a & Ea & Na & _). exfalso. apply H. rewrite <- Na. apply in_map.
    now apply nth_error_In with i.
  Qed.
  Lemma store_fine : forall name create found f s (P : Prop),
    (forall a, a = create \/ (exists b, name_of b = name /\ a = found b) -> (fine (f a) <-> P)) ->
    (fine (store (T := T) name_of ignored name create found f s) <-> P).
  Proof.
    intros name create found f s P H. unfold store. pose proof (lookup_sound_state name_of ignored false name s) as S.
    pose proof (lookup_objects name_of ignored false name s) as O.
    destruct (lookup name_of ignored false name s) as [[i|] s1]; cbn [fst snd] in *.
    - destruct (S i eq_refl) as (a & Ea & Na & _). rewrite O, Ea, fine_bind.
      rewrite <- (H (found a)) by (right; now exists a). split.
      + intros (r & E & _). now exists r.
      + intros [r E]. exists r. split; [exact E|apply fine_ok].
    - rewrite fine_bind, <- (H create) by now left. split; [intros (r & E & _); now exists r|]. intros [r E]. exists r. split; [exact E|apply fine_ok].
  Qed.
  (** The stored object, and that it is appended when its name is new. *)
  Lemma store_appends : forall name create found f s s' t,
    store (T := T) name_of ignored name create found f s = LOk (s', t) ->
    exists base a, (base = create \/ exists b, base = found b) /\ f base = LOk (a, t) /\
      (~ In name (map name_of (objects s)) -> base = create /\ objects s' = objects s ++ [a]).
  Proof.
    intros name create found f s s' t H. unfold store in H. pose proof (lookup_absent name s) as L.
    pose proof (lookup_objects name_of ignored false name s) as O.
    destruct (lookup name_of ignored false name s) as [[i|] s1]; cbn [fst snd] in *.
    - destruct (nth_error (objects s1) i) as [b|]; [|discriminate]. apply lbind_ok in H. destruct H as ([a t'] & E & H).
      cbn [fst snd] in H. injection H as <- <-. exists (found b), a. split; [right; now exists b|]. split; [exact E|].
      intros N. specialize (L N). discriminate.
    - apply lbind_ok in H. destruct H as ([a t'] & E & H). cbn [fst snd append] in H. injection H as <- <-. cbn [objects].
      exists create, a. split; [now left|]. split; [exact E|]. intros _. now rewrite O.
  Qed.
  Lemma store_found : forall name create found f s s' t i,
    store (T := T) name_of ignored name create found f s = LOk (s', t) ->
    fst (lookup name_of ignored false name s) = Some i ->
    exists b a, nth_error (objects s) i = Some b /\ name_of b = name /\ ignored b = false /\ f (found b) = LOk (a, t) /\
      objects s' = list_set (objects s) i a.
  Proof.
    intros name create found f s s' t i H L. unfold store in H. pose proof (lookup_sound_state name_of ignored false name s i L) as S.
    pose proof (lookup_objects name_of ignored false name s) as O.
    destruct (lookup name_of ignored false name s) as [r s1]. cbn [fst snd] in *. subst r. rewrite O in H.
    destruct S as (b & Eb & Nb & Ib). rewrite Eb in H. apply lbind_ok in H. destruct H as ([a t'] & E & H). cbn [fst snd] in H.
    injection H as <- <-. now exists b, a.
  Qed.
End Store.
