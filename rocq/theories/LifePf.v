(** * LifePf: a check of programs, and what it guarantees *)
From Verif Require Import GoBase SpecLife LifeModel.

Inductive status := SNone | SOpen | SClosed.
(** What is known of a frame: its result set, and its deferred calls. *)
Definition view := (status * list stmt)%type.
Definition stmt_dec (a b : stmt) : {a = b} + {a <> b}.
Proof. decide equality. decide equality. Defined.
Definition view_dec (a b : view) : {a = b} + {a <> b}.
Proof. decide equality; [apply (list_eq_dec stmt_dec)|decide equality]. Defined.
Definition outcome_dec (a b : outcome) : {a = b} + {a <> b}.
Proof. decide equality. Defined.
Definition is_open (v : view) : bool := match fst v with SOpen => true | _ => false end.
Definition both (v : view) : option (list (outcome * view)) := Some [(Normal, v); (Panicked, v)].
Definition quiet (c : callee) : bool := match c with LogQueryStats | GetLogSettings => true | _ => false end.

Definition end_dec (a b : outcome * view) : {a = b} + {a <> b}.
Proof. decide equality; [apply view_dec|apply outcome_dec]. Defined.
Definition left_dec (a b : outcome * status) : {a = b} + {a <> b}.
Proof. decide equality; [decide equality|apply outcome_dec]. Defined.
Fixpoint all_of {A C} (dec : forall a b : C, {a = b} + {a <> b}) (f : A -> option (list C)) (l : list A) : option (list C) :=
  match l with
  | [] => Some []
  | a :: l' => match f a, all_of dec f l' with Some x, Some y => Some (nodup dec (x ++ y)) | _, _ => None end
  end.
Definition steady (v : view) (l : list (outcome * view)) : bool :=
  forallb (fun p => match fst p with Normal => if view_dec (snd p) v then true else false | _ => true end) l.
Definition leave (p : outcome * view) : outcome * view := (match fst p with Broke => Normal | o => o end, snd p).

(** The ways a program can end from a frame of which [v] is known; [None]: it may
    do something that is not allowed. *)
Fixpoint post (k : nat) (s : stmt) (v : view) : option (list (outcome * view)) :=
  match k with
  | O => None
  | S k =>
    match s with
    | Skip | Recover => Some [(Normal, v)]
    | Seq a b =>
      match post k a v with
      | None => None
      | Some l => all_of end_dec (fun p => match fst p with Normal => post k b (snd p) | o => Some [(o, snd p)] end) l
      end
    | Either a b => match post k a v, post k b v with Some x, Some y => Some (nodup end_dec (x ++ y)) | _, _ => None end
    | Break => Some [(Broke, v)]
    | Return => Some [(Returned, v)]
    | Range b =>
      match post k b v with
      | None => None
      | Some l => if steady v l then Some ((Normal, v) :: map leave l) else None
      end
    | Compute => both v
    | Call c => if quiet c && is_open v then None else both v
    | Exec => if is_open v then None else both v
    | Query b =>
      if is_open v then None
      else match post k b v with None => None | Some l => Some ((Normal, (SOpen, snd v)) :: (Panicked, v) :: l) end
    | ForNext b =>
      match fst v with
      | SNone => Some [(Panicked, v)]
      | SClosed => None
      | SOpen =>
        match post k b v with
        | None => None
        | Some l => if steady v l then Some ((Normal, v) :: (Panicked, v) :: map leave l) else None
        end
      end
    | Scan => match fst v with SNone => Some [(Panicked, v)] | SClosed => None | SOpen => both v end
    | Check => match fst v with SNone => Some [(Panicked, v)] | _ => both v end
    | Close => match fst v with SNone => Some [(Panicked, v)] | _ => both (SClosed, snd v) end
    | Defer d => Some [(Normal, (fst v, d :: snd v))]
    | Func b =>
      if is_open v then None
      else match post k b (SNone, []) with
           | None => None
           | Some l =>
             match all_of left_dec (fun p => unwind_post k (snd (snd p)) (fst (snd p)) (fst p)) l with
             | None => None
             | Some ends => if forallb (fun e => match snd e with SOpen => false | _ => true end) ends then both v else None
             end
           end
    end
  end
with unwind_post (k : nat) (ds : list stmt) (st : status) (o : outcome) : option (list (outcome * status)) :=
  match k with
  | O => None
  | S k =>
    match ds with
    | [] => Some [(o, st)]
    | d :: ds' =>
      match post k d (st, []) with
      | None => None
      | Some l =>
        match all_of left_dec (fun p => unwind_post k ds' (fst (snd p)) (match fst p with Panicked => Panicked | _ => o end)) l,
              (if stmt_dec d Recover then unwind_post k ds' st Returned else Some []) with
        | Some x, Some y => Some (x ++ y)
        | _, _ => None
        end
      end
    end
  end.

(** [v] is what is known of [f], and [open] are the open result sets. *)
Definition fits (f_rows : option nat) (st : status) (open : list nat) : Prop :=
  match st with
  | SNone => f_rows = None /\ open = []
  | SOpen => exists h, f_rows = Some h /\ open = [h]
  | SClosed => exists h, f_rows = Some h /\ open = []
  end.
Definition known (f : frame) (v : view) (open : list nat) : Prop := fits (rows f) (fst v) open /\ defers f = snd v.
Definition fine (open : list nat) (tr : list event) (open' : list nat) : Prop := disciplined open tr /\ open_after open tr = open'.
Lemma fine_nil o : fine o [] o. Proof. now split. Qed.
Lemma fine_app t1 t2 : forall o o1 o2, fine o t1 o1 -> fine o1 t2 o2 -> fine o (t1 ++ t2) o2.
Proof.
  unfold fine, open_after. induction t1 as [|e t1 IH]; intros o o1 o2 (A & C) (D & E).
  - cbn in C. subst o1. now split.
  - cbn [app disciplined fold_left] in *. destruct A as (A1 & A2). destruct (IH (after o e) o1 o2) as (X & Y); [now split..|]. repeat split; assumption.
Qed.
Lemma fine_one o e : allowed o e -> fine o [e] (after o e).
Proof. intros A. now repeat split. Qed.
Lemma fine_cons o e t o2 : allowed o e -> fine (after o e) t o2 -> fine o (e :: t) o2.
Proof. intros A F. exact (fine_app [e] t _ _ _ (fine_one _ _ A) F). Qed.

Lemma all_of_in {A C} dec (f : A -> option (list C)) l : forall r a, all_of dec f l = Some r -> In a l -> exists x, f a = Some x /\ (forall c, In c x -> In c r).
Proof.
  induction l as [|b l IH]; intros r a E I; [destruct I|]. cbn [all_of] in E. destruct (f b) as [x|] eqn:F; [|discriminate].
  destruct (all_of dec f l) as [y|] eqn:G; [|discriminate]. injection E as <-. destruct I as [->|I].
  - exists x. split; [exact F|]. intros c Ic. apply nodup_In, in_or_app. now left.
  - destruct (IH y a eq_refl I) as (x' & F' & S). exists x'. split; [exact F'|]. intros c Ic. apply nodup_In, in_or_app. right. now apply S.
Qed.
Lemma steady_in v l w : steady v l = true -> In (Normal, w) l -> w = v.
Proof. unfold steady. rewrite forallb_forall. intros H I. specialize (H _ I). cbn in H. destruct (view_dec w v); [assumption|discriminate]. Qed.
Lemma closed_now f v open : known f v open -> is_open v = false -> open = [].
Proof. intros (F & _). unfold is_open. destruct (fst v); cbn in F; intros X; try discriminate; [exact (proj2 F)|]. destruct F as (h & _ & E). exact E. Qed.

Lemma not_none f v open h : known f v open -> rows f = Some h -> fst v <> SNone.
Proof. intros (F & _) R E. rewrite E in F. destruct F as (F & _). congruence. Qed.
Lemma open_is f v open h : known f v open -> rows f = Some h -> fst v = SOpen -> open = [h].
Proof. intros (F & _) R E. rewrite E in F. destruct F as (h' & F & G). congruence. Qed.
Lemma some_rows f v open : known f v open -> rows f = None -> fst v = SNone.
Proof. intros (F & _) R. destruct (fst v); [reflexivity| |]; destruct F as (h & F & _); congruence. Qed.

Scheme run_mut := Induction for run Sort Prop with unwind_mut := Induction for unwind Sort Prop.
Combined Scheme run_unwind from run_mut, unwind_mut.

Definition run_ok (n : nat) (s : stmt) (f : frame) (tr : list event) (o : outcome) (n' : nat) (f' : frame) : Prop :=
  forall k v open l, post k s v = Some l -> known f v open ->
  exists v' open', In (o, v') l /\ known f' v' open' /\ fine open tr open'.
Definition unwind_ok (n : nat) (r : option nat) (ds : list stmt) (o : outcome) (tr : list event) (o' : outcome) (n' : nat) : Prop :=
  forall k st open l, unwind_post k ds st o = Some l -> fits r st open ->
  exists st' open', In (o', st') l /\ (exists r', fits r' st' open') /\ fine open tr open'.

Ltac fuel := let k := fresh "k" in intros k v open l P K; destruct k as [|k]; [discriminate P|]; cbn [post] in P.
Ltac same v open := exists v, open; split; [left; reflexivity|]; split; [assumption|apply fine_nil].

Lemma checked :
  (forall n s f tr o n' f', run n s f tr o n' f' -> run_ok n s f tr o n' f') /\
  (forall n r ds o tr o' n', unwind n r ds o tr o' n' -> unwind_ok n r ds o tr o' n').
Proof.
  apply run_unwind; unfold run_ok.
  - intros n f. fuel. injection P as <-. same v open.
  - intros n a b f t1 n1 f1 t2 o n2 f2 R1 I1 R2 I2. fuel. destruct (post k a v) as [la|] eqn:Pa; [|discriminate].
    destruct (I1 k v open la Pa K) as (v1 & o1 & In1 & K1 & F1). destruct (all_of_in _ _ _ _ _ P In1) as (lb & Pb & S). cbn [fst snd] in Pb.
    destruct (I2 k v1 o1 lb Pb K1) as (v2 & o2 & In2 & K2 & F2). exists v2, o2. split; [now apply S|]. split; [exact K2|]. now apply (fine_app _ _ _ o1).
  - intros n a b f t o n1 f1 R1 I1 N. fuel. destruct (post k a v) as [la|] eqn:Pa; [|discriminate].
    destruct (I1 k v open la Pa K) as (v1 & o1 & In1 & K1 & F1). destruct (all_of_in _ _ _ _ _ P In1) as (lb & Pb & S). cbn [fst snd] in Pb.
    exists v1, o1. split; [|now split]. apply S. destruct o; [now elim N|injection Pb as <-; now left..].
  - intros n a b f t o n1 f1 R1 I1. fuel. destruct (post k a v) as [la|] eqn:Pa; [|discriminate]. destruct (post k b v) as [lb|]; [|discriminate].
    injection P as <-. destruct (I1 k v open la Pa K) as (v1 & o1 & In1 & K1 & F1). exists v1, o1. split; [apply nodup_In, in_or_app; now left|now split].
  - intros n a b f t o n1 f1 R1 I1. fuel. destruct (post k a v) as [la|]; [|discriminate]. destruct (post k b v) as [lb|] eqn:Pb; [|discriminate].
    injection P as <-. destruct (I1 k v open lb Pb K) as (v1 & o1 & In1 & K1 & F1). exists v1, o1. split; [apply nodup_In, in_or_app; now right|now split].
  - intros n f. fuel. injection P as <-. same v open.
  - intros n f. fuel. injection P as <-. same v open.
  - (* Range: no more *) intros n s f. fuel. destruct (post k s v) as [ls|]; [|discriminate]. destruct (steady v ls); [|discriminate]. injection P as <-. same v open.
  - (* Range: once more *) intros n s f t1 n1 f1 t2 o n2 f2 R1 I1 R2 I2 k v open l P K. destruct k as [|k]; [discriminate P|]. pose proof P as P'. cbn [post] in P.
    destruct (post k s v) as [ls|] eqn:Ps; [|discriminate]. destruct (steady v ls) eqn:St; [|discriminate].
    destruct (I1 k v open ls Ps K) as (v1 & o1 & In1 & K1 & F1). apply (steady_in _ _ _ St) in In1. subst v1.
    destruct (I2 (S k) v o1 l P' K1) as (v2 & o2 & In2 & K2 & F2). exists v2, o2. split; [exact In2|]. split; [exact K2|]. now apply (fine_app _ _ _ o1).
  - intros n s f t n1 f1 R1 I1. fuel. destruct (post k s v) as [ls|] eqn:Ps; [|discriminate]. destruct (steady v ls); [|discriminate]. injection P as <-.
    destruct (I1 k v open ls Ps K) as (v1 & o1 & In1 & K1 & F1). exists v1, o1. split; [|now split]. right. apply (in_map leave) in In1. exact In1.
  - intros n s f t o n1 f1 R1 I1 Ho. fuel. destruct (post k s v) as [ls|] eqn:Ps; [|discriminate]. destruct (steady v ls); [|discriminate]. injection P as <-.
    destruct (I1 k v open ls Ps K) as (v1 & o1 & In1 & K1 & F1). exists v1, o1. split; [|now split]. right. apply (in_map leave) in In1. destruct Ho as [->| ->]; exact In1.
  - intros n f. fuel. injection P as <-. same v open.
  - intros n f. fuel. injection P as <-. exists v, open. split; [right; now left|]. split; [assumption|apply fine_nil].
  - intros n c f. fuel. destruct (quiet c && is_open v)%bool eqn:Q; [discriminate|]. injection P as <-. exists v, open. split; [now left|]. split; [assumption|].
    change open with (after open (Called c)) at 2. apply fine_one. destruct c; cbn; try exact I; cbn in Q; now apply (closed_now f v).
  - intros n c f. fuel. destruct (quiet c && is_open v)%bool eqn:Q; [discriminate|]. injection P as <-. exists v, open. split; [right; now left|]. split; [assumption|].
    change open with (after open (Called c)) at 2. apply fine_one. destruct c; cbn; try exact I; cbn in Q; now apply (closed_now f v).
  - intros n f. fuel. destruct (is_open v) eqn:Q; [discriminate|]. injection P as <-. exists v, open. split; [now left|]. split; [assumption|].
    change open with (after open Executed) at 2. apply fine_one. now apply (closed_now f v).
  - intros n f tr Htr. fuel. destruct (is_open v) eqn:Q; [discriminate|]. injection P as <-. exists v, open. split; [right; now left|]. split; [assumption|].
    destruct Htr as [->| ->]; [apply fine_nil|]. change open with (after open Executed) at 2. apply fine_one. now apply (closed_now f v).
  - intros n s f. fuel. destruct (is_open v) eqn:Q; [discriminate|]. destruct (post k s v) as [ls|]; [|discriminate]. injection P as <-.
    pose proof (closed_now f v open K Q) as ->. exists (SOpen, snd v), [n]. split; [now left|]. split.
    + split; [exists n; now split|]. exact (proj2 K).
    + now apply (fine_one [] (Opened n)).
  - intros n s f t o n1 f1 R1 I1. fuel. destruct (is_open v) eqn:Q; [discriminate|]. destruct (post k s v) as [ls|] eqn:Ps; [|discriminate]. injection P as <-.
    destruct (I1 k v open ls Ps K) as (v1 & o1 & In1 & K1 & F1). exists v1, o1. split; [now do 2 right|]. split; [exact K1|].
    apply fine_cons; [now apply (closed_now f v)|exact F1].
  - intros n s f. fuel. destruct (is_open v) eqn:Q; [discriminate|]. destruct (post k s v) as [ls|]; [|discriminate]. injection P as <-.
    exists v, open. split; [right; now left|]. split; [assumption|apply fine_nil].
  - intros n s f h R. fuel. destruct (fst v) eqn:S0; [now elim (not_none f v open h K R)| |discriminate]. destruct (post k s v) as [ls|]; [|discriminate].
    destruct (steady v ls); [|discriminate]. injection P as <-. pose proof (open_is f v open h K R S0) as ->. exists v, [h]. split; [now left|]. split; [exact K|].
    apply (fine_one [h] (Asked h)). now left.
  - intros n s f h R. fuel. destruct (fst v) eqn:S0; [now elim (not_none f v open h K R)| |discriminate]. destruct (post k s v) as [ls|]; [|discriminate].
    destruct (steady v ls); [|discriminate]. injection P as <-. pose proof (open_is f v open h K R S0) as ->. exists v, [h]. split; [right; now left|]. split; [exact K|].
    apply (fine_one [h] (Asked h)). now left.
  - intros n s f h t1 n1 f1 t2 o n2 f2 R R1 I1 R2 I2 k v open l P K. destruct k as [|k]; [discriminate P|]. pose proof P as P'. cbn [post] in P.
    destruct (fst v) eqn:S0; [now elim (not_none f v open h K R)| |discriminate]. destruct (post k s v) as [ls|] eqn:Ps; [|discriminate].
    destruct (steady v ls) eqn:St; [|discriminate]. pose proof (open_is f v open h K R S0) as ->.
    destruct (I1 k v [h] ls Ps K) as (v1 & o1 & In1 & K1 & F1). apply (steady_in _ _ _ St) in In1. subst v1.
    destruct (I2 (S k) v o1 l P' K1) as (v2 & o2 & In2 & K2 & F2). exists v2, o2. split; [exact In2|]. split; [exact K2|].
    apply fine_cons; [now left|]. now apply (fine_app _ _ _ o1).
  - intros n s f h t n1 f1 R R1 I1. fuel. destruct (fst v) eqn:S0; [now elim (not_none f v open h K R)| |discriminate]. destruct (post k s v) as [ls|] eqn:Ps; [|discriminate].
    destruct (steady v ls); [|discriminate]. injection P as <-. pose proof (open_is f v open h K R S0) as ->.
    destruct (I1 k v [h] ls Ps K) as (v1 & o1 & In1 & K1 & F1). exists v1, o1. split; [do 2 right; apply (in_map leave) in In1; exact In1|]. split; [exact K1|].
    apply fine_cons; [now left|exact F1].
  - intros n s f h t o n1 f1 R R1 I1 Ho. fuel. destruct (fst v) eqn:S0; [now elim (not_none f v open h K R)| |discriminate]. destruct (post k s v) as [ls|] eqn:Ps; [|discriminate].
    destruct (steady v ls); [|discriminate]. injection P as <-. pose proof (open_is f v open h K R S0) as ->.
    destruct (I1 k v [h] ls Ps K) as (v1 & o1 & In1 & K1 & F1). exists v1, o1. split; [do 2 right; apply (in_map leave) in In1; destruct Ho as [->| ->]; exact In1|]. split; [exact K1|].
    apply fine_cons; [now left|exact F1].
  - (* Scan *) intros n f h o R Ho. fuel. destruct (fst v) eqn:S0; [now elim (not_none f v open h K R)| |discriminate]. injection P as <-.
    pose proof (open_is f v open h K R S0) as ->. exists v, [h]. split; [destruct Ho as [->| ->]; [now left|right; now left]|]. split; [exact K|]. apply (fine_one [h] (Scanned h)). now left.
  - (* Check *) intros n f h o R Ho. fuel. assert (L : l = [(Normal, v); (Panicked, v)]).
    { destruct (fst v) eqn:S0; [now elim (not_none f v open h K R)|now injection P as <-..]. } subst l.
    exists v, open. split; [destruct Ho as [->| ->]; [now left|right; now left]|]. split; [exact K|]. now apply (fine_one open (Checked h)).
  - (* Close *) intros n f h o R Ho. fuel. assert (L : l = [(Normal, (SClosed, snd v)); (Panicked, (SClosed, snd v))]).
    { destruct (fst v) eqn:S0; [now elim (not_none f v open h K R)|now injection P as <-..]. } subst l.
    exists (SClosed, snd v), []. split; [destruct Ho as [->| ->]; [now left|right; now left]|]. split; [split; [exists h; now split|exact (proj2 K)]|].
    split; [now split|]. cbn. destruct K as (F & _). destruct (fst v) eqn:S0; cbn in F.
    + destruct F; congruence.
    + destruct F as (h' & F & ->). replace h' with h by congruence. cbn. now destruct (Nat.eq_dec h h).
    + destruct F as (h' & _ & ->). reflexivity.
  - (* a nil result set *) intros n s f R Hs. fuel. pose proof (some_rows f v open K R) as S0. rewrite S0 in P.
    destruct Hs as [->|[->|[->|(b & ->)]]]; injection P as <-; same v open.
  - (* Defer *) intros n d f. fuel. injection P as <-. exists (fst v, d :: snd v), open. split; [now left|]. split; [|apply fine_nil].
    destruct K as (F & D). split; [exact F|]. cbn. now rewrite D.
  - intros n f. fuel. injection P as <-. same v open.
  - (* Func *) intros n b f t1 o1 n1 f1 t2 o2 n2 R1 I1 R2 I2. fuel. destruct (is_open v) eqn:Q; [discriminate|].
    destruct (post k b (SNone, [])) as [lb|] eqn:Pb; [|discriminate]. match type of P with (match ?X with Some _ => _ | None => _ end) = _ => destruct X as [ends|] eqn:U end; [|discriminate].
    destruct (forallb _ ends) eqn:E; [|discriminate]. injection P as <-. pose proof (closed_now f v open K Q) as ->.
    destruct (I1 k (SNone, []) [] lb Pb) as (v1 & op1 & In1 & K1 & F1); [now repeat split|].
    destruct (all_of_in _ _ _ _ _ U In1) as (x & Ux & S). cbn [fst snd] in Ux. destruct K1 as (K1 & D1). rewrite <- D1 in Ux.
    destruct (I2 k (fst v1) op1 x Ux K1) as (st & op2 & In2 & (r' & K2) & F2). apply S in In2. rewrite forallb_forall in E. specialize (E _ In2). cbn in E.
    assert (N : op2 = []) by (destruct st; [exact (proj2 K2)|discriminate|destruct K2 as (h & _ & N); exact N]). subst op2.
    exists v, []. split; [destruct o2; (now left) || (right; now left)|]. split; [exact K|]. now apply (fine_app _ _ _ op1).
  - (* unwind *) intros n r o k st open l P F. destruct k as [|k]; [discriminate P|]. cbn [unwind_post] in P. injection P as <-.
    exists st, open. split; [now left|]. split; [now exists r|apply fine_nil].
  - intros n r d ds o t1 o1 n1 f1 t2 o2 n2 R1 I1 R2 I2 k st open l P F. destruct k as [|k]; [discriminate P|]. cbn [unwind_post] in P.
    destruct (post k d (st, [])) as [ld|] eqn:Pd; [|discriminate].
    match type of P with (match ?X with Some _ => _ | None => _ end) = _ => destruct X as [x|] eqn:A end; [|discriminate]. destruct (if stmt_dec d Recover then unwind_post k ds st Returned else Some []) as [y|]; [|discriminate]. injection P as <-.
    destruct (I1 k (st, []) open ld Pd) as (v1 & op1 & In1 & K1 & F1); [now split|].
    destruct (all_of_in _ _ _ _ _ A In1) as (z & Uz & S). cbn [fst snd] in Uz.
    destruct (I2 k (fst v1) op1 z Uz (proj1 K1)) as (st2 & op2 & In2 & K2 & F2). exists st2, op2. split; [apply in_or_app; left; now apply S|]. split; [exact K2|].
    now apply (fine_app _ _ _ op1).
  - intros n r ds t o2 n2 R2 I2 k st open l P F. destruct k as [|k]; [discriminate P|]. cbn [unwind_post] in P.
    destruct (post k Recover (st, [])) as [ld|] eqn:Pd; [|discriminate].
    match type of P with (match ?X with Some _ => _ | None => _ end) = _ => destruct X as [x|] eqn:A end; [|discriminate]. destruct (stmt_dec Recover Recover) as [_|N]; [|now elim N].
    destruct (unwind_post k ds st Returned) as [y|] eqn:Y; [|discriminate]. injection P as <-.
    destruct (I2 k st open y Y F) as (st2 & op2 & In2 & K2 & F2). exists st2, op2. split; [apply in_or_app; now right|now split].
Qed.
