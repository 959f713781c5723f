(** * An introspector shared by goroutines: C76 *)
From Coq Require Import Lia.
From Verif Require Import GoBase GoBaseFacts QuoteModel TemplateModel SharedModel SpecShared.

Definition total (f : point -> nat) (ts : list thread) : nat := list_sum (map (fun th => f (t_at th)) ts).
Lemma total_mid f ts1 th ts2 : total f (ts1 ++ th :: ts2) = total f ts1 + f (t_at th) + total f ts2.
Proof. unfold total. rewrite map_app, list_sum_app. cbn [map list_sum fold_right]. unfold list_sum. cbn [fold_right]. lia. Qed.
Lemma total_le f g ts : (forall p, f p <= g p) -> total f ts <= total g ts.
Proof. intros H. unfold total. induction ts as [|th ts IH]; cbn [map]; [apply le_n|]. unfold list_sum in *. cbn [fold_right]. specialize (H (t_at th)). lia. Qed.

Definition in_read (p : point) : nat := match p with Reading _ => 1 | _ => 0 end.
Definition in_write (p : point) : nat := match p with Writing _ _ => 1 | _ => 0 end.
Definition holds_read (p : point) : nat := match p with ReadLocked _ | Reading _ | HasRead _ _ => 1 | _ => 0 end.
Definition holds_write (p : point) : nat := match p with Locked _ _ | Writing _ _ | HasWritten _ _ => 1 | _ => 0 end.
Lemma in_read_holds p : in_read p <= holds_read p. Proof. destruct p; cbn; lia. Qed.
Lemma in_write_holds p : in_write p <= holds_write p. Proof. destruct p; cbn; lia. Qed.

Section Inv.
  Variable files : bytes -> option bytes.
  Variable default : option filter.
  Definition from_script (name : bytes) (t : list node) : Prop := exists script, files name = Some script /\ parse_template script = Some t.
  Definition point_ok (p : point) : Prop :=
    match p with
    | HasRead c (Some t) | Unlocked c (Some t) | Parsed c t | Locked c t | Writing c t | HasWritten c t | Executing c t => from_script (c_name c) t
    | _ => True
    end.
  Record inv (s : shared) (ts : list thread) : Prop := {
    i_ok : s_aborted s = false;
    i_reading : s_reading s = total in_read ts;
    i_writing : s_writing s = total in_write ts;
    i_readers : s_readers s = total holds_read ts;
    i_writer : (if s_writer s then 1 else 0) = total holds_write ts;
    i_excl : s_writer s = true -> s_readers s = 0;
    i_map : forall name t, mget name (s_map s) = Some t -> from_script name t;
    i_points : Forall (fun th => point_ok (t_at th)) ts;
    i_past : Forall (fun th => Forall (fun ca => snd ca = expected files default (fst ca)) (t_past th)) ts }.

  Lemma executed c t : from_script (c_name c) t ->
    match exec_nodes (chosen default (c_filter c)) t with Some text => Sent text | None => Refused end = expected files default c.
  Proof. intros (script & E & P). unfold expected, query_text, chosen. now rewrite E, P. Qed.

  Lemma Forall_mid {T} (P : T -> Prop) l1 x l2 : Forall P (l1 ++ x :: l2) <-> Forall P l1 /\ P x /\ Forall P l2.
  Proof. rewrite Forall_app. split; [intros [H1 H2]; inversion H2; auto|intros (H1 & H2 & H3); auto]. Qed.

  Lemma inv_step c c' : inv (fst c) (snd c) -> step files default c c' -> inv (fst c') (snd c').
  Proof.
    intros I St. destruct St as [s ts1 th ts2 s' th' Na Mv]. cbn [fst snd] in *.
    destruct I as [Ok Ir Iw Ird Iwr Ex Mp Pt Pa]. rewrite !total_mid in *. rewrite Forall_mid in Pt, Pa. destruct Pt as (P1 & P & P2), Pa as (A1 & A & A2).
    destruct Mv; cbn [s_aborted s_reading s_writing s_readers s_writer s_map t_at t_past in_read in_write holds_read holds_write point_ok] in *.
    Ltac finish := constructor; rewrite ?total_mid; rewrite ?Forall_mid;
      cbn [s_aborted s_reading s_writing s_readers s_writer s_map t_at t_past in_read in_write holds_read holds_write point_ok];
      try lia; try tauto; try (repeat split; auto; fail).
    - finish.
    - finish.
    - (* a read begins *)
      assert (w = 0).
      { pose proof (total_le _ _ ts1 in_write_holds). pose proof (total_le _ _ ts2 in_write_holds).
        destruct b; [specialize (Ex eq_refl); lia|lia]. }
      subst w. finish.
    - finish. repeat split; auto. destruct (mget (c_name c) m) eqn:E; [now apply Mp|exact I].
    - finish.
    - finish.
    - finish. repeat split; auto. now exists script.
    - finish. repeat split; auto. apply Forall_app. split; [exact A|]. constructor; [|constructor]. cbn [fst snd]. unfold expected, query_text.
      destruct H as [->|(script & -> & ->)]; reflexivity.
    - finish.
    - (* a write begins *)
      pose proof (total_le _ _ ts1 in_write_holds). pose proof (total_le _ _ ts2 in_write_holds).
      pose proof (total_le _ _ ts1 in_read_holds). pose proof (total_le _ _ ts2 in_read_holds).
      destruct b; [|lia]. specialize (Ex eq_refl). assert (w = 0) by lia. assert (r = 0) by lia. subst w r. finish.
    - finish. intros name t0 E. rewrite mget_mset in E. destruct (beqb name (c_name c)) eqn:B; [|now apply Mp].
      apply beqb_eq in B. subst name. injection E as <-. exact P.
    - finish.
    - finish. repeat split; auto. apply Forall_app. split; [exact A|]. constructor; [|constructor]. cbn [fst snd]. now apply executed.
  Qed.
  Lemma inv_start nexts : inv new_introspector (map begin_with nexts).
  Proof.
    assert (T : forall f, f Idle = 0 -> total f (map begin_with nexts) = 0).
    { intros f E. unfold total. induction nexts as [|n l IH]; [reflexivity|]. cbn [map begin_with t_at]. unfold list_sum in *. cbn [fold_right]. rewrite E. exact IH. }
    constructor; cbn; rewrite ?T by reflexivity; try reflexivity; try discriminate;
      apply Forall_forall; intros th Ith; apply in_map_iff in Ith; destruct Ith as (n & <- & _); cbn; auto.
  Qed.
  Lemma inv_steps c c' : steps files default c c' -> inv (fst c) (snd c) -> inv (fst c') (snd c').
  Proof. induction 1 as [|c1 c2 c3 _ IH St]; intros I; [exact I|]. exact (inv_step _ _ (IH I) St). Qed.
End Inv.

(** ** C76 *)
(** Any number of goroutines, each deciding on its next call from the answers
    so far; any schedule. *)
Theorem introspector_shared : forall files default nexts s ts,
  steps files default (new_introspector, map begin_with nexts) (s, ts) ->
  s_aborted s = false /\
  forall th c a, In th ts -> In (c, a) (t_past th) -> a = expected files default c.
Proof.
  intros files default nexts s ts St. pose proof (inv_steps files default _ _ St (inv_start files default nexts)) as I. cbn [fst snd] in I.
  split; [exact (i_ok _ _ _ _ I)|]. intros th c a Ith Ic.
  pose proof (i_past _ _ _ _ I) as P. rewrite Forall_forall in P. specialize (P th Ith). rewrite Forall_forall in P. exact (P (c, a) Ic).
Qed.
Print Assumptions introspector_shared.

(** While a goroutine is inside a call, or wants to make one, some goroutine can
    go on: the locks are given back. *)
Definition unfinished (th : thread) : Prop := t_at th <> Idle \/ t_next th (t_past th) <> None.
Definition waiting (p : point) : bool := match p with Entered _ | Parsed _ _ => true | _ => false end.
Lemma can_move files default s ts th : inv files default s ts -> In th ts -> unfinished th -> waiting (t_at th) = false ->
  exists s' th', moves files default s th s' th'.
Proof.
  intros I Ith U W. destruct (in_split _ _ Ith) as (ts1 & ts2 & ->).
  destruct I as [Ok Ir Iw Ird Iwr Ex Mp Pt Pa]. rewrite !total_mid in *. destruct s as [m r w n b ab], th as [p past next].
  cbn [s_aborted s_reading s_writing s_readers s_writer s_map t_at t_past t_next] in *. subst ab.
  destruct p; cbn [in_read in_write holds_read holds_write waiting] in *; try discriminate.
  - destruct U as [U|U]; [now elim U|]. cbn [t_next t_past] in U. destruct (next past) as [c|] eqn:E; [|congruence]. eexists. eexists. apply m_call. exact E.
  - eexists. eexists. apply m_read.
  - destruct r; [lia|]. eexists. eexists. apply m_has_read.
  - destruct n; [lia|]. eexists. eexists. apply m_runlock.
  - destruct t as [t|]; [eexists; eexists; apply m_cached|].
    destruct (files (c_name c)) as [script|] eqn:E; [destruct (parse_template script) as [t|] eqn:P|].
    + eexists. eexists. eapply m_parse; eassumption.
    + eexists. eexists. apply m_no_template. right. now exists script.
    + eexists. eexists. apply m_no_template. now left.
  - eexists. eexists. apply m_write.
  - destruct w; [lia|]. eexists. eexists. apply m_has_written.
  - destruct b; [|lia]. eexists. eexists. apply m_unlock.
  - eexists. eexists. apply m_execute.
Qed.
Theorem introspector_never_stuck : forall files default nexts s ts,
  steps files default (new_introspector, map begin_with nexts) (s, ts) ->
  (exists th, In th ts /\ unfinished th) ->
  exists c, step files default (s, ts) c.
Proof.
  intros files default nexts s ts St (th & Ith & U). pose proof (inv_steps files default _ _ St (inv_start files default nexts)) as I. cbn [fst snd] in I.
  assert (Go : forall th, In th ts -> (exists s' th', moves files default s th s' th') -> exists c, step files default (s, ts) c).
  { intros th0 I0 (s' & th' & M). destruct (in_split _ _ I0) as (ts1 & ts2 & ->). eexists. eapply s_move; [exact (i_ok _ _ _ _ I)|exact M]. }
  destruct (existsb (fun th => match t_at th with Idle => false | p => negb (waiting p) end) ts) eqn:E.
  - apply existsb_exists in E. destruct E as (th0 & I0 & E). apply (Go th0 I0). eapply can_move; [exact I|exact I0| |].
    + left. intros Z. now rewrite Z in E.
    + destruct (t_at th0); cbn in *; congruence.
  - destruct (waiting (t_at th)) eqn:W; [|apply (Go th Ith); eapply can_move; eauto].
    assert (Z : forall f, (forall p, f p <> 0 -> p <> Idle /\ waiting p = false) -> total f ts = 0).
    { intros f F. clear - E F. unfold total. induction ts as [|t ts IH]; [reflexivity|]. cbn [existsb] in E. apply Bool.orb_false_iff in E. destruct E as [E1 E2].
      cbn [map]. unfold list_sum in *. cbn [fold_right]. rewrite (IH E2), Nat.add_0_r. destruct (Nat.eq_dec (f (t_at t)) 0) as [|N]; [assumption|].
      destruct (F _ N) as [F1 F2]. destruct (t_at t); cbn in *; try congruence. }
    assert (Zr : total holds_read ts = 0) by (apply Z; intros []; cbn; split; congruence).
    assert (Zw : total holds_write ts = 0) by (apply Z; intros []; cbn; split; congruence).
    pose proof (i_readers _ _ _ _ I) as R1. pose proof (i_writer _ _ _ _ I) as W1. pose proof (i_ok _ _ _ _ I) as Ok.
    rewrite Zr in R1. rewrite Zw in W1. destruct s as [m r w n b ab], th as [p past next]. cbn in *. subst n ab. destruct b; [discriminate|].
    apply (Go _ Ith). destruct p; try discriminate; eexists; eexists; constructor.
Qed.
Print Assumptions introspector_never_stuck.

(** Example: two goroutines ask for the same script at the same time; both find
    the map empty, both parse and store, and a third call finds the template. *)
Example shared_example :
  let files := fun n : bytes => if beqb n (B "t") then Some (B "SELECT 1 {{ if .IncludeSystemCatalogs }}x{{ end }}") else None in
  let c := mk_call (B "t") None in
  let next := fun k (past : list (call * answer)) => if Nat.ltb (length past) k then Some c else None in
  exists s ts, steps files None (new_introspector, map begin_with [next 1; next 2]) (s, ts) /\
    map t_past ts = [[(c, Sent (B "SELECT 1 "))]; [(c, Sent (B "SELECT 1 ")); (c, Sent (B "SELECT 1 "))]].
Proof.
  cbv zeta.
  assert (Front : forall f d c1 c2 c3, step f d c1 c2 -> steps f d c2 c3 -> steps f d c1 c3).
  { intros f d c1 c2 c3 H K. induction K as [|c2 c3 c4 _ IH St]; [eapply s_more; [apply s_none|exact H]|]. eapply s_more; [exact (IH H)|exact St]. }
  eexists. eexists. split.
  { unfold begin_with, new_introspector. cbn [map].
    eapply Front; [apply (s_move _ _ _ []); [reflexivity|apply m_call; reflexivity]|].
    eapply Front; [apply (s_move _ _ _ [_]); [reflexivity|apply m_call; reflexivity]|].
    eapply Front; [apply (s_move _ _ _ []); [reflexivity|apply m_rlock]|].
    eapply Front; [apply (s_move _ _ _ [_]); [reflexivity|apply m_rlock]|].
    eapply Front; [apply (s_move _ _ _ []); [reflexivity|apply m_read]|].
    eapply Front; [apply (s_move _ _ _ [_]); [reflexivity|apply m_read]|].
    eapply Front; [apply (s_move _ _ _ []); [reflexivity|apply m_has_read]|].
    eapply Front; [apply (s_move _ _ _ [_]); [reflexivity|apply m_has_read]|].
    eapply Front; [apply (s_move _ _ _ []); [reflexivity|apply m_runlock]|].
    eapply Front; [apply (s_move _ _ _ [_]); [reflexivity|apply m_runlock]|].
    eapply Front; [apply (s_move _ _ _ []); [reflexivity|eapply m_parse; [reflexivity|vm_compute; reflexivity]]|].
    eapply Front; [apply (s_move _ _ _ [_]); [reflexivity|eapply m_parse; [reflexivity|vm_compute; reflexivity]]|].
    eapply Front; [apply (s_move _ _ _ []); [reflexivity|apply m_lock]|].
    eapply Front; [apply (s_move _ _ _ []); [reflexivity|apply m_write]|].
    eapply Front; [apply (s_move _ _ _ []); [reflexivity|apply m_has_written]|].
    eapply Front; [apply (s_move _ _ _ []); [reflexivity|apply m_unlock]|].
    eapply Front; [apply (s_move _ _ _ [_]); [reflexivity|apply m_lock]|].
    eapply Front; [apply (s_move _ _ _ [_]); [reflexivity|apply m_write]|].
    eapply Front; [apply (s_move _ _ _ []); [reflexivity|apply m_execute]|].
    eapply Front; [apply (s_move _ _ _ [_]); [reflexivity|apply m_has_written]|].
    eapply Front; [apply (s_move _ _ _ [_]); [reflexivity|apply m_unlock]|].
    eapply Front; [apply (s_move _ _ _ [_]); [reflexivity|apply m_execute]|].
    eapply Front; [apply (s_move _ _ _ [_]); [reflexivity|apply m_call; reflexivity]|].
    eapply Front; [apply (s_move _ _ _ [_]); [reflexivity|apply m_rlock]|].
    eapply Front; [apply (s_move _ _ _ [_]); [reflexivity|apply m_read]|].
    eapply Front; [apply (s_move _ _ _ [_]); [reflexivity|apply m_has_read]|].
    eapply Front; [apply (s_move _ _ _ [_]); [reflexivity|apply m_runlock]|].
    eapply Front; [apply (s_move _ _ _ [_]); [reflexivity|apply m_cached]|].
    eapply Front; [apply (s_move _ _ _ [_]); [reflexivity|apply m_execute]|].
    apply s_none. }
  vm_compute. reflexivity.
Qed.
