(** * Calls from many goroutines: C75 *)
From Coq Require Import Lia Permutation.
From Verif Require Import GoBase GoBaseFacts QuoteModel QuoteFacts SprintModel TokenModel EffectModel RenderModel BuildModel NameModel FetchModel
  LogModel PoolModel SpecPool PoolFacts PoolHold PoolCalls SpecPoolCalls PoolPf PoolFetchPf.

(** ** Each call, alone *)
Lemma returning_helper {A R} (p : PoolCalls.prog R) (f : R -> result A) (P : R -> list event -> Prop) (P' : result A -> list event -> Prop) :
  helper 0 p P -> (forall r t, P r t -> P' (f r) t) -> helper 0 (returning p f) P'.
Proof.
  intros H K. unfold returning. eapply helper_bind; [exact H|]. intros r t Pr. apply helper_ret. rewrite app_nil_r. now apply K.
Qed.
Lemma call_alone {A} nested (c : call A) : computes nested -> helper 0 (program nested c) (alone c).
Proof.
  intros C. destruct c; cbn [program];
    try (eapply returning_helper;
         [first [apply escape_gives | apply quote_identifier_gives | apply sprint_gives | apply sprintf_gives | apply to_sql_gives; exact C
                | apply to_sql_exclude_gives; exact C | apply generate_name_gives | apply print_list_gives | apply printed_gives; exact C]|];
         intros r t (-> & ->); split; reflexivity).
  - eapply returning_helper; [apply log_helper|]. intros r t (-> & L). split; [reflexivity|exact L].
  - eapply returning_helper; [apply fetch_helper; exact C|]. intros r t (a & t' & E & T & Rc). cbn [alone].
    destruct (fetch_alone h ctx db lg q mapper hist a) as [f records] eqn:Ef. cbn [fst snd] in *. subst r. exists a, f, records, t'. now repeat split.
  - eapply returning_helper; [apply exists_helper; exact C|]. intros r t (a & t' & E & T & Rc). cbn [alone].
    destruct (exists_alone h ctx db lg q a) as [f records] eqn:Ef. cbn [fst snd] in *. subst r. exists a, f, records, t'. now repeat split.
  - eapply returning_helper; [apply exec_helper; exact C|]. intros r t (a & t' & E & T & Rc). cbn [alone].
    destruct (exec_alone h ctx db lg q a) as [f records] eqn:Ef. cbn [fst snd] in *. subst r. exists a, f, records, t'. now repeat split.
Qed.
Lemma session_alone {A} nested (s : session A) : computes nested -> helper 0 (session_program nested s) (history s).
Proof.
  intros C. induction s as [|c k IH]; cbn [session_program].
  - apply helper_ret. constructor.
  - eapply helper_bind; [apply call_alone; exact C|]. intros r t Al.
    eapply helper_bind; [apply IH|]. intros rs ts Hi. apply helper_ret. rewrite app_nil_r. now constructor.
Qed.

(** ** C75 *)
(** Goroutines, each with calls one after the other; the goroutines that log. *)
Definition goroutine {A} (nested : helper_fn) (s : session A) : thread question answer logjob (list (result A)) := start (session_program nested s).
Definition logger {A} (j : logjob) : session A := Then (log_goroutine j) (fun _ => Done).

Theorem concurrent_calls : forall {A} (nested : helper_fn) (sessions : list (session A)) w w' ts,
  computes nested -> clean w ->
  steps (fun j => session_program nested (logger j)) (w, map (goroutine nested) sessions) (w', ts) ->
  clean w' /\
  exists js, Permutation js (flat_map (fun th => jobs_of (t_trace th)) ts) /\
    length ts = length sessions + length js /\
    forall i s th rs, nth_error (sessions ++ map logger js) i = Some s -> nth_error ts i = Some th ->
      t_prog th = Ret rs -> history s rs (t_trace th).
Proof.
  intros A nested sessions w w' ts C W St.
  assert (Dj : forall j, disciplined nothing_held (session_program nested (logger j) : PoolCalls.prog (list (result A)))).
  { intros j. eapply helper_disciplined. apply session_alone. exact C. }
  unfold goroutine in St. rewrite <- map_map in St.
  destruct (isolated _ Dj (map (session_program nested) sessions) w w' ts W) with (2 := St) as (W' & js & P & L & K).
  { intros p Ip. apply in_map_iff in Ip. destruct Ip as (s & <- & _). eapply helper_disciplined. apply session_alone. exact C. }
  split; [exact W'|]. exists js. split; [exact P|]. split; [rewrite L, app_length, !map_length; reflexivity|].
  intros i s th rs Es Et Er. eapply helper_lone; [apply session_alone; exact C|]. eapply K; [|exact Et|exact Er].
  rewrite <- (map_map logger), <- map_app. apply map_nth_error. exact Es.
Qed.
Print Assumptions concurrent_calls.

(** One call each. *)
Definition once {A} (c : call A) : session A := Then c (fun _ => Done).
Theorem one_call_each : forall {A} (nested : helper_fn) (calls : list (call A)) w w' ts i c th rs,
  computes nested -> clean w ->
  steps (fun j => session_program nested (logger j)) (w, map (fun c => goroutine nested (once c)) calls) (w', ts) ->
  nth_error calls i = Some c -> nth_error ts i = Some th -> t_prog th = Ret rs ->
  exists r, rs = [r] /\ alone c r (t_trace th).
Proof.
  intros A nested calls w w' ts i c th rs C W St Ec Et Er. rewrite <- (map_map once) in St.
  destruct (concurrent_calls nested _ w w' ts C W St) as (_ & js & _ & _ & K).
  assert (Ei : nth_error (map once calls ++ map logger js) i = Some (once c)).
  { rewrite nth_error_app1; [now apply map_nth_error|]. rewrite map_length. apply nth_error_Some. congruence. }
  specialize (K _ _ _ _ Ei Et Er). inversion K as [|c0 k0 r t rs0 t0 Al Hi]; subst. inversion Hi; subst.
  exists r. rewrite app_nil_r. split; [reflexivity|exact Al].
Qed.
Print Assumptions one_call_each.

(** No goroutine waits for another: each can go on to its end at any time. *)
Lemma steps_trans {Q A J R} (job : J -> PoolModel.prog Q A J R) c1 c2 c3 : steps job c1 c2 -> steps job c2 c3 -> steps job c1 c3.
Proof. intros H K. induction K as [|c2 c3 c4 _ IH St]; [exact H|]. eapply s_more; [exact (IH H)|exact St]. Qed.
Lemma steps_front {Q A J R} (job : J -> PoolModel.prog Q A J R) c1 c2 c3 : step job c1 c2 -> steps job c2 c3 -> steps job c1 c3.
Proof. intros H K. eapply steps_trans; [|exact K]. eapply s_more; [apply s_none|exact H]. Qed.
Lemma runs_to_end {Q A J R} (job : J -> PoolModel.prog Q A J R) (some_answer : A) : forall p w ts1 v tr ts2,
  exists w' r v' tr' more, steps job (w, ts1 ++ mk_thread p v tr :: ts2) (w', ts1 ++ mk_thread (Ret r) v' (tr ++ tr') :: ts2 ++ more).
Proof.
  assert (Step : forall p w ts1 v tr ts2 w1 p1 v1 es,
    action w p v w1 p1 v1 es ->
    (forall ts2', exists w' r v' tr' more, steps job (w1, ts1 ++ mk_thread p1 v1 (tr ++ es) :: ts2') (w', ts1 ++ mk_thread (Ret r) v' ((tr ++ es) ++ tr') :: ts2' ++ more)) ->
    exists w' r v' tr' more, steps job (w, ts1 ++ mk_thread p v tr :: ts2) (w', ts1 ++ mk_thread (Ret r) v' (tr ++ tr') :: ts2 ++ more)).
  { intros p w ts1 v tr ts2 w1 p1 v1 es Ac K. destruct (K (ts2 ++ begun job es)) as (w' & r & v' & tr' & more & St).
    exists w', r, v', (es ++ tr'), (begun job es ++ more). eapply steps_front; [apply s_run; exact Ac|].
    rewrite <- !app_assoc in St. exact St. }
  induction p as [r|x k IH|x b k IH|x l k IH|x k IH|x k IH|x k IH|q k IH|j k IH]; intros w ts1 v tr ts2.
  - exists w, r, v, [], []. rewrite !app_nil_r. apply s_none.
  - destruct w as [h l n]. eapply Step; [apply a_new|]. intros. apply IH.
  - revert w ts1 v tr ts2. induction b as [|c b IHb]; intros w ts1 v tr ts2.
    + eapply Step; [apply a_written|]. intros. apply IH.
    + destruct w as [h l n]. eapply Step; [apply a_write|]. intros. apply IHb.
  - destruct w as [h m n]. eapply Step; [apply a_append|]. intros. apply IH.
  - eapply Step; [apply a_read|]. intros. apply IH.
  - destruct w as [h m n]. eapply Step; [apply a_reset|]. intros. apply IH.
  - destruct w as [h m n]. eapply Step; [apply a_put|]. intros. apply IH.
  - eapply Step; [apply (a_ask w q some_answer)|]. intros. apply IH.
  - eapply Step; [apply a_spawn|]. intros. apply IH.
Qed.
Theorem calls_can_finish : forall {A} (nested : helper_fn) w (ts : list (thread question answer logjob (list (result A)))) i th,
  nth_error ts i = Some th ->
  exists w' ts' th' rs, steps (fun j => session_program nested (logger j)) (w, ts) (w', ts') /\
    nth_error ts' i = Some th' /\ t_prog th' = Ret rs.
Proof.
  intros A nested w ts i th E. destruct (nth_error_split _ _ E) as (ts1 & ts2 & -> & <-). destruct th as [p v tr].
  destruct (runs_to_end (fun j => session_program nested (logger j)) no_answer p w ts1 v tr ts2) as (w' & r & v' & tr' & more & St).
  exists w'. eexists. exists (mk_thread (Ret r) v' (tr ++ tr')), r. split; [exact St|]. split; [|reflexivity]. apply nth_at.
Qed.
Print Assumptions calls_can_finish.

(** ** Helpers: functions that take buffers of their own while they compute a
    text, which take others in turn *)
Fixpoint nested_calls (depth : nat) (x : nat) (b : bytes) : PoolCalls.prog bytes :=
  match depth with
  | 0 => Ret b
  | Datatypes.S n => pooled x (bind (nested_calls n (Datatypes.S x) b) (fun t => Write x t (Read x (fun o => Ret (fst o)))))
  end.
Theorem nested_calls_compute : forall depth, computes (nested_calls depth).
Proof.
  induction depth as [|n IH]; intros x b; cbn [nested_calls]; [apply gives_ret|].
  eapply gives_pooled. eapply writes_gives; [apply IH|]. apply writes_write; [lia|]. apply writes_read. apply writes_ret.
Qed.
Print Assumptions nested_calls_compute.

(** Example: two goroutines quote different texts; between the two writes of
    the first, the second takes the other buffer, writes, and gives it back, and
    the pool forgets one; both get their own text. *)
Definition clean_world : world := mk_world (fun _ => blank) [0; 1] 2.
Example clean_start : clean clean_world.
Proof.
  split; [repeat constructor; cbn; intuition discriminate|]. intros a [<-|[<-|[]]]; split; try reflexivity; cbn; lia.
Qed.
Example both_get_their_own : exists w ts,
  steps (fun j => session_program (nested_calls 1) (logger j))
    (clean_world, map (goroutine (A := nat) (nested_calls 1)) [once (CQuote DSQLite (B "a""b")); once (CQuote DMySQL (B "c`d"))]) (w, ts) /\
  map (fun th => t_prog th) ts = [Ret [RText (B """a""""b""")]; Ret [RText (B "`c``d`")]].
Proof.
  eexists. eexists. split.
  { (* the first takes buffer 0 and writes two bytes *)
    unfold goroutine, start. cbn [map].
    eapply steps_front; [apply (s_run _ []); apply (a_reuse _ [] 0)|].
    eapply steps_front; [apply (s_run _ []); apply a_write|].
    eapply steps_front; [apply (s_run _ []); apply a_write|].
    (* the second takes buffer 1 and is done *)
    eapply steps_front; [apply (s_run _ [_]); apply (a_reuse _ [] 1)|].
    do 3 (eapply steps_front; [apply (s_run _ [_]); apply a_write|]).
    eapply steps_front; [apply (s_run _ [_]); apply a_written|].
    eapply steps_front; [apply (s_run _ [_]); apply a_write|].
    eapply steps_front; [apply (s_run _ [_]); apply a_written|].
    eapply steps_front; [apply (s_run _ [_]); apply a_read|].
    eapply steps_front; [apply (s_run _ [_]); apply a_reset|].
    eapply steps_front; [apply (s_run _ [_]); apply a_put|].
    eapply steps_front; [apply (s_forget _ _ [])|].
    (* the first goes on *)
    eapply steps_front; [apply (s_run _ []); apply a_write|].
    eapply steps_front; [apply (s_run _ []); apply a_written|].
    eapply steps_front; [apply (s_run _ []); apply a_write|].
    eapply steps_front; [apply (s_run _ []); apply a_written|].
    eapply steps_front; [apply (s_run _ []); apply a_read|].
    eapply steps_front; [apply (s_run _ []); apply a_reset|].
    eapply steps_front; [apply (s_run _ []); apply a_put|].
    apply s_none. }
  vm_compute. reflexivity.
Qed.

(** The rules matter: a function that gives its buffer back without emptying it
    hands its text to the next caller, and one that gives it back before it has
    read it mixes its text with another goroutine's. *)
Definition without_reset (b : bytes) : PoolCalls.prog (list bytes) := Get 0 (Write 0 b (Read 0 (fun o => Put 0 (Ret [fst o])))).
Definition put_before_read (b : bytes) : PoolCalls.prog (list bytes) := Get 0 (Write 0 b (Put 0 (Read 0 (fun o => Ret [fst o])))).
Theorem dirty_buffer_refuted : exists w ts,
  steps (fun _ => Ret []) (clean_world, map start [without_reset (B "x"); without_reset (B "y")]) (w, ts) /\
  map (fun th => t_prog th) ts = [Ret [B "x"]; Ret [B "xy"]].
Proof.
  eexists. eexists. split.
  { unfold start. cbn [map].
    eapply steps_front; [apply (s_run _ []); apply (a_reuse _ [] 0)|].
    eapply steps_front; [apply (s_run _ []); apply a_write|].
    eapply steps_front; [apply (s_run _ []); apply a_written|].
    eapply steps_front; [apply (s_run _ []); apply a_read|].
    eapply steps_front; [apply (s_run _ []); apply a_put|].
    eapply steps_front; [apply (s_run _ [_]); apply (a_reuse _ [] 0)|].
    eapply steps_front; [apply (s_run _ [_]); apply a_write|].
    eapply steps_front; [apply (s_run _ [_]); apply a_written|].
    eapply steps_front; [apply (s_run _ [_]); apply a_read|].
    eapply steps_front; [apply (s_run _ [_]); apply a_put|].
    apply s_none. }
  vm_compute. reflexivity.
Qed.
Print Assumptions dirty_buffer_refuted.
Theorem buffer_put_early_refuted : exists w ts,
  steps (fun _ => Ret []) (clean_world, map start [put_before_read (B "x"); put_before_read (B "y")]) (w, ts) /\
  map (fun th => t_prog th) ts = [Ret [B "xy"]; Ret [B "xy"]].
Proof.
  eexists. eexists. split.
  { unfold start. cbn [map].
    eapply steps_front; [apply (s_run _ []); apply (a_reuse _ [] 0)|].
    eapply steps_front; [apply (s_run _ []); apply a_write|].
    eapply steps_front; [apply (s_run _ []); apply a_written|].
    eapply steps_front; [apply (s_run _ []); apply a_put|].
    eapply steps_front; [apply (s_run _ [_]); apply (a_reuse _ [] 0)|].
    eapply steps_front; [apply (s_run _ [_]); apply a_write|].
    eapply steps_front; [apply (s_run _ [_]); apply a_written|].
    eapply steps_front; [apply (s_run _ [_]); apply a_put|].
    eapply steps_front; [apply (s_run _ []); apply a_read|].
    eapply steps_front; [apply (s_run _ [_]); apply a_read|].
    apply s_none. }
  vm_compute. reflexivity.
Qed.
Print Assumptions buffer_put_early_refuted.
