(** * PoolPf: each function, alone, returns what the other models say *)
From Coq Require Import Lia.
From Verif Require Import GoBase GoBaseFacts QuoteModel QuoteFacts SprintModel TokenModel EffectModel RenderModel BuildModel NameModel FetchModel LogModel
  PoolModel SpecPool PoolFacts PoolCalls SpecPoolCalls.

(** Returns [r] and asks nothing. *)
Definition gives {R} (x : nat) (p : prog R) (r : R) : Prop := helper x p (fun r' t => r' = r /\ t = []).
Definition writes {R} (x hi : nat) (o : obj) (p : prog R) (r : R) (o' : obj) : Prop :=
  working x hi o p (fun r' o'' t => r' = r /\ o'' = o' /\ t = []).

Lemma gives_ret {R} x (r : R) : gives x (Ret r) r.
Proof. apply helper_ret. now split. Qed.
Lemma gives_bind {R S} x (p : prog R) r (f : R -> prog S) r' : gives x p r -> gives x (f r) r' -> gives x (bind p f) r'.
Proof. intros H K. eapply helper_bind; [exact H|]. intros ? ? [-> ->]. exact K. Qed.
Lemma writes_ret {R} x hi o (r : R) : writes x hi o (Ret r) r o.
Proof. apply working_ret. now repeat split. Qed.
Lemma writes_write {R} x hi b bs l (p : prog R) r o' : x < hi -> writes x hi (b ++ bs, l) p r o' -> writes x hi (b, l) (Write x bs p) r o'.
Proof. intros X H. now apply working_write. Qed.
Lemma writes_read {R} x hi o (p : obj -> prog R) r o' : writes x hi o (p o) r o' -> writes x hi o (Read x p) r o'.
Proof. intros H. now apply working_read. Qed.
Lemma writes_bind {R S} x hi o (p : prog R) r o' (f : R -> prog S) r' o'' : x < hi ->
  writes x hi o p r o' -> writes x hi o' (f r) r' o'' -> writes x hi o (bind p f) r' o''.
Proof. intros X H K. eapply working_bind; [exact X|exact H|]. intros ? ? ? (-> & -> & ->). exact K. Qed.
Lemma writes_gives {R S} x hi o (p : prog R) r (f : R -> prog S) r' o' :
  gives hi p r -> writes x hi o (f r) r' o' -> writes x hi o (bind p f) r' o'.
Proof. intros H K. eapply working_helper; [exact H|]. intros ? ? [-> ->]. exact K. Qed.
Lemma gives_pooled {R} x (p : prog R) r o' : writes x (Datatypes.S x) blank p r o' -> gives x (pooled x p) r.
Proof. intros H. apply helper_pooled. eapply working_mono; [|exact H]. cbn. intros ? ? ? (-> & _ & ->). now split. Qed.
Lemma gives_deeper {R} x x' (p : prog R) r : x <= x' -> gives x' p r -> gives x p r.
Proof. apply helper_deeper. Qed.
Ltac wstep := first [apply writes_ret | apply writes_read | (apply writes_write; [lia|])].
Ltac wsteps := repeat wstep.

(** ** EscapeQuote *)
Lemma escape_loop_writes q x : forall fuel str b l, length str <= fuel ->
  exists o', writes x (Datatypes.S x) (b, l) (escape_loop_p fuel q x str) (escape_loop fuel q b str) o'.
Proof.
  induction fuel as [|f IH]; intros str b l L; cbn [escape_loop_p escape_loop].
  - destruct str; [|cbn in L; lia]. cbn. eexists. wsteps.
  - destruct (index_byte q str) as [i|] eqn:Ei; cbn beta iota.
    + assert (Li : i < length str) by (apply index_byte_some in Ei; tauto).
      destruct (Nat.ltb 2 (length (skipn i str)) && beqb (firstn 2 (skipn i str)) [q; q]);
        destruct (IH (skipn 2 (skipn i str)) (b ++ firstn i str ++ [q; q]) l) as (o1 & H1); try (rewrite !skipn_length; lia);
        destruct (IH (skipn 1 (skipn i str)) (b ++ firstn i str ++ [q; q]) l) as (o2 & H2); try (rewrite !skipn_length; lia);
        eexists; wstep; eassumption.
    + eexists. wsteps.
Qed.
Lemma escape_gives x str q : gives x (escape_p x str q) (escape_quote str q).
Proof.
  unfold escape_p, escape_quote. destruct (index_byte q str) as [i|] eqn:Ei.
  - destruct (escape_loop_writes q x (length str) str [] [] (le_n _)) as (o' & H). eapply gives_pooled. exact H.
  - destruct str; cbn [length escape_loop]; rewrite Ei; apply gives_ret.
Qed.
Lemma quote_identifier_gives x d s : gives x (quote_identifier_p x d s) (quote_identifier d s).
Proof.
  unfold quote_identifier_p, quote_identifier. destruct (needs_quoting s); [|apply gives_ret].
  eapply gives_bind; [apply escape_gives|apply gives_ret].
Qed.
(** ** printList, generateName *)
Lemma print_list_writes x : forall strs i b l,
  writes x (Datatypes.S x) (b, l) (print_list_loop_p x i strs) tt (b ++ print_list_from i strs, l).
Proof.
  induction strs as [|s rest IH]; intros i b l; cbn [print_list_loop_p print_list_from].
  - rewrite app_nil_r. apply writes_ret.
  - wstep. eapply writes_gives; [apply escape_gives|]. wstep.
    match goal with |- writes _ _ (?a, _) _ _ (?c, _) =>
      replace c with (a ++ print_list_from (Datatypes.S i) rest) by (now rewrite <- !app_assoc) end.
    apply IH.
Qed.
Lemma print_list_gives x strs : gives x (print_list_p x strs) (print_list strs).
Proof.
  eapply gives_pooled. eapply writes_bind; [lia|apply (print_list_writes x strs 0)|]. wsteps.
Qed.
Lemma name_columns_writes x k r : forall columns b l o',
  writes x (Datatypes.S x) (b ++ flat_map (fun c => B "_" ++ underscored c) columns, l) k r o' ->
  writes x (Datatypes.S x) (b, l) (name_columns_p x columns k) r o'.
Proof.
  induction columns as [|c rest IH]; intros b l o' H; cbn [name_columns_p flat_map] in *.
  - now rewrite app_nil_r in H.
  - wstep. apply IH. now rewrite <- app_assoc.
Qed.
Lemma generate_name_gives x ty tb cols : gives x (generate_name_p x ty tb cols) (generate_name ty tb cols).
Proof.
  eapply gives_pooled. wstep. apply name_columns_writes. wstep. cbn [fst app]. apply writes_ret.
Qed.

(** ** Sprint, Sprintf *)
Lemma quote_str_gives x s : gives x (quote_str_p x s) (Ok (quote_str s)).
Proof. eapply gives_bind; [apply escape_gives|apply gives_ret]. Qed.
Lemma sprint_driver_value_gives x v : gives x (sprint_driver_value_p x v) (sprint_driver_value v).
Proof. destruct v; try apply gives_ret. apply quote_str_gives. Qed.
Lemma sprint_valuer_gives x r : gives x (sprint_valuer_p x r) (sprint_valuer r).
Proof. destruct r; [apply sprint_driver_value_gives|apply gives_ret]. Qed.
Lemma sprint_at_gives x d : forall v deref, gives x (sprint_at_p x deref d v) (sprint_at deref d v).
Proof.
  induction v; intros deref; cbn [sprint_at_p sprint_at]; try apply gives_ret; try apply quote_str_gives; try apply sprint_valuer_gives.
  - apply IHv.
  - match goal with |- context [if ?b then _ else _] => destruct b end; [apply quote_str_gives|apply gives_ret].
  - destruct (valuer_of v) as [r|]; [destruct deref; [apply IHv|apply sprint_valuer_gives]|apply IHv].
Qed.
Lemma sprint_gives x d v : gives x (sprint_p x d v) (sprint d v).
Proof. apply sprint_at_gives. Qed.
Lemma lookup_param_gives x d args pname named running :
  gives x (lookup_param_p x d args pname named running) (lookup_param d args pname named running).
Proof.
  unfold lookup_param_p, lookup_param. destruct pname as [|p0 prest]; [apply gives_ret|].
  set (num := match prest with [] => _ | _ :: _ => _ end). clearbody num. cbn zeta.
  destruct (is_empty num).
  { destruct (negb _); [apply gives_ret|]. destruct (nth_error args running); [apply sprint_gives|apply gives_ret]. }
  destruct (atoi num) as [z|].
  { destruct (_ || _); [apply gives_ret|]. destruct (nth_error args _); [apply sprint_gives|apply gives_ret]. }
  destruct (is_postgres d || is_mysql d); [apply gives_ret|].
  destruct (mget _ named); [|apply gives_ret]. destruct (nth_error args _); [apply sprint_gives|apply gives_ret].
Qed.
(** The scan with its text apart. *)
Definition apart (st : SprintModel.scan) : obj * SprintModel.scan := ((sc_buf st, []), no_text st).
Lemma scan_step_writes x d args named st i :
  match scan_step d args named st i with
  | Ok st' => writes x (Datatypes.S x) (sc_buf st, []) (scan_step_p x d args named (no_text st) i) (Ok (no_text st')) (sc_buf st', [])
  | Err e => writes x (Datatypes.S x) (sc_buf st, []) (scan_step_p x d args named (no_text st) i) (Err e) (sc_buf st, [])
  | Panic => writes x (Datatypes.S x) (sc_buf st, []) (scan_step_p x d args named (no_text st) i) Panic (sc_buf st, [])
  end.
Proof.
  destruct i as [[i c] suffix]. unfold scan_step, scan_step_p.
  cbn [no_text sc_must sc_inside sc_quote sc_pname sc_running].
  destruct (Nat.eqb (sc_must st) i). { wsteps. }
  destruct (sc_inside st) eqn:In.
  { destruct (c =? closer (sc_quote st))%N; [destruct (nth_error suffix 1) as [b|]; [destruct (ord b =? _)%N|]|];
      wstep; unfold no_text, with_must, with_inside, with_buf; cbn; rewrite ?In; apply writes_ret. }
  destruct (opens_quote d c). { wsteps. }
  destruct (negb (nullb (sc_pname st))).
  { destruct (name_terminating c).
    - pose proof (lookup_param_gives (Datatypes.S x) d args (sc_pname st) named (sc_running st)) as H.
      destruct (lookup_param d args (sc_pname st) named (sc_running st)); (eapply writes_gives; [exact H|]); cbn beta iota.
      + wstep; wstep. rewrite <- app_assoc. unfold no_text. cbn. rewrite ?In. apply writes_ret.
      + apply writes_ret.
      + apply writes_ret.
    - unfold no_text. cbn. rewrite ?In. apply writes_ret. }
  destruct (starts_param d c). { unfold no_text. cbn. rewrite ?In. apply writes_ret. }
  destruct ((c =? R "?")%N && negb (is_postgres d)).
  { destruct (is_sqlite d); [unfold no_text; cbn; rewrite ?In; apply writes_ret|].
    destruct (nth_error args (sc_running st)) as [v|]; [|apply writes_ret].
    pose proof (sprint_gives (Datatypes.S x) d v) as H.
    destruct (sprint d v); (eapply writes_gives; [exact H|]); cbn beta iota.
    - wstep. unfold no_text. cbn. rewrite ?In. apply writes_ret.
    - apply writes_ret.
    - apply writes_ret. }
  wsteps.
Qed.
Lemma scan_loop_writes x d args named : forall rs st,
  match scan_loop d args named st rs with
  | Ok st' => writes x (Datatypes.S x) (sc_buf st, []) (scan_loop_p x d args named (no_text st) rs) (Ok (no_text st')) (sc_buf st', [])
  | Err e => writes x (Datatypes.S x) (sc_buf st, []) (scan_loop_p x d args named (no_text st) rs) (Err e) (sc_buf (scan_upto d args named st rs), [])
  | Panic => writes x (Datatypes.S x) (sc_buf st, []) (scan_loop_p x d args named (no_text st) rs) Panic (sc_buf (scan_upto d args named st rs), [])
  end.
Proof.
  induction rs as [|i rs IH]; intros st; cbn [scan_loop scan_loop_p scan_upto]; [apply writes_ret|].
  pose proof (scan_step_writes x d args named st i) as H. destruct (scan_step d args named st i) as [st'|e|].
  - specialize (IH st'). destruct (scan_loop d args named st' rs); (eapply writes_bind; [lia|exact H|exact IH]).
  - eapply writes_bind; [lia|exact H|apply writes_ret].
  - eapply writes_bind; [lia|exact H|apply writes_ret].
Qed.
Lemma sprintf_gives x d query args : gives x (sprintf_p x d query args) (sprintf_returns d query args).
Proof.
  unfold sprintf_p, sprintf_returns, sprintf, sprintf_partial. destruct args as [|a args]; [apply gives_ret|].
  set (l := a :: args). clearbody l. cbn zeta.
  pose proof (scan_loop_writes x d l (named_args_lookup l) (range_string query) scan_init) as H.
  destruct (scan_loop d l (named_args_lookup l) scan_init (range_string query)) as [st|e|].
  - unfold scan_finish.
    destruct (negb (nullb (sc_pname st))) eqn:N.
    + pose proof (lookup_param_gives (Datatypes.S x) d l (sc_pname st) (named_args_lookup l) (sc_running st)) as G.
      destruct (lookup_param d l (sc_pname st) (named_args_lookup l) (sc_running st)) as [v|e|];
        (eapply gives_pooled; eapply writes_bind; [lia|exact H|]; cbn beta iota zeta; cbn [no_text sc_pname sc_running sc_inside];
         rewrite N; eapply writes_gives; [exact G|]; cbn beta iota).
      * wstep. destruct (sc_inside st); wsteps.
      * wsteps.
      * apply writes_ret.
    + eapply gives_pooled. eapply writes_bind; [lia|exact H|]. cbn beta iota zeta. cbn [no_text sc_pname sc_running sc_inside]. rewrite N.
      destruct (sc_inside st); wsteps.
  - eapply gives_pooled. eapply writes_bind; [lia|exact H|]. wsteps.
  - eapply gives_pooled. eapply writes_bind; [lia|exact H|]. apply writes_ret.
Qed.

(** ** Rendering *)
(** Functions that compute a text and need buffers only while they do. *)
Definition computes (nested : helper_fn) : Prop := forall x b, gives x (nested x b) b.
Lemma exec1_front d s c :
  out_text d (st_out (exec1 d s c)) = out_text d (st_out s) ++ cmd_text d s c /\
  st_args (exec1 d s c) = st_args (exec1 d (mk_st [] (st_args s) (st_params s)) c) /\
  st_params (exec1 d s c) = st_params (exec1 d (mk_st [] (st_args s) (st_params s)) c).
Proof.
  unfold cmd_text, out_text. destruct c; cbn [exec1 st_args st_params];
    repeat match goal with |- context [match ?e with _ => _ end] => destruct e end;
    cbn [out push st_out st_args st_params]; rewrite ?flat_map_app, ?app_nil_r; auto.
Qed.
(** Into a buffer. *)
Lemma cmds_writes nested x hi d : computes nested -> x < hi -> forall cs s s0 pre l,
  st_args s0 = st_args s -> st_params s0 = st_params s ->
  exists s2, writes x hi (pre ++ out_text d (st_out s0), l) (cmds_p nested x hi d s cs) s2 (pre ++ out_text d (st_out (exec d s0 cs)), l) /\
    st_args s2 = st_args (exec d s0 cs) /\ st_params s2 = st_params (exec d s0 cs).
Proof.
  intros C X. induction cs as [|c cs IH]; intros s s0 pre l Ea Ep; cbn [cmds_p].
  - exists s. split; [apply writes_ret|]. split; symmetry; assumption.
  - destruct (exec1_front d s0 c) as (F1 & F2 & F3). rewrite Ea, Ep in F2, F3.
    assert (T : cmd_text d s0 c = cmd_text d s c) by (unfold cmd_text; now rewrite Ea, Ep).
    destruct (IH (exec1 d (mk_st [] (st_args s) (st_params s)) c) (exec1 d s0 c) pre l F2 F3) as (s2 & W & A2 & P2).
    exists s2. split; [|split; assumption].
    eapply writes_gives; [apply C|]. wstep. rewrite <- app_assoc, <- T, <- F1. exact W.
Qed.
Lemma to_sql_gives nested x dname n : computes nested -> gives x (to_sql_p nested x dname n) (to_sql dname n).
Proof.
  intros C. unfold to_sql_p. cbv zeta. set (d := to_sql_dialect dname n). set (m := render d n (RenderModel.ctx None [])).
  destruct (cmds_writes nested x (Datatypes.S x) d C (Nat.lt_succ_diag_r x) (fst m) st0 st0 [] [] eq_refl eq_refl) as (s2 & W & A2 & P2).
  eapply gives_pooled. eapply writes_bind; [lia|exact W|]. wstep. unfold to_sql, append_sql. fold d. fold m. cbv zeta. cbn [fst snd].
  rewrite A2, P2. apply writes_ret.
Qed.
Lemma to_sql_exclude_gives nested x dname n excl : computes nested -> gives x (to_sql_exclude_p nested x dname n excl) (to_sql_excluding dname n excl).
Proof.
  intros C. unfold to_sql_exclude_p. cbv zeta. set (d := dialect_of dname). set (m := render d n (RenderModel.ctx None excl)).
  destruct (cmds_writes nested x (Datatypes.S x) d C (Nat.lt_succ_diag_r x) (fst m) st0 st0 [] [] eq_refl eq_refl) as (s2 & W & A2 & P2).
  eapply gives_pooled. eapply writes_bind; [lia|exact W|]. wstep. unfold to_sql_excluding, append_sql. fold d. fold m. cbv zeta. cbn [fst snd].
  rewrite A2, P2. apply writes_ret.
Qed.
