(** * MigrateExec: executing and writing a migration *)
From Coq Require Import Lia Permutation.
From Verif Require Import GoBase GoBaseFacts QuoteModel EffectModel BuildModel DdlModel MigrateModel SpecExec MigrateRun.

(** ** Order *)
Definition srank (s : slice) : nat :=
  match s with
  | LCreateSchema => 0 | LCreateExtension => 1 | LCreateFunction => 2 | LCreateTable => 3
  | LAlterTable => 4 | LCreateView => 5 | LCreateIndex => 6 | LCreateTrigger => 7
  | LAddForeignKey => 8 | LDropView => 9 | LDropTable => 10 | LDropTrigger => 11
  | LDropIndex => 12 | LAlterTableDrop => 13 | LDropFunction => 14 | LDropExtension => 15
  end.
Lemma in_slice_rank : forall s c, in_slice s c = Nat.eqb (rank c) (srank s).
Proof. intros [] []; reflexivity. Qed.
Lemma filter_filter : forall A (p q : A -> bool) l, filter p (filter q l) = filter (fun a => q a && p a) l.
Proof.
  intros A p q l. induction l as [|a l IH]; cbn [filter]; [reflexivity|]. destruct (q a); cbn [filter andb]; [|exact IH].
  destruct (p a); now rewrite IH.
Qed.
Lemma filter_ext_in' : forall A (p q : A -> bool) l, (forall a, In a l -> p a = q a) -> filter p l = filter q l.
Proof.
  intros A p q l. induction l as [|a l IH]; intros H; cbn [filter]; [reflexivity|].
  rewrite (H a) by now left. rewrite IH by (intros b I; apply H; now right). reflexivity.
Qed.
(** The commands of a slice that are not ignored. *)
Definition group (m : migration) (s : slice) : list command := live (slice_of s m).
Lemma exec_groups : forall m, exec_cmds m = flat_map (group m) exec_order.
Proof. reflexivity. Qed.
Lemma in_group : forall m s c, In c (group m s) -> rank c = srank s.
Proof.
  intros m s c I. unfold group, live, slice_of in I. apply filter_In in I. destruct I as [I _]. apply filter_In in I. destruct I as [_ I].
  rewrite in_slice_rank in I. now apply Nat.eqb_eq.
Qed.
Fixpoint increasing (ss : list slice) : Prop :=
  match ss with [] => True | s :: ss' => (forall s', In s' ss' -> srank s < srank s') /\ increasing ss' end.
Lemma exec_order_increasing : increasing exec_order.
Proof.
  cbn. repeat split; intros s' I; repeat (destruct I as [<-|I]; [cbn; lia|]); destruct I.
Qed.
Lemma rank_order_app : forall l l', in_rank_order l -> in_rank_order l' -> (forall a b, In a l -> In b l' -> rank a <= rank b) -> in_rank_order (l ++ l').
Proof.
  intros l l' H H' C. induction H as [|c l F H IH]; cbn [app]; [exact H'|]. constructor.
  - intros c' I. apply in_app_or in I. destruct I as [I|I]; [now apply F|]. apply C; [now left|exact I].
  - apply IH. intros a b Ia. apply C. now right.
Qed.
Lemma group_order : forall m s, in_rank_order (group m s).
Proof.
  intros m s. assert (H : forall c, In c (group m s) -> rank c = srank s) by apply in_group.
  induction (group m s) as [|c l IH]; constructor.
  - intros c' I. rewrite (H c) by now left. rewrite (H c') by now right. lia.
  - apply IH. intros x I. apply H. now right.
Qed.
Lemma groups_order : forall m ss, increasing ss -> in_rank_order (flat_map (group m) ss).
Proof.
  intros m ss. induction ss as [|s ss IH]; intros H; cbn [flat_map]; [constructor|]. destruct H as [H1 H2].
  apply rank_order_app; [apply group_order|now apply IH|]. intros a b Ia Ib. apply in_flat_map in Ib. destruct Ib as (s' & Is & Ib).
  rewrite (in_group _ _ _ Ia), (in_group _ _ _ Ib). specialize (H1 s' Is). lia.
Qed.
Lemma filter_none : forall A (p : A -> bool) l, (forall a, In a l -> p a = false) -> filter p l = [].
Proof.
  intros A p l. induction l as [|a l IH]; intros H; cbn [filter]; [reflexivity|]. rewrite H by now left. apply IH. intros b I. apply H. now right.
Qed.
Lemma filter_all : forall A (p : A -> bool) l, (forall a, In a l -> p a = true) -> filter p l = l.
Proof.
  intros A p l. induction l as [|a l IH]; intros H; cbn [filter]; [reflexivity|]. rewrite H by now left. f_equal. apply IH. intros b I. apply H. now right.
Qed.
Lemma filter_groups : forall m ss p, filter (fun c => p (rank c)) (flat_map (group m) ss) = flat_map (group m) (filter (fun s => p (srank s)) ss).
Proof.
  intros m ss p. induction ss as [|s ss IH]; cbn [flat_map filter]; [reflexivity|]. rewrite filter_app, IH.
  destruct (p (srank s)) eqn:E; cbn [flat_map].
  - f_equal. apply filter_all. intros c I. now rewrite (in_group _ _ _ I).
  - rewrite filter_none; [reflexivity|]. intros c I. now rewrite (in_group _ _ _ I).
Qed.
Lemma group_rank : forall m s, group m s = filter (fun c => Nat.eqb (rank c) (srank s)) (live (m_cmds m)).
Proof.
  intros m s. unfold group, slice_of, live. rewrite !filter_filter. apply filter_ext_in'. intros c _. rewrite in_slice_rank. apply andb_comm.
Qed.
Lemma exec_arranged : forall m, arranged (exec_cmds m) (m_cmds m).
Proof.
  intros m. rewrite exec_groups. split; [apply groups_order, exec_order_increasing|]. intros k.
  rewrite (filter_groups m exec_order (fun r => Nat.eqb r k)).
  assert (H : k < 16 \/ 16 <= k) by lia. destruct H as [H|H].
  - assert (X : exists s, srank s = k /\ filter (fun s => Nat.eqb (srank s) k) exec_order = [s]).
    { do 16 (destruct k as [|k]; [eexists; split; [|reflexivity]; reflexivity|]). lia. }
    destruct X as (s & E & F). rewrite F. cbn [flat_map]. rewrite app_nil_r, group_rank, E. reflexivity.
  - rewrite (filter_none _ (fun s => Nat.eqb (srank s) k)).
    + cbn [flat_map]. symmetry. apply filter_none. intros c _. apply Nat.eqb_neq. destruct c; cbn [rank]; lia.
    + intros s _. apply Nat.eqb_neq. destruct s; cbn [srank]; lia.
Qed.

(** ** Executing *)
Lemma exec_loop_spec : forall d db cs sent sent' st, exec_loop d db sent cs = (sent', st) ->
  exists k, k <= length cs /\ sent' = sent ++ map (text d) (firstn k cs) /\
    (forall c, In c (firstn k cs) -> writable d c) /\
    (forall j, length sent <= j -> S j < length sent' -> accepted db sent' j) /\
    match st with
    | SOk => k = length cs /\ (forall j, length sent <= j -> j < length sent' -> accepted db sent' j)
    | _ => (st = SErr /\ 0 < k /\ ~ accepted db sent' (length sent' - 1)) \/
           ((forall j, length sent <= j -> j < length sent' -> accepted db sent' j) /\
            exists c, nth_error cs k = Some c /\ snd (command_sql d c) = st)
    end.
Proof.
  intros d db cs. induction cs as [|c cs IH]; intros sent sent' st E; cbn [exec_loop] in E.
  - assert (sent' = sent /\ st = SOk) as [-> ->] by (split; congruence). exists 0. cbn [length firstn map]. rewrite app_nil_r.
    repeat split; auto; try (intros; lia). intros c [].
  - destruct (snd (command_sql d c)) eqn:ST.
    + destruct (db sent (written_text (command_sql d c))) eqn:DB.
      * apply IH in E. destruct E as (k & Hk & ES & W & A & R). exists (S k).
        assert (ES' : sent' = sent ++ map (text d) (firstn (S k) (c :: cs))).
        { rewrite ES, <- app_assoc. reflexivity. }
        assert (L0 : accepted db sent' (length sent)).
        { exists (text d c). rewrite ES'. cbn [firstn map]. rewrite nth_error_app2 by lia. rewrite Nat.sub_diag.
          split; [reflexivity|]. rewrite firstn_app, Nat.sub_diag, firstn_all. cbn [firstn]. rewrite app_nil_r. exact DB. }
        assert (LL : length (sent ++ [written_text (command_sql d c)]) = S (length sent)) by (rewrite app_length; cbn [length]; lia).
        rewrite LL in A.
        split; [cbn [length]; lia|]. split; [exact ES'|]. split; [|split].
        -- intros x [<-|I]; [exact ST|now apply W].
        -- intros j H1 H2. destruct (Nat.eq_dec j (length sent)) as [->|NE]; [exact L0|]. apply A; lia.
        -- destruct st.
           ++ destruct R as [R1 R2]. rewrite LL in R2. split; [cbn [length]; lia|]. intros j H1 H2.
              destruct (Nat.eq_dec j (length sent)) as [->|NE]; [exact L0|]. apply R2; lia.
           ++ destruct R as [(R1 & R2 & R3)|[R1 R2]]; [left; repeat split; auto; lia|right]. rewrite LL in R1. split; [|exact R2].
              intros j H1 H2. destruct (Nat.eq_dec j (length sent)) as [->|NE]; [exact L0|]. apply R1; lia.
           ++ destruct R as [(R1 & _)|[R1 R2]]; [discriminate|right]. rewrite LL in R1. split; [|exact R2].
              intros j H1 H2. destruct (Nat.eq_dec j (length sent)) as [->|NE]; [exact L0|]. apply R1; lia.
      * assert (sent' = sent ++ [text d c] /\ st = SErr) as [-> ->] by (split; [symmetry|]; unfold text; congruence).
        exists 1. cbn [length firstn map]. split; [lia|]. split; [reflexivity|]. split; [intros x [<-|[]]; exact ST|].
        assert (LL : length (sent ++ [text d c]) = S (length sent)) by (rewrite app_length; cbn [length]; lia). rewrite LL.
        split; [intros; lia|]. left. split; [reflexivity|]. split; [lia|]. replace (S (length sent) - 1) with (length sent) by lia.
        intros (q & N & H). rewrite nth_error_app2, Nat.sub_diag in N by lia. cbn [nth_error] in N. assert (q = text d c) by congruence. subst q.
        rewrite firstn_app, Nat.sub_diag, firstn_all in H. cbn [firstn] in H. rewrite app_nil_r in H. unfold text in H. congruence.
    + assert (sent' = sent /\ st = SErr) as [-> ->] by (split; congruence). exists 0. cbn [length firstn map]. rewrite app_nil_r.
      split; [lia|]. split; [reflexivity|]. split; [intros x []|]. split; [intros; lia|]. right. split; [intros; lia|]. exists c. auto.
    + assert (sent' = sent /\ st = SPanic) as [-> ->] by (split; congruence). exists 0. cbn [length firstn map]. rewrite app_nil_r.
      split; [lia|]. split; [reflexivity|]. split; [intros x []|]. split; [intros; lia|]. right. split; [intros; lia|]. exists c. auto.
Qed.

(** ** Writing *)
Definition NL2 : bytes := B "

".
Lemma script_app : forall ps qs, ps <> [] -> script (ps ++ qs) = script ps ++ flat_map (fun p => NL2 ++ p) qs.
Proof.
  intros [|p ps] qs H; [congruence|]. cbn [app script]. rewrite flat_map_app, app_assoc. reflexivity.
Qed.
Definition shows (w : wstate) (ps : list bytes) : Prop := w_text w = script ps /\ w_written w = negb (is_nil ps).
Lemma write_cmd_plain : forall d c w ps, writable d c -> trim_space (text d c) <> [] -> shows w ps ->
  exists w', write_cmd d false c w = (w', SOk) /\ shows w' (ps ++ [statement_piece d c]).
Proof.
  intros d c w ps W NE [T WR]. unfold write_cmd. rewrite W. fold (text d c).
  destruct (trim_space (text d c)) as [|a q] eqn:Q; [congruence|].
  eexists. split; [reflexivity|]. split; cbn [w_text w_written].
  - rewrite T, WR. unfold statement_piece, terminated. rewrite Q. destruct ps as [|p ps]; cbn [is_nil negb].
    + cbn [script app flat_map]. now rewrite app_nil_r.
    + rewrite script_app by discriminate. cbn [flat_map]. rewrite app_nil_r, <- !app_assoc. reflexivity.
  - destruct ps; reflexivity.
Qed.
Lemma write_cmd_routine : forall d c w ps, writable d c -> ps <> [] -> shows w ps ->
  exists w', write_cmd d true c w = (w', SOk) /\ shows w' (ps ++ [routine_piece d c]).
Proof.
  intros d c w ps W NE [T WR]. unfold write_cmd. rewrite W. fold (text d c).
  eexists. split; [reflexivity|]. split; cbn [w_text w_written].
  - rewrite T, WR. unfold routine_piece. destruct ps as [|p ps]; [congruence|]. cbn [is_nil negb].
    rewrite script_app by discriminate. cbn [flat_map]. rewrite app_nil_r, <- !app_assoc. reflexivity.
  - destruct ps; reflexivity.
Qed.
Lemma write_loop_plain : forall d cs w ps, (forall c, In c (live cs) -> writable d c /\ trim_space (text d c) <> []) -> shows w ps ->
  exists w', write_loop d false cs w = (w', SOk) /\ shows w' (ps ++ map (statement_piece d) (live cs)).
Proof.
  intros d cs. induction cs as [|c cs IH]; intros w ps H S; cbn [write_loop live filter map].
  - exists w. now rewrite app_nil_r.
  - unfold live in H. cbn [filter] in H. destruct (cmd_ignore c); cbn [negb] in *; [now apply IH|].
    destruct (H c (or_introl eq_refl)) as [W NE]. destruct (write_cmd_plain d c w ps W NE S) as (w1 & E1 & S1). rewrite E1.
    destruct (IH w1 _ (fun x I => H x (or_intror I)) S1) as (w2 & E2 & S2). exists w2. split; [exact E2|].
    rewrite <- app_assoc in S2. exact S2.
Qed.
Lemma write_loop_routine : forall d cs w ps, (forall c, In c (live cs) -> writable d c) -> ps <> [] -> shows w ps ->
  exists w', write_loop d true cs w = (w', SOk) /\ shows w' (ps ++ map (routine_piece d) (live cs)).
Proof.
  intros d cs. induction cs as [|c cs IH]; intros w ps H NE S; cbn [write_loop live filter map].
  - exists w. now rewrite app_nil_r.
  - unfold live in H. cbn [filter] in H. destruct (cmd_ignore c); cbn [negb] in *; [now apply IH|].
    destruct (write_cmd_routine d c w ps (H c (or_introl eq_refl)) NE S) as (w1 & E1 & S1). rewrite E1.
    destruct (IH w1 _ (fun x I => H x (or_intror I)) (fun E => app_cons_not_nil _ _ _ (eq_sym E)) S1) as (w2 & E2 & S2). exists w2. split; [exact E2|].
    rewrite <- app_assoc in S2. exact S2.
Qed.
Definition group_pieces (d : dialect) (m : migration) (s : slice) : list bytes :=
  if is_routine s && is_mysql d && negb (is_nil (slice_of s m))
  then [B "-- DELIMITER ;;"] ++ map (routine_piece d) (group m s) ++ [B "-- DELIMITER ;"]
  else map (statement_piece d) (group m s).
Lemma write_group_spec : forall d m s w ps,
  (forall c, In c (group m s) -> writable d c /\ trim_space (text d c) <> []) ->
  (is_routine s && is_mysql d && negb (is_nil (slice_of s m)) = true -> ps <> []) -> shows w ps ->
  exists w', write_group d m s w = (w', SOk) /\ shows w' (ps ++ group_pieces d m s).
Proof.
  intros d m s w ps H NE S. unfold write_group, group_pieces. fold (group m s).
  destruct (is_routine s && is_mysql d && negb (is_nil (slice_of s m))).
  - specialize (NE eq_refl). destruct S as [T WR].
    assert (S1 : shows (mk_wstate (w_text w ++ B "

-- DELIMITER ;;") (w_written w)) (ps ++ [B "-- DELIMITER ;;"])).
    { split; cbn [w_text w_written].
      - rewrite T, script_app by exact NE. cbn [flat_map]. rewrite app_nil_r. reflexivity.
      - rewrite WR. destruct ps; [congruence|reflexivity]. }
    destruct (write_loop_routine d (slice_of s m) _ (ps ++ [B "-- DELIMITER ;;"]) (fun c I => proj1 (H c I)) (fun E => app_cons_not_nil _ _ _ (eq_sym E)) S1) as (w1 & E1 & [T1 W1]).
    rewrite E1. eexists. split; [reflexivity|]. split; cbn [w_text w_written].
    + rewrite T1. fold (group m s). rewrite <- !app_assoc.
      change ((ps ++ [B "-- DELIMITER ;;"] ++ map (routine_piece d) (group m s) ++ [B "-- DELIMITER ;"]))
        with (ps ++ ([B "-- DELIMITER ;;"] ++ map (routine_piece d) (group m s)) ++ [B "-- DELIMITER ;"]).
      set (qs := [B "-- DELIMITER ;;"] ++ map (routine_piece d) (group m s)).
      rewrite (app_assoc ps qs). rewrite (script_app (ps ++ qs) [B "-- DELIMITER ;"]) by (destruct ps; [congruence|discriminate]).
      cbn [flat_map]. rewrite app_nil_r. reflexivity.
    + rewrite W1. destruct ps; reflexivity.
  - now apply write_loop_plain.
Qed.
Lemma write_groups_spec : forall d m ss w ps,
  (forall s c, In s ss -> In c (group m s) -> writable d c /\ trim_space (text d c) <> []) ->
  (forall a s b, ss = a ++ s :: b -> is_routine s && is_mysql d && negb (is_nil (slice_of s m)) = true -> ps ++ flat_map (group_pieces d m) a <> []) ->
  shows w ps ->
  exists w', write_groups d m ss w = (w', SOk) /\ shows w' (ps ++ flat_map (group_pieces d m) ss).
Proof.
  intros d m ss. induction ss as [|s ss IH]; intros w ps H NE S; cbn [write_groups flat_map].
  - exists w. now rewrite app_nil_r.
  - destruct (write_group_spec d m s w ps) as (w1 & E1 & S1); auto.
    + intros c I. apply (H s c); [now left|exact I].
    + intros R. specialize (NE [] s ss eq_refl R). cbn [flat_map] in NE. now rewrite app_nil_r in NE.
    + rewrite E1. rewrite app_assoc. apply IH; auto.
      * intros s' c Is I. apply (H s' c); [now right|exact I].
      * intros a s' b E R. rewrite <- app_assoc. apply (NE (s :: a) s' b); [now rewrite E|exact R].
Qed.
Lemma pieces_groups : forall d m, flat_map (group_pieces d m) write_order = pieces d (m_cmds m) (exec_cmds m).
Proof.
  intros d m. unfold pieces. destruct (is_mysql d) eqn:MY.
  - assert (G : forall s, is_routine s = false -> group_pieces d m s = map (statement_piece d) (group m s)).
    { intros s R. unfold group_pieces. now rewrite R. }
    assert (R : forall s, is_routine s = true -> group_pieces d m s = routine_pieces d (srank s) (m_cmds m) (exec_cmds m)).
    { intros s R. unfold group_pieces, routine_pieces. rewrite R, MY. cbn [andb].
      assert (E1 : with_rank (Nat.eqb (srank s)) (m_cmds m) = slice_of s m).
      { unfold with_rank, slice_of. apply filter_ext_in'. intros c _. rewrite in_slice_rank. apply Nat.eqb_sym. }
      assert (E2 : with_rank (Nat.eqb (srank s)) (exec_cmds m) = group m s).
      { unfold with_rank. rewrite group_rank. destruct (exec_arranged m) as [_ A]. rewrite <- A. apply filter_ext_in'. intros c _. apply Nat.eqb_sym. }
      rewrite E1, E2. unfold group. destruct (slice_of s m); reflexivity. }
    assert (P : forall p, with_rank p (exec_cmds m) = flat_map (group m) (filter (fun s => p (srank s)) exec_order)).
    { intros p. unfold with_rank. rewrite exec_groups. apply filter_groups. }
    assert (M : forall ss, (forall s, In s ss -> is_routine s = false) -> flat_map (group_pieces d m) ss = map (statement_piece d) (flat_map (group m) ss)).
    { intros ss. induction ss as [|s ss IH]; intros H; cbn [flat_map map]; [reflexivity|]. rewrite map_app, <- IH by (intros x I; apply H; now right).
      rewrite G by (apply H; now left). reflexivity. }
    rewrite !P.
    change (filter (fun s => Nat.ltb (srank s) 2) exec_order) with [LCreateSchema; LCreateExtension].
    change (filter (fun s => Nat.ltb 2 (srank s) && Nat.ltb (srank s) 7) exec_order) with [LCreateTable; LAlterTable; LCreateView; LCreateIndex].
    change (filter (fun s => Nat.ltb 7 (srank s)) exec_order)
      with [LAddForeignKey; LDropView; LDropTable; LDropTrigger; LDropIndex; LAlterTableDrop; LDropFunction; LDropExtension].
    rewrite <- !M by (intros s I; repeat (destruct I as [<-|I]; [reflexivity|]); destruct I).
    change (routine_pieces d 2) with (routine_pieces d (srank LCreateFunction)).
    change (routine_pieces d 7) with (routine_pieces d (srank LCreateTrigger)).
    rewrite <- (R LCreateFunction eq_refl), <- (R LCreateTrigger eq_refl).
    change write_order with ([LCreateSchema; LCreateExtension] ++ [LCreateFunction] ++ [LCreateTable; LAlterTable; LCreateView; LCreateIndex]
      ++ [LCreateTrigger] ++ [LAddForeignKey; LDropView; LDropTable; LDropTrigger; LDropIndex; LAlterTableDrop; LDropFunction; LDropExtension]).
    rewrite !flat_map_app. f_equal. f_equal; [|f_equal; f_equal]; cbn [flat_map]; now rewrite app_nil_r.
  - rewrite exec_groups. change write_order with exec_order.
    induction exec_order as [|s ss IH]; cbn [flat_map map]; [reflexivity|]. rewrite map_app, IH. f_equal.
    unfold group_pieces. rewrite MY, andb_false_r. reflexivity.
Qed.
Lemma write_sql_script : forall m,
  (forall c, In c (exec_cmds m) -> writable (dialect_of (m_dialect m)) c /\ trim_space (text (dialect_of (m_dialect m)) c) <> []) ->
  (dialect_of (m_dialect m) = DMySQL ->
     (with_rank (Nat.eqb 2) (m_cmds m) <> [] -> with_rank (fun k => Nat.ltb k 2) (exec_cmds m) <> []) /\
     (with_rank (Nat.eqb 7) (m_cmds m) <> [] -> with_rank (fun k => Nat.ltb k 7) (exec_cmds m) <> [])) ->
  write_sql m = (script (pieces (dialect_of (m_dialect m)) (m_cmds m) (exec_cmds m)), SOk).
Proof.
  intros m H F. set (d := dialect_of (m_dialect m)) in *. unfold write_sql. fold d.
  assert (SL : forall s, with_rank (Nat.eqb (srank s)) (m_cmds m) = slice_of s m).
  { intros s. unfold with_rank, slice_of. apply filter_ext_in'. intros c _. rewrite in_slice_rank. apply Nat.eqb_sym. }
  assert (P : forall p, with_rank p (exec_cmds m) = flat_map (group m) (filter (fun s => p (srank s)) exec_order)).
  { intros p. unfold with_rank. rewrite exec_groups. apply filter_groups. }
  destruct (write_groups_spec d m write_order (mk_wstate [] false) []) as (w & E & S).
  - intros s c Is I. apply H. rewrite exec_groups. apply in_flat_map. exists s. auto.
  - intros a s b E R. rewrite !andb_true_iff in R. destruct R as [[R1 R2] R3].
    assert (MY : d = DMySQL) by (destruct d; auto; discriminate).
    assert (NN : slice_of s m <> []) by (destruct (slice_of s m); [discriminate|discriminate]).
    destruct (F MY) as [F2 F7]. cbn [app].
    assert (G : forall l, flat_map (group m) l <> [] -> flat_map (group_pieces d m) l <> []).
    { intros l. induction l as [|x l IH]; cbn [flat_map]; [auto|]. intros N. destruct (group m x) as [|c g] eqn:EG.
      - intros X. apply app_eq_nil in X. now apply IH.
      - unfold group_pieces. rewrite EG. destruct (_ && _); discriminate. }
    assert (A : a = filter (fun s' => Nat.ltb (srank s') (srank s)) exec_order /\ (srank s = 2 \/ srank s = 7)).
    { change write_order with exec_order in E. unfold exec_order in E.
      destruct s; try discriminate;
        do 17 (try (destruct a as [|? a]; [first [discriminate E | split; [reflexivity|auto]]|];
          first [discriminate E | cbn [app] in E; injection E as <- E])). }
    destruct A as [-> [K|K]]; apply G; rewrite K.
    + rewrite <- (P (fun k => Nat.ltb k 2)). apply F2. rewrite <- K, SL. exact NN.
    + rewrite <- (P (fun k => Nat.ltb k 7)). apply F7. rewrite <- K, SL. exact NN.
  - split; reflexivity.
  - rewrite E. destruct S as [T _]. cbn [app] in T. rewrite T, pieces_groups. reflexivity.
Qed.

(** The arrangement is unique. *)
Lemma rank_order_unique : forall es es', in_rank_order es -> in_rank_order es' ->
  (forall k, filter (fun c => Nat.eqb (rank c) k) es = filter (fun c => Nat.eqb (rank c) k) es') -> es = es'.
Proof.
  assert (X : forall c es, In c es -> In c (filter (fun x => Nat.eqb (rank x) (rank c)) es)).
  { intros c es I. apply filter_In. split; [exact I|]. apply Nat.eqb_refl. }
  induction es as [|c es IH]; intros es' O O' F.
  - destruct es' as [|c' es']; [reflexivity|]. specialize (F (rank c')). cbn [filter] in F. rewrite Nat.eqb_refl in F. discriminate.
  - destruct es' as [|c' es'].
    { specialize (F (rank c)). cbn [filter] in F. rewrite Nat.eqb_refl in F. discriminate. }
    assert (L : forall a l, in_rank_order (a :: l) -> (forall b, In b (a :: l) -> rank a <= rank b) /\ in_rank_order l).
    { intros a l K. inversion K; subst. split; [|assumption]. intros b [<-|I]; [lia|auto]. }
    destruct (L _ _ O) as [L1 L2]. destruct (L _ _ O') as [L1' L2'].
    assert (R : rank c = rank c').
    { assert (I : In c (c' :: es')). { specialize (X c (c :: es)). rewrite F in X. eapply proj1, filter_In, X. now left. }
      assert (I' : In c' (c :: es)). { specialize (X c' (c' :: es')). rewrite <- F in X. eapply proj1, filter_In, X. now left. }
      specialize (L1 _ I'). specialize (L1' _ I). lia. }
    pose proof (F (rank c)) as Fc. cbn [filter] in Fc. rewrite <- R, Nat.eqb_refl in Fc. injection Fc as -> Fc.
    f_equal. apply IH; auto. intros k. specialize (F k). cbn [filter] in F. destruct (Nat.eqb (rank c') k); [now injection F|exact F].
Qed.
Lemma arranged_unique : forall m es, arranged es (m_cmds m) -> es = exec_cmds m.
Proof.
  intros m es [O F]. destruct (exec_arranged m) as [O' F']. apply rank_order_unique; auto. intros k. now rewrite F, F'.
Qed.
