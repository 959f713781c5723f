(** * BindPf: proofs of C10 - C15 *)
From Coq Require Import Lia.
From Verif Require Import GoBase GoBaseFacts QuoteModel SprintModel TokenModel EffectModel RenderModel
  NodeInd SpecSim RenderRel RenderInst ExecFacts BindFacts SpecNames BuildModel.
Local Open Scope m_scope.

(** Side conditions that always hold. *)
Lemma always_ok n : everywhere (node_ok True (fun _ => True) (fmt_ok True) (fun _ _ => True)) n.
Proof.
  apply everywhere_always. clear n. intros n. unfold fmt_ok.
  destruct n; cbn; auto; try (destruct v; auto); try (destruct n; auto).
Qed.

Section Cmds.
  Context (d : dialect) (C : cmd -> Prop).
  Definition allc (m : M) : Prop := Forall C (fst m).
  Lemma allc_seq m k : allc m -> allc k -> allc (m ;; k).
  Proof. apply seq_forall. Qed.
  Lemma allc_ignore m : allc m -> allc (ignore_err m).
  Proof. unfold allc. now rewrite ignore_fst. Qed.
End Cmds.

Lemma mysql_not_named n c : Forall not_named (fst (render DMySQL n c)).
Proof.
  change (allc not_named (render DMySQL n c)).
  apply (render_unary DMySQL (allc not_named) True (fun _ _ => True)); unfold allc; cbn [fst act ret fail crash emit].
  - constructor.
  - constructor.
  - constructor.
  - repeat constructor.
  - repeat constructor.
  - apply allc_seq.
  - apply allc_ignore.
  - repeat constructor.
  - repeat constructor.
  - discriminate.
  - apply always_ok.
Qed.

Lemma appends_pf d n e x s :
  let s' := fst (append_sql d n e x s) in
  (exists ks, st_out s' = st_out s ++ ks) /\
  (exists t, out_text d (st_out s') = out_text d (st_out s) ++ t) /\
  length (st_args s) <= length (st_args s') /\
  (forall i, i < length (st_args s) -> (forall name, ~ In i (pget name (st_params s))) ->
     nth_error (st_args s') i = nth_error (st_args s) i).
Proof.
  intros s'. unfold s', append_sql. cbn [fst].
  destruct (exec_out d (fst (render d n (ctx e x))) s) as [ks E].
  destruct (exec_keeps d (fst (render d n (ctx e x))) s) as [H1 H2].
  repeat split; eauto. exists (out_text d ks). now rewrite E, out_text_app.
Qed.

Lemma mysql_marks_pf n e x s :
  let s' := fst (append_sql DMySQL n e x s) in
  exists ks, st_out s' = st_out s ++ ks /\ Forall text_or_mark ks /\
             st_args s' = st_args s ++ marks ks.
Proof. apply exec_marks; auto. apply mysql_not_named. Qed.

Lemma marks_join d ks : Forall text_or_mark ks ->
  exists segs, length segs = S (length (marks ks)) /\ out_text d ks = join (B "?") segs.
Proof.
  induction 1 as [|k ks Hk _ (segs & L & E)]; [exists [[]]; auto|].
  destruct k; cbn in Hk; try contradiction; cbn [marks].
  - destruct segs as [|s segs]; [discriminate|]. exists ((b ++ s) :: segs). split; auto.
    unfold out_text in *. cbn [flat_map chunk_text]. rewrite E. destruct segs; cbn [join]; now rewrite ?app_assoc.
  - exists ([] :: segs). split; [cbn; now rewrite L|]. unfold out_text in *. cbn [flat_map chunk_text].
    rewrite E. destruct segs; [discriminate|]. reflexivity.
Qed.

Lemma mysql_question_marks_pf n : exists segs,
  length segs = S (length (r_args (to_sql (B "mysql") n))) /\
  r_query (to_sql (B "mysql") n) = join (B "?") segs.
Proof.
  assert (D : to_sql_dialect (B "mysql") n = DMySQL) by reflexivity.
  unfold to_sql. rewrite D. cbn [r_args r_query].
  destruct (mysql_marks_pf n None [] st0) as (ks & E1 & E2 & E3). rewrite E1, E3. cbn [st_out st0 st_args app].
  now apply marks_join.
Qed.

Lemma ordinals_pf d n e x s : numbered d = true -> good s -> good (fst (append_sql d n e x s)).
Proof. intros. now apply exec_good. Qed.

(** ** C13, C15 *)
Lemma bound_pf d val n e x : numbered d = true -> well_named val n ->
  exists L, agree L (fst (append_sql d n e x st0)) /\
            (snd (append_sql d n e x st0) = SOk -> L_ok val L).
Proof.
  intros N W. destruct (render2 d val n (ctx e x) (well_named_ok2 val n W) eq_refl []) as (L & S & O).
  { intros name v. discriminate. }
  exists L. split; auto. apply (exec_sound d [] _ L N S). apply agree0.
Qed.

Definition dels_ordinals (c : cmd) : Prop :=
  match c with CDel ns => Forall (fun n => atoi n <> None) ns | _ => True end.
Lemma run_items_dels vals vals' d e x items : Forall2 (kid_rel d eq (fun _ m _ => allc dels_ordinals m)) vals vals' ->
  forall running ords, Forall (fun n => atoi n <> None) ords ->
  allc dels_ordinals (run_items vals e x running ords items).
Proof.
  intros H. induction items as [|it items IH]; intros running ords HO; cbn [run_items]; [constructor|].
  destruct it as [b|body|b|].
  - apply allc_seq; auto. repeat constructor.
  - destruct (ref_nameonly body); try constructor.
    destruct (resolve _ _ _) as [[i o]|] eqn:E; [|constructor].
    destruct (nth_error vals i) as [k|] eqn:N; [|constructor].
    apply allc_seq.
    + destruct (_ && _); [repeat constructor|].
      destruct (kid_at d _ _ _ _ _ H N) as [k' K]. exact (kr_run _ _ _ _ _ K (mk_ctx _ _ _ _)).
    + apply IH. destruct o; auto. apply Forall_app. split; auto. repeat constructor.
      apply resolve_cases in E. destruct E as [[_ E]|[(z & E & _)|(_ & E & _)]]; try discriminate. congruence.
  - repeat constructor; auto.
  - constructor.
Qed.
Lemma render_dels d n c : Forall dels_ordinals (fst (render d n c)).
Proof.
  refine (render_rel d eq (fun _ m _ => allc dels_ordinals m) True (fun _ => True) (fmt_ok True) (fun _ _ => True)
    _ _ _ _ _ _ _ _ _ _ _ _ _ _ _ false (fun H => False_ind _ (Bool.diff_false_true H)) n n c (sim_refl eq (fun v => eq_refl) n) (always_ok n));
    unfold allc, fmt_ok; cbn [fst act]; auto; try (repeat constructor; fail).
  - intros. now apply allc_seq.
  - intros. now apply allc_ignore.
  - intros vals vals' e x fmt H _ _. unfold bufprintf. eapply run_items_dels; eauto.
Qed.

Lemma incl_app_r {A} (l m : list A) : incl l (l ++ m).
Proof. intros a I. apply in_or_app. auto. Qed.
Lemma exec1_persist d s c name : dels_ordinals c -> atoi name = None ->
  incl (pget name (st_params s)) (pget name (st_params (exec1 d s c))).
Proof.
  intros Hc Ha. assert (Z : incl (pget name (st_params s)) (pget name (st_params s))) by apply incl_refl.
  destruct c as [b|p v|p v|p v|ns]; cbn [exec1].
  - exact Z.
  - destruct (numbered d).
    + destruct (if is_empty p then _ else _) eqn:E; auto. cbn [push st_params].
      destruct (is_empty p); auto. rewrite pget_mset. destruct (beqb name p) eqn:EB; auto.
      apply beqb_eq in EB. subst. rewrite E. intros i [].
    + exact Z.
  - destruct (pget p (st_params s)) eqn:E; auto. cbn [st_params].
    rewrite pget_mset. destruct (beqb name p) eqn:EB; auto. apply beqb_eq in EB. subst. rewrite E. intros i [].
  - destruct (numbered d).
    + destruct (pget p (st_params s)) eqn:E; auto. cbn [push st_params].
      rewrite pget_mset. destruct (beqb name p) eqn:EB; auto. apply beqb_eq in EB. subst. rewrite E. intros i [].
    + cbn [push st_params]. rewrite pget_mset. destruct (beqb name p) eqn:EB; auto. apply beqb_eq in EB. subst.
      apply incl_app_r.
  - cbn [st_params]. rewrite pget_dels_notin; auto. cbn in Hc. rewrite Forall_forall in Hc. intros I.
    now apply Hc in I.
Qed.
Lemma params_persist_pf d n e x s name : atoi name = None ->
  incl (pget name (st_params s)) (pget name (st_params (fst (append_sql d n e x s)))).
Proof.
  intros Ha. unfold append_sql. cbn [fst].
  apply (exec_ind_forall d dels_ordinals
    (fun s' => incl (pget name (st_params s)) (pget name (st_params s')))).
  - intros s' c Hc HP. eapply incl_tran; [exact HP|]. now apply exec1_persist.
  - apply render_dels.
  - apply incl_refl.
Qed.

Lemma param_registers_pf d name v e x s : name <> [] -> params_in_range s ->
  let r := append_sql d (NParam name (NRaw v)) e x s in
  snd r = SOk /\
  exists i, In i (pget name (st_params (fst r))) /\ nth_error (st_args (fst r)) i = Some v /\
            In (if numbered d then KOrd i v else KMark v) (st_out (fst r)).
Proof.
  intros Hn G. unfold append_sql. cbn [render param_run k_node]. unfold param_run. cbn [k_node].
  destruct name as [|a name]; [contradiction|]. cbn [is_empty act fst snd]. split; auto.
  cbn [exec fold_left exec1]. set (p := a :: name) in *. destruct (numbered d) eqn:N.
  - destruct (pget p (st_params s)) as [|i l] eqn:E.
    + exists (length (st_args s)). cbn [push st_params st_args st_out app]. rewrite N, pget_mset, beqb_refl.
      repeat split; [now left|apply nth_error_last|apply in_or_app; right; now left].
    + exists i. cbn [st_params st_args st_out]. rewrite E. repeat split; [now left| |apply in_or_app; right; now left].
      apply list_set_same. apply (G p). rewrite E. now left.
  - exists (length (st_args s)). cbn [push st_params st_args st_out app]. rewrite N, pget_mset, beqb_refl.
    repeat split; [|apply nth_error_last|apply in_or_app; right; now left].
    apply in_or_app. right. now left.
Qed.

(** MySQL *)
Definition mcmd (val : bytes -> gval) (c : cmd) : Prop :=
  match c with CParam name v => val name = v | CNamedArg _ _ => False | _ => True end.
Lemma mysql_params_pf val n e x : well_named_params val n ->
  let s := fst (append_sql DMySQL n e x st0) in
  forall name i, In i (pget name (st_params s)) -> nth_error (st_args s) i = Some (val name).
Proof.
  intros W s. unfold s, append_sql. cbn [fst].
  apply (exec_ind_forall DMySQL (mcmd val)
    (fun s' => forall name i, In i (pget name (st_params s')) -> nth_error (st_args s') i = Some (val name))).
  - clear. intros s c Hc G name i. destruct c as [b|p v|p v|p v|ns]; cbn in Hc; cbn [exec1 numbered is_postgres is_sqlite is_sqlserver orb].
    + apply G.
    + cbn [push st_params st_args]. intros I. apply nth_error_snoc. auto.
    + contradiction.
    + cbn [push st_params st_args]. rewrite pget_mset. destruct (beqb name p) eqn:E.
      * intros I. apply in_app_or in I. apply beqb_eq in E. subst p v. destruct I as [I|[<-|[]]].
        -- apply nth_error_snoc. auto.
        -- apply nth_error_last.
      * intros I. apply nth_error_snoc. auto.
    + cbn [st_params st_args]. intros I. destruct (pget_dels name ns (st_params s)) as [H|[H _]];
        rewrite H in I; [contradiction|auto].
  - change (allc (mcmd val) (render DMySQL n (ctx e x))).
    apply (render_unary DMySQL (allc (mcmd val)) True (fun name v => val name = v)); unfold allc; cbn [fst act ret fail crash emit].
    + constructor.
    + constructor.
    + constructor.
    + repeat constructor.
    + repeat constructor.
    + apply allc_seq.
    + apply allc_ignore.
    + repeat constructor.
    + repeat constructor; auto.
    + discriminate.
    + revert W. apply everywhere_mono. clear. intros n H. unfold fmt_ok.
      destruct n; cbn in *; auto.
  - intros name i [].
Qed.

(** ** C14 *)
Section Values.
  Context (d : dialect) (V : gval -> gval -> Prop) (V_refl : forall v, V v v).
  Inductive cmd_rel : cmd -> cmd -> Prop :=
  | cr_text b : cmd_rel (CText b) (CText b)
  | cr_bind p v v' : V v v' -> cmd_rel (CBind p v) (CBind p v')
  | cr_named name v v' : V (GNamedArg name v) (GNamedArg name v') -> cmd_rel (CNamedArg name v) (CNamedArg name v')
  | cr_param name v v' : V v v' -> cmd_rel (CParam name v) (CParam name v')
  | cr_del ns : cmd_rel (CDel ns) (CDel ns).
  Definition m_rel (m m' : M) : Prop := Forall2 cmd_rel (fst m) (fst m') /\ snd m = snd m'.

  Definition same_chunk (k k' : chunk) : Prop :=
    match k, k' with
    | KText b, KText b' => b = b'
    | KOrd i _, KOrd i' _ => i = i'
    | KMark _, KMark _ => True
    | KNamed name _, KNamed name' _ => name = name'
    | _, _ => False
    end.
  Record st_rel (s s' : st) : Prop := mk_st_rel {
    sr_out : Forall2 same_chunk (st_out s) (st_out s');
    sr_args : Forall2 V (st_args s) (st_args s');
    sr_params : st_params s = st_params s' }.

  Lemma list_set_rel l l' i v v' : Forall2 V l l' -> V v v' -> Forall2 V (list_set l i v) (list_set l' i v').
  Proof. intros H Hv. revert i. induction H; intros [|i]; cbn; constructor; auto. Qed.
  Lemma out_rel s s' k k' args args' params : st_rel s s' -> same_chunk k k' -> Forall2 V args args' ->
    st_rel (mk_st (st_out s ++ [k]) args params) (mk_st (st_out s' ++ [k']) args' params).
  Proof.
    intros [H1 H2 H3] Hk Ha. constructor; cbn; auto. apply Forall2_app; auto.
  Qed.
  Lemma exec1_rel s s' c c' : st_rel s s' -> cmd_rel c c' -> st_rel (exec1 d s c) (exec1 d s' c').
  Proof.
    intros S Hc. pose proof (sr_args _ _ S) as SA. pose proof (sr_params _ _ S) as SP.
    pose proof (Forall2_length' _ _ _ SA) as SL.
    assert (A : forall v v', V v v' -> Forall2 V (st_args s ++ [v]) (st_args s' ++ [v'])).
    { intros. apply Forall2_app; auto. }
    assert (P : forall v v' m, V v v' -> st_rel (push d s v m) (push d s' v' m)).
    { intros v v' m Hv. unfold push. apply out_rel; auto. rewrite SL. destruct (numbered d); cbn; auto. }
    destruct Hc as [b|p v v' Hv|name v v' Hv|name v v' Hv|ns]; cbn [exec1]; unfold out; rewrite <- ?SP, <- ?SL.
    - apply out_rel; cbn; auto.
    - destruct (numbered d); [destruct (if is_empty p then _ else _)|]; auto.
      apply out_rel; cbn; auto.
    - destruct (pget name _); apply out_rel; cbn; auto. now apply list_set_rel.
    - destruct (numbered d); [destruct (pget name _)|]; auto.
      apply out_rel; cbn; auto. now apply list_set_rel.
    - destruct S. constructor; cbn; auto.
  Qed.
  Lemma exec_rel cs cs' : Forall2 cmd_rel cs cs' -> forall s s', st_rel s s' ->
    st_rel (exec d s cs) (exec d s' cs').
  Proof. induction 1; intros s s' S; cbn; auto. apply IHForall2. now apply exec1_rel. Qed.

  Lemma m_seq m m' k k' : m_rel m m' -> m_rel k k' -> m_rel (m ;; k) (m' ;; k').
  Proof.
    intros [H1 H2] [H3 H4]. unfold m_rel, seq. rewrite <- H2. destruct (snd m); cbn; auto.
    split; auto. now apply Forall2_app.
  Qed.
  Lemma m_ignore m m' : m_rel m m' -> m_rel (ignore_err m) (ignore_err m').
  Proof. intros [H1 H2]. unfold m_rel, ignore_err. rewrite <- H2. destruct (snd m) eqn:E; cbn; rewrite ?E; auto. Qed.

  Lemma render_values n n' c : sim V n n' -> m_rel (render d n c) (render d n' c).
  Proof.
    intros S.
    refine (render_rel d V (fun _ => m_rel) True (fun _ => True) (fmt_ok True) (fun _ _ => True)
      _ _ _ _ _ _ _ _ _ _ _ _ _ _ _ false (fun H => False_ind _ (Bool.diff_false_true H)) n n' c S (always_ok n)); auto; unfold fmt_ok; auto;
      try (intros; split; cbn; auto; repeat constructor; auto; fail).
    - intros. now apply m_seq.
    - intros. now apply m_ignore.
    - intros vals vals' e x fmt H _ _. apply (printf_rel d V m_rel True); auto;
        try (intros; split; cbn; auto; repeat constructor; auto; fail).
      apply m_seq.
  Qed.
  Lemma chunk_text_rel ks ks' : Forall2 same_chunk ks ks' -> out_text d ks = out_text d ks'.
  Proof.
    induction 1 as [|k k' ks ks' Hk _ IH]; auto. unfold out_text in *. cbn [flat_map]. rewrite IH. f_equal.
    destruct k, k'; cbn in Hk; try contradiction; subst; auto.
  Qed.
  Lemma values_pf n n' e x s s' : sim V n n' -> st_rel s s' ->
    st_rel (fst (append_sql d n e x s)) (fst (append_sql d n' e x s')) /\
    snd (append_sql d n e x s) = snd (append_sql d n' e x s').
  Proof.
    intros S Hs. unfold append_sql. cbn [fst snd]. destruct (render_values n n' (ctx e x) S) as [H1 H2].
    split; auto. now apply exec_rel.
  Qed.
End Values.

Lemma sim_dialect fills V n : forall n', gsim fills V n n' -> get_dialect n = get_dialect n'.
Proof.
  induction n using node_sub_ind; intros n' S; inversion S; subst; cbn in *; auto; try (now destruct H0).
  - destruct H0; cbn in *; auto. now apply H.
  - now destruct H3.
Qed.
Lemma sim_is_query fills V n n' : gsim fills V n n' -> is_query n = is_query n'.
Proof. intros S. apply (st_query _ _ (sim_same _ _ _ _ S)). Qed.
Lemma to_sql_values_pf (V : gval -> gval -> Prop) dname n n' : (forall v, V v v) -> sim V n n' ->
  r_query (to_sql dname n) = r_query (to_sql dname n') /\
  r_params (to_sql dname n) = r_params (to_sql dname n') /\
  r_status (to_sql dname n) = r_status (to_sql dname n') /\
  Forall2 V (r_args (to_sql dname n)) (r_args (to_sql dname n')).
Proof.
  intros HV S. unfold to_sql, to_sql_dialect. rewrite <- (sim_is_query false V n n' S), <- (sim_dialect false V n n' S).
  set (d := dialect_of _). cbn [r_query r_params r_status r_args].
  destruct (values_pf d V HV n n' None [] st0 st0 S) as [[H1 H2 H3] H4].
  { constructor; constructor. }
  repeat split; auto. now apply chunk_text_rel.
Qed.

(** ** No panics *)
Definition no_panic (m : M) : Prop := snd m <> SPanic.
Lemma no_panic_pf d n c :
  everywhere (node_ok False (fun _ => True) (fun f _ => fmt_safe f) (fun _ _ => True)) n ->
  no_panic (render d n c).
Proof.
  intros H. apply (render_unary d no_panic False (fun _ _ => True)); unfold no_panic; cbn; try discriminate; auto.
  - intros m k H1 H2. unfold seq. destruct (snd m) eqn:E; cbn; congruence.
  - intros m H1. unfold ignore_err. destruct (snd m) eqn:E; cbn; congruence.
  - revert H. apply everywhere_mono. clear. intros n. unfold fmt_ok. destruct n; cbn; auto; intros; right; eauto.
Qed.
