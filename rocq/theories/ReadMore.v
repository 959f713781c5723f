(** * ReadMore: tests, IN lists, functions, windows and CASE can be followed *)
From Coq Require Import Lia.
From Verif Require Import GoBase GoBaseFacts QuoteModel SpecLex SpecIdent SpecSql SprintModel TokenModel EffectModel RenderModel BuildModel
  SpecText SqlFacts ExecFacts SpecClauses ClauseFacts BoolFacts FieldFacts SpecDdl DdlToks DdlRead SpecField FieldPf PropertiesField
  FieldModel ExprModel SpecExpr PropertiesExpr
  SpecReadSql ReadToks ReadParts ReadExpr.
Local Open Scope m_scope.

Lemma seq_ret1 : forall m : M, (m ;; ret) = m.
Proof. intros [cs []]; unfold seq, ret; cbn; rewrite ?app_nil_r; reflexivity. Qed.

Section More.
  Context (d : dialect).
  (** What can follow a component without stopping the reader. *)
  Definition goes_on (stop : tok -> bool) (k : M) : Prop := wrs d k (fun ts => closed stop 0 ts = true).
  (** What stands in parentheses; it may be empty. *)
  Definition inside (m : M) : Prop := wr d m (fun ts => closed no_stop 0 ts = true).

  Lemma on_ret : forall stop, goes_on stop ret.
  Proof. intros stop. refine (wrs_imp d _ _ _ (wrs_ret d) _). intros ts ->. reflexivity. Qed.
  Lemma on_end : forall stop c b t, separator c = true -> tokens d (c :: b) = Some t -> closed stop 0 t = true ->
    goes_on stop (emit (c :: b)).
  Proof. intros stop c b t S0 T0 C. refine (wrs_imp d _ _ _ (wrs_emit d _ _ T0 S0) _). now intros ts ->. Qed.
  Lemma on_seq : forall stop m k, goes_on stop m -> goes_on stop k -> goes_on stop (m ;; k).
  Proof.
    intros stop m k H K. refine (wrs_imp d _ _ _ (wrs_seq d _ _ _ _ H K) _). intros ts (a & b & -> & A & B0).
    now apply closed_app_true.
  Qed.
  Lemma frag_wr : forall stop m, fragment d stop m -> wr d m (fun ts => closed stop 0 ts = true).
  Proof. intros stop m H O s. destruct (H O s) as (ts & T0 & _ & C). now exists ts. Qed.
  Lemma frag_inside : forall stop m, fragment d stop m -> inside m.
  Proof. intros stop m H. refine (wr_imp d _ _ _ (frag_wr _ _ H) _). intros ts. apply no_stop_weaken. Qed.
  Lemma on_lit : forall stop c b t m, separator c = true -> pre d (c :: b) t -> closed stop 0 t = true -> fragment d stop m ->
    goes_on stop (emit (c :: b) ;; m).
  Proof.
    intros stop c b t m S0 P C H. refine (wrs_imp d _ _ _ (wrs_lit d c b t _ _ S0 P (frag_wr _ _ H)) _).
    intros ts (a & e & -> & -> & E). now apply closed_app_true.
  Qed.
  Lemma frag_on : forall stop m k, fragment d stop m -> goes_on stop k -> fragment d stop (m ;; k).
  Proof.
    intros stop m k H K. change (wr d (m ;; k) (fun ts => ts <> [] /\ closed stop 0 ts = true)).
    refine (wr_imp d _ _ _ (wr_seq d _ _ _ _ (H : wr d m (fun ts => ts <> [] /\ closed stop 0 ts = true)) K) _).
    intros ts (a & b & -> & (N & A) & B0). split; [destruct a; [congruence|discriminate]|now apply closed_app_true].
  Qed.
  Lemma frag_same : forall stop m k, same d m k -> fragment d stop k -> fragment d stop m.
  Proof. intros stop m k S0 H. exact (wr_same d m k (fun ts => ts <> [] /\ closed stop 0 ts = true) S0 H). Qed.
  (** text ( inside ) ... *)
  Lemma wrs_close : forall stop k, goes_on stop k -> wrs d (emit (B ")") ;; k) (fun ts => exists r, ts = rp :: r /\ closed stop 0 r = true).
  Proof.
    intros stop k K.
    assert (W3 : wrs d (emit (B ")")) (is [rp])) by (apply wrs_emit; [apply pre_of, pre_sym; cbn; tauto|reflexivity]).
    refine (wrs_imp d _ _ _ (wrs_seq d _ _ _ _ W3 K) _). intros ts (a & b & -> & -> & H). now exists b.
  Qed.
  Lemma wr_group : forall stop o t m k, stop lp = false -> wro d o (is (t ++ [lp])) -> closed stop 0 t = true -> inside m -> goes_on stop k ->
    fragment d stop (o ;; m ;; emit (B ")") ;; k).
  Proof.
    intros stop o t m k L O C H K.
    refine (wr_imp d _ _ _ (wro_seq d _ _ _ _ O (wr_seq d _ _ _ _ H (wrs_close stop k K))) _).
    intros ts (a & e & -> & -> & i & j & -> & I & r & -> & R). split; [destruct t; discriminate|].
    rewrite <- app_assoc. apply closed_app_true; [exact C|]. cbn [app]. now apply closed_group.
  Qed.
  Lemma on_group : forall stop c b t m k, stop lp = false -> separator c = true -> pre d (c :: b) (t ++ [lp]) -> closed stop 0 t = true ->
    inside m -> goes_on stop k -> goes_on stop (emit (c :: b) ;; m ;; emit (B ")") ;; k).
  Proof.
    intros stop c b t m k L S0 P C H K.
    refine (wrs_imp d _ _ _ (wrs_lit d c b _ _ _ S0 P (wr_seq d _ _ _ _ H (wrs_close stop k K))) _).
    intros ts (a & e & -> & -> & i & j & -> & I & r & -> & R).
    rewrite <- app_assoc. apply closed_app_true; [exact C|]. cbn [app]. now apply closed_group.
  Qed.
  (** Lists in parentheses. *)
  Lemma inside_commas : forall (pss : list (list piece)), Forall (fun ps => inside (run d ps)) pss ->
    inside (run d (between (B ", ") pss)).
  Proof.
    intros pss H. rewrite <- sep_by_run.
    refine (wr_imp d _ _ _ (wr_commas d _ (run d) (fun _ ts => closed no_stop 0 ts = true) pss H) _).
    intros ts (es & F & ->).
    assert (G : Forall (fun e => closed no_stop 0 e = true) es) by (clear -F; induction F; constructor; auto).
    clear -G. destruct G as [|e es E G]; [reflexivity|]. unfold commas. apply closed_app_true; [exact E|].
    induction G as [|e2 es E2 G IH]; [reflexivity|]. cbn [flat_map app].
    apply closed_cons; [reflexivity|reflexivity|reflexivity|]. now apply closed_app_true.
  Qed.
  Lemma inside_values : forall e x vs, Forall (fun v => exists stop, fragment d stop (render d v (ctx e x))) vs ->
    inside (run d (between (B ", ") (map (fun v => [V e x v]) vs))).
  Proof.
    intros e x vs H. apply inside_commas. apply Forall_map. revert H. apply Forall_impl. intros v (stop & H).
    cbn [run]. apply (wr_quiet d _ _ _ (frag_inside _ _ H)). apply text_after_ret.
  Qed.

  (** ** Tests *)
  Lemma tests_fragment_pf : forall f e x, expr d e x f ->
    expr d e x (p_is_null f) /\ expr d e x (p_is_not_null f) /\
    forall v, expr d e x (like_string f v) /\ expr d e x (ilike_string f v).
  Proof.
    intros f e x HF. unfold expr in *.
    assert (V0 : forall v, fragment d separates (render d (NRaw (GString v)) (ctx e x))).
    { intros v. apply value_fragment_pf. discriminate. }
    destruct (tests_written d f f [] e x) as (W1 & W2 & _).
    split; [|split].
    - apply writes_same in W1. apply (frag_same _ _ _ W1). cbn [run]. apply frag_on; [exact HF|].
      apply on_seq; [|apply on_ret]. eapply on_end; [reflexivity|lit|reflexivity].
    - apply writes_same in W2. apply (frag_same _ _ _ W2). cbn [run]. apply frag_on; [exact HF|].
      apply on_seq; [|apply on_ret]. eapply on_end; [reflexivity|lit|reflexivity].
    - intros v. destruct (tests_written d f f v e x) as (_ & _ & _ & _ & W3 & W4).
      apply writes_same in W3. apply writes_same in W4. split.
      + apply (frag_same _ _ _ W3). cbn [run]. apply frag_on; [exact HF|].
        rewrite seq_ret1. eapply on_lit; [reflexivity|prelit|reflexivity|apply V0].
      + apply (frag_same _ _ _ W4). cbn [run]. apply frag_on; [exact HF|].
        rewrite seq_ret1. eapply on_lit; [reflexivity|prelit|reflexivity|apply V0].
  Qed.

  (** ** EXISTS, IN, row values *)
  Lemma exists_fragment_pf : forall q e x stop, fragment d stop (render d q (ctx e x)) ->
    expr d e x (p_exists q) /\ expr d e x (p_not_exists q).
  Proof.
    intros q e x stop H. destruct (tests_written d q q [] e x) as (_ & _ & W1 & W2 & _).
    apply writes_same in W1. apply writes_same in W2. split.
    - apply (frag_same _ _ _ W1). cbn [run]. apply (wr_group separates _ [W "EXISTS"] _ _ eq_refl); [|reflexivity|exact (frag_inside _ _ H)|apply on_ret].
      apply wro_emit. prelit_sym [W "EXISTS"] "("%char.
    - apply (frag_same _ _ _ W2). cbn [run]. apply (wr_group separates _ [W "NOT"; W "EXISTS"] _ _ eq_refl); [|reflexivity|exact (frag_inside _ _ H)|apply on_ret].
      apply wro_emit. prelit_sym [W "NOT"; W "EXISTS"] "("%char.
  Qed.
  Lemma in_fragment : forall a b e x ps, expr d e x a -> inside (run d ps) ->
    writes d (p_in a b) e x ([V e x a; T (B " IN (")] ++ ps ++ [T (B ")")]) -> expr d e x (p_in a b).
  Proof.
    intros a b e x ps HA HI WR. apply writes_same in WR. unfold expr. apply (frag_same _ _ _ WR).
    rewrite !run_app. cbn [run]. rewrite !seq_assoc_m, ?ret_seq1. apply frag_on; [exact HA|].
    eapply (on_group separates _ _ [W "IN"]); [reflexivity|reflexivity| |reflexivity|exact HI|apply on_ret].
    prelit_sym [W "IN"] "("%char.
  Qed.
  Definition element_ok (e : option env) (x : list bytes) (v : node) : Prop := exists stop, fragment d stop (render d v (ctx e x)).
  Lemma in_fragment_pf : forall a b e x, expr d e x a ->
    match b with
    | NRowValue vs => Forall (element_ok e x) vs
    | NSlice vs => Forall element vs /\ Forall (element_ok None x) vs
    | _ => element_ok e x b
    end -> expr d e x (p_in a b).
  Proof.
    intros a b e x HA HB. assert (WR := in_written d a b e x).
    destruct b;
      try (refine (in_fragment a _ e x [V e x _] HA _ WR); destruct HB as [stop HB]; cbn [run]; rewrite seq_ret1; exact (frag_inside _ _ HB)).
    - destruct HB as [H1 H2]. exact (in_fragment a _ e x _ HA (inside_values None x _ H2) (WR H1)).
    - exact (in_fragment a _ e x _ HA (inside_values e x _ HB) WR).
  Qed.
  Lemma row_fragment_pf : forall vs e x, Forall (element_ok e x) vs -> expr d e x (NRowValue vs).
  Proof.
    intros vs e x H. destruct (lists_written d vs e x) as (_ & WR). apply writes_same in WR. apply (frag_same _ _ _ WR).
    rewrite !run_app. cbn [run]. rewrite !seq_assoc_m, ?ret_seq1.
    apply (wr_group separates _ [] _ _ eq_refl); [|reflexivity|exact (inside_values e x _ H)|apply on_ret].
    apply wro_emit. apply pre_sym. cbn. tauto.
  Qed.

  (** ** Functions and windows *)
  Lemma wro_name : forall (name : string) (t : list tok), pre d (B name ++ B "(") t -> wro d (emit (B name) ;; emit (B "(")) (is t).
  Proof.
    intros name t P O s. exists t. rewrite text_after_seq by reflexivity. rewrite !text_after_emit. split; [exact P|reflexivity].
  Qed.
  Definition function_names : list string :=
    ["COUNT"; "SUM"; "AVG"; "MIN"; "MAX"; "ROW_NUMBER"; "RANK"; "DENSE_RANK"; "PERCENT_RANK"; "CUME_DIST"; "LEAD"; "LAG"; "NTILE";
     "FIRST_VALUE"; "LAST_VALUE"; "NTH_VALUE"]%string.
  Lemma name_pre : forall n, In n function_names -> pre d (B n ++ B "(") ([W n] ++ [lp]) /\ closed separates 0 [W n] = true.
  Proof.
    intros n I. repeat (destruct I as [<-|I]; [split; [|reflexivity]|]); [..|destruct I];
      match goal with |- pre _ (B ?n ++ _) _ => prelit_sym [W n] "("%char end.
  Qed.
  Lemma call_run : forall n args k, run d (call (B n) args ++ k)
    = ((emit (B n) ;; emit (B "(")) ;; run d (between (B ", ") args) ;; emit (B ")") ;; run d k).
  Proof. intros n args k. unfold call. rewrite !run_app. cbn [run]. now rewrite !seq_assoc_m, ?ret_seq1. Qed.
  Lemma call_fragment : forall n args k, In n function_names -> Forall (fun ps => inside (run d ps)) args -> goes_on separates (run d k) ->
    fragment d separates (run d (call (B n) args ++ k)).
  Proof.
    intros n args k I H K. rewrite call_run. destruct (name_pre n I) as [P C].
    apply (wr_group separates _ [W n] _ _ eq_refl); [now apply wro_name|exact C|now apply inside_commas|exact K].
  Qed.
  Lemma over_on : forall x w, fragment d separates (render d w (ctx None x)) -> goes_on separates (run d (over x w)).
  Proof.
    intros x w H. unfold over. cbn [run]. rewrite seq_ret1. eapply on_lit; [reflexivity|prelit|reflexivity|exact H].
  Qed.

  Lemma inside_star : inside (run d [T (B "*")]).
  Proof.
    cbn [run]. rewrite seq_ret1. refine (wr_imp d _ _ _ (wr_emit d (B "*") _ _) _); [lit|]. now intros ts ->.
  Qed.
  Lemma inside_one : forall e x v, element_ok e x v -> inside (run d [V e x v]).
  Proof. intros e x v (stop & H). cbn [run]. rewrite seq_ret1. exact (frag_inside _ _ H). Qed.
  Lemma functions_fragment_pf : forall f v w n e x, element_ok None x f -> element_ok None x v ->
    fragment d separates (render d w (ctx None x)) ->
    Forall (expr d e x)
      [count f; count_all; sum f; avg f; min f; max f;
       count_over f w; count_all_over w; sum_over f w; avg_over f w; min_over f w; max_over f w;
       row_number_over w; rank_over w; dense_rank_over w; percent_rank_over w; cume_dist_over w;
       lead_over f n v w; lag_over f n v w; ntile_over n w; first_value_over f w; last_value_over f w; nth_value_over f n w].
  Proof.
    intros f v w n e x HF HV HW. assert (WR := functions_written d f v w n e x). cbv zeta in WR.
    assert (HN : element_ok None x (NRaw (GInt n))).
    { exists separates. apply value_fragment_pf. discriminate. }
    assert (KW : goes_on separates (run d (over x w))) by (now apply over_on).
    assert (K0 : goes_on separates (run d [])) by apply on_ret.
    assert (E : forall c nm args k, In nm function_names -> Forall (fun ps => inside (run d ps)) args -> goes_on separates (run d k) ->
      writes d c e x (call (B nm) args ++ k) -> expr d e x c).
    { intros c nm args k I HA K Z. apply writes_same in Z. unfold expr. apply (frag_same _ _ _ Z). now apply call_fragment. }
    assert (E0 : forall c nm args, In nm function_names -> Forall (fun ps => inside (run d ps)) args ->
      writes d c e x (call (B nm) args) -> expr d e x c).
    { intros c nm args I HA Z. apply (E c nm args [] I HA K0). now rewrite app_nil_r. }
    assert (A1 := inside_one None x f HF). assert (A2 := inside_one None x v HV). assert (A3 := inside_one None x _ HN).
    assert (A4 := inside_star).
    repeat (apply Forall_cons_iff in WR; let H := fresh "H" in destruct WR as [H WR]; cbn [fst snd] in H).
    repeat constructor;
      match goal with
      | H : writes d ?c e x (call (B ?nm) ?args ++ over x w) |- expr d e x ?c =>
          apply (E c nm args (over x w)); [cbn; tauto|repeat constructor; assumption|exact KW|exact H]
      | H : writes d ?c e x (call (B ?nm) ?args) |- expr d e x ?c =>
          apply (E0 c nm args); [cbn; tauto|repeat constructor; assumption|exact H]
      end.
  Qed.

  Lemma inside_blanks : forall (pss : list (list piece)), Forall (fun ps => inside (run d ps)) pss ->
    inside (run d (between (B " ") pss)).
  Proof.
    intros pss H. rewrite <- sep_by_run.
    assert (P : pre d (B " ") []) by prelit.
    refine (wr_imp d _ _ _ (wr_sep_by d _ (run d) (fun _ ts => closed no_stop 0 ts = true) " " [] [] pss eq_refl P H) _).
    intros ts (es & F & ->).
    assert (G : Forall (fun e => closed no_stop 0 e = true) es) by (clear -F; induction F; constructor; auto).
    clear -G. destruct G as [|e es E G]; [reflexivity|]. apply closed_app_true; [exact E|].
    induction G as [|e2 es E2 G IH]; [reflexivity|]. cbn [flat_map app]. now apply closed_app_true.
  Qed.
  Lemma clause_inside : forall (k : string) fs, In k ["PARTITION BY "; "ORDER BY "]%string -> Forall (element_ok None []) fs ->
    Forall (fun ps => inside (run d ps)) (w_clause (B k) fs).
  Proof.
    intros k fs I H. unfold w_clause. destruct fs as [|f fs]; [constructor|]. constructor; [|constructor].
    rewrite run_app. cbn [run]. rewrite seq_ret1.
    assert (P : exists t, pre d (B k) t /\ closed no_stop 0 t = true).
    { destruct I as [<-|[<-|[]]]; eexists; (split; [prelit|reflexivity]). }
    destruct P as (t & P & C).
    refine (wr_imp d _ _ _ (wro_seq d _ _ _ _ (wro_emit d _ _ P) (inside_values None [] (f :: fs) H)) _).
    intros ts (a & b & -> & -> & K). now apply closed_app_true.
  Qed.
  Lemma window_fragment_pf : forall ms e x,
    let p := given (last_of as_partition ms) in
    let o := given (last_of as_window_order ms) in
    let frame := given (last_of as_frame ms) in
    (forall f, In f (p ++ o) -> snd (render d f (ctx None [])) = SOk /\ element_ok None [] f) ->
    (exists t, tokens d frame = Some t /\ closed no_stop 0 t = true) ->
    expr d e x (fold_left w_modify ms window0).
  Proof.
    intros ms e x p o frame H (t & TF & CF).
    assert (WR := window_written d ms e x). cbv zeta in WR. fold p o frame in WR.
    specialize (WR (fun f s I => proj1 (H f I))). apply writes_same in WR. unfold expr. apply (frag_same _ _ _ WR).
    rewrite !run_app. cbn [run]. rewrite !seq_assoc_m, ?ret_seq1.
    apply (wr_group separates _ [] _ _ eq_refl); [|reflexivity| |apply on_ret].
    - apply wro_emit. apply pre_sym. cbn. tauto.
    - apply inside_blanks. apply Forall_app. split; [|apply Forall_app; split].
      + apply (clause_inside "PARTITION BY "); [cbn; tauto|]. apply Forall_forall. intros f I. apply H. apply in_or_app. now left.
      + apply (clause_inside "ORDER BY "); [cbn; tauto|]. apply Forall_forall. intros f I. apply H. apply in_or_app. now right.
      + unfold w_frame. destruct frame as [|c0 fr] eqn:EF; [constructor|]. constructor; [|constructor]. cbn [run]. rewrite seq_ret1.
        refine (wr_imp d _ _ _ (wr_emit d _ _ TF) _). now intros ts ->.
  Qed.

  (** ** CASE *)
  Lemma branch_on : forall e x b, expr d e x (fst b) -> expr d e x (snd b) -> goes_on separates (run d (branch e x b)).
  Proof.
    intros e x b H1 H2. unfold branch. cbn [run]. rewrite seq_ret1, <- seq_assoc_m.
    apply on_seq.
    - eapply on_lit; [reflexivity|prelit|reflexivity|exact H1].
    - eapply on_lit; [reflexivity|prelit|reflexivity|exact H2].
  Qed.
  Lemma branches_on : forall e x bs, Forall (fun b => expr d e x (fst b) /\ expr d e x (snd b)) bs ->
    goes_on separates (run d (flat_map (branch e x) bs)).
  Proof.
    intros e x bs H. induction H as [|b bs [H1 H2] H IH]; [apply on_ret|]. cbn [flat_map]. rewrite run_app.
    apply on_seq; [now apply branch_on|exact IH].
  Qed.
  Lemma otherwise_on : forall e x v, (forall n, v = Some n -> expr d e x n) -> goes_on separates (run d (otherwise e x v)).
  Proof.
    intros e x v H.
    assert (G : forall n, v = Some n -> goes_on separates (run d [T (B " ELSE "); V e x n])).
    { intros n E. cbn [run]. rewrite seq_ret1. eapply on_lit; [reflexivity|prelit|reflexivity|now apply H]. }
    unfold otherwise. destruct v as [v|]; [|apply on_ret].
    destruct v as [[]| | | | | | | | | | | | | | | | | | | | | | | | | | |]; try apply on_ret; now apply G.
  Qed.
  Lemma end_on : goes_on separates (run d [T (B " END")]).
  Proof. cbn [run]. rewrite seq_ret1. eapply on_end; [reflexivity|lit|reflexivity]. Qed.
  Lemma case_pieces_on : forall e x calls, Forall (fun b => expr d e x (fst b) /\ expr d e x (snd b)) (flat_map as_when calls) ->
    (forall n, last_of as_else calls = Some n -> expr d e x n) -> goes_on separates (run d (case_pieces e x calls)).
  Proof.
    intros e x calls H HE. unfold case_pieces. rewrite !run_app. apply on_seq; [now apply branches_on|].
    apply on_seq; [now apply otherwise_on|apply end_on].
  Qed.
  Lemma case_fragment_pf : forall p r calls e x,
    Forall (fun b => expr d e x (fst b) /\ expr d e x (snd b)) ((p, r) :: flat_map as_when calls) ->
    (forall n, last_of as_else calls = Some n -> expr d e x n) ->
    expr d e x (fold_left case_step calls (case_when p r)).
  Proof.
    intros p r calls e x H HE. destruct (case_as_called d p r calls e x) as [WR _]. apply writes_same in WR.
    unfold expr. apply (frag_same _ _ _ WR).
    change (run d (T (B "CASE") :: branch e x (p, r) ++ case_pieces e x calls))
      with (emit (B "CASE") ;; run d (branch e x (p, r) ++ case_pieces e x calls)).
    inversion H as [|? ? [H1 H2] H3]; subst. rewrite run_app.
    apply frag_on; [|apply on_seq; [now apply branch_on|now apply case_pieces_on]].
    change (wr d (emit (B "CASE")) (fun ts => ts <> [] /\ closed separates 0 ts = true)).
    refine (wr_imp d _ _ _ (wr_emit d _ [W "CASE"] _) _); [lit|]. intros ts ->. split; [discriminate|reflexivity].
  Qed.
  Lemma simple_case_fragment_pf : forall f calls e x, expr d e x f ->
    Forall (fun b => expr d e x (fst b) /\ expr d e x (snd b)) (flat_map as_when calls) ->
    (forall n, last_of as_else calls = Some n -> expr d e x n) ->
    expr d e x (fold_left case_step calls (case_of f)).
  Proof.
    intros f calls e x HF H HE. destruct (simple_case_as_called d f calls e x) as (W1 & W2 & _).
    destruct (flat_map as_when calls) as [|b bs] eqn:EW.
    - intros O s. exfalso. exact (W2 eq_refl s O).
    - specialize (W1 ltac:(discriminate)). apply writes_same in W1. unfold expr. apply (frag_same _ _ _ W1). cbn [run].
      assert (HP : goes_on separates (run d (case_pieces e x calls))) by (apply case_pieces_on; [now rewrite EW|exact HE]).
      assert (P : pre d (B "CASE ") [W "CASE"]) by prelit.
      change (wr d (emit (B "CASE ") ;; render d f (ctx e x) ;; run d (case_pieces e x calls)) (fun ts => ts <> [] /\ closed separates 0 ts = true)).
      refine (wr_imp d _ _ _ (wro_seq d _ _ _ _ (wro_emit d _ _ P) (frag_wr _ _ (frag_on _ _ _ HF HP))) _).
      intros ts (a & c & -> & -> & C). split; [discriminate|]. now apply closed_cons.
  Qed.

  (** ** Named parameters *)
  Lemma param_fragment : forall name v, fragment d separates (act (CParam name v)).
  Proof.
    intros name v _ s.
    assert (G : exists k, st_out (exec d s (fst (act (CParam name v)))) = st_out s ++ [k] /\
      ((exists i v', k = KOrd i v') \/ exists v', k = KMark v')).
    { cbn. destruct (numbered d) eqn:N; [destruct (pget name (st_params s)) as [|i l]|]; unfold push; cbn; rewrite ?N; cbn;
        (eexists; split; [reflexivity|]); [left|left|right]; repeat eexists. }
    destruct G as (k & E & [(i & v' & ->)|(v' & ->)]); rewrite (text_after_out _ _ _ _ E); cbn [out_text flat_map]; rewrite app_nil_r.
    - destruct (toks_ord d i v') as (w & T0 & Z & _). exists [TWord w]. split; [exact T0|]. split; [discriminate|].
      apply closed_cons; [exact Z|reflexivity|reflexivity|reflexivity].
    - exists [TSym "?"]. rewrite toks_mark. split; [reflexivity|]. split; [discriminate|reflexivity].
  Qed.
  Lemma param_fragment_pf : forall name v e x, (match v with NRaw _ => True | _ => expr d None x v end) -> expr d e x (NParam name v).
  Proof.
    intros name v e x H. unfold expr.
    assert (E : render d (NParam name v) (ctx e x) = if is_empty name then fail else match v with NRaw g => act (CParam name g) | _ => render d v (ctx None x) end).
    { destruct v; reflexivity. }
    rewrite E. destruct (is_empty name); [intros O; discriminate O|]. destruct v; try exact H. apply param_fragment.
  Qed.

  (** ** A list whose only member is a list *)
  Lemma nested_fragment_pf : forall w c p, c_excl c = [] -> vp_preds w = [p] ->
    (if is_vpred p then fragment d separates (render d p (mk_ctx (Some true) [] None [])) else expr d None [] p) ->
    fragment d separates (render d (NVPred w) c).
  Proof.
    intros w c p X PS H. apply okm_wr. rewrite render_vpred. rewrite X, PS.
    set (top := match c_top c with Some b => b | None => vp_top w end). clearbody top.
    unfold vpred_run. cbn [map]. apply not_wr. destruct (is_nil p); [intros O; discriminate O|].
    destruct (is_vpred p); [apply parens_wr|]; now apply okm_wr.
  Qed.
End More.
