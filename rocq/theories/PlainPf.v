(** * PlainPf: the reader follows every expression and statement of the grammar *)
From Coq Require Import Lia.
From Verif Require Import GoBase GoBaseFacts QuoteModel SpecLex SpecIdent SpecSql SprintModel TokenModel EffectModel RenderModel BuildModel
  SpecText SqlFacts ExecFacts SpecClauses ClauseFacts BoolFacts FieldFacts SpecDdl DdlToks DdlRead SpecField FieldPf PropertiesPred PropertiesField
  FieldModel ExprModel SpecExpr PropertiesExpr
  SpecReadSql ReadToks ReadParts ReadSqlPf ReadExpr ReadInsert ReadMore SpecPlain PropertiesReadSql PropertiesReadInsert.
Local Open Scope m_scope.

Lemma asc_one : forall b : bytes, ascending [b].
Proof.
  intros b i j H1 H2. cbn [length] in H2. assert (J : j = 0) by lia. subst j. assert (I0 : i = 0) by lia. subst i. cbn [nth].
  unfold bltb. induction b as [|c b IH]; [reflexivity|]. cbn. rewrite ?N.ltb_irrefl, ?PeanoNat.Nat.ltb_irrefl, ?Ascii.eqb_refl. exact IH.
Qed.

Section Follow.
  Context (d : dialect).
  Lemma list_one : forall w c p, vp_preds w = [p] -> is_vpred p = false -> expr d None (c_excl c) p ->
    fragment d separates (render d (NVPred w) c).
  Proof.
    intros w c p PS V H. apply okm_wr. rewrite render_vpred. rewrite PS.
    unfold vpred_run. cbn [map]. rewrite V. apply not_wr. destruct (is_nil p); [intros O; discriminate O|]. now apply okm_wr.
  Qed.
  Lemma list_nested : forall w c w', vp_preds w = [NVPred w'] ->
    fragment d separates (render d (NVPred w') (mk_ctx (Some true) [] None (c_excl c))) ->
    fragment d separates (render d (NVPred w) c).
  Proof.
    intros w c w' PS H. apply okm_wr. rewrite render_vpred. rewrite PS.
    set (top := match c_top c with Some b => b | None => vp_top w end). clearbody top.
    unfold vpred_run. cbn [map is_vpred is_nil]. apply not_wr. apply parens_wr. now apply okm_wr.
  Qed.
  Lemma list_many : forall w c, 2 <= length (vp_preds w) -> Forall (expr d None (c_excl c)) (vp_preds w) ->
    fragment d separates (render d (NVPred w) c).
  Proof.
    intros w c LE H. apply okm_wr. rewrite render_vpred. set (x := c_excl c) in *. clearbody x.
    set (top := match c_top c with Some b => b | None => vp_top w end). clearbody top.
    assert (G : forall ps, Forall (expr d None x) ps -> ps <> [] ->
      wr d (sep_by (if vp_or w then B " OR " else B " AND ") (map (fun pr : node * runner => if is_nil (fst pr) then fail else snd pr (ctx None x)) (map (fun v => (v, render d v)) ps))) okm).
    { intros ps HP NP. rewrite map_map. cbn [fst snd].
      assert (PO : exists b, (if vp_or w then B " OR " else B " AND ") = " "%char :: b /\ pre d (" "%char :: b) (if vp_or w then [W "OR"] else [W "AND"])).
      { destruct (vp_or w); eexists; (split; [reflexivity|]); prelit. }
      destruct PO as (b & -> & PO).
      refine (wr_imp d _ _ _ (wr_sep_by d _ (fun v => if is_nil v then fail else render d v (ctx None x)) (fun _ => okm) " " b _ ps eq_refl PO _) _).
      - revert HP. apply Forall_impl. intros v HV. destruct (is_nil v); [intros O; discriminate O|]. now apply okm_wr.
      - intros ts (es & F & ->). destruct F as [|v t vs es HT F]; [congruence|]. apply okm_app; [exact HT|].
        clear -F. induction F as [|v t vs es HT F IH]; [reflexivity|]. cbn [flat_map]. rewrite <- app_assoc.
        destruct HT as [_ C]. destruct (vp_or w); cbn [app]; (apply closed_cons; [reflexivity|reflexivity|reflexivity|]; rewrite closed_app by exact C; exact IH). }
    unfold vpred_run. destruct (vp_preds w) as [|p [|p2 ps]] eqn:PS; [cbn in LE; lia|cbn in LE; lia|].
    change (map (fun v : node => (v, render d v)) (p :: p2 :: ps)) with ((p, render d p) :: (p2, render d p2) :: map (fun v : node => (v, render d v)) ps).
    cbn match. apply not_wr, parens_wr.
    change ((p, render d p) :: (p2, render d p2) :: map (fun v : node => (v, render d v)) ps) with (map (fun v : node => (v, render d v)) (p :: p2 :: ps)).
    apply G; [exact H|discriminate].
  Qed.

  (** Injected predicates and the condition; it may be empty. *)
  Lemma where_follow : forall inj w, Forall (expr d None []) inj ->
    (vp_preds w <> [] -> forall c, c_excl c = [] -> fragment d separates (render d (NVPred w) c)) ->
    where_reads d inj w.
  Proof.
    intros inj w HI HW NE. unfold where_cond. destruct inj as [|p inj].
    - cbn [nonempty orb] in NE. unfold cond_sql. apply HW; [|reflexivity]. intros Z. rewrite Z in NE. discriminate NE.
    - inversion HI as [|? ? H1 H2]; subst. cbn [app map sep_by]. apply frag_on; [exact H1|].
      assert (E : forall q, q = NVPred w \/ expr d None [] q -> goes_on d separates (emit (B " AND ") ;; render d q (ctx None []))).
      { intros q Q. destruct (vp_preds w) as [|p0 ps] eqn:PS.
        - destruct Q as [->|Q].
          + rewrite render_vpred, PS. cbn [map vpred_run]. rewrite seq_ret1. eapply on_end; [reflexivity|lit|reflexivity].
          + eapply on_lit; [reflexivity|prelit|reflexivity|exact Q].
        - eapply on_lit; [reflexivity|prelit|reflexivity|].
          destruct Q as [->|Q]; [|exact Q]. apply HW; [discriminate|reflexivity]. }
      clear H1 HI NE. induction inj as [|p2 inj IH].
      + cbn [app map seqs]. apply on_seq; [|apply on_ret]. apply E. now left.
      + inversion H2; subst. cbn [app map seqs]. apply on_seq; [|now apply IH]. apply E. now right.
  Qed.

  (** The column of an assignment. *)
  Lemma assign_column : forall k fi vals x, plain_column d fi -> fi_desc fi = None -> fi_nulls fi = None -> ascending x ->
    fragment d (fun t => separates t || sym "=" t) (render d (NField k false fi vals) (ctx None x)).
  Proof.
    intros k fi vals x (E1 & E2 & C & N & Q) D1 D2 AS O s. unfold ctx in *. cbv zeta in Q.
    set (q := if is_empty (fi_talias fi) then fi_table fi else fi_talias fi) in *.
    destruct (qualifier_dropped_iff_excluded d k fi vals None [] None x E1 E2 AS) as [H1 H2]. fold q in H1, H2. cbv zeta in H1, H2.
    rewrite C, D1, D2 in H1, H2. cbn [is_empty app] in H1, H2. rewrite app_nil_r in *.
    assert (NS : forall n, plain_name d n -> separates (name_tok d n) || sym "=" (name_tok d n) = false).
    { intros n P. now rewrite name_sep, name_tok_sym. }
    assert (NC : closed (fun t => separates t || sym "=" t) 0 [name_tok d (fi_name fi)] = true).
    { apply closed_cons; [now apply NS|apply name_tok_sym|apply name_tok_sym|reflexivity]. }
    assert (NN := toks_name d (fi_name fi) (proj1 N)).
    destruct (in_dec (list_eq_dec ascii_dec) q x) as [I|I]; [|destruct (is_empty q) eqn:Z].
    - rewrite (text_of_after d _ _ s (H1 (or_intror I))). eexists. split; [exact NN|]. split; [discriminate|exact NC].
    - assert (Z' : q = []) by (destruct q; [reflexivity|discriminate]).
      rewrite (text_of_after d _ _ s (H1 (or_introl Z'))). eexists. split; [exact NN|]. split; [discriminate|exact NC].
    - assert (Z' : q <> []) by (destruct q; discriminate). destruct Q as [Q|Q]; [contradiction|].
      rewrite (text_of_after d _ _ s (H2 (conj Z' I))). exists (name_tok d q :: TSym "." :: [name_tok d (fi_name fi)]).
      split; [|split; [discriminate|]].
      + apply (toks_app d _ [name_tok d q]); [apply toks_name, Q|apply toks_sym; [cbn; tauto|exact NN]|reflexivity].
      + apply closed_cons; [now apply NS|apply name_tok_sym|apply name_tok_sym|].
        apply closed_cons; try reflexivity. exact NC.
  Qed.
  Lemma word_follow : forall n, word_ok d n -> fragment d separates (emit n).
  Proof.
    intros n [W0 K] O s. exists [TWord n]. rewrite text_after_emit. split; [exact W0|]. split; [discriminate|].
    apply closed_cons; [|reflexivity|reflexivity|reflexivity].
    unfold keyword, keywords in K. unfold separates. rewrite !is_word_app in *. cbn [sym]. rewrite orb_false_r.
    apply orb_false_iff in K. destruct K as [K1 K]. apply orb_false_iff in K. destruct K as [K2 K3]. rewrite K1, K2. cbn [orb].
    unfold is_word in *. cbn [existsb other_words] in *.
    destruct (kw "AS" (TWord n)), (kw "ON" (TWord n)), (kw "DISTINCT" (TWord n)), (kw "DO" (TWord n)); rewrite ?orb_true_r in K3; try discriminate; reflexivity.
  Qed.
  Lemma in_some : forall (A : Type) (t : A) l, In (Some t) l -> In t (flat_map (fun o : option A => match o with Some a => [a] | None => [] end) l).
  Proof. intros A t l H. apply in_flat_map. exists (Some t). split; [exact H|now left]. Qed.

  Definition Pe (n : node) : Prop := forall e x, ascending x -> expr d e x n.
  Definition Po (n : node) : Prop := forall e x, ascending x -> operand_ok d e x n.
  Definition Pl (w : vpred_ node) : Prop := forall c, ascending (c_excl c) -> fragment d separates (render d (NVPred w) c).
  Definition Pw (n : node) : Prop := forall e x, expr d e x n.
  Definition reads (n : node) : Prop :=
    match n with
    | NSelect q => forall e, select_reads d q e /\ select_reads d (source_select d q) e
    | NUpdate q => forall e, update_reads d q e
    | NDelete q => forall e, delete_reads d q e
    | NInsert q => iq_mapper q = None /\ forall e, insert_reads d q e
    | _ => True
    end.
  Definition Ps (n : node) : Prop := (forall c, fragment d (fun _ => false) (render d n c)) /\ reads n.

  Lemma field_follow : forall k neg fi vals e x, plain_column d fi -> ascending x -> expr d e x (NField k neg fi vals).
  Proof.
    intros k neg fi vals e x (E1 & E2 & C & N & Q) AS.
    assert (H := column_fragment_pf d k fi vals e x E1 E2 AS C Q N). destruct neg; [|exact H].
    unfold expr. apply okm_wr. exact (not_wr d true _ (proj1 (okm_wr d _) H)).
  Qed.
  Lemma field_run_is : forall fi e x, field_run d fi [] None x = render d (NField false false fi []) (ctx e x).
  Proof. intros fi e x. symmetry. exact (ret_seq1 (field_run d fi [] None x)). Qed.
  Lemma plain_in : forall a q, plain_statement d q -> (forall e x, ascending x -> expr d e x a) -> Ps q -> Pe (p_in a q).
  Proof.
    intros a q SQ HA HQ e x AS. apply in_fragment_pf; [now apply HA|].
    destruct SQ; (exists (fun _ => false)); apply (proj1 HQ).
  Qed.
  Lemma join_follow : forall js,
    (forall t, In (Some t) (map jn_table js) -> Pw t) -> (forall t, In (Some t) (map jn_table js) -> alias_ok d (get_alias t)) ->
    (forall j, In j js -> join_type_ok d (join_type j)) -> (forall j, In j js -> vp_preds (jn_on j) <> [] -> Pl (jn_on j)) ->
    Forall (join_reads d) js.
  Proof.
    intros js HT HA HJ HO. apply Forall_forall. intros j J. split; [now apply HJ|]. split.
    - intros t E. assert (IN : In (Some t) (map jn_table js)) by (rewrite <- E; now apply in_map).
      split; [now apply HT|now apply HA].
    - intros NE. apply HO; [exact J|exact NE|exact asc_nil].
  Qed.
  Lemma common_follow : forall cs, (forall c, In c cs -> common_names d c) -> (forall c b, In c cs -> cte_query c = Some b -> Ps b) ->
    Forall (common_reads d) cs.
  Proof.
    intros cs H1 H2. apply Forall_forall. intros c I. destruct (H1 c I) as [A B0]. split; [exact A|]. split; [exact B0|].
    intros q E. apply (H2 c q I E).
  Qed.
  Lemma exprs_follow : forall e fs, (forall f, In f fs -> Pe f) -> Forall (expr d e []) fs.
  Proof. intros e fs H. apply Forall_forall. intros f I. apply H; [exact I|exact asc_nil]. Qed.
  Lemma items_follow : forall e fs, (forall f, In f fs -> Pe f) -> (forall f, In f fs -> alias_ok d (get_alias f)) -> Forall (item_ok d e) fs.
  Proof. intros e fs H A. apply Forall_forall. intros f I. split; [apply H; [exact I|exact asc_nil]|now apply A]. Qed.

  Lemma true_follow : forall e x, expr d e x (NPred [] (B "TRUE") [] false).
  Proof.
    intros e x O s. exists [W "TRUE"].
    assert (E : render d (NPred [] (B "TRUE") [] false) (ctx e x) = (act (CDel []) ;; emit (B "TRUE"))) by (vm_compute; reflexivity).
    rewrite E, text_after_seq, text_after_del, text_after_emit by reflexivity. cbn [app].
    split; [lit|]. split; [discriminate|reflexivity].
  Qed.
  Lemma plain_follow :
    (forall n, plain_expr d n -> Pe n) /\ (forall n, plain_operand d n -> Po n) /\ (forall w, plain_list d w -> Pl w) /\
    (forall n, plain_window d n -> Pw n) /\ (forall n, plain_table d n -> Pw n) /\ (forall n, plain_statement d n -> Ps n).
  Proof.
    apply plain_ind.
    - (* column *) intros k neg fi vals P e x AS. now apply field_follow.
    - intros err cache fi P e x AS. unfold expr.
      change (fragment d separates (if existsb (beqb (fi_name fi)) cache then field_run d fi [] None x else fail)).
      rewrite field_run_is with (e := e).
      destruct (existsb _ cache); [now apply field_follow|intros O; discriminate O].
    - intros err cache fi P e x AS. unfold expr.
      change (fragment d separates (if is_empty (fi_talias fi) && (is_postgres d || is_mysql d) then fail
        else if existsb (beqb (fi_name fi)) cache then field_run d fi [] None x else fail)).
      rewrite field_run_is with (e := e).
      destruct (is_empty (fi_talias fi) && _); [intros O; discriminate O|].
      destruct (existsb _ cache); [now apply field_follow|intros O; discriminate O].
    - intros v H e x _. now apply value_fragment_pf.
    - intros name v _ IH e x AS. apply param_fragment_pf. assert (H := IH None x AS). destruct v; auto; exact I.
    - intros v a _ IH e x AS. exact (IH e x AS).
    - intros t a (ts & T0 & N & C) e x _ O s. exists ts. change (text_after d s (render d (NLiteral t a) (ctx e x))) with (text_after d s (emit t)).
      rewrite text_after_emit. now split.
    - (* compare *) intros a b c _ IA _ IB I e x AS. assert (H := compare_fragment_pf d a b e x (IA e x AS) (IB e x AS)).
      rewrite Forall_forall in H. exact (H c I).
    - intros f v c _ IH I e x AS. destruct (tests_fragment_pf d f e x (IH e x AS)) as (A & A1 & A2). destruct (A2 v) as [A3 A4].
      destruct I as [<-|[<-|[<-|[<-|[]]]]]; assumption.
    - intros a vs _ IA HV _ IV e x AS. apply in_fragment_pf; [now apply IA|].
      split; [exact HV|]. apply Forall_forall; intros v I. exists separates. now apply IV.
    - intros a vs _ IA _ IV e x AS. apply in_fragment_pf; [now apply IA|].
      apply Forall_forall; intros v I. exists separates. now apply IV.
    - intros a q _ IA SQ IQ. now apply plain_in.
    - intros q c SQ IQ I e x AS. destruct (exists_fragment_pf d q e x _ (proj1 IQ (ctx e x))) as [A1 A2].
      destruct I as [<-|[<-|[]]]; assumption.
    - intros vs _ IV e x AS. apply row_fragment_pf. apply Forall_forall; intros v I. exists separates. now apply IV.
    - intros f v w n c _ IF _ IV _ IW I e x AS.
      assert (H := functions_fragment_pf d f v w n e x (ex_intro _ separates (IF None x AS)) (ex_intro _ separates (IV None x AS)) (IW None x)).
      rewrite Forall_forall in H. exact (H c I).
    - intros p r calls _ IP _ IR _ I1 _ I2 _ I3 e x AS. apply case_fragment_pf.
      + constructor; [split; [now apply IP|now apply IR]|]. apply Forall_forall. intros b I. split; [now apply I1|now apply I2].
      + intros n E. now apply I3.
    - intros f calls _ IF _ I1 _ I2 _ I3 e x AS. apply simple_case_fragment_pf.
      + now apply IF.
      + apply Forall_forall. intros b I. split; [now apply I1|now apply I2].
      + intros n E. now apply I3.
    - intros w _ IW e x AS. now apply IW.
    - intros sq _ IQ e x _. apply subquery_fragment_pf. intros q E. apply (proj1 (IQ q E)).
    - (* operands *) intros a NQ _ IA e x AS. unfold operand_ok. rewrite NQ. now apply IA.
    - intros a NQ _ IA e x AS. unfold operand_ok. rewrite NQ. apply (proj1 IA).
    - (* lists *) intros w p PS V _ IP c AS. apply (list_one w c p PS V). now apply IP.
    - intros w w' PS _ IW c AS. apply (list_nested w c w' PS). now apply IW.
    - intros w LE _ IP c AS. apply list_many; [exact LE|]. apply Forall_forall. intros p I. now apply IP.
    - (* windows *) intros ms _ IF OK FR e x. apply window_fragment_pf.
      + intros f I. split; [now apply OK|]. exists separates. apply IF; [exact I|exact asc_nil].
      + destruct FR as [->|(ts & T0 & _ & C)]; [exists []; split; reflexivity|now exists ts].
    - (* tables *) intros sch name alias hook S0 N e x. now apply table_fragment_pf.
    - intros c W0 e x. unfold expr.
      change (fragment d separates (if cte_err c then fail else if is_empty (cte_name c) then fail else emit (cte_name c))).
      destruct (cte_err c); [intros O; discriminate O|]. destruct (is_empty (cte_name c)); [intros O; discriminate O|]. now apply word_follow.
    - intros sq _ IQ e x. apply subquery_fragment_pf. intros q E. apply (proj1 (IQ q E)).
    - (* SELECT *) intros q H1 _ H2 _ H3 H4 _ H5 H6 H7 _ H8 _ H9 _ H10 _ H11.
      assert (R : forall w e, (vp_preds w <> [] -> Pl w) ->
        select_reads d (mk_select (sq_dialect q) (sq_env q) (sq_ctes q) (sq_distinct q) (sq_fields q) (sq_distinct_on q)
          (sq_from q) (sq_joins q) w (sq_group q) (sq_having q) (sq_order q) (sq_limit q) (sq_offset q)) e).
      { intros w e HW. unfold select_reads.
        cbn [sq_ctes sq_distinct_on sq_fields sq_from sq_joins sq_where sq_group sq_having sq_order sq_env].
        split; [now apply common_follow|].
        split; [apply exprs_follow; intros f I; apply H3; apply in_or_app; now left|].
        split; [apply items_follow; [intros f I; apply H3; apply in_or_app; right; apply in_or_app; now left|exact H4]|].
        split; [intros t E; split; [apply H5|apply H6]; (left; exact E)|].
        split; [apply join_follow; [intros t I; apply H5; now right|intros t I; apply H6; now right|exact H7|exact H8]|].
        split; [apply where_follow; [apply exprs_follow; intros p I; exact (H9 _ _ I)|]|].
        { intros NE c' X. apply (HW NE). rewrite X. exact asc_nil. }
        split; [apply exprs_follow; intros f I; apply H3; apply in_or_app; right; apply in_or_app; right; apply in_or_app; now left|].
        split; [intros NE; apply (H11 NE); exact asc_nil|].
        apply exprs_follow; intros f I; apply H3; apply in_or_app; right; apply in_or_app; right; apply in_or_app; now right. }
      assert (RQ : forall e, select_reads d q e).
      { intros e. exact (R (sq_where q) e H10). }
      split; [intros c; apply statement_fragment_pf, RQ|]. intros e. split; [apply RQ|]. unfold source_select.
      destruct (is_sqlite d && negb (nonempty (vp_preds (sq_where q)))); [|apply RQ].
      apply R. intros _ c AS. eapply list_one; [reflexivity|reflexivity|]. apply true_follow.
    - (* DELETE *) intros q H1 _ H2 _ H3 H4 _ H5 H6 HW H7 _ H8 _ H9 _ H10.
      assert (R : forall e, delete_reads d q e); [|split; [intros c; apply statement_fragment_pf, R|exact R]]. intros e0.
      unfold delete_reads. split; [now apply common_follow|].
      split.
      { destruct (present (dq_using q) && is_mysql d) eqn:U.
        - apply Forall_forall. intros t I. apply (HW eq_refl). unfold tables_of in I. apply in_flat_map in I. destruct I as ([t'|] & I & J); [|destruct J].
          destruct J as [->|[]]. exact I.
        - intros t rest E. assert (I : In (Some t) (dq_using q :: dq_tables q ++ map jn_table (dq_joins q))).
          { right. apply in_or_app. left. rewrite E. now left. }
          split; [now apply H5|now apply H6]. }
      split; [intros t E; split; [apply H5|apply H6]; (left; exact E)|].
      split; [apply join_follow; [intros t I; apply H5; right; apply in_or_app; now right|intros t I; apply H6; right; apply in_or_app; now right|exact H7|exact H8]|].
      split; [apply where_follow; [apply exprs_follow; intros p I; exact (H9 _ _ I)|]|].
      { intros NE c' X. apply (H10 NE). rewrite X. exact asc_nil. }
      split; [apply exprs_follow; intros f I; apply H3; apply in_or_app; now left|].
      apply items_follow; [intros f I; apply H3; apply in_or_app; now right|exact H4].
    - (* UPDATE *) intros q H1 _ H2 _ H3 H4 _ H5 H6 H7 _ H8 HC _ HV _ H10.
      assert (R : forall e, update_reads d q e); [|split; [intros c; apply statement_fragment_pf, R|exact R]]. intros e0.
      unfold update_reads. split; [now apply common_follow|].
      split; [intros t E; split; [apply H5|apply H6]; (left; exact E)|].
      split.
      { intros t a E A. apply Forall_forall. intros p I. 
        assert (AS : ascending (if is_mysql d then [] else [table_qualifier t])) by (destruct (is_mysql d); [exact asc_nil|apply asc_one]).
        split.
        - destruct (HC a p A I) as (k & fi & vals & -> & P & D1 & D2). now apply assign_column.
        - exact (HV a p A I None _ AS). }
      split; [intros t E; split; [apply H5|apply H6]; (right; left; exact E)|].
      split; [apply join_follow; [intros t I; apply H5; right; now right|intros t I; apply H6; right; now right|exact H7|exact H8]|].
      split; [intros NE; apply (H10 NE); exact asc_nil|].
      split; [apply exprs_follow; intros f I; apply H3; apply in_or_app; now left|].
      apply items_follow; [intros f I; apply H3; apply in_or_app; now right|exact H4].
    - (* INSERT *) intros q M H1 _ H2 HT _ H3 H4 _ HR HA _ HS HC _ HP _ HPL HRC _ HRV _ HRP.
      assert (R : forall e, insert_reads d q e); [|split; [intros c; apply inserts_are_followed; [exact M|apply R]|split; [exact M|exact R]]].
      intros e0. unfold insert_reads. split; [now apply common_follow|].
      split; [apply Forall_forall; intros r I; apply exprs_follow; intros v J; exact (HR r v I J)|].
      split; [exact HA|].
      split; [intros s E; exact (proj2 (proj2 (HS s E) _))|].
      split; [exact HC|].
      split; [intros NE; apply (HRP NE); exact asc_nil|].
      split; [apply items_follow; [intros f I; apply H3; apply in_or_app; right; apply in_or_app; now right|exact H4]|].
      intros t E. destruct (HT t E) as (AL & sch & name & alias & hook & -> & S0 & N0).
      split; [now apply insert_tables_are_followed|]. split; [exact AL|].
      split; [apply Forall_forall; intros f I; apply H3; [apply in_or_app; now left|apply asc_one]|].
      split; [apply Forall_forall; intros f I; apply H3; [apply in_or_app; right; apply in_or_app; now left|apply asc_one]|].
      split.
      + intros p EP. destruct (is_vpred p) eqn:V.
        * destruct p; try discriminate V. apply (HPL _ EP). apply asc_one.
        * apply (HP _ EP V). apply asc_one.
      + apply Forall_forall. intros a I. split.
        * destruct (HRC a I) as (k & fi & vals & -> & P & D1 & D2). apply assign_column; [exact P|exact D1|exact D2|apply asc_one].
        * exact (HRV a I None _ (asc_one _)).
    - (* set operations *) intros top op qs IO LE _ IQ. split; [|exact I]. intros c. apply set_fragment_pf; [exact IO|exact LE|].
      apply Forall_forall. intros q J. apply (proj1 (IQ q J)).
  Qed.
End Follow.
