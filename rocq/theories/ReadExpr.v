(** * ReadExpr: columns, values and conditions can be followed by the reader *)
From Coq Require Import Lia.
From Verif Require Import GoBase GoBaseFacts QuoteModel SpecLex SpecIdent SpecSql SprintModel TokenModel EffectModel RenderModel BuildModel
  SpecText SqlFacts ExecFacts SpecClauses ClauseFacts BoolFacts FieldFacts SpecDdl DdlToks DdlRead SpecField FieldPf
  PropertiesPred PropertiesField SpecReadSql ReadToks ReadParts.
From Verif Require QueryPf.
Local Open Scope m_scope.

Lemma ret_seq1 : forall m : M, (ret ;; m) = m.
Proof. intros [cs st]. reflexivity. Qed.
Lemma same_text : forall d m k s, same d m k -> text_after d s m = text_after d s k.
Proof.
  intros d m k s [_ H]. destruct (H s s (alike_refl d s)) as (P & _ & _).
  destruct (ExecFacts.exec_out d (fst m) s) as [k1 E1]. destruct (ExecFacts.exec_out d (fst k) s) as [k2 E2].
  rewrite (text_after_out _ _ _ _ E1), (text_after_out _ _ _ _ E2). rewrite E1, E2, !ExecFacts.out_text_app in P. now apply app_inv_head in P.
Qed.
Lemma wr_same : forall d m k P, same d m k -> wr d k P -> wr d m P.
Proof. intros d m k P S0 H O s. rewrite (same_text d m k s S0). apply H. destruct S0 as [E _]. congruence. Qed.
Lemma text_of_after : forall d m t s, text_of m = Some t -> text_after d s m = t.
Proof.
  intros d [cs st] t s H. unfold text_of in H. cbn [fst snd] in H. destruct st; try discriminate.
  assert (G : forall cs t s, texts cs = Some t -> exists ks, st_out (exec d s cs) = st_out s ++ ks /\ out_text d ks = t).
  { clear. induction cs as [|c cs IH]; intros t s H; cbn [texts] in H.
    - exists []. cbn. rewrite app_nil_r. split; [reflexivity|congruence].
    - destruct c; try discriminate. destruct (texts cs) as [u|] eqn:E; [|discriminate].
      destruct (IH u (out s (KText b)) eq_refl) as (ks & K1 & K2). exists (KText b :: ks). cbn [exec fold_left exec1].
      fold (exec d (out s (KText b)) cs). rewrite K1. cbn [out st_out]. rewrite <- app_assoc. split; [reflexivity|].
      cbn [out_text flat_map chunk_text]. fold (out_text d ks). rewrite K2. cbn in H. congruence. }
  destruct (G cs t s H) as (ks & E & <-). now apply text_after_out.
Qed.

(** A column: [table.]name [ASC|DESC] [NULLS ...]. *)
Definition plain_name (d : dialect) (n : bytes) : Prop := good_name d n /\ (needs_quoting n = false -> keyword n = false).
Lemma name_sep : forall d n, plain_name d n -> separates (name_tok d n) = false.
Proof.
  intros d n [_ K]. unfold name_tok. destruct (needs_quoting n); [reflexivity|]. specialize (K eq_refl).
  unfold keyword, keywords in K. unfold separates. rewrite !is_word_app in *. cbn [sym]. rewrite orb_false_r.
  apply orb_false_iff in K. destruct K as [K1 K]. apply orb_false_iff in K. destruct K as [K2 K3]. rewrite K1, K2. cbn [orb].
  unfold is_word in *. cbn [existsb other_words] in *. destruct (kw "AS" (TWord n)), (kw "ON" (TWord n)), (kw "DISTINCT" (TWord n)), (kw "DO" (TWord n)); rewrite ?orb_true_r in K3; try discriminate; reflexivity.
Qed.
Lemma column_fragment_pf : forall d k fi vals e x, fi_err fi = false -> fi_formats fi = [] -> ascending x -> fi_collation fi = [] ->
  let q := if is_empty (fi_talias fi) then fi_table fi else fi_talias fi in
  (q = [] \/ plain_name d q) -> plain_name d (fi_name fi) -> expr d e x (NField k false fi vals).
Proof.
  intros d k fi vals e x E1 E2 AS C. cbv zeta. set (q := if is_empty (fi_talias fi) then fi_table fi else fi_talias fi). intros Q N O s. unfold ctx in *.
  destruct (qualifier_dropped_iff_excluded d k fi vals None [] e x E1 E2 AS) as [H1 H2]. fold q in H1, H2. cbv zeta in H1, H2. rewrite C in H1, H2.
  cbn [is_empty app] in H1, H2.
  set (suffix := match fi_desc fi with Some true => B " DESC" | Some false => B " ASC" | None => [] end ++
    match fi_nulls fi with Some true => B " NULLS FIRST" | Some false => B " NULLS LAST" | None => [] end) in *.
  assert (SU : exists ts, tokens d suffix = Some ts /\ sep_start suffix /\ closed separates 0 ts = true).
  { unfold suffix. destruct (fi_desc fi) as [[|]|], (fi_nulls fi) as [[|]|]; (eexists; split; [lit|split; [reflexivity || exact I|reflexivity]]). }
  destruct SU as (ts & ST & SS & SC).
  assert (NN : tokens d (quote_identifier d (fi_name fi) ++ suffix) = Some (name_tok d (fi_name fi) :: ts)).
  { apply (toks_app d _ [name_tok d (fi_name fi)]); [apply toks_name, N|exact ST|exact SS]. }
  assert (NC : closed separates 0 (name_tok d (fi_name fi) :: ts) = true).
  { apply closed_cons; [now apply name_sep|apply name_tok_sym|apply name_tok_sym|exact SC]. }
  destruct (in_dec (list_eq_dec ascii_dec) q x) as [I|I]; [|destruct (is_empty q) eqn:Z].
  - rewrite (text_of_after d _ _ s (H1 (or_intror I))). eexists. split; [exact NN|]. split; [discriminate|exact NC].
  - assert (Z' : q = []) by (destruct q; [reflexivity|discriminate]).
    rewrite (text_of_after d _ _ s (H1 (or_introl Z'))). eexists. split; [exact NN|]. split; [discriminate|exact NC].
  - assert (Z' : q <> []) by (destruct q; discriminate). destruct Q as [Q|Q]; [contradiction|].
    rewrite (text_of_after d _ _ s (H2 (conj Z' I))). exists (name_tok d q :: TSym "." :: name_tok d (fi_name fi) :: ts).
    split; [|split; [discriminate|]].
    + apply (toks_app d _ [name_tok d q]); [apply toks_name, Q|apply toks_sym; [cbn; tauto|exact NN]|reflexivity].
    + apply closed_cons; [now apply name_sep|apply name_tok_sym|apply name_tok_sym|].
      apply closed_cons; try reflexivity. exact NC.
Qed.
Lemma value_fragment_pf : forall d v e x, (forall n w, v <> GNamedArg n w) -> expr d e x (NRaw v).
Proof.
  intros d v e x H. unfold expr. assert (E : render d (NRaw v) (ctx e x) = act (CBind [] v)).
  { destruct v; try reflexivity. exfalso. now eapply H. }
  rewrite E. apply bind_fragment.
Qed.
(** A table: [schema.]name. *)
Lemma table_fragment_pf : forall d sch name alias hook e x, (sch = [] \/ plain_name d sch) -> plain_name d name ->
  expr d e x (NTable sch name alias hook).
Proof.
  intros d sch name alias hook e x HS HN O s. rewrite (text_of_after d _ _ s (QueryPf.table_text d sch name alias hook _)).
  assert (NC : closed separates 0 [name_tok d name] = true).
  { apply closed_cons; [now apply name_sep|apply name_tok_sym|apply name_tok_sym|reflexivity]. }
  destruct sch as [|a sch].
  - exists [name_tok d name]. split; [apply toks_name, HN|]. split; [discriminate|exact NC].
  - destruct HS as [HS|HS]; [discriminate|]. exists (name_tok d (a :: sch) :: TSym "." :: [name_tok d name]).
    split; [|split; [discriminate|]].
    + rewrite <- app_assoc. apply (toks_app d _ [name_tok d (a :: sch)]); [apply toks_name, HS|apply toks_sym; [cbn; tauto|apply toks_name, HN]|reflexivity].
    + apply closed_cons; [now apply name_sep|apply name_tok_sym|apply name_tok_sym|]. apply closed_cons; try reflexivity. exact NC.
Qed.
(** A query in parentheses. *)
Lemma group_fragment : forall d m k, fragment d (fun _ => false) m -> (forall s, text_after d s k = []) ->
  fragment d separates (emit (B "(") ;; m ;; emit (B ")") ;; k).
Proof.
  intros d m k H K. 
  assert (PL : pre d (B "(") [lp]) by (apply pre_sym; cbn; tauto).
  assert (W3 : wrs d (emit (B ")") ;; k) (is [rp])).
  { intros O s. exists [rp]. apply seq_ok in O. rewrite text_after_seq, text_after_emit, K by reflexivity. rewrite app_nil_r.
    split; [apply pre_of, pre_sym; cbn; tauto|]. split; reflexivity. }
  intros O s. destruct (wro_seq d _ _ _ _ (wro_emit d _ _ PL) (wr_seq d _ _ _ _ H W3) O s) as (ts & T & p & r & -> & -> & y & z & -> & [N C] & ->).
  exists ([lp] ++ y ++ [rp]). split; [exact T|]. split; [discriminate|]. cbn [app]. now apply closed_group.
Qed.
Lemma subquery_fragment_pf : forall d sq e x, (forall q, sb_query sq = Some q -> fragment d (fun _ => false) (render d q (ctx None []))) ->
  expr d e x (NSubquery sq).
Proof.
  intros d sq e x H. unfold expr. change (fragment d separates (if sb_err sq then fail else emit (B "(") ;;
    match sb_query sq with None => crash | Some q => render d q (ctx None []) end ;; emit (B ")") ;;
    when (is_empty (sb_alias sq) && (is_postgres d || is_mysql d)) fail)).
  destruct (sb_err sq); [intros O; discriminate O|]. apply group_fragment.
  - destruct (sb_query sq) as [q|]; [now apply H|]. intros O. discriminate O.
  - intros s. destruct (is_empty (sb_alias sq) && (is_postgres d || is_mysql d)); cbn [when]; [|apply text_after_ret].
    rewrite (text_after_out d s fail []); [reflexivity|]. cbn. now rewrite app_nil_r.
Qed.
(** An operand: a query is in parentheses. *)
Definition operand_ok (d : dialect) (e : option env) (x : list bytes) (a : node) : Prop :=
  fragment d (if is_query a then fun _ => false else separates) (render d a (ctx e x)).

Section Conditions.
  Context (d : dialect).
  Definition okm (ts : list tok) : Prop := ts <> [] /\ closed separates 0 ts = true.
  Lemma okm_wr : forall m, fragment d separates m <-> wr d m okm.
  Proof. intros m. split; intros H O s; destruct (H O s) as (ts & T & P); now exists ts. Qed.
  Lemma okm_app : forall a b, okm a -> closed separates 0 b = true -> okm (a ++ b).
  Proof. intros a b [N C] C2. split; [intros E; apply app_eq_nil in E; tauto|]. now rewrite closed_app. Qed.
  Lemma okm_cons : forall t a, okm a -> separates t = false -> sym "(" t = false -> sym ")" t = false -> okm (t :: a).
  Proof. intros t a [N C] H1 H2 H3. split; [discriminate|]. now apply closed_cons. Qed.
  (** A value of a comparison. *)
  Lemma operand_wr : forall e x a, operand_ok d e x a -> wr d (run d (operand e x a)) okm.
  Proof.
    intros e x a H. unfold operand, operand_ok in *. destruct (is_query a); cbn [run]; [|apply okm_wr in H].
    - assert (PL : pre d (B "(") [lp]) by (apply pre_sym; cbn; tauto).
      assert (W3 : wrs d (emit (B ")") ;; ret) (is [rp])).
      { intros O s. exists [rp]. rewrite text_after_seq, text_after_emit, text_after_ret by reflexivity. rewrite app_nil_r.
        split; [apply pre_of, pre_sym; cbn; tauto|]. split; reflexivity. }
      refine (wr_imp d _ _ _ (wro_seq d _ _ _ _ (wro_emit d _ _ PL) (wr_seq d _ _ _ _ H W3)) _).
      intros ts (p & r & -> & -> & y & z & -> & [N C] & ->). split; [discriminate|]. cbn [app]. now apply closed_group.
    - apply (wr_quiet d _ _ _ H). apply text_after_ret.
  Qed.
  Lemma compare_fragment_pf : forall a b e x, operand_ok d e x a -> operand_ok d e x b ->
    Forall (fun c => expr d e x (c a b)) [p_eq; p_ne; p_gt; p_ge; p_lt; p_le].
  Proof.
    intros a b e x HA HB. assert (G := compare_written d a b e x).
    assert (K : forall c op, In op [B "="; B "<>"; B ">"; B ">="; B "<"; B "<="] ->
      writes d (c a b) e x (operand e x a ++ [T (B " " ++ op ++ B " ")] ++ operand e x b) -> expr d e x (c a b)).
    { intros c op I WR. apply writes_same in WR. unfold expr. apply okm_wr. apply (wr_same d _ _ _ WR).
      rewrite !run_app. cbn [run]. rewrite seq_assoc_m, ret_seq1.
      assert (PO : exists t, pre d (" "%char :: op ++ B " ") t /\ closed separates 0 t = true).
      { repeat (destruct I as [<-|I]; [eexists; split; [|shelve]; prelit|]). destruct I. Unshelve. all: reflexivity. }
      destruct PO as (t & PO & CT).
      refine (wr_imp d _ _ _ (wr_seq d _ _ _ _ (operand_wr e x a HA) (wrs_lit d " " (op ++ B " ") t _ _ eq_refl PO (operand_wr e x b HB))) _).
      intros ts (p & r & -> & PA & y & z & -> & -> & PB). apply okm_app; [exact PA|]. rewrite closed_app by exact CT. apply PB. }
    repeat match type of G with Forall _ (_ :: _) => let H := fresh in let H' := fresh in inversion G as [|? ? H H']; subst; clear G; rename H' into G; cbn [fst snd] in H end.
    repeat constructor; (eapply K; [|eassumption]; cbn; tauto).
  Qed.
  (** Lists of predicates. *)
  Lemma wr_app_quiet : forall m P, wr d m P -> wr d (m ;; ret) P.
  Proof. intros m P H. apply wr_quiet; [exact H|apply text_after_ret]. Qed.
  Lemma parens_wr : forall (top : bool) m, wr d m okm -> wr d (when (negb top) (emit (B "(")) ;; m ;; when (negb top) (emit (B ")"))) okm.
  Proof.
    intros top m H. destruct top; cbn [negb when].
    - rewrite ret_seq1. now apply wr_app_quiet.
    - assert (PL : pre d (B "(") [lp]) by (apply pre_sym; cbn; tauto).
      assert (W3 : wrs d (emit (B ")")) (is [rp])) by (apply wrs_emit; [apply pre_of, pre_sym; cbn; tauto|reflexivity]).
      refine (wr_imp d _ _ _ (wro_seq d _ _ _ _ (wro_emit d _ _ PL) (wr_seq d _ _ _ _ H W3)) _).
      intros ts (p & r & -> & -> & y & z & -> & [N C] & ->). split; [discriminate|]. cbn [app]. apply closed_group; [now apply (no_stop_weaken separates)|reflexivity|reflexivity].
  Qed.
  Lemma not_wr : forall (neg : bool) m, wr d m okm -> wr d (when neg (emit (B "NOT ")) ;; m) okm.
  Proof.
    intros [|] m H; cbn [when]; [|now rewrite ret_seq1].
    assert (P : pre d (B "NOT ") [W "NOT"]) by prelit.
    refine (wr_imp d _ _ _ (wro_seq d _ _ _ _ (wro_emit d _ _ P) H) _). intros ts (a & b & -> & -> & K). now apply okm_cons.
  Qed.
  Lemma list_fragment_pf : forall w c, c_excl c = [] -> vp_preds w <> [] -> Forall (expr d None []) (vp_preds w) ->
    (forall p, vp_preds w = [p] -> is_vpred p = false) -> fragment d separates (render d (NVPred w) c).
  Proof.
    intros w c X NE H SG. apply okm_wr. rewrite render_vpred. rewrite X.
    set (top := match c_top c with Some b => b | None => vp_top w end). clearbody top.
    assert (G : forall ps, Forall (expr d None []) ps -> ps <> [] ->
      wr d (sep_by (if vp_or w then B " OR " else B " AND ") (map (fun pr : node * runner => if is_nil (fst pr) then fail else snd pr (ctx None [])) (map (fun v => (v, render d v)) ps))) okm).
    { intros ps HP NP. rewrite map_map. cbn [fst snd].
      assert (PO : exists b, (if vp_or w then B " OR " else B " AND ") = " "%char :: b /\ pre d (" "%char :: b) (if vp_or w then [W "OR"] else [W "AND"])).
      { destruct (vp_or w); eexists; (split; [reflexivity|]); prelit. }
      destruct PO as (b & -> & PO).
      refine (wr_imp d _ _ _ (wr_sep_by d _ (fun v => if is_nil v then fail else render d v (ctx None [])) (fun _ => okm) " " b _ ps eq_refl PO _) _).
      - revert HP. apply Forall_impl. intros v HV. destruct (is_nil v); [intros O; discriminate O|]. now apply okm_wr.
      - intros ts (es & F & ->). destruct F as [|v t vs es HT F]; [congruence|]. apply okm_app; [exact HT|].
        clear -F. induction F as [|v t vs es HT F IH]; [reflexivity|]. cbn [flat_map]. rewrite <- app_assoc.
        destruct HT as [_ C]. destruct (vp_or w); cbn [app]; (apply closed_cons; [reflexivity|reflexivity|reflexivity|]; rewrite closed_app by exact C; exact IH). }
    unfold vpred_run. destruct (vp_preds w) as [|p [|p2 ps]] eqn:PS; [congruence| |].
    - cbn [map]. rewrite (SG p eq_refl). inversion H; subst. apply not_wr. destruct (is_nil p); [intros O; discriminate O|]. now apply okm_wr.
    - change (map (fun v : node => (v, render d v)) (p :: p2 :: ps)) with ((p, render d p) :: (p2, render d p2) :: map (fun v : node => (v, render d v)) ps).
      cbn match. apply not_wr, parens_wr.
      change ((p, render d p) :: (p2, render d p2) :: map (fun v : node => (v, render d v)) ps) with (map (fun v : node => (v, render d v)) (p :: p2 :: ps)).
      apply G; [exact H|discriminate].
  Qed.
End Conditions.

(** Set operations over two or more queries. *)
Definition set_operators : list bytes :=
  [[]; B "UNION"; B "UNION ALL"; B "INTERSECT"; B "INTERSECT ALL"; B "EXCEPT"; B "EXCEPT ALL"].
Lemma set_fragment_pf : forall d top op qs c, In op set_operators -> 2 <= length qs ->
  Forall (fun q => fragment d (fun _ => false) (render d q (mk_ctx (if is_vquery q then Some false else None) [] None []))) qs ->
  fragment d (fun _ => false) (render d (NVQuery top op qs) c).
Proof.
  intros d top op qs c IO LE H.
  change (render d (NVQuery top op qs) c) with (vquery_run (match c_top c with Some b => b | None => top end) op (map (fun v => (v, render d v)) qs)).
  set (t := match c_top c with Some b => b | None => top end). clearbody t.
  destruct qs as [|q1 [|q2 qs]]; [cbn in LE; lia|cbn in LE; lia|]. unfold vquery_run.
  change (map (fun v : node => (v, render d v)) (q1 :: q2 :: qs)) with ((q1, render d q1) :: (q2, render d q2) :: map (fun v : node => (v, render d v)) qs).
  cbn match. cbv zeta.
  change ((q1, render d q1) :: (q2, render d q2) :: map (fun v : node => (v, render d v)) qs) with (map (fun v : node => (v, render d v)) (q1 :: q2 :: qs)).
  set (l := q1 :: q2 :: qs) in *. assert (LN : l <> []) by discriminate. clearbody l.
  assert (G : fragment d (fun _ => false) (sep_by (B " " ++ (if is_empty op then B "UNION" else op) ++ B " ")
    (map (fun qr : node * runner => if is_nil (fst qr) then fail else snd qr (mk_ctx (if is_vquery (fst qr) then Some false else None) [] None [])) (map (fun v => (v, render d v)) l)))).
  { rewrite map_map. cbn [fst snd].
    assert (PO : exists b ts, B " " ++ (if is_empty op then B "UNION" else op) ++ B " " = " "%char :: b /\ pre d (" "%char :: b) ts /\ closed no_stop 0 ts = true).
    { repeat (destruct IO as [<-|IO]; [eexists; eexists; split; [reflexivity|split; [|shelve]]; prelit|]). destruct IO. Unshelve. all: reflexivity. }
    destruct PO as (b & t0 & -> & PO & CO).
    assert (WR := wr_sep_by d _ (fun v => if is_nil v then fail else render d v (mk_ctx (if is_vquery v then Some false else None) [] None []))
      (fun _ ts => ts <> [] /\ closed no_stop 0 ts = true) " " b _ l eq_refl PO).
    intros O s. destruct (fun X => WR X O s) as (ts & T & es & F & ->).
    - revert H. apply Forall_impl. intros v HV. destruct (is_nil v); [intros Z; discriminate Z|exact HV].
    - eexists. split; [exact T|]. destruct F as [|v t1 vs es [HN HC] F]; [congruence|]. split; [intros Z; apply app_eq_nil in Z; tauto|].
      change (fun _ : tok => false) with no_stop. rewrite closed_app by exact HC. clear -F CO.
      induction F as [|v t1 vs es [_ HC] F IH]; [reflexivity|]. cbn [flat_map]. rewrite <- app_assoc, closed_app by exact CO.
      now rewrite closed_app by exact HC. }
  destruct t; cbn [negb when].
  - rewrite ret_seq1. exact (wr_quiet d _ _ _ G (text_after_ret d)).
  - assert (PL : pre d (B "(") [lp]) by (apply pre_sym; cbn; tauto).
    assert (W3 : wrs d (emit (B ")")) (is [rp])) by (apply wrs_emit; [apply pre_of, pre_sym; cbn; tauto|reflexivity]).
    intros O s. destruct (wro_seq d _ _ _ _ (wro_emit d _ _ PL) (wr_seq d _ _ _ _ G W3) O s) as (ts & T & p & r & -> & -> & y & z & -> & [N C] & ->).
    eexists. split; [exact T|]. split; [discriminate|]. cbn [app]. now apply closed_group.
Qed.
