(** * ReadSqlPf: SELECT, UPDATE and DELETE are read back *)
From Coq Require Import Lia.
From Verif Require Import GoBase GoBaseFacts QuoteModel SpecLex SpecIdent SpecSql SprintModel TokenModel EffectModel RenderModel
  SqlFacts ExecFacts SpecClauses ClauseFacts ClausePf GatePf SpecDdl DdlToks DdlRead SpecReadSql ReadToks ReadParts.
Local Open Scope m_scope.

Section Dialect.
  Context (d : dialect).
  Notation wr := (wr d). Notation wrs := (wrs d). Notation wro := (wro d).

  (** Clauses that are lists, or conditions. *)
  Definition list_toks (e : option env) (ns : list node) (es : list (list tok)) : Prop := list_found d e [] ns es /\ Forall sql_ok es.
  Definition body_ok (o : option (list tok)) : Prop := match o with Some b => closed clause_word 0 b = true | None => True end.
  Definition o_elements (o : option (list tok)) : list (list tok) := match o with Some x => elements x | None => [] end.
  Lemma list_clause : forall k b e ns, pre d (" "%char :: b) (map W k) -> Forall (expr d e []) ns ->
    wrs (when (nonempty ns) (emit (" "%char :: b) ;; list_sql d e [] ns))
      (fun ts => exists o, list_found d e [] ns (o_elements o) /\ body_ok o /\ ts = ctoks k o).
  Proof.
    intros k b e ns P H. refine (wrs_imp d _ _ _ (clause_wrs d k (nonempty ns) b _ _ P (fun _ => list_wr d e [] ns H)) _).
    intros ts (o & F & ->). exists o. destruct o as [x|]; cbn [found o_elements body_ok] in *.
    - destruct F as [_ (es & F & K & ->)]. destruct (clause_list es K) as [C E]. rewrite E. now repeat split.
    - destruct ns; [|discriminate]. repeat split. constructor.
  Qed.
  Lemma cond_clause : forall k b (set : bool) m, pre d (" "%char :: b) (map W k) -> (set = true -> fragment d separates m) ->
    wrs (when set (emit (" "%char :: b) ;; m)) (fun ts => exists o, found set o (says d m) /\ body_ok o /\ ts = ctoks k o).
  Proof.
    intros k b set m P H. refine (wrs_imp d _ _ _ (clause_wrs d k set b _ _ P (fun E => fragment_wr d _ (H E))) _).
    intros ts (o & F & ->). exists o. destruct o as [x|]; cbn [found body_ok] in *.
    - destruct F as [S0 [SY [_ C]]]. split; [now split|]. split; [|reflexivity]. revert C. apply closed_weaken. exact sep_clause.
    - now repeat split.
  Qed.
  Lemma items_clause : forall k b ns, pre d (" "%char :: b) (map W k) -> Forall (item_ok d None) ns ->
    wrs (when (nonempty ns) (emit (" "%char :: b) ;; columns_sql d ns))
      (fun ts => exists o is, opt_list read_items o = Some is /\ Forall2 (item_found d None) ns is /\ body_ok o /\ ts = ctoks k o).
  Proof.
    intros k b ns P H. refine (wrs_imp d _ _ _ (clause_wrs d k (nonempty ns) b _ _ P (fun _ => items_wr d ns H)) _).
    intros ts (o & F & ->). exists o. destruct o as [x|]; cbn [found body_ok opt_list] in *.
    - destruct F as [_ F]. destruct (items_read d _ _ _ F) as [C (is & R & FF)]. exists is. now repeat split.
    - destruct ns; [|discriminate]. exists []. repeat split. constructor.
  Qed.
  (** A table, and joins after it. *)
  Lemma source_clause : forall k b (set : bool) e t js, pre d (" "%char :: b) (map W k) ->
    (set = present t) -> (js <> [] -> present t = true) -> (forall n, t = Some n -> item_ok d e n) -> Forall (join_reads d) js ->
    wrs (when set (emit (" "%char :: b) ;; match t with Some n => table_sql d e n | None => ret end) ;;
         when (nonempty js) (emit (B " ") ;; sep_by (B " ") (map (join_sql d) js)))
      (fun ts => exists o r, opt read_source o = Some r /\ found set r (source_found d e t js) /\ body_ok o /\ ts = ctoks k o).
  Proof.
    intros k b set e t js P SE NJ IT JR.
    refine (wrs_imp d _ _ _ (wrs_seq d _ _ _ _ (clause_wrs d k set b _ (fun ts => exists n, t = Some n /\ item_toks d e n ts) P _) (joins_wrs d js JR)) _).
    - intros E. destruct t as [n|]; [|rewrite SE in E; discriminate E]. refine (wr_imp d _ _ _ (item_wr d e n (IT n eq_refl)) _). intros ts H. now exists n.
    - intros ts (a & c & -> & (o & F & ->) & es & FJ & ->). destruct o as [x|].
      + destruct F as [E (n & T & X)].
        destruct (source_read d e t js (x ++ concat es)) as [C (r & R & FR)]. { now exists n, x, es. }
        exists (Some (x ++ concat es)), (Some r). cbn [opt found body_ok ctoks]. rewrite R. split; [reflexivity|]. split; [now split|].
        split; [exact C|]. now rewrite app_assoc.
      + cbn [found] in F. assert (J : js = []). { destruct js; [reflexivity|]. rewrite <- SE, F in NJ. assert (false = true) by (apply NJ; discriminate). discriminate. }
        subst js. inversion FJ; subst. exists None, None. cbn. now repeat split.
  Qed.
  Lemma ret_end : forall m P, wrs m P -> wrs (m ;; statement []) P.
  Proof.
    intros m P H O s. apply seq_ok in O. destruct O as [O1 _]. rewrite text_after_seq by exact O1.
    change (text_after d (exec d s (fst m)) (statement [])) with (text_after d (exec d s (fst m)) ret). rewrite text_after_ret, app_nil_r. now apply H.
  Qed.
  Lemma wro_true : forall m P, wro m P -> wro (when true m) P.
  Proof. intros m P H. exact H. Qed.
  Lemma wr_true : forall m P, wr m P -> wr (when true m) P.
  Proof. intros m P H. exact H. Qed.

  (** ** SELECT *)
  Definition distinct_toks (e : option env) (q : select_ node) (ts : list tok) : Prop :=
    exists r, distinct_found d e q r /\
      match r with
      | All => ts = []
      | Distinct => ts = [W "DISTINCT"]
      | DistinctOn es => Forall sql_ok es /\ ts = [W "DISTINCT"; W "ON"] ++ lp :: commas es ++ [rp]
      end.
  Lemma distinct_wro : forall e q, (nonempty (sq_distinct_on q) = true -> sq_distinct q = false) -> Forall (expr d e []) (sq_distinct_on q) ->
    wro (when (nonempty (sq_distinct_on q)) (emit (B "DISTINCT ON (") ;; list_sql d e [] (sq_distinct_on q) ;; emit (B ") ")) ;;
         when (sq_distinct q) (emit (B "DISTINCT "))) (distinct_toks e q).
  Proof.
    intros e q EX H. destruct (nonempty (sq_distinct_on q)) eqn:NE.
    - rewrite (EX eq_refl). cbn [when].
      assert (P1 : pre d (B "DISTINCT ON (") ([W "DISTINCT"; W "ON"] ++ [lp])) by (prelit_sym [W "DISTINCT"; W "ON"] "("%char).
      assert (P2 : pre d (")"%char :: B " ") [rp]).
      { change (")"%char :: B " ") with ([")"%char] ++ [" "%char]). change [rp] with ([rp] ++ []). apply pre_app; [apply pre_sym; cbn; tauto|now apply pre_blank]. }
      refine (wro_imp d _ _ _ (wro_wro d _ _ _ _ (wro_wro d _ _ _ _ (wro_emit d _ _ P1) (wr_wro d _ ")" (B " ") [rp] _ (list_wr d e [] _ H) eq_refl P2)) (wro_ret d)) _).
      intros ts (a & b & -> & (a1 & b1 & -> & -> & a2 & b2 & -> & (es & F & K & ->) & ->) & ->).
      exists (DistinctOn es). split.
      + split; [now apply EX|]. split; [|exact F]. destruct (sq_distinct_on q); discriminate.
      + split; [exact K|]. now rewrite app_nil_r.
    - assert (Z : sq_distinct_on q = []) by (destruct (sq_distinct_on q); [reflexivity|discriminate]). cbn [when].
      refine (wro_imp d _ _ _ (wro_wro d _ _ _ _ (wro_ret d) (wro_when d (sq_distinct q) _ (is (if sq_distinct q then [W "DISTINCT"] else [])) _ _)) _).
      + intros E. rewrite E. apply wro_emit. prelit.
      + intros E. now rewrite E.
      + intros ts (a & b & -> & -> & ->). cbn [app]. destruct (sq_distinct q) eqn:E.
        * exists Distinct. now repeat split.
        * exists All. now repeat split.
  Qed.
  Lemma columns_read : forall e q a ts, distinct_toks e q a -> items_toks d None (sq_fields q) ts -> sq_fields q <> [] ->
    closed clause_word 0 (a ++ ts) = true /\
    exists dis is, read_columns (a ++ ts) = Some (dis, is) /\ distinct_found d e q dis /\ Forall2 (item_found d None) (sq_fields q) is.
  Proof.
    intros e q a ts (r & DF & DT) IT NE. destruct (items_read d _ _ _ IT) as [C (is & R & F)].
    destruct (items_head d _ _ _ IT NE) as (t & rest & E & S0).
    assert (ND : kw "DISTINCT" t = false). { destruct (kw "DISTINCT" t) eqn:K; [|reflexivity]. apply sep_distinct in K. congruence. }
    assert (NO : kw "ON" t = false). { destruct (kw "ON" t) eqn:K; [|reflexivity]. apply sep_on in K. congruence. }
    destruct r as [| |es].
    - subst a. cbn [app]. split; [exact C|]. exists All, is. split; [|now split]. unfold read_columns. rewrite R. rewrite E. cbn [words]. now rewrite ND.
    - subst a. split; [apply closed_cons; try reflexivity; exact C|]. exists Distinct, is. split; [|now split].
      unfold read_columns. cbn [app words]. change (kw "DISTINCT" (W "DISTINCT")) with true. cbn match.
      rewrite R. rewrite E at 1. now rewrite NO.
    - destruct DT as [K ->]. destruct (clause_list es K) as [C2 EL].
      assert (G : ([W "DISTINCT"; W "ON"] ++ lp :: commas es ++ [rp]) ++ ts = [W "DISTINCT"; W "ON"] ++ lp :: commas es ++ rp :: ts).
      { cbn [app]. now rewrite <- app_assoc. }
      rewrite G. split.
      + apply closed_cons; try reflexivity. apply closed_cons; try reflexivity. apply closed_group; [now apply (no_stop_weaken clause_word)|exact C|reflexivity].
      + exists (DistinctOn es), is. split; [|now split]. unfold read_columns. cbn [app words].
        change (kw "DISTINCT" (W "DISTINCT")) with true. change (kw "ON" (W "ON")) with true. cbn match.
        rewrite (read_group_closed clause_word _ _ C2), EL. now rewrite R.
  Qed.

  Lemma words_balanced : forall k r, closed no_stop 0 r = true -> closed no_stop 0 (map W k ++ r) = true.
  Proof. induction k as [|w k IH]; intros r H; [exact H|]. cbn [map app]. apply closed_cons; try reflexivity. now apply IH. Qed.
  Lemma flat_balanced : forall cs : list (list string * option (list tok)),
    Forall (fun c => match snd c with Some b => closed clause_word 0 b = true | None => True end) cs ->
    existsb (fun c => present (snd c) && nonempty (fst c)) cs = true -> flat cs <> [] /\ closed no_stop 0 (flat cs) = true.
  Proof.
    intros cs H EX. split.
    - clear H. induction cs as [|[k o] cs IH]; [discriminate|]. cbn [existsb fst snd] in EX. unfold flat. cbn [flat_map fst snd].
      fold (flat cs). destruct o as [b|]; cbn [ctoks present andb] in *; [|now apply IH].
      destruct k; cbn [nonempty orb] in EX; [|discriminate]. cbn [map app]. intros Z. apply app_eq_nil in Z. destruct Z as [_ Z]. now apply IH.
    - clear EX. induction H as [|[k o] cs H F IH]; [reflexivity|]. unfold flat. cbn [flat_map fst snd] in *. fold (flat cs).
      destruct o as [b|]; cbn [ctoks app]; [|exact IH]. rewrite <- app_assoc. apply words_balanced. apply closed_app_true; [|exact IH].
      now apply (no_stop_weaken clause_word).
  Qed.
  Lemma flat_closed : forall (stop : tok -> bool) (cs : list (list string * option (list tok))), (forall t, stop t = true -> clause_word t = true) ->
    Forall (fun c => match snd c with Some b => closed clause_word 0 b = true | None => True end) cs ->
    forallb (fun c => forallb (fun w => negb (stop (W w))) (fst c)) cs = true -> closed stop 0 (flat cs) = true.
  Proof.
    intros stop cs Z. induction 1 as [|[k o] cs H F IH]; intros N; [reflexivity|]. cbn [forallb fst] in N. apply andb_true_iff in N. destruct N as [N1 N2].
    specialize (IH N2). unfold flat. cbn [flat_map fst snd] in *. fold (flat cs). destruct o as [b|]; cbn [ctoks app]; [|exact IH]. rewrite <- app_assoc.
    assert (G : closed stop 0 (b ++ flat cs) = true) by (apply closed_app_true; [revert H; now apply closed_weaken|exact IH]). revert G. generalize (b ++ flat cs). intros r G.
    clear -N1 G. induction k as [|w k IH]; [exact G|]. cbn [forallb] in N1. apply andb_true_iff in N1. destruct N1 as [N1 N2]. cbn [map app].
    apply closed_cons; try reflexivity; [now apply negb_true_iff|]. now apply IH.
  Qed.
  Lemma tail_is_clause : forall t, tail_word t = true -> clause_word t = true.
  Proof.
    intros t H. unfold tail_word, is_word in H. apply existsb_exists in H. destruct H as (w & I & K). apply (is_word_in clause_words w); [|exact K].
    cbn in I |- *. tauto.
  Qed.
  Lemma select_statement : forall q e0, select_ok d q e0 = true -> select_reads d q e0 ->
    wr (statement (select_clauses d q e0)) (fun ts => exists r, read_select ts = Some r /\ select_found d q e0 r /\
      ts <> [] /\ closed no_stop 0 ts = true /\ closed tail_word 0 ts = true /\ stops clause_word ts /\ words ["VALUES"%string] ts = None).
  Proof.
    intros q e0 SO HR OK s. unfold select_reads in HR. cbv zeta in HR.
    destruct HR as (HC & HDO & HF & HT & HJ & HW & HG & HH & HO).
    unfold select_ok in SO. rewrite !andb_true_iff in SO. destruct SO as (((((_ & SD) & SF) & SJ) & _) & _).
    assert (FNE : sq_fields q <> []) by (destruct (sq_fields q); [discriminate|discriminate]).
    assert (EX : nonempty (sq_distinct_on q) = true -> sq_distinct q = false).
    { intros N. rewrite N in SD. cbn in SD. apply andb_true_iff in SD. destruct SD as [_ SD]. now apply negb_true_iff in SD. }
    assert (NJ : sq_joins q <> [] -> present (sq_from q) = true).
    { intros N. destruct (sq_joins q); [congruence|]. cbn in SJ. exact SJ. }
    unfold select_clauses in *. cbv zeta in *. set (e := own_env e0 (sq_env q)) in *.
    rewrite !statement_cons in *. cbn [cl_set cl_sql where_sql] in *.
    assert (WS : wr (when true (columns_sql d (sq_fields q))) (items_toks d None (sq_fields q))) by (apply wr_true, items_wr, HF).
    assert (P0 : pre d (B "SELECT ") [W "SELECT"]) by prelit.
    assert (P1 : pre d (B " FROM ") [W "FROM"]) by prelit.
    assert (P2 : pre d (B " WHERE ") [W "WHERE"]) by prelit.
    assert (P3 : pre d (B " GROUP BY ") [W "GROUP"; W "BY"]) by prelit.
    assert (P4 : pre d (B " HAVING ") [W "HAVING"]) by prelit.
    assert (P5 : pre d (B " ORDER BY ") [W "ORDER"; W "BY"]) by prelit.
    assert (P6 : pre d (B " LIMIT ") [W "LIMIT"]) by prelit.
    assert (P7 : pre d (B " OFFSET ") [W "OFFSET"]) by prelit.
    assert (HH' : nonempty (vp_preds (sq_having q)) = true -> fragment d separates (cond_sql d (sq_having q))).
    { intros N. apply HH. intros Z. now rewrite Z in N. }
    assert (E1 := source_clause ["FROM"%string] (B "FROM ") (present (sq_from q)) e (sq_from q) (sq_joins q) P1 eq_refl NJ HT HJ).
    assert (E2 := cond_clause ["WHERE"%string] (B "WHERE ") _ _ P2 HW).
    assert (E3 := list_clause ["GROUP"; "BY"]%string (B "GROUP BY ") e (sq_group q) P3 HG).
    assert (E4 := cond_clause ["HAVING"%string] (B "HAVING ") _ _ P4 HH').
    assert (E5 := list_clause ["ORDER"; "BY"]%string (B "ORDER BY ") e (sq_order q) P5 HO).
    assert (E6 := number_wrs d ["LIMIT"%string] (B "LIMIT ") (sq_limit q) P6).
    assert (E7 := number_wrs d ["OFFSET"%string] (B "OFFSET ") (sq_offset q) P7).
    rewrite <- (seq_assoc_m (when (present (sq_from q)) _)) in *.
    rewrite <- (seq_assoc_m (when (nonempty (sq_distinct_on q)) _)) in *.
    assert (ALL := wro_seq d _ _ _ _ (with_wro d (sq_ctes q) HC) (wro_seq d _ _ _ _ (wro_true _ _ (wro_emit d _ _ P0))
      (wro_seq d _ _ _ _ (distinct_wro e q EX HDO) (wr_seq d _ _ _ _ WS
        (wrs_seq d _ _ _ _ E1 (wrs_seq d _ _ _ _ E2 (wrs_seq d _ _ _ _ E3 (wrs_seq d _ _ _ _ E4 (wrs_seq d _ _ _ _ E5 (wrs_seq d _ _ _ _ E6 (ret_end _ _ E7))))))))))).
    destruct (ALL OK s) as (ts & T & G). clear ALL E1 E2 E3 E4 E5 E6 E7.
    destruct G as (x0 & y0 & -> & (ow & FW & ->) & x1 & y1 & -> & -> & x2 & y2 & -> & DT & x3 & y3 & -> & IT & G).
    destruct G as (x4 & y4 & -> & (ofr & rf & RF & FF & CF & ->) & G).
    destruct G as (x5 & y5 & -> & (owh & FWH & CW & ->) & G).
    destruct G as (x6 & y6 & -> & (og & FG & CG & ->) & G).
    destruct G as (x7 & y7 & -> & (oh & FH & CH & ->) & G).
    destruct G as (x8 & y8 & -> & (oo & FO & CO & ->) & G).
    destruct G as (x9 & y9 & -> & (ol & FL & CL & ->) & (oof & FOF & COF & ->)).
    destruct (with_read d _ _ FW) as [CWI (rw & RW & FRW)].
    destruct (columns_read e q x2 x3 DT IT FNE) as [CC (dis & is & RC & FD & FI)].
    set (cs := [(["WITH"%string], ow); (["SELECT"%string], Some (x2 ++ x3)); (["FROM"%string], ofr); (["WHERE"%string], owh); (["GROUP"%string; "BY"%string], og); (["HAVING"%string], oh);
                (["ORDER"%string; "BY"%string], oo); (["LIMIT"%string], ol); (["OFFSET"%string], oof)] : list (list string * option (list tok))).
    assert (FL1 : forall z, z = ctoks ["WITH"%string] ow ++ [W "SELECT"] ++ x2 ++ x3 ++ ctoks ["FROM"%string] ofr ++ ctoks ["WHERE"%string] owh ++
      ctoks ["GROUP"; "BY"]%string og ++ ctoks ["HAVING"%string] oh ++ ctoks ["ORDER"; "BY"]%string oo ++ ctoks ["LIMIT"%string] ol ++ ctoks ["OFFSET"%string] oof ->
      z = flat cs).
    { intros z ->. unfold flat, cs. cbn [flat_map fst snd]. rewrite app_nil_r. cbn [ctoks map]. rewrite <- ?app_assoc. reflexivity. }
    eexists. split; [exact T|]. exists (mk_select_read rw dis is rf owh (o_elements og) oh (o_elements oo) ol oof).
    assert (FC : Forall (fun c => match snd c with Some b => closed clause_word 0 b = true | None => True end) cs).
    { unfold cs. repeat (constructor; [cbn [snd]; assumption|]). constructor. }
    assert (FB : flat cs <> [] /\ closed no_stop 0 (flat cs) = true) by (apply (flat_balanced cs FC); unfold cs; destruct ow; reflexivity).
    destruct FB as [FB1 FB2].
    assert (FT : closed tail_word 0 (flat cs) = true) by (apply flat_closed; [exact tail_is_clause|exact FC|reflexivity]).
    assert (FS : stops clause_word (flat cs)) by (unfold cs; destruct ow; reflexivity).
    assert (FV : words ["VALUES"%string] (flat cs) = None) by (unfold cs; destruct ow; reflexivity).
    split; [|split; [|rewrite (FL1 _ eq_refl); repeat split; assumption]].
    - rewrite (FL1 _ eq_refl). unfold read_select.
      change [["WITH"%string]; ["SELECT"%string]; ["FROM"%string]; ["WHERE"%string]; ["GROUP"%string; "BY"%string]; ["HAVING"%string]; ["ORDER"%string; "BY"%string]; ["LIMIT"%string]; ["OFFSET"%string]] with (map fst cs).
      rewrite read_clauses_flat; [|reflexivity|].
      + cbn [map snd cs]. rewrite RW, RC, RF. reflexivity.
      + exact FC.
    - unfold select_found. cbv zeta. fold e. cbn [rs_with rs_distinct rs_columns rs_from rs_where rs_group rs_having rs_order rs_limit rs_offset].
      repeat (split; [assumption|]). assumption.
  Qed.

  Lemma select_reads_full : forall q c s, snd (render d (NSelect q) c) = SOk -> select_reads d q (c_env c) ->
    exists ts r, tokens d (text_after d s (render d (NSelect q) c)) = Some ts /\ read_select ts = Some r /\ select_found d q (c_env c) r /\
      ts <> [] /\ closed no_stop 0 ts = true.
  Proof.
    intros q c s OK HR. destruct (select_is_its_clauses_pf d q c) as [R1 R2]. assert (OK2 := OK). apply R2 in OK2. destruct OK2 as [SO _].
    specialize (R1 SO). rewrite R1 in *. destruct (select_statement q (c_env c) SO HR OK s) as (ts & T & r & R & F & N & C & _). now exists ts, r.
  Qed.

  (** ** Assignments *)
  Definition assign_toks (x : list bytes) (a : node * node) (ts : list tok) : Prop :=
    exists c v, says d (render d (fst a) (ctx None x)) c /\ c <> [] /\ closed (fun t => separates t || sym "=" t) 0 c = true /\
      value_found d x (snd a) v /\ closed separates 0 v = true /\ ts = c ++ TSym "=" :: v.
  Lemma value_wr : forall x v, fragment d (if is_query v then (fun _ => false) else separates) (render d v (ctx None x)) ->
    wr (if is_query v then emit (B "(") ;; render d v (ctx None x) ;; emit (B ")") else render d v (ctx None x))
      (fun ts => value_found d x v ts /\ closed separates 0 ts = true).
  Proof.
    intros x v H. unfold value_found. destruct (is_query v).
    - assert (PL : pre d (B "(") [lp]) by (apply pre_sym; cbn; tauto).
      assert (W3 : wrs (emit (B ")")) (is [rp])) by (apply wrs_emit; [apply pre_of, pre_sym; cbn; tauto|reflexivity]).
      refine (wr_imp d _ _ _ (wro_seq d _ _ _ _ (wro_emit d _ _ PL) (wr_seq d _ _ _ _ (fragment_inner d _ H) W3)) _).
      intros ts (a & b & -> & -> & a1 & b1 & -> & [P C] & ->). split; [now exists a1|]. cbn [app]. now apply closed_group.
    - refine (wr_imp d _ _ _ (fragment_wr d _ H) _). intros ts [P [_ C]]. now split.
  Qed.
  Lemma assign_wr : forall x a, assign_reads d x a -> wr (assign_sql d x a) (assign_toks x a).
  Proof.
    intros x a [HC HV]. unfold assign_sql.
    assert (W1 : wr (render d (fst a) (ctx None x)) (fun ts => says d (render d (fst a) (ctx None x)) ts /\ ts <> [] /\ closed (fun t => separates t || sym "=" t) 0 ts = true)).
    { intros O s. destruct (HC O s) as (ts & T & N & C). exists ts. split; [exact T|]. split; [now exists s|now split]. }
    assert (P1 : pre d (B " = ") [TSym "="]) by prelit.
    refine (wr_imp d _ _ _ (wr_seq d _ _ _ _ W1 (wrs_lit d " " (B "= ") [TSym "="] _ _ eq_refl P1 (value_wr x (snd a) HV))) _).
    intros ts (c & b & -> & (S1 & N & C) & b1 & v & -> & -> & V & CV). exists c, v. now repeat split.
  Qed.
  Lemma assigns_read : forall x l es, Forall2 (assign_toks x) l es ->
    Forall (fun e => e <> [] /\ closed separates 0 e = true) es /\
    exists rs, read_all read_assign es = Some rs /\ Forall2 (assign_found d x) l rs.
  Proof.
    intros x l es. induction 1 as [|a e l es H F IH]; [split; [constructor|now exists []]|]. destruct IH as [IH1 (rs & R & FR)].
    destruct H as (c & v & S1 & N & C & V & CV & ->). split.
    - constructor; [|exact IH1]. split; [intros E; apply app_eq_nil in E; tauto|].
      rewrite closed_app by (revert C; apply closed_weaken; intros t Z; now rewrite Z). now apply closed_cons.
    - exists ((c, v) :: rs). cbn [read_all]. unfold read_assign at 1.
      rewrite (until_closed (sym "=") c 0 (TSym "=" :: v)); [|revert C; apply closed_weaken; intros t Z; rewrite Z; apply orb_true_r|reflexivity].
      rewrite R. split; [reflexivity|]. constructor; [now split|exact FR].
  Qed.
  Definition set_toks (x : list bytes) (l : list (node * node)) (o : option (list tok)) : Prop :=
    exists b rs, o = Some b /\ read_all read_assign (elements b) = Some rs /\ Forall2 (assign_found d x) l rs.
  Lemma set_wrs : forall x l, Forall (assign_reads d x) l ->
    wrs (emit (B " SET ") ;; assigns_sql d x l) (fun ts => exists o, set_toks x l o /\ body_ok o /\ ts = ctoks ["SET"%string] o).
  Proof.
    intros x l H. assert (P1 : pre d (B " SET ") [W "SET"]) by prelit.
    refine (wrs_imp d _ _ _ (wrs_lit d " " (B "SET ") [W "SET"] _ _ eq_refl P1 (wr_commas d _ (assign_sql d x) (assign_toks x) l _)) _).
    - revert H. apply Forall_impl. intros a H. now apply assign_wr.
    - intros ts (a & b & -> & -> & es & F & ->). destruct (assigns_read _ _ _ F) as [K (rs & R & FR)].
      exists (Some (commas es)). destruct (clause_list es K) as [C E]. split; [|now split]. exists (commas es), rs. now rewrite E.
  Qed.

  (** ** UPDATE *)
  Lemma update_head : forall e t js, item_ok d e t -> Forall (join_reads d) js ->
    wr ((emit (B "UPDATE ") ;; table_sql d e t) ;; when (nonempty js) (emit (B " ") ;; sep_by (B " ") (map (join_sql d) js)))
      (fun ts => exists b r, read_source b = Some r /\ source_found d e (Some t) js r /\ body_ok (Some b) /\ ts = ctoks ["UPDATE"%string] (Some b)).
  Proof.
    intros e t js HT HJ. assert (P0 : pre d (B "UPDATE ") [W "UPDATE"]) by prelit.
    refine (wr_imp d _ _ _ (wr_seq d _ _ _ _ (wro_seq d _ _ _ _ (wro_emit d _ _ P0) (item_wr d e t HT)) (joins_wrs d js HJ)) _).
    intros ts (a & b & -> & (a1 & x & -> & -> & X) & es & F & ->).
    destruct (source_read d e (Some t) js (x ++ concat es)) as [C (r & R & FR)]. { now exists t, x, es. }
    exists (x ++ concat es), r. split; [exact R|]. split; [exact FR|]. split; [exact C|]. cbn [ctoks map app]. reflexivity.
  Qed.
  Lemma ret_seq_m : forall m : M, (ret ;; m) = m.
  Proof. intros [cs st]. reflexivity. Qed.
  Lemma wro_seq3 : forall m k P Q, wro m P -> wr k Q -> wr (m ;; k) (cat P Q).
  Proof. exact (wro_seq d). Qed.
  Lemma update_reads_full : forall q c s, snd (render d (NUpdate q) c) = SOk -> update_reads d q (c_env c) ->
    exists ts r, tokens d (text_after d s (render d (NUpdate q) c)) = Some ts /\ read_update ts = Some r /\ update_found d q (c_env c) r /\
      ts <> [] /\ closed no_stop 0 ts = true.
  Proof.
    intros q c s OK HR. destruct (update_is_its_clauses_pf d q c) as [R1 R2]. assert (OK2 := OK). apply R2 in OK2. destruct OK2 as [SO _].
    specialize (R1 SO). rewrite R1 in *. clear R1 R2. unfold update_reads in HR. cbv zeta in HR.
    destruct HR as (HC & HT & HA & HFR & HJ & HW & HO & HRE).
    unfold update_ok in SO. rewrite !andb_true_iff in SO. destruct SO as ((((((((((SA & _) & ST) & SFM) & SJ) & _) & _) & _) & _) & _) & _).
    unfold update_clauses in *. cbv zeta in *. set (e := own_env (c_env c) (uq_env q)) in *.
    destruct (uq_table q) as [t|] eqn:TB; [|discriminate]. destruct (update_assigns q) as [al|] eqn:AL; [|discriminate].
    rewrite !statement_cons in *. cbn [cl_set cl_sql] in *. clear ST SA.
    specialize (HT t eq_refl). specialize (HA t al eq_refl eq_refl).
    assert (P1 : pre d (B " FROM ") [W "FROM"]) by prelit.
    assert (P2 : pre d (B " WHERE ") [W "WHERE"]) by prelit.
    assert (P5 : pre d (B " ORDER BY ") [W "ORDER"; W "BY"]) by prelit.
    assert (P6 : pre d (B " LIMIT ") [W "LIMIT"]) by prelit.
    assert (P7 : pre d (B " OFFSET ") [W "OFFSET"]) by prelit.
    assert (P8 : pre d (B " RETURNING ") [W "RETURNING"]) by prelit.
    assert (HW' : nonempty (vp_preds (uq_where q)) = true -> fragment d separates (cond_sql d (uq_where q))).
    { intros N. apply HW. intros Z. now rewrite Z in N. }
    assert (E2 := cond_clause ["WHERE"%string] (B "WHERE ") _ _ P2 HW').
    assert (E5 := list_clause ["ORDER"; "BY"]%string (B "ORDER BY ") e (uq_order q) P5 HO).
    assert (E6 := number_wrs d ["LIMIT"%string] (B "LIMIT ") (uq_limit q) P6).
    assert (E7 := number_wrs d ["OFFSET"%string] (B "OFFSET ") (uq_offset q) P7).
    assert (E8 := items_clause ["RETURNING"%string] (B "RETURNING ") (uq_returning q) P8 HRE).
    assert (TAIL := wrs_seq d _ _ _ _ E2 (wrs_seq d _ _ _ _ E5 (wrs_seq d _ _ _ _ E6 (wrs_seq d _ _ _ _ E7 (ret_end _ _ E8))))).
    set (tail := (when (nonempty (vp_preds (uq_where q))) _ ;; _)) in TAIL.
    set (mid := fun ts => exists b rt os ofr rf,
       read_source b = Some rt /\ source_found d e (Some t) (if is_mysql d then uq_joins q else []) rt /\ body_ok (Some b) /\
       set_toks (if is_mysql d then [] else [table_qualifier t]) al os /\ body_ok os /\
       opt read_source ofr = Some rf /\ found (present (uq_from q)) rf (source_found d e (uq_from q) (uq_joins q)) /\ body_ok ofr /\
       ts = ctoks ["UPDATE"%string] (Some b) ++ ctoks ["SET"%string] os ++ ctoks ["FROM"%string] ofr).
    assert (MID : exists m, (forall k, (when true (emit (B "UPDATE ") ;; table_sql d e t) ;;
        when (negb (is_mysql d)) (emit (B " SET ") ;; assigns_sql d [table_qualifier t] al) ;;
        when (present (uq_from q)) (emit (B " FROM ") ;; match uq_from q with Some f => table_sql d e f | None => ret end) ;;
        when (nonempty (uq_joins q)) (emit (B " ") ;; sep_by (B " ") (map (join_sql d) (uq_joins q))) ;;
        when (is_mysql d) (emit (B " SET ") ;; assigns_sql d [] al) ;; k) = (m ;; k)) /\ wr m mid).
    { destruct (is_mysql d) eqn:MY; cbn [negb].
      - assert (FN : uq_from q = None). { destruct (uq_from q); [discriminate SFM|reflexivity]. }
        rewrite FN. cbn [present when].
        exists (((emit (B "UPDATE ") ;; table_sql d e t) ;; when (nonempty (uq_joins q)) (emit (B " ") ;; sep_by (B " ") (map (join_sql d) (uq_joins q)))) ;; (emit (B " SET ") ;; assigns_sql d [] al)).
        split; [intros k; now rewrite !ret_seq_m, !seq_assoc_m|].
        refine (wr_imp d _ _ _ (wr_seq d _ _ _ _ (update_head e t (uq_joins q) HT HJ) (set_wrs [] al HA)) _).
        intros ts (a & b & -> & (b0 & rt & RT & FT & CB & ->) & os & SS & CS & ->). unfold mid. rewrite FN.
        exists b0, rt, os, None, None. rewrite app_nil_r. cbn [present found opt body_ok]. auto 12.
      - assert (NJ : uq_joins q <> [] -> present (uq_from q) = true).
        { intros N. destruct (uq_joins q); [congruence|]. cbn in SJ. rewrite orb_false_r in SJ. exact SJ. }
        exists (((emit (B "UPDATE ") ;; table_sql d e t) ;; ret) ;; (emit (B " SET ") ;; assigns_sql d [table_qualifier t] al) ;;
          (when (present (uq_from q)) (emit (B " FROM ") ;; match uq_from q with Some f => table_sql d e f | None => ret end) ;;
           when (nonempty (uq_joins q)) (emit (B " ") ;; sep_by (B " ") (map (join_sql d) (uq_joins q))))).
        split; [intros k; cbn [when]; now rewrite !seq_assoc_m, !ret_seq_m|].
        refine (wr_imp d _ _ _ (wr_seq d _ _ _ _ (update_head e t [] HT (Forall_nil _)) (wrs_seq d _ _ _ _ (set_wrs _ al HA)
          (source_clause ["FROM"%string] (B "FROM ") (present (uq_from q)) e (uq_from q) (uq_joins q) P1 eq_refl NJ HFR HJ))) _).
        intros ts (a & b & -> & (b0 & rt & RT & FT & CB & ->) & a2 & b2 & -> & (os & SS & CS & ->) & (ofr & rf & RF & FF & CF & ->)).
        unfold mid. exists b0, rt, os, ofr, rf. auto 12. }
    destruct MID as (m & EQ & WM). rewrite EQ in *. clear EQ.
    assert (ALL := wro_seq d _ _ _ _ (with_wro d (uq_ctes q) HC) (wr_seq d _ _ _ _ WM TAIL)).
    destruct (ALL OK s) as (ts & T & G). clear ALL E2 E5 E6 E7 E8 TAIL.
    destruct G as (x0 & y0 & -> & (ow & FW & ->) & x1 & y1 & -> & MI & G). unfold mid in MI.
    destruct MI as (b & rt & os & ofr & rf & RT & FT & CB & (bs & rs & -> & RS & FS) & CS & RF & FF & CF & ->).
    destruct G as (x5 & y5 & -> & (owh & FWH & CW & ->) & G).
    destruct G as (x8 & y8 & -> & (oo & FO & CO & ->) & G).
    destruct G as (x9 & y9 & -> & (ol & FL & CL & ->) & G).
    destruct G as (x10 & y10 & -> & (oof & FOF & COF & ->) & (ore & ri & RR & FRR & CR & ->)).
    destruct (with_read d _ _ FW) as [CWI (rw & RW & FRW)].
    set (cs := [(["WITH"%string], ow); (["UPDATE"%string], Some b); (["SET"%string], Some bs); (["FROM"%string], ofr); (["WHERE"%string], owh);
                (["ORDER"%string; "BY"%string], oo); (["LIMIT"%string], ol); (["OFFSET"%string], oof); (["RETURNING"%string], ore)] : list (list string * option (list tok))).
    eexists. exists (mk_update_read rw rt rs rf owh (o_elements oo) ol oof ri). split; [exact T|].
    assert (FC : Forall (fun c => match snd c with Some b => closed clause_word 0 b = true | None => True end) cs).
    { unfold cs. repeat (constructor; [cbn [snd]; assumption|]). constructor. }
    match goal with |- read_update ?z = _ /\ _ => assert (FL1 : z = flat cs) end.
    { unfold flat, cs. cbn [flat_map fst snd]. rewrite app_nil_r. rewrite <- ?app_assoc. reflexivity. }
    split; [|split; [|rewrite FL1; apply (flat_balanced cs FC); unfold cs; destruct ow; reflexivity]].
    - rewrite FL1. unfold read_update.
      change [["WITH"%string]; ["UPDATE"%string]; ["SET"%string]; ["FROM"%string]; ["WHERE"%string]; ["ORDER"%string; "BY"%string]; ["LIMIT"%string]; ["OFFSET"%string]; ["RETURNING"%string]] with (map fst cs).
      rewrite read_clauses_flat; [|reflexivity|].
      + cbn [map snd cs]. rewrite RW, RT, RS, RF, RR. reflexivity.
      + exact FC.
    - unfold update_found. cbv zeta. fold e. cbn [ru_with ru_table ru_set ru_from ru_where ru_order ru_limit ru_offset ru_returning]. rewrite TB.
      split; [assumption|]. split; [assumption|]. split; [exists t, al; now repeat split|]. repeat (split; [assumption|]). assumption.
  Qed.

  (** ** DELETE *)
  Lemma words_list : forall ts : list node, Forall (fun t => word_ok d (table_qualifier t)) ts ->
    wr (sep_by (B ", ") (map (fun t => emit (table_qualifier t)) ts)) (is (commas (map (fun t => [TWord (table_qualifier t)]) ts))).
  Proof.
    intros ts H. refine (wr_imp d _ _ _ (wr_commas d _ (fun t : node => emit (table_qualifier t)) (fun t x => x = [TWord (table_qualifier t)]) ts _) _).
    - revert H. apply Forall_impl. intros t [PW _]. now apply wr_emit.
    - intros x (es & F & ->). unfold is. assert (Q : es = map (fun t => [TWord (table_qualifier t)]) ts); [|now rewrite Q].
      clear H. induction F as [|t e ts es E F IH]; [reflexivity|]. cbn [map]. now rewrite E, IH.
  Qed.
  Lemma words_items : forall ts : list node, Forall (fun t => word_ok d (table_qualifier t)) ts ->
    closed clause_word 0 (commas (map (fun t => [TWord (table_qualifier t)]) ts)) = true /\
    read_items (commas (map (fun t => [TWord (table_qualifier t)]) ts)) = Some (map (fun t => mk_item [TWord (table_qualifier t)] None) ts).
  Proof.
    intros ts H.
    assert (K : forall n, word_ok d n -> clause_word (TWord n) = false /\ kw "AS" (TWord n) = false).
    { intros n [_ K]. unfold keyword, keywords in K. rewrite !is_word_app in K.
      apply orb_false_iff in K. destruct K as [K1 K]. apply orb_false_iff in K. destruct K as [_ K3]. split; [exact K1|].
      destruct (kw "AS" (TWord n)) eqn:E; [|reflexivity]. rewrite (is_word_in other_words "AS" _) in K3; [discriminate|cbn; tauto|exact E]. }
    split.
    - apply closed_commas_stop; [reflexivity|]. apply Forall_map. revert H. apply Forall_impl. intros t H. apply closed_cons; try reflexivity. now apply K.
    - unfold read_items. rewrite elements_commas.
      + rewrite (read_all_map _ _ _ _ (fun t => mk_item [TWord (table_qualifier t)] None)); [reflexivity|].
        revert H. apply Forall_impl. intros t H. unfold read_item. cbn [until]. destruct (K _ H) as [_ ->]. reflexivity.
      + apply Forall_map. apply Forall_forall. intros t _. split; [discriminate|reflexivity].
  Qed.
  Lemma delete_reads_full : forall q c s, snd (render d (NDelete q) c) = SOk -> delete_reads d q (c_env c) ->
    exists ts r, tokens d (text_after d s (render d (NDelete q) c)) = Some ts /\ read_delete ts = Some r /\ delete_found d q (c_env c) r /\
      ts <> [] /\ closed no_stop 0 ts = true.
  Proof.
    intros q c s OK HR. destruct (delete_is_its_clauses_pf d q c) as [R1 R2]. assert (OK2 := OK). apply R2 in OK2. destruct OK2 as [SO _].
    specialize (R1 SO). rewrite R1 in *. clear R1 R2. unfold delete_reads in HR. cbv zeta in HR.
    destruct HR as (HC & HT & HU & HJ & HW & HO & HRE).
    unfold delete_ok in SO. rewrite !andb_true_iff in SO. destruct SO as (((((((((_ & ST) & _) & SJ) & _) & _) & _) & _) & _) & _).
    unfold delete_clauses in *. cbv zeta in *. set (e := own_env (c_env c) (dq_env q)) in *.
    rewrite !statement_cons in *. cbn [cl_set cl_sql where_sql] in *.
    assert (P1 : pre d (B " USING ") [W "USING"]) by prelit.
    assert (P2 : pre d (B " WHERE ") [W "WHERE"]) by prelit.
    assert (P5 : pre d (B " ORDER BY ") [W "ORDER"; W "BY"]) by prelit.
    assert (P6 : pre d (B " LIMIT ") [W "LIMIT"]) by prelit.
    assert (P7 : pre d (B " OFFSET ") [W "OFFSET"]) by prelit.
    assert (P8 : pre d (B " RETURNING ") [W "RETURNING"]) by prelit.
    assert (P0 : pre d (B "DELETE FROM ") [W "DELETE"; W "FROM"]) by prelit.
    assert (NJ : dq_joins q <> [] -> present (dq_using q) = true).
    { intros N. destruct (dq_joins q); [congruence|]. cbn in SJ. now apply andb_true_iff in SJ. }
    assert (E1 := source_clause ["USING"%string] (B "USING ") (present (dq_using q)) e (dq_using q) (dq_joins q) P1 eq_refl NJ HU HJ).
    assert (E2 := cond_clause ["WHERE"%string] (B "WHERE ") _ _ P2 HW).
    assert (E5 := list_clause ["ORDER"; "BY"]%string (B "ORDER BY ") e (dq_order q) P5 HO).
    assert (E6 := number_wrs d ["LIMIT"%string] (B "LIMIT ") (dq_limit q) P6).
    assert (E7 := number_wrs d ["OFFSET"%string] (B "OFFSET ") (dq_offset q) P7).
    assert (E8 := items_clause ["RETURNING"%string] (B "RETURNING ") (dq_returning q) P8 HRE).
    assert (HEAD : wr (when (present (dq_using q) && is_mysql d) (sep_by (B ", ") (map (fun t => emit (table_qualifier t)) (tables_of (dq_tables q)))) ;;
        when (negb (present (dq_using q) && is_mysql d)) match dq_tables q with Some t :: _ => table_sql d e t | _ => ret end)
      (fun ts => exists is, read_items ts = Some is /\ closed clause_word 0 ts = true /\
        if present (dq_using q) && is_mysql d
        then is = map (fun t => mk_item [TWord (table_qualifier t)] None) (tables_of (dq_tables q))
        else exists t rest i, dq_tables q = Some t :: rest /\ is = [i] /\ item_found d e t i)).
    { destruct (present (dq_using q) && is_mysql d) eqn:MU; cbn [negb when].
      - refine (wr_imp d _ _ _ (wr_quiet d _ _ _ (words_list _ HT) (text_after_ret d)) _).
        intros ts ->. destruct (words_items _ HT) as [C R]. eexists. split; [exact R|]. now split.
      - rewrite ret_seq_m. destruct (dq_tables q) as [|[t|] rest] eqn:TB; try discriminate ST.
        refine (wr_imp d _ _ _ (item_wr d e t (HT t rest eq_refl)) _). intros ts X.
        assert (XS : items_toks d e [t] (commas [ts])). { exists [ts]. split; [now repeat constructor|reflexivity]. }
        cbn [commas flat_map] in XS. rewrite app_nil_r in XS.
        destruct (items_read d _ _ _ XS) as [C (is & R & F)]. inversion F as [|? i ? l FI FL]; subst. inversion FL; subst.
        exists [i]. split; [exact R|]. split; [exact C|]. now exists t, rest, i. }
    rewrite <- (seq_assoc_m (when (present (dq_using q)) _)) in *.
    rewrite <- (seq_assoc_m (when (present (dq_using q) && is_mysql d) _)) in *.
    assert (ALL := wro_seq d _ _ _ _ (with_wro d (dq_ctes q) HC) (wro_seq d _ _ _ _ (wro_true _ _ (wro_emit d _ _ P0))
      (wr_seq d _ _ _ _ HEAD (wrs_seq d _ _ _ _ E1 (wrs_seq d _ _ _ _ E2 (wrs_seq d _ _ _ _ E5 (wrs_seq d _ _ _ _ E6 (wrs_seq d _ _ _ _ E7 (ret_end _ _ E8))))))))).
    destruct (ALL OK s) as (ts & T & G). clear ALL E1 E2 E5 E6 E7 E8 HEAD.
    destruct G as (x0 & y0 & -> & (ow & FW & ->) & x1 & y1 & -> & -> & x2 & y2 & -> & (its & RI & CI & FI) & G).
    destruct G as (x4 & y4 & -> & (ofr & rf & RF & FF & CF & ->) & G).
    destruct G as (x5 & y5 & -> & (owh & FWH & CW & ->) & G).
    destruct G as (x8 & y8 & -> & (oo & FO & CO & ->) & G).
    destruct G as (x9 & y9 & -> & (ol & FL & CL & ->) & G).
    destruct G as (x10 & y10 & -> & (oof & FOF & COF & ->) & (ore & ri & RR & FRR & CR & ->)).
    destruct (with_read d _ _ FW) as [CWI (rw & RW & FRW)].
    set (cs := [(["WITH"%string], ow); (["DELETE"%string; "FROM"%string], Some x2); (["USING"%string], ofr); (["WHERE"%string], owh);
                (["ORDER"%string; "BY"%string], oo); (["LIMIT"%string], ol); (["OFFSET"%string], oof); (["RETURNING"%string], ore)] : list (list string * option (list tok))).
    eexists. exists (mk_delete_read rw its rf owh (o_elements oo) ol oof ri). split; [exact T|].
    assert (FC : Forall (fun c => match snd c with Some b => closed clause_word 0 b = true | None => True end) cs).
    { unfold cs. repeat (constructor; [cbn [snd]; assumption|]). constructor. }
    match goal with |- read_delete ?z = _ /\ _ => assert (FL1 : z = flat cs) end.
    { unfold flat, cs. cbn [flat_map fst snd]. rewrite app_nil_r. cbn [ctoks map]. rewrite <- ?app_assoc. reflexivity. }
    split; [|split; [|rewrite FL1; apply (flat_balanced cs FC); unfold cs; destruct ow; reflexivity]].
    - rewrite FL1. unfold read_delete.
      change [["WITH"%string]; ["DELETE"%string; "FROM"%string]; ["USING"%string]; ["WHERE"%string]; ["ORDER"%string; "BY"%string]; ["LIMIT"%string]; ["OFFSET"%string]; ["RETURNING"%string]] with (map fst cs).
      rewrite read_clauses_flat; [|reflexivity|].
      + cbn [map snd cs]. rewrite RW, RI, RF, RR. reflexivity.
      + exact FC.
    - unfold delete_found. cbv zeta. fold e. cbn [rd_with rd_tables rd_using rd_where rd_order rd_limit rd_offset rd_returning].
      repeat (split; [assumption|]). assumption.
  Qed.
  Lemma select_reads_back_pf : forall q c s, snd (render d (NSelect q) c) = SOk -> select_reads d q (c_env c) ->
    exists ts r, tokens d (text_after d s (render d (NSelect q) c)) = Some ts /\ read_select ts = Some r /\ select_found d q (c_env c) r.
  Proof. intros q c s O H. destruct (select_reads_full q c s O H) as (ts & r & T & R & F & _). now exists ts, r. Qed.
  Lemma update_reads_back_pf : forall q c s, snd (render d (NUpdate q) c) = SOk -> update_reads d q (c_env c) ->
    exists ts r, tokens d (text_after d s (render d (NUpdate q) c)) = Some ts /\ read_update ts = Some r /\ update_found d q (c_env c) r.
  Proof. intros q c s O H. destruct (update_reads_full q c s O H) as (ts & r & T & R & F & _). now exists ts, r. Qed.
  Lemma delete_reads_back_pf : forall q c s, snd (render d (NDelete q) c) = SOk -> delete_reads d q (c_env c) ->
    exists ts r, tokens d (text_after d s (render d (NDelete q) c)) = Some ts /\ read_delete ts = Some r /\ delete_found d q (c_env c) r.
  Proof. intros q c s O H. destruct (delete_reads_full q c s O H) as (ts & r & T & R & F & _). now exists ts, r. Qed.
  (** Such a statement may itself stand in parentheses. *)
  Lemma statement_fragment_pf : forall c,
    (forall q, select_reads d q (c_env c) -> fragment d (fun _ => false) (render d (NSelect q) c)) /\
    (forall q, update_reads d q (c_env c) -> fragment d (fun _ => false) (render d (NUpdate q) c)) /\
    (forall q, delete_reads d q (c_env c) -> fragment d (fun _ => false) (render d (NDelete q) c)).
  Proof.
    intros c. split; [|split]; intros q H O s;
      [destruct (select_reads_full q c s O H) as (ts & r & T & _ & _ & N & C)
      |destruct (update_reads_full q c s O H) as (ts & r & T & _ & _ & N & C)
      |destruct (delete_reads_full q c s O H) as (ts & r & T & _ & _ & N & C)]; now exists ts.
  Qed.
End Dialect.
