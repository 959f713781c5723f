(** * ReadInsert: INSERT is read back *)
From Coq Require Import Lia.
From Verif Require Import GoBase GoBaseFacts QuoteModel SpecLex SpecIdent SpecSql SprintModel TokenModel EffectModel RenderModel
  SqlFacts ExecFacts SpecClauses ClauseFacts ClausePf GatePf SpecDdl DdlToks DdlRead DdlConstraint SpecReadSql ReadToks ReadParts ReadSqlPf.
Local Open Scope m_scope.

Lemma is_word_W : forall w n, kw w (TWord n) = true -> forall ws, is_word ws (TWord n) = false -> ~ In w ws.
Proof. intros w n K ws H I. rewrite (is_word_in ws w _ I K) in H. discriminate. Qed.
Lemma keyword_clause : forall n, keyword n = false -> clause_word (TWord n) = false.
Proof. intros n H. unfold keyword, keywords in H. rewrite !is_word_app in H. apply orb_false_iff in H. apply H. Qed.
Lemma keyword_word : forall n w, In w keywords -> keyword n = false -> kw w (TWord n) = false.
Proof. intros n w I H. destruct (kw w (TWord n)) eqn:E; [|reflexivity]. unfold keyword in H. rewrite (is_word_in keywords w _ I E) in H. discriminate. Qed.
Lemma stops_app : forall stop a b, a <> [] -> stops stop a -> stops stop (a ++ b).
Proof. intros stop [|t a] b N H; [congruence|exact H]. Qed.

Section Dialect.
  Context (d : dialect).
  Notation wr := (wr d). Notation wrs := (wrs d). Notation wro := (wro d).
  Definition in_parens (o : option (list tok)) : list tok := match o with Some x => lp :: x ++ [rp] | None => [] end.
  Lemma rp_wrs : wrs (emit (B ")")) (is [rp]).
  Proof. apply wrs_emit; [apply pre_of, pre_sym; cbn; tauto|reflexivity]. Qed.
  Lemma paren_wrs : forall (set : bool) m P, (set = true -> wr m P) ->
    wrs (when set (emit (B " (") ;; m ;; emit (B ")"))) (fun ts => exists o, found set o P /\ ts = in_parens o).
  Proof.
    intros set m P H. apply wrs_when; intros E.
    - assert (PL : pre d (" "%char :: B "(") [lp]).
      { change (" "%char :: B "(") with ([" "%char] ++ B "("). change [lp] with ([] ++ [lp]). apply pre_app; [now apply pre_blank|apply pre_sym; cbn; tauto]. }
      refine (wrs_imp d _ _ _ (wrs_lit d " " (B "(") [lp] _ _ eq_refl PL (wr_seq d _ _ _ _ (H E) rp_wrs)) _).
      intros ts (a & b & -> & -> & y & z & -> & p & ->). exists (Some y). now split.
    - now exists None.
  Qed.

  (** ** INSERT INTO table (columns) *)
  Definition no_paren (t : tok) : bool := separates t || sym "(" t.
  Lemma head_wr : forall e t (ign : bool), fragment d no_paren (render d t (ctx e [])) -> alias_ok d (get_alias t) ->
    wr (emit (if ign then B "INSERT IGNORE INTO " else B "INSERT INTO ") ;; table_sql d e t)
      (fun ts => exists x, item_toks d e t x /\ closed (sym "(") 0 x = true /\
         ts = W "INSERT" :: (if ign then [W "IGNORE"] else []) ++ W "INTO" :: x).
  Proof.
    intros e t ign F A.
    assert (P0 : pre d (if ign then B "INSERT IGNORE INTO " else B "INSERT INTO ") (W "INSERT" :: (if ign then [W "IGNORE"] else []) ++ [W "INTO"])).
    { destruct ign; prelit. }
    assert (W1 : wr (render d t (ctx e [])) (fun ts => part d (render d t (ctx e [])) ts /\ closed (sym "(") 0 ts = true)).
    { intros O s. destruct (F O s) as (ts & T & N & C). exists ts. split; [exact T|]. split; [split; [now exists s|split; [exact N|]]|].
      - revert C. apply closed_weaken. intros k H. unfold no_paren. now rewrite H.
      - revert C. apply closed_weaken. intros k H. unfold no_paren. rewrite H. apply orb_true_r. }
    refine (wr_imp d _ _ _ (wro_seq d _ _ _ _ (wro_emit d _ _ P0) (wr_seq d _ _ _ _ W1 (as_wrs d _ A))) _).
    intros ts (a & b & -> & -> & y & z & -> & [P C] & ->). exists (y ++ alias_toks d (get_alias t)). split; [now exists y|]. split.
    - apply closed_app_true; [exact C|]. unfold alias_toks. destruct (is_empty (get_alias t)); [reflexivity|].
      assert (N := name_tok_sym d (get_alias t) "("). assert (N2 := name_tok_sym d (get_alias t) ")").
      apply closed_cons; try reflexivity. apply closed_cons; try assumption. reflexivity.
    - cbn [app]. now rewrite <- app_assoc.
  Qed.

  (** ** VALUES or SELECT *)
  Definition row_toks (r : list node) (ts : list tok) : Prop :=
    exists es, list_found d None [] r es /\ Forall sql_ok es /\ ts = lp :: commas es ++ [rp].
  Lemma rows_wr : forall rows, Forall (Forall (expr d None [])) rows ->
    wr (sep_by (B ", ") (map (fun r => emit (B "(") ;; list_sql d None [] r ;; emit (B ")")) rows))
      (fun ts => exists es, Forall2 row_toks rows es /\ ts = commas es).
  Proof.
    intros rows H. apply (wr_commas d _ (fun r => emit (B "(") ;; list_sql d None [] r ;; emit (B ")")) row_toks).
    revert H. apply Forall_impl. intros r H.
    assert (PL : pre d (B "(") [lp]) by (apply pre_sym; cbn; tauto).
    refine (wr_imp d _ _ _ (wro_seq d _ _ _ _ (wro_emit d _ _ PL) (wr_seq d _ _ _ _ (list_wr d None [] r H) rp_wrs)) _).
    intros ts (a & b & -> & -> & y & z & -> & (es & F & K & ->) & ->). exists es. now repeat split.
  Qed.
  Lemma row_closed : forall stop r ts, stop lp = false -> row_toks r ts -> ts <> [] /\ closed stop 0 ts = true.
  Proof.
    intros stop r ts Z (es & _ & K & ->). split; [discriminate|]. destruct (clause_list es K) as [C _].
    apply closed_group; [now apply (no_stop_weaken clause_word)|reflexivity|exact Z].
  Qed.
  Lemma rows_read : forall rows es, Forall2 row_toks rows es ->
    (forall stop, stop lp = false -> stop comma = false -> closed stop 0 (commas es) = true) /\
    exists rs, read_all read_row (elements (commas es)) = Some rs /\ Forall2 (list_found d None []) rows rs.
  Proof.
    intros rows es F. split.
    - intros stop Z1 Z2. apply closed_commas_stop; [exact Z2|]. induction F as [|r e rows es H F IH]; constructor; [|exact IH]. now apply (row_closed stop r).
    - rewrite elements_commas.
      + induction F as [|r e rows es H F IH]; [now exists []|]. destruct IH as (rs & R & FR). destruct H as (xs & L & K & ->).
        destruct (clause_list xs K) as [C E]. exists (xs :: rs). cbn [read_all]. unfold read_row at 1.
        rewrite (read_group_closed clause_word (commas xs) [] C), R, E. split; [reflexivity|now constructor].
      + induction F as [|r e rows es H F IH]; constructor; [|exact IH]. now apply (row_closed comma_stop r).
  Qed.
  Definition alias_read_toks (q : insert_ node) : list tok :=
    if nonempty (iq_rows q) && negb (is_empty (iq_rowalias q))
    then W "AS" :: TWord (iq_rowalias q) :: (if nonempty (iq_colaliases q) then words_in (iq_colaliases q) else [])
    else [].
  Lemma row_alias_wrs : forall q, (iq_rowalias q <> [] -> word_ok d (iq_rowalias q) /\ Forall (plain_word d) (iq_colaliases q)) ->
    wrs (when (nonempty (iq_rows q) && negb (is_empty (iq_rowalias q)))
          (emit (B " AS " ++ iq_rowalias q) ;;
           when (nonempty (iq_colaliases q)) (emit (B " (" ++ join (B ", ") (iq_colaliases q) ++ B ")"))))
      (is (alias_read_toks q)).
  Proof.
    intros q H. unfold alias_read_toks. apply wrs_when; intros E; rewrite E; [|reflexivity].
    apply andb_true_iff in E. destruct E as [_ E]. assert (NE : iq_rowalias q <> []) by (intros Z; rewrite Z in E; discriminate).
    destruct (H NE) as [[PW _] PC].
    assert (W1 : wrs (emit (B " AS " ++ iq_rowalias q)) (is [W "AS"; TWord (iq_rowalias q)])).
    { apply wrs_emit; [|reflexivity]. apply (pre_toks d (B " AS ") [W "AS"]); [prelit|exact PW]. }
    assert (W2 : wrs (when (nonempty (iq_colaliases q)) (emit (B " (" ++ join (B ", ") (iq_colaliases q) ++ B ")")))
                  (is (if nonempty (iq_colaliases q) then words_in (iq_colaliases q) else []))).
    { apply wrs_when; intros E2; rewrite E2; [|reflexivity]. apply wrs_emit; [now apply toks_words_in|reflexivity]. }
    refine (wrs_imp d _ _ _ (wrs_seq d _ _ _ _ W1 W2) _). intros ts (a & b & -> & -> & ->). reflexivity.
  Qed.
  Lemma row_alias_read : forall q, iq_rows q <> [] -> (iq_rowalias q <> [] -> word_ok d (iq_rowalias q)) ->
    read_row_alias (alias_read_toks q) = Some (alias_read q) /\ closed tail_word 0 (alias_read_toks q) = true /\ stops (kw "AS") (alias_read_toks q).
  Proof.
    intros q NR H. unfold alias_read_toks, alias_read. destruct (iq_rows q) as [|r rows]; [congruence|]. cbn [nonempty andb].
    destruct (is_empty (iq_rowalias q)) eqn:E; [now repeat split|]. cbn [negb].
    assert (NE : iq_rowalias q <> []) by (intros Z; rewrite Z in E; discriminate). destruct (H NE) as [_ K].
    split; [|split; [|reflexivity]].
    - destruct (iq_colaliases q) as [|c cs] eqn:CA; [reflexivity|]. cbn [nonempty]. unfold words_in.
      cbn [read_row_alias name_of]. change (lp :: commas (map (fun n => [TWord n]) (c :: cs)) ++ [rp]) with (lp :: commas (map (fun n => [TWord n]) (c :: cs)) ++ rp :: []).
      rewrite (read_group_closed no_stop) by apply closed_words. rewrite read_names_words. reflexivity.
    - apply closed_cons; try reflexivity. apply closed_cons; try reflexivity.
      + destruct (tail_word (TWord (iq_rowalias q))) eqn:T; [|reflexivity]. apply tail_is_clause in T. rewrite keyword_clause in T by exact K. discriminate.
      + destruct (nonempty (iq_colaliases q)); [|reflexivity]. rewrite <- (app_nil_r (words_in _)). now apply closed_words_in.
  Qed.
  Definition rows_ok (q : insert_ node) (e : option env) (ts : list tok) : Prop :=
    exists r, read_rows ts = Some r /\ rows_found d q e r /\ ts <> [] /\ closed tail_word 0 ts = true /\ stops clause_word ts.
  Lemma source_wrs : forall q e k Q,
    nonempty (iq_rows q) || match iq_select q with Some s => select_ok d (source_select d s) e | None => false end = true ->
    Forall (Forall (expr d None [])) (iq_rows q) ->
    (iq_rowalias q <> [] -> word_ok d (iq_rowalias q) /\ Forall (plain_word d) (iq_colaliases q)) ->
    (forall s, iq_select q = Some s -> select_reads d (source_select d s) e) -> wrs k Q ->
    wrs (when (nonempty (iq_rows q)) (emit (B " VALUES ") ;;
           sep_by (B ", ") (map (fun r => emit (B "(") ;; list_sql d None [] r ;; emit (B ")")) (iq_rows q))) ;;
         when (nonempty (iq_rows q) && negb (is_empty (iq_rowalias q)))
          (emit (B " AS " ++ iq_rowalias q) ;;
           when (nonempty (iq_colaliases q)) (emit (B " (" ++ join (B ", ") (iq_colaliases q) ++ B ")"))) ;;
         when (negb (nonempty (iq_rows q)))
          (emit (B " ") ;; match iq_select q with
                           | Some s => statement (select_clauses d (source_select d s) e)
                           | None => ret
                           end) ;; k)
      (cat (rows_ok q e) Q).
  Proof.
    intros q e k Q OK HR HA HS HK. rewrite <- !seq_assoc_m. apply wrs_seq; [|exact HK]. rewrite !seq_assoc_m.
    destruct (iq_rows q) as [|r rows] eqn:ER.
    - cbn [nonempty orb] in OK. destruct (iq_select q) as [sel|] eqn:ES; [|discriminate]. cbn [nonempty negb when andb].
      assert (P0 : pre d (" "%char :: []) []) by (now apply (pre_blank d)).
      assert (G : wrs (emit (" "%char :: []) ;; statement (select_clauses d (source_select d sel) e)) (rows_ok q e)).
      { refine (wrs_imp d _ _ _ (wrs_lit d " " [] [] _ _ eq_refl P0 (select_statement d _ e OK (HS _ eq_refl))) _).
        intros ts (a & b & -> & -> & s & R & F & N & _ & CT & ST & NV). cbn [app]. exists (Query s). split; [unfold read_rows; now rewrite NV, R|].
        split; [split; [exact ER|now exists sel]|]. now repeat split. }
      rewrite !ret_seq_m. exact G.
    - assert (NR : iq_rows q <> []) by (rewrite ER; discriminate). rewrite <- ER in *.
      assert (NT : nonempty (iq_rows q) = true) by (destruct (iq_rows q); [congruence|reflexivity]).
      assert (PV : pre d (" "%char :: B "VALUES ") (map W ["VALUES"%string])) by (change (" "%char :: B "VALUES ") with (B " VALUES "); prelit).
      assert (W1 := clause_wrs d ["VALUES"%string] (nonempty (iq_rows q)) (B "VALUES ") _ _ PV (fun _ => rows_wr _ HR)).
      assert (W3 : wrs (when (negb (nonempty (iq_rows q))) (emit (B " ") ;; match iq_select q with
                           | Some s => statement (select_clauses d (source_select d s) e) | None => ret end)) (is [])).
      { rewrite NT. cbn [negb when]. apply wrs_ret. }
      refine (wrs_imp d _ _ _ (wrs_seq d _ _ _ _ W1 (wrs_seq d _ _ _ _ (row_alias_wrs q HA) W3)) _).
      intros ts (a & b & -> & (o & FO & ->) & c & z & -> & -> & ->). rewrite NT in FO. destruct o as [body|]; [|discriminate].
      destruct FO as [_ (es & F & ->)]. destruct (rows_read _ _ F) as [C (rs & R & FR)].
      destruct (row_alias_read q NR (fun N => proj1 (HA N))) as (RA & CA & SA).
      rewrite app_nil_r. cbn [ctoks map app]. exists (Values rs (alias_read q)).
      split; [|split; [now repeat split|split; [discriminate|split; [|reflexivity]]]].
      + unfold read_rows. cbn [words]. change (kw "VALUES" (W "VALUES")) with true. cbn match.
        rewrite (until_closed (kw "AS") (commas es) 0 (alias_read_toks q)); [|now apply C|exact SA]. now rewrite R, RA.
      + apply closed_cons; try reflexivity. apply closed_app_true; [now apply C|exact CA].
  Qed.

  (** ** ON CONFLICT *)
  Definition assigns_toks (x : list bytes) (l : list (node * node)) (ts : list tok) : Prop :=
    exists rs, read_all read_assign (elements ts) = Some rs /\ Forall2 (assign_found d x) l rs /\ closed clause_word 0 ts = true.
  Lemma assigns_wr : forall x l, Forall (assign_reads d x) l -> wr (assigns_sql d x l) (assigns_toks x l).
  Proof.
    intros x l H. refine (wr_imp d _ _ _ (wr_commas d _ (assign_sql d x) (assign_toks d x) l _) _).
    - revert H. apply Forall_impl. intros a H. now apply assign_wr.
    - intros ts (es & F & ->). destruct (assigns_read d _ _ _ F) as [K (rs & R & FR)]. destruct (clause_list es K) as [C E].
      exists rs. rewrite E. now repeat split.
  Qed.
  Definition cpred_sql (q : insert_ node) (e : option env) (x : list bytes) : M :=
    match iq_cpred q with Some p => render d p (mk_ctx (if is_vpred p then Some true else None) [] e x) | None => ret end.
  Definition target_toks (q : insert_ node) (e : option env) (x : list bytes) (ts : list tok) : Prop :=
    exists r, read_target ts = Some r /\ target_found d q e x r /\ closed (fun t => kw "DO" t || kw "RETURNING" t) 0 ts = true.
  Definition do_or_ret (t : tok) : bool := kw "DO" t || kw "RETURNING" t.
  Lemma sep_do_ret : forall t, do_or_ret t = true -> separates t = true.
  Proof.
    intros t H. unfold do_or_ret in H. apply orb_true_iff in H. destruct H as [H|H]; [now apply sep_do|].
    apply sep_clause. apply (is_word_in clause_words "RETURNING"); [cbn; tauto|exact H].
  Qed.
  Lemma target_wrs : forall q e x,
    (iq_constraint q <> [] -> word_ok d (iq_constraint q)) -> Forall (expr d e x) (iq_cfields q) ->
    (forall p, iq_cpred q = Some p -> fragment d separates (render d p (mk_ctx (if is_vpred p then Some true else None) [] e x))) ->
    wrs (when (negb (is_empty (iq_constraint q))) (emit (B " ON CONSTRAINT " ++ iq_constraint q)) ;;
         when (is_empty (iq_constraint q) && nonempty (iq_cfields q)) (emit (B " (") ;; list_sql d e x (iq_cfields q) ;; emit (B ")")) ;;
         when (is_empty (iq_constraint q) && nonempty (iq_cfields q) && present (iq_cpred q)) (emit (B " WHERE ") ;; cpred_sql q e x))
      (target_toks q e x).
  Proof.
    intros q e x HC HF HP. destruct (iq_constraint q) as [|c0 cs] eqn:EC; cbn [is_empty negb when andb].
    - rewrite ret_seq_m. destruct (iq_cfields q) as [|f fs] eqn:EF; cbn [nonempty andb when].
      + rewrite ret_seq_m. apply (wrs_imp d _ _ _ (wrs_ret d)). intros ts ->. exists AnyConflict. now repeat split.
      + rewrite <- EF in *. assert (NF : iq_cfields q <> []) by (rewrite EF; discriminate).
        assert (W1 := paren_wrs true _ _ (fun _ => list_wr d e x (iq_cfields q) HF)). cbn [when] in W1.
        assert (PW : pre d (" "%char :: B "WHERE ") (map W ["WHERE"%string])) by (change (" "%char :: B "WHERE ") with (B " WHERE "); prelit).
        assert (W2 : wrs (when (present (iq_cpred q)) (emit (" "%char :: B "WHERE ") ;; cpred_sql q e x))
                       (fun ts => exists o, found (present (iq_cpred q)) o (part d (cpred_sql q e x)) /\ ts = ctoks ["WHERE"%string] o)).
        { apply clause_wrs; [exact PW|]. intros E. apply fragment_wr. unfold cpred_sql. destruct (iq_cpred q) as [p|]; [now apply HP|discriminate]. }
        refine (wrs_imp d _ _ _ (wrs_seq d _ _ _ _ W1 W2) _).
        intros ts (a & b & -> & (o & FO & ->) & w & FW & ->). destruct o as [y|]; [|discriminate]. destruct FO as [_ (es & F & K & ->)].
        destruct (clause_list es K) as [C E]. cbn [in_parens]. cbn [app]. rewrite <- app_assoc. cbn [app].
        exists (OnColumns es w).
        assert (RG := read_group_closed clause_word (commas es) (ctoks ["WHERE"%string] w) C).
        assert (CW : forall stop, (forall t, stop t = true -> separates t = true) -> stop (W "WHERE") = false -> closed stop 0 (ctoks ["WHERE"%string] w) = true).
        { intros stop Z1 Z2. destruct w as [w|]; [|reflexivity]. cbn [ctoks map app]. destruct FW as [_ [_ [_ CW]]]. apply closed_cons; try reflexivity; [exact Z2|].
          revert CW. now apply closed_weaken. }
        split; [|split].
        * cbn [read_target]. change (words ["ON"%string; "CONSTRAINT"%string] (lp :: commas es ++ rp :: ctoks ["WHERE"%string] w)) with (@None (list tok)).
          cbn match. rewrite RG, E. destruct w as [w|]; reflexivity.
        * split; [exact EC|]. split; [exact NF|]. split; [exact F|]. destruct w as [w|]; cbn [found] in *; [|exact FW].
          destruct FW as [PR [SY _]]. split; [exact PR|]. unfold cpred_sql in SY. destruct (iq_cpred q) as [p|]; [|discriminate]. now exists p.
        * apply closed_group; [now apply (no_stop_weaken clause_word)| |reflexivity]. apply CW; [exact sep_do_ret|reflexivity].
    - rewrite <- EC in *. assert (NE : iq_constraint q <> []) by (rewrite EC; discriminate). destruct (HC NE) as [PW KW].
      rewrite ret_seq_m. 
      assert (W1 : wrs (emit (B " ON CONSTRAINT " ++ iq_constraint q)) (is [W "ON"; W "CONSTRAINT"; TWord (iq_constraint q)])).
      { apply wrs_emit; [|reflexivity]. apply (pre_toks d (B " ON CONSTRAINT ") [W "ON"; W "CONSTRAINT"]); [prelit|exact PW]. }
      refine (wrs_imp d _ _ _ (wrs_seq d _ _ _ _ W1 (wrs_ret d)) _). intros ts (a & b & -> & -> & ->). cbn [app].
      exists (OnConstraint (iq_constraint q)). split; [reflexivity|]. split; [now split|].
      apply closed_cons; try reflexivity. apply closed_cons; try reflexivity. apply closed_cons; try reflexivity.
      rewrite (keyword_word _ "DO"), (keyword_word _ "RETURNING"); try assumption; try reflexivity; cbn; tauto.
  Qed.
  Definition action_toks (q : insert_ node) (x : list bytes) (ts : list tok) : Prop :=
    exists r, read_action ts = Some r /\ action_found d q x r /\ ts <> [] /\ stops (kw "DO") ts /\ closed (kw "RETURNING") 0 ts = true.
  Lemma ret_clause : forall t, kw "RETURNING" t = true -> clause_word t = true.
  Proof. intros t H. apply (is_word_in clause_words "RETURNING"); [cbn; tauto|exact H]. Qed.
  Lemma where_clause : forall t, kw "WHERE" t = true -> clause_word t = true.
  Proof. intros t H. apply (is_word_in clause_words "WHERE"); [cbn; tauto|exact H]. Qed.
  Lemma action_wrs : forall q x, Forall (assign_reads d x) (iq_resolution q) -> pred_reads d (iq_rpred q) ->
    let update := nonempty (iq_resolution q) && negb (iq_nothing q) in
    wrs (when (negb update) (emit (B " DO NOTHING")) ;;
         when update (emit (B " DO UPDATE SET ") ;; assigns_sql d x (iq_resolution q)) ;;
         when (update && nonempty (vp_preds (iq_rpred q))) (emit (B " WHERE ") ;; cond_sql d (iq_rpred q)))
      (action_toks q x).
  Proof.
    intros q x HA HP update. destruct update eqn:U; cbn [negb when andb].
    - unfold update in U. apply andb_true_iff in U. destruct U as [U1 U2]. apply negb_true_iff in U2. rewrite ret_seq_m.
      assert (PD : pre d (" "%char :: B "DO UPDATE SET ") [W "DO"; W "UPDATE"; W "SET"]) by (change (" "%char :: B "DO UPDATE SET ") with (B " DO UPDATE SET "); prelit).
      assert (PW : pre d (" "%char :: B "WHERE ") (map W ["WHERE"%string])) by (change (" "%char :: B "WHERE ") with (B " WHERE "); prelit).
      assert (W2 : wrs (when (nonempty (vp_preds (iq_rpred q))) (emit (" "%char :: B "WHERE ") ;; cond_sql d (iq_rpred q)))
                     (fun ts => exists o, found (nonempty (vp_preds (iq_rpred q))) o (part d (cond_sql d (iq_rpred q))) /\ ts = ctoks ["WHERE"%string] o)).
      { apply clause_wrs; [exact PW|]. intros E. apply fragment_wr. apply HP. intros Z. rewrite Z in E. discriminate. }
      refine (wrs_imp d _ _ _ (wrs_seq d _ _ _ _ (wrs_lit d " " (B "DO UPDATE SET ") _ _ _ eq_refl PD (assigns_wr x _ HA)) W2) _).
      intros ts (a & b & -> & (a1 & y & -> & -> & rs & R & F & C) & w & FW & ->). cbn [app].
      exists (DoUpdate rs w). split; [|split; [|split; [discriminate|split; [reflexivity|]]]].
      + unfold read_action. cbn [words]. change (kw "DO" (W "DO")) with true. change (kw "NOTHING" (W "UPDATE")) with false.
        change (kw "UPDATE" (W "UPDATE")) with true. change (kw "SET" (W "SET")) with true. cbn match.
        rewrite (until_closed (kw "WHERE") y 0 (ctoks ["WHERE"%string] w)).
        * rewrite R. destruct w as [w|]; reflexivity.
        * revert C. apply closed_weaken. exact where_clause.
        * destruct w; reflexivity || exact I.
      + split; [exact U2|]. split; [intros Z; rewrite Z in U1; discriminate|]. split; [exact F|].
        destruct w as [w|]; cbn [found] in *; [|exact FW]. destruct FW as [PR [SY _]]. now split.
      + repeat (apply closed_cons; try reflexivity). apply closed_app_true; [revert C; apply closed_weaken; exact ret_clause|].
        destruct w as [w|]; [|reflexivity]. cbn [ctoks map app]. apply closed_cons; try reflexivity. destruct FW as [_ [_ [_ CW]]].
        revert CW. apply closed_weaken. intros t H. apply sep_clause, ret_clause, H.
    - rewrite !ret_seq_m.
      assert (W1 : wrs (emit (B " DO NOTHING")) (is [W "DO"; W "NOTHING"])) by (apply wrs_emit; [lit|reflexivity]).
      refine (wrs_imp d _ _ _ (wrs_seq d _ _ _ _ W1 (wrs_ret d)) _). intros ts (a & b & -> & -> & ->). cbn [app].
      exists DoNothing. split; [reflexivity|]. split; [|repeat split; discriminate].
      unfold update in U. apply andb_false_iff in U. destruct U as [U|U]; [right; destruct (iq_resolution q); [reflexivity|discriminate]|left; now apply negb_false_iff].
  Qed.

  Definition conflict_toks (q : insert_ node) (e : option env) (x : list bytes) (ts : list tok) : Prop :=
    exists r, conflict_found d q e x r /\
      (ts = [] /\ r = NoConflict \/
       exists c, ts = W "ON" :: c /\ read_conflict c = Some r /\ c <> [] /\ stops tail_word c /\ closed (kw "RETURNING") 0 c = true).
  Lemma on_conflict_iff : forall q, on_conflict d q = true <-> wants_conflict d q.
  Proof.
    intros q. unfold on_conflict, wants_conflict. rewrite andb_true_iff, !orb_true_iff. split.
    - intros [H1 H2]. split; [destruct d; cbn in H1; tauto || (destruct H1; discriminate)|].
      destruct H2 as [[H2|H2]|H2]; [left|right; left|right; right; exact H2].
      + intros Z. rewrite Z in H2. discriminate.
      + intros Z. rewrite Z in H2. discriminate.
    - intros [H1 H2]. split; [destruct H1 as [->| ->]; [now left|now right]|].
      destruct H2 as [H2|[H2|H2]]; [left; left|left; right|right; exact H2]; [destruct (iq_constraint q)|destruct (iq_cfields q)]; congruence || reflexivity.
  Qed.
  Lemma dup_iff : forall q, is_mysql d && nonempty (iq_resolution q) = true <-> wants_duplicate d q.
  Proof.
    intros q. unfold wants_duplicate. rewrite andb_true_iff. split; intros [H1 H2]; (split; [destruct d; congruence || reflexivity || discriminate|]).
    - intros Z. rewrite Z in H2. discriminate.
    - destruct (iq_resolution q); [congruence|reflexivity].
  Qed.
  Lemma conflict_wrs : forall q e x k Q,
    (iq_constraint q <> [] -> word_ok d (iq_constraint q)) -> Forall (expr d e x) (iq_cfields q) ->
    (forall p, iq_cpred q = Some p -> fragment d separates (render d p (mk_ctx (if is_vpred p then Some true else None) [] e x))) ->
    Forall (assign_reads d x) (iq_resolution q) -> pred_reads d (iq_rpred q) -> wrs k Q ->
    let update := nonempty (iq_resolution q) && negb (iq_nothing q) in
    wrs (when (on_conflict d q) (emit (B " ON CONFLICT")) ;;
         when (on_conflict d q && negb (is_empty (iq_constraint q))) (emit (B " ON CONSTRAINT " ++ iq_constraint q)) ;;
         when (on_conflict d q && is_empty (iq_constraint q) && nonempty (iq_cfields q)) (emit (B " (") ;; list_sql d e x (iq_cfields q) ;; emit (B ")")) ;;
         when (on_conflict d q && is_empty (iq_constraint q) && nonempty (iq_cfields q) && present (iq_cpred q)) (emit (B " WHERE ") ;; cpred_sql q e x) ;;
         when (on_conflict d q && negb update) (emit (B " DO NOTHING")) ;;
         when (on_conflict d q && update) (emit (B " DO UPDATE SET ") ;; assigns_sql d x (iq_resolution q)) ;;
         when (on_conflict d q && update && nonempty (vp_preds (iq_rpred q))) (emit (B " WHERE ") ;; cond_sql d (iq_rpred q)) ;;
         when (is_mysql d && nonempty (iq_resolution q)) (emit (B " ON DUPLICATE KEY UPDATE ") ;; assigns_sql d x (iq_resolution q)) ;; k)
      (cat (conflict_toks q e x) Q).
  Proof.
    intros q e x k Q H1 H2 H3 H4 H5 HK update. destruct (on_conflict d q) eqn:OC; cbn [when andb].
    - assert (ND : is_mysql d && nonempty (iq_resolution q) = false).
      { apply on_conflict_iff in OC. destruct OC as [[->| ->] _]; reflexivity. }
      rewrite ND. cbn [when]. rewrite ret_seq_m.
      assert (W0 : wrs (emit (B " ON CONFLICT")) (is [W "ON"; W "CONFLICT"])) by (apply wrs_emit; [lit|reflexivity]).
      assert (W1 := target_wrs q e x H1 H2 H3). assert (W2 := action_wrs q x H4 H5). cbv zeta in W2. fold update in W2.
      assert (G := wrs_seq d _ _ _ _ (wrs_seq d _ _ _ _ W0 (wrs_seq d _ _ _ _ W1 W2)) HK). rewrite !seq_assoc_m in G.
      refine (wrs_imp d _ _ _ G _). intros ts (a & b & -> & (a0 & b0 & -> & -> & a1 & b1 & -> & (t & RT & FT & CT) & (ac & RA & FA & NA & SA & CA)) & QB).
      exists ([W "ON"; W "CONFLICT"] ++ a1 ++ b1), b. split; [reflexivity|]. split; [|exact QB].
      exists (OnConflict t ac). split; [split; [now apply on_conflict_iff|now split]|]. right. exists (W "CONFLICT" :: a1 ++ b1).
      split; [reflexivity|]. split; [|split; [discriminate|split; [reflexivity|]]].
      + cbn [read_conflict words]. change (kw "DUPLICATE" (W "CONFLICT")) with false. change (kw "CONFLICT" (W "CONFLICT")) with true. cbn match.
        rewrite (until_closed (kw "DO") a1 0 b1); [now rewrite RT, RA|revert CT; apply closed_weaken; intros y Z; now rewrite Z|exact SA].
      + apply closed_cons; try reflexivity. apply closed_app_true; [|exact CA]. revert CT. apply closed_weaken. intros y Z. rewrite Z. apply orb_true_r.
    - rewrite !ret_seq_m. assert (NC : ~ wants_conflict d q) by (intros Z; apply on_conflict_iff in Z; congruence).
      destruct (is_mysql d && nonempty (iq_resolution q)) eqn:DU; cbn [when].
      + assert (PD : pre d (" "%char :: B "ON DUPLICATE KEY UPDATE ") [W "ON"; W "DUPLICATE"; W "KEY"; W "UPDATE"]) by (change (" "%char :: B "ON DUPLICATE KEY UPDATE ") with (B " ON DUPLICATE KEY UPDATE "); prelit).
        refine (wrs_imp d _ _ _ (wrs_seq d _ _ _ _ (wrs_lit d " " (B "ON DUPLICATE KEY UPDATE ") _ _ _ eq_refl PD (assigns_wr x _ H4)) HK) _).
        intros ts (a & b & -> & (a0 & y & -> & -> & rs & R & F & C) & QB).
        exists ([W "ON"; W "DUPLICATE"; W "KEY"; W "UPDATE"] ++ y), b. split; [reflexivity|]. split; [|exact QB].
        exists (OnDuplicate rs). split; [split; [now apply dup_iff|exact F]|]. right. exists ([W "DUPLICATE"; W "KEY"; W "UPDATE"] ++ y).
        split; [reflexivity|]. split; [|split; [discriminate|split; [reflexivity|]]].
        * cbn [read_conflict words app]. change (kw "DUPLICATE" (W "DUPLICATE")) with true. change (kw "KEY" (W "KEY")) with true.
          change (kw "UPDATE" (W "UPDATE")) with true. cbn match. now rewrite R.
        * cbn [app]. repeat (apply closed_cons; try reflexivity). revert C. apply closed_weaken. exact ret_clause.
      + rewrite ret_seq_m. refine (wrs_imp d _ _ _ HK _). intros ts QB. exists [], ts. split; [reflexivity|]. split; [|exact QB].
        exists NoConflict. split; [|now left]. split; [exact NC|]. intros Z. apply dup_iff in Z. congruence.
  Qed.

  (** ** The statement *)
  Lemma last_app : forall (a : list tok) t z, last (a ++ [t]) z = t.
  Proof. induction a as [|y a IH]; intros t z; [reflexivity|]. cbn [app]. rewrite <- (IH t z) at 2. destruct a; reflexivity. Qed.
  Lemma insert_reads_full : forall q c s, iq_mapper q = None -> snd (render d (NInsert q) c) = SOk -> insert_reads d q (c_env c) ->
    exists ts r, tokens d (text_after d s (render d (NInsert q) c)) = Some ts /\ read_insert ts = Some r /\ insert_found d q (c_env c) r /\
      ts <> [] /\ closed no_stop 0 ts = true.
  Proof.
    intros q c s MN OK HR. destruct (insert_is_its_clauses_pf d q c MN) as [R1 R2]. assert (OK2 := OK). apply R2 in OK2. destruct OK2 as [SO _].
    specialize (R1 SO). rewrite R1 in *. clear R1 R2. unfold insert_reads in HR. cbv zeta in HR.
    unfold insert_ok in SO. rewrite !andb_true_iff in SO. destruct SO as ((((((_ & _) & SI) & SR) & _) & _) & _).
    destruct HR as (HC & HRO & HRA & HS & HCO & HRP & HRE & HT). destruct (iq_into q) as [t|] eqn:TB; [|discriminate]. clear SI.
    destruct (HT t eq_refl) as (HF & HA & HCL & HCF & HCP & HRS). clear HT.
    unfold insert_clauses in *. rewrite TB in *. cbv zeta in *. set (e := own_env (c_env c) (iq_env q)) in *. set (x := [table_qualifier t]) in *.
    rewrite !statement_cons in *. cbn [cl_set cl_sql] in *.
    assert (PR : pre d (" "%char :: B "RETURNING ") (map W ["RETURNING"%string])) by (change (" "%char :: B "RETURNING ") with (B " RETURNING "); prelit).
    assert (E9 := ret_end d _ _ (items_clause d ["RETURNING"%string] (B "RETURNING ") (iq_returning q) PR HRE)).
    assert (E8 := conflict_wrs q e x _ _ HCO HCF HCP HRS HRP E9). cbv zeta in E8. unfold cpred_sql in E8.
    assert (E7 := source_wrs q e _ _ SR HRO HRA HS E8).
    assert (E6 := wrs_seq d _ _ _ _ (paren_wrs (nonempty (iq_columns q)) _ _ (fun _ => list_wr d e x (iq_columns q) HCL)) E7).
    assert (ALL := wro_seq d _ _ _ _ (with_wro d (iq_ctes q) HC) (wr_seq d _ _ _ _ (wr_true d _ _ (head_wr e t (iq_ignore q) HF HA)) E6)).
    destruct (ALL OK s) as (ts & T & G). clear ALL E6 E7 E8 E9.
    destruct G as (x0 & y0 & -> & (ow & FW & ->) & x1 & y1 & -> & (it & IT & IP & ->) & x2 & y2 & -> & (oc & FC & ->) & src & y3 & -> & RO & conf & re & -> & CO & (ore & ri & RR & FR & CR & ->)).
    destruct (with_read d _ _ FW) as [CWI (rw & RW & FRW)].
    destruct RO as (rows & RRO & FRO & NS & CT & SS).
    destruct (item_read d _ _ _ IT) as (i & RI & FI). destruct (item_outer d _ _ _ IT) as [NI CI].
    assert (OCF : exists cols, opt read_row (match in_parens oc with [] => None | _ => Some (in_parens oc) end) = Some cols /\
      found (nonempty (iq_columns q)) cols (list_found d e x (iq_columns q)) /\
      (forall stop, stop lp = false -> closed stop 0 (in_parens oc) = true)).
    { destruct oc as [y|]; cbn [found in_parens] in *.
      - destruct FC as [NE (es & F & K & ->)]. destruct (clause_list es K) as [C E]. exists (Some es). split; [|split; [now split|]].
        + cbn [opt]. unfold read_row. rewrite (read_group_closed clause_word (commas es) [] C), E. reflexivity.
        + intros stop Z. apply closed_group; [now apply (no_stop_weaken clause_word)|reflexivity|exact Z].
      - exists None. now repeat split. }
    destruct OCF as (cols & RC & FCO & CC).
    set (tail := ctoks ["RETURNING"%string] ore) in *.
    assert (ST : stops tail_word tail /\ stops (kw "RETURNING") tail) by (unfold tail; destruct ore; split; exact I || reflexivity).
    destruct ST as [ST1 ST2].
    assert (RT : match tail with [] => Some [] | _ :: r => read_items r end = Some ri) by (unfold tail; destruct ore as [b|]; cbn [opt_list ctoks map app] in *; exact RR).
    assert (CTL : closed no_stop 0 tail = true).
    { unfold tail. destruct ore as [b|]; [|reflexivity]. cbn [ctoks map app body_ok] in *. apply closed_cons; try reflexivity. now apply (no_stop_weaken clause_word). }
    assert (BT : closed no_stop 0 (it ++ in_parens oc) = true).
    { apply closed_app_true; [now apply (no_stop_weaken outer)|now apply CC]. }
    assert (U1 : until clause_word 0 ((it ++ in_parens oc) ++ src ++ conf ++ tail) = (it ++ in_parens oc, src ++ conf ++ tail)).
    { apply until_closed; [|now apply stops_app]. apply closed_app_true; [revert CI; apply closed_weaken; exact outer_clause|now apply CC]. }
    assert (U2 : until (sym "(") 0 (it ++ in_parens oc) = (it, in_parens oc)).
    { apply until_closed; [exact IP|]. destruct oc; reflexivity || exact I. }
    assert (U0 : forall r, match words ["WITH"%string] (ctoks ["WITH"%string] ow ++ W "INSERT" :: r) with
      | Some z => let (b, r') := until clause_word 0 z in (Some b, r') | None => (None, ctoks ["WITH"%string] ow ++ W "INSERT" :: r) end = (ow, W "INSERT" :: r)).
    { intros r. destruct ow as [b|]; [|reflexivity]. cbn [ctoks map app words]. change (kw "WITH" (W "WITH")) with true. cbn match.
      rewrite (until_closed clause_word b 0 (W "INSERT" :: r)); [reflexivity|exact CWI|reflexivity]. }
    assert (CIG : forall r, option_words ["IGNORE"%string] ((if iq_ignore q then [W "IGNORE"] else []) ++ W "INTO" :: r) = (iq_ignore q, W "INTO" :: r)).
    { intros r. destruct (iq_ignore q); reflexivity. }
    assert (BAL : forall cf, closed no_stop 0 cf = true -> closed no_stop 0 (ctoks ["WITH"%string] ow ++ (W "INSERT" :: (if iq_ignore q then [W "IGNORE"] else []) ++ W "INTO" :: it) ++ in_parens oc ++ src ++ cf ++ tail) = true).
    { intros cf CF. apply closed_app_true; [destruct ow as [b|]; [|reflexivity]; cbn [ctoks map app]; apply closed_cons; try reflexivity; now apply (no_stop_weaken clause_word)|].
      apply closed_app_true; [destruct (iq_ignore q); cbn [app]; repeat (apply closed_cons; try reflexivity); now apply (no_stop_weaken outer)|].
      apply closed_app_true; [now apply CC|]. apply closed_app_true; [now apply (no_stop_weaken tail_word)|]. now apply closed_app_true. }
    destruct CO as (cr & FCR & CO).
    eexists. exists (mk_insert_read rw (iq_ignore q) i cols rows cr ri). split; [exact T|]. split; [|split; [|split]].
    - unfold read_insert. cbn [app]. rewrite U0. cbn [words]. change (kw "INSERT" (W "INSERT")) with true. cbn match.
      rewrite <- !app_assoc. cbn [app]. rewrite CIG. cbn match. cbn [words]. change (kw "INTO" (W "INTO")) with true. cbn match.
      rewrite (app_assoc it). rewrite U1, U2. destruct CO as [[-> ->]|(cf & -> & RCF & NCF & SCF & CCF)].
      + cbn [app]. rewrite (until_closed tail_word src 0 tail CT ST1). 
        assert (U3 := until_closed (kw "RETURNING") [] 0 tail eq_refl ST2). cbn [app] in U3. rewrite U3. rewrite RW, RI, RC, RT. cbn [read_conflict]. now rewrite RRO.
      + assert (E : src ++ (W "ON" :: cf) ++ tail = (src ++ [W "ON"]) ++ cf ++ tail) by (rewrite <- app_assoc; reflexivity). rewrite E.
        rewrite (until_closed tail_word (src ++ [W "ON"]) 0 (cf ++ tail)); [|apply closed_app_true; [exact CT|reflexivity]|now apply stops_app].
        rewrite (until_closed (kw "RETURNING") cf 0 tail CCF ST2). rewrite RW, RI, RC, RCF, RT.
        unfold without_on. rewrite last_app, removelast_last. change (kw "ON" (W "ON")) with true. destruct cf as [|z cf]; [congruence|]. cbn match. now rewrite RRO.
    - unfold insert_found. cbv zeta. fold e. cbn [ri_with ri_ignore ri_table ri_columns ri_rows ri_conflict ri_returning].
      split; [exact FRW|]. split; [reflexivity|]. exists t. fold x. repeat (split; [assumption|]). assumption.
    - intros Z. apply app_eq_nil in Z. destruct Z as [_ Z]. discriminate.
    - apply BAL. destruct CO as [[-> _]|(cf & -> & _ & _ & _ & CCF)]; [reflexivity|]. apply closed_cons; try reflexivity. now apply (no_stop_weaken (kw "RETURNING")).
  Qed.
End Dialect.
