(** * PredPf: proofs for PropertiesPred *)
From Coq Require Import Lia.
From Verif Require Import GoBase GoBaseFacts QuoteModel SprintModel TokenModel EffectModel RenderModel BuildModel
  SpecBool SpecText BoolModel RenderRel FieldFacts BoolFacts.
Local Open Scope m_scope.

Lemma texts_app a b : texts (a ++ b) = match texts a, texts b with Some s, Some t => Some (s ++ t) | _, _ => None end.
Proof.
  induction a as [|[] a IH]; cbn [texts app]; auto; [now destruct (texts b)|].
  rewrite IH. destruct (texts a), (texts b); cbn; auto. now rewrite app_assoc.
Qed.
Lemma text_of_seq a b s t : text_of a = Some s -> text_of b = Some t -> text_of (a ;; b) = Some (s ++ t).
Proof.
  destruct a as [ca []], b as [cb []]; try discriminate. unfold text_of, seq. cbn [fst snd].
  rewrite texts_app. intros -> ->. reflexivity.
Qed.
Lemma text_of_emit b : text_of (emit b) = Some b.
Proof. cbn. now rewrite app_nil_r. Qed.
Lemma text_of_ret : text_of ret = Some [].
Proof. reflexivity. Qed.
Lemma text_of_when (c : bool) b : text_of (when c (emit b)) = Some (if c then b else []).
Proof. destruct c; [apply text_of_emit|reflexivity]. Qed.

Definition field_suffix (d : dialect) (fi : finfo) : bytes :=
  (if is_empty (fi_collation fi) then []
   else B " COLLATE " ++ (if is_postgres d then B """" ++ escape_quote (fi_collation fi) """" ++ B """"
                          else quote_identifier d (fi_collation fi))) ++
  match fi_desc fi with Some true => B " DESC" | Some false => B " ASC" | None => [] end ++
  match fi_nulls fi with Some true => B " NULLS FIRST" | Some false => B " NULLS LAST" | None => [] end.

Lemma field_text d fi vals e x : fi_err fi = false -> fi_formats fi = [] ->
  text_of (field_run d fi vals e x) =
  Some ((if is_empty (shown_qualifier x fi) then [] else quote_identifier d (shown_qualifier x fi) ++ B ".")
        ++ quote_identifier d (fi_name fi) ++ field_suffix d fi).
Proof.
  intros HE HF. unfold field_run. rewrite HE, HF. rewrite (app_assoc _ (quote_identifier d (fi_name fi))). apply text_of_seq.
  - replace (if is_empty (shown_qualifier x fi) then [] else quote_identifier d (shown_qualifier x fi) ++ B ".")
      with (if negb (is_empty (shown_qualifier x fi)) then quote_identifier d (shown_qualifier x fi) ++ B "." else [])
      by now destruct (is_empty (shown_qualifier x fi)).
    apply text_of_seq; [apply text_of_when|apply text_of_emit].
  - unfold field_suffix. apply text_of_seq.
    + destruct (is_empty (fi_collation fi)); [reflexivity|].
      apply text_of_seq; apply text_of_emit.
    + apply text_of_seq.
      * destruct (fi_desc fi) as [[]|]; reflexivity.
      * destruct (fi_nulls fi) as [[]|]; reflexivity.
Qed.

Lemma qualifier_dropped_pf : forall (d : dialect) (keepenv : bool) (fi : finfo) (vals : list node)
    (top : option bool) (name : bytes) (e : option env) (x : list bytes),
  fi_err fi = false -> fi_formats fi = [] -> ascending x ->
  let q := if is_empty (fi_talias fi) then fi_table fi else fi_talias fi in
  let text := text_of (render d (NField keepenv false fi vals) (mk_ctx top name e x)) in
  (q = [] \/ In q x -> text = Some (quote_identifier d (fi_name fi) ++ field_suffix d fi)) /\
  (q <> [] /\ ~ In q x ->
     text = Some (quote_identifier d q ++ B "." ++ quote_identifier d (fi_name fi) ++ field_suffix d fi)).
Proof.
  intros d k fi vals top name e x HE HF HA q text.
  assert (T : text = text_of (field_run d fi (map (mk d) vals) (if k then e else None) x)).
  { unfold text. f_equal. exact (ret_seq' _). }
  rewrite T, field_text by auto. clear T text.
  assert (HQ : shown_qualifier x fi = if negb (is_empty q) && excluded x q then [] else q) by reflexivity.
  rewrite HQ. split.
  - intros [E|I].
    + rewrite E. reflexivity.
    + apply (excluded_iff x q HA) in I. rewrite I, andb_true_r. destruct q; reflexivity.
  - intros [N NI]. destruct (excluded x q) eqn:EX; [apply (excluded_iff x q HA) in EX; tauto|].
    rewrite andb_false_r. destruct q as [|c q']; [congruence|]. cbn [is_empty].
    now rewrite <- !app_assoc.
Qed.

Lemma double_negation_pf : forall p q : node,
  p_not p = Some q ->
  exists r, p_not q = Some r /\ forall d c, render d r c = render d p c.
Proof.
  intros p q H. destruct p; try discriminate H; cbn in H.
  - destruct keepenv; [discriminate|]. injection H as <-. eexists. split; [reflexivity|].
    now rewrite negb_involutive.
  - injection H as <-. eexists. split; [reflexivity|]. now rewrite negb_involutive.
  - injection H as <-. eexists. split; [reflexivity|]. cbn. rewrite negb_involutive. now destruct p.
Qed.
Lemma negation_writes_not_pf : forall p q : node,
  p_not p = Some q ->
  match p with
  | NPred _ _ _ neg | NField _ neg _ _ => neg = false
  | NVPred l => vp_neg l = false /\ vp_preds l <> []
  | _ => False
  end ->
  forall d c, render d q c = emit (B "NOT ") ;; render d p c.
Proof.
  intros p q H HP d c. destruct p; try discriminate H; cbn [p_not] in H.
  - destruct keepenv; [discriminate|]. injection H as <-. subst neg.
    cbn [render negb when]. now rewrite ret_seq'.
  - injection H as <-. subst neg. cbn [render negb when]. now rewrite ret_seq'.
  - injection H as <-. destruct HP as [HN HE]. rewrite !render_vpred.
    cbn [vp_top vp_or vp_neg vp_preds]. rewrite HN. unfold vpred_run.
    destruct (vp_preds p) as [|a [|b l]]; [congruence| |]; cbn [map negb when]; now rewrite ret_seq'.
Qed.

Lemma operand_keeps_meaning_pf : forall (d : dialect) (atom : nat -> node) (x : list bytes) (c : cond),
  (forall i, is_atom (atom i) = true) -> supported c = true ->
  exists n ts b,
    build atom c = Some n /\
    render d n (ctx None x) = toks_sql d atom x ts /\
    reads_as ts b /\ forall v, beval v b = meaning v c.
Proof.
  intros d atom x c HA HS. destruct (supported_safe c HS) as [S _].
  destruct (safe_reads false (norm c) S) as (b & R & V).
  exists (pnode atom (norm c)), (ptoks false (norm c)), b. split; [now apply build_norm|].
  split; [exact (render_ptoks d atom x HA (norm c) None [])|]. split; auto.
  intros v. now rewrite V, pval_norm.
Qed.
Lemma clause_keeps_meaning_pf : forall (d : dialect) (atom : nat -> node) (x : list bytes) (cs : list cond)
    (alias name : bytes) (top : bool),
  (forall i, is_atom (atom i) = true) -> supported (CAnd cs) = true ->
  exists ns ts b,
    Forall2 (fun c n => build atom c = Some n) cs ns /\
    render d (NVPred (mk_vpred top alias false ns false)) (mk_ctx (Some true) name None x) = toks_sql d atom x ts /\
    reads_as ts b /\ forall v, beval v b = meaning v (CAnd cs).
Proof.
  intros d atom x cs alias name top HA HS. destruct (supported_safe _ HS) as [_ S].
  specialize (S (or_intror eq_refl)).
  destruct (safe_reads true _ S) as (b & R & V).
  exists (map (pnode atom) (map norm cs)), (ptoks true (norm (CAnd cs))), b. repeat split; auto.
  - clear - HA. induction cs; constructor; auto. now apply build_norm.
  - rewrite <- (render_ptoks d atom x HA (norm (CAnd cs)) (Some true) name). reflexivity.
  - intros v. now rewrite V, pval_norm.
Qed.

Lemma empty_operand_unreadable : forall b, ~ reads_as [KLp; KAtom 0; KAnd; KRp] b.
Proof.
  intros b [f H].
  assert (N : forall f l, parse f l [KRp] = None).
  { induction f0 as [|g IH]; intros l; auto. destruct l; cbn [parse]; auto; now rewrite IH. }
  assert (N2 : forall f l, l <> LNot -> parse f l [KAtom 0; KAnd; KRp] = None).
  { induction f0 as [|g IH]; intros l Hl; auto. destruct l; cbn [parse]; [| |congruence].
    - rewrite IH by discriminate. auto.
    - destruct g; auto. cbn [parse]. rewrite N. auto. }
  assert (N3 : forall f l, parse f l [KLp; KAtom 0; KAnd; KRp] = None).
  { induction f0 as [|g IH]; intros l; auto. destruct l; cbn [parse]; try now rewrite IH.
    rewrite N2 by discriminate. auto. }
  rewrite N3 in H. discriminate.
Qed.
