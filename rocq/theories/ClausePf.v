(** * ClausePf: proofs for PropertiesClauses *)
From Coq Require Import Lia.
From Verif Require Import GoBase GoBaseFacts QuoteModel SprintModel TokenModel EffectModel RenderModel BuildModel
  SpecBool SpecClauses BoolModel RenderRel BoolFacts FormatFacts PredPf ClauseFacts.
Local Open Scope m_scope.

Lemma statement_app a b : statement (a ++ b) = statement a ;; statement b.
Proof. unfold statement. now rewrite filter_app, map_app, seqs_app. Qed.

Lemma select_pf d q c : snd (render d (NSelect q) c) = SOk ->
  select_ok d q (c_env c) = true /\ render d (NSelect q) c = statement (select_clauses d q (c_env c)).
Proof.
  rewrite render_select. intros H. apply select_run_ok in H. split; auto. now apply select_run_statement.
Qed.
Lemma select_ok_pf d q c : select_ok d q (c_env c) = true ->
  render d (NSelect q) c = statement (select_clauses d q (c_env c)).
Proof. rewrite render_select. apply select_run_statement. Qed.

Lemma where_tokens d ts e w atom (hs ws : list cond) :
  (forall i, is_atom (atom i) = true) ->
  hs <> [] ->
  Forall2 (fun c n => build atom c = Some n) hs (injected ts e) ->
  Forall2 (fun c n => build atom c = Some n) ws (vp_preds w) ->
  vp_or w = false -> vp_neg w = false -> vp_top w = false ->
  supported (CAnd (hs ++ [CAnd ws])) = true ->
  exists toks b,
    cl_set (where_sql d (injected ts e) w) = true /\
    cl_sql (where_sql d (injected ts e) w) = emit (B " WHERE ") ;; toks_sql d atom [] toks /\
    reads_as toks b /\
    forall v, beval v b = meaning v (CAnd (hs ++ [CAnd ws])).
Proof.
  intros HA HN HH HW HO HG HT HS.
  destruct (supported_safe _ HS) as [_ S]. specialize (S (or_intror eq_refl)).
  destruct (safe_reads true _ S) as (b & R & V).
  exists (ptoks true (norm (CAnd (hs ++ [CAnd ws])))), b.
  assert (EI : injected ts e = map (pnode atom) (map norm hs)).
  { clear - HA HH. induction HH as [|c n cs ns H _ IH]; cbn; auto. rewrite build_norm in H by auto. injection H as <-. congruence. }
  assert (EW : vp_preds w = map (pnode atom) (map norm ws)).
  { clear - HA HW. induction HW as [|c n cs ns H _ IH]; cbn; auto. rewrite build_norm in H by auto. injection H as <-. congruence. }
  unfold where_sql. cbn [cl_set cl_sql]. rewrite EI. split; [destruct hs; [congruence|reflexivity]|].
  split; [|split; auto; intros v; rewrite V; apply pval_norm].
  f_equal.
  pose proof (render_ptoks d atom [] HA (norm (CAnd (hs ++ [CAnd ws]))) (Some true) []) as E. cbn iota in E.
  rewrite <- E. clear E. cbn [norm pnode]. rewrite render_vpred. cbn [c_top c_excl vp_top vp_or vp_neg vp_preds].
  rewrite !map_app. cbn [map norm pnode]. rewrite <- EW.
  replace (NVPred (mk_vpred false [] false (vp_preds w) false)) with (NVPred (mk_vpred (vp_top w) [] (vp_or w) (vp_preds w) (vp_neg w)))
    by now rewrite HT, HO, HG.
  destruct hs as [|h hs]; [congruence|]. cbn [map app].
  assert (E : forall r, snd r <> [] -> vpred_run true false false (fst r :: snd r) [] =
    sep_by (B " AND ") (map (fun pr => if is_nil (fst pr) then fail else snd pr (ctx None [])) (fst r :: snd r))).
  { intros [a [|b' l]]; cbn [fst snd]; [congruence|]. intros _. cbn [vpred_run negb when].
    destruct a. rewrite !ret_seq', seq_ret'. reflexivity. }
  match goal with |- _ = vpred_run true false false (?a :: ?l) [] => pose proof (E (a, l)) as E'; cbn [fst snd] in E' end.
  refine (eq_trans _ (eq_sym (E' _))); [|now destruct hs]. clear E E'.
  f_equal. cbn [map fst snd]. rewrite pnode_nil by auto. f_equal.
  rewrite !map_app, !map_map. cbn [map fst snd is_nil]. f_equal.
  apply map_ext. intros a. now rewrite pnode_nil.
Qed.

Lemma tand_TT a b : tand a b = TT -> a = TT /\ b = TT.
Proof. destruct a, b; cbn; intuition congruence. Qed.
Lemma meaning_and v cs : meaning v (CAnd cs) = TT -> Forall (fun c => meaning v c = TT) cs.
Proof.
  cbn [meaning]. induction cs as [|c cs IH]; cbn [fold_right]; constructor; apply tand_TT in H; [tauto|].
  now apply IH.
Qed.

Lemma split_select d q e : select_clauses d q e =
  firstn 7 (select_clauses d q e) ++
  [where_sql d (injected (select_tables q) (own_env e (sq_env q))) (sq_where q)] ++
  skipn 8 (select_clauses d q e).
Proof. reflexivity. Qed.
Lemma split_delete d q e : delete_clauses d q e =
  firstn 6 (delete_clauses d q e) ++
  [where_sql d (injected (dq_tables q) (own_env e (dq_env q))) (dq_where q)] ++
  skipn 7 (delete_clauses d q e).
Proof. reflexivity. Qed.
Lemma statement_split pre w post : cl_set w = true ->
  statement (pre ++ [w] ++ post) = statement pre ;; cl_sql w ;; statement post.
Proof. intros H. rewrite statement_app. f_equal. cbn [app]. now rewrite statement_cons, H. Qed.

Lemma select_enforces d q c atom hs ws :
  snd (render d (NSelect q) c) = SOk ->
  (forall i, is_atom (atom i) = true) -> hs <> [] ->
  Forall2 (fun c n => build atom c = Some n) hs (injected (select_tables q) (own_env (c_env c) (sq_env q))) ->
  Forall2 (fun c n => build atom c = Some n) ws (vp_preds (sq_where q)) ->
  vp_or (sq_where q) = false -> vp_neg (sq_where q) = false -> vp_top (sq_where q) = false ->
  supported (CAnd (hs ++ [CAnd ws])) = true ->
  exists toks b,
    render d (NSelect q) c =
      statement (firstn 7 (select_clauses d q (c_env c))) ;;
      (emit (B " WHERE ") ;; toks_sql d atom [] toks) ;;
      statement (skipn 8 (select_clauses d q (c_env c))) /\
    reads_as toks b /\
    forall v, beval v b = TT -> Forall (fun h => meaning v h = TT) hs /\ Forall (fun h => meaning v h = TT) ws.
Proof.
  intros HR HA HN HH HW HO HG HT HS. apply select_pf in HR. destruct HR as [_ HR].
  destruct (where_tokens d _ _ _ atom hs ws HA HN HH HW HO HG HT HS) as (toks & b & E1 & E2 & R & V).
  exists toks, b. split; [|split; auto].
  - rewrite HR, split_select at 1. rewrite statement_split, E2 by auto. reflexivity.
  - intros v H. rewrite V in H. apply meaning_and in H. apply Forall_app in H. destruct H as [H1 H2].
    split; auto. inversion H2; subst. now apply meaning_and.
Qed.
Lemma delete_enforces d q c atom hs ws :
  snd (render d (NDelete q) c) = SOk ->
  (forall i, is_atom (atom i) = true) -> hs <> [] ->
  Forall2 (fun c n => build atom c = Some n) hs (injected (dq_tables q) (own_env (c_env c) (dq_env q))) ->
  Forall2 (fun c n => build atom c = Some n) ws (vp_preds (dq_where q)) ->
  vp_or (dq_where q) = false -> vp_neg (dq_where q) = false -> vp_top (dq_where q) = false ->
  supported (CAnd (hs ++ [CAnd ws])) = true ->
  exists toks b,
    render d (NDelete q) c =
      statement (firstn 6 (delete_clauses d q (c_env c))) ;;
      (emit (B " WHERE ") ;; toks_sql d atom [] toks) ;;
      statement (skipn 7 (delete_clauses d q (c_env c))) /\
    reads_as toks b /\
    forall v, beval v b = TT -> Forall (fun h => meaning v h = TT) hs /\ Forall (fun h => meaning v h = TT) ws.
Proof.
  intros HR HA HN HH HW HO HG HT HS. rewrite render_delete in HR. apply delete_run_ok in HR.
  destruct (where_tokens d _ _ _ atom hs ws HA HN HH HW HO HG HT HS) as (toks & b & E1 & E2 & R & V).
  exists toks, b. split; [|split; auto].
  - rewrite render_delete, delete_run_statement by auto. rewrite split_delete at 1. rewrite statement_split, E2 by auto. reflexivity.
  - intros v H. rewrite V in H. apply meaning_and in H. apply Forall_app in H. destruct H as [H1 H2].
    split; auto. inversion H2; subst. now apply meaning_and.
Qed.
Lemma hook_error_pf ts e t : In t (tables_of ts) -> table_hook t e = HErr -> hook_fails ts e = true.
Proof. intros I H. unfold hook_fails. apply existsb_exists. exists t. now rewrite H. Qed.
