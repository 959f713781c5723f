(** * FieldPf: renderings as pieces *)
From Coq Require Import Lia.
From Verif Require Import GoBase QuoteModel SprintModel TokenModel EffectModel RenderModel
  SpecFormat BuildModel RenderRel RenderInst FormatFacts PropertiesFormat FieldModel SpecField.
Local Open Scope m_scope.

(** ** States that look the same *)
Definition alike (d : dialect) (s t : st) : Prop :=
  out_text d (st_out s) = out_text d (st_out t) /\ st_args s = st_args t /\ st_params s = st_params t.

Lemma out_text_app d a b : out_text d (a ++ b) = out_text d a ++ out_text d b.
Proof. unfold out_text. apply flat_map_app. Qed.
Lemma out_text_text d b : out_text d [KText b] = b.
Proof. unfold out_text. cbn. apply app_nil_r. Qed.
Lemma alike_refl d s : alike d s s.
Proof. exact (conj eq_refl (conj eq_refl eq_refl)). Qed.
Lemma alike_trans d s t u : alike d s t -> alike d t u -> alike d s u.
Proof.
  intros (A & B & C) (A' & B' & C').
  exact (conj (eq_trans A A') (conj (eq_trans B B') (eq_trans C C'))).
Qed.
Lemma alike_sym d s t : alike d s t -> alike d t s.
Proof.
  intros (A & B & C).
  exact (conj (eq_sym A) (conj (eq_sym B) (eq_sym C))).
Qed.
Lemma exec1_alike d s t c : alike d s t -> alike d (exec1 d s c) (exec1 d t c).
Proof.
  destruct s as [so sa sp], t as [to ta tp]. intros (A & B & C). cbn [st_out st_args st_params] in A, B, C. subst ta tp.
  destruct c as [b|pn v|pn v|pn v|ns]; unfold exec1, out, push; cbn [st_out st_args st_params].
  - unfold alike. cbn [st_out st_args st_params]. rewrite !out_text_app, A. auto.
  - destruct (numbered d); [destruct (if is_empty pn then [] else pget pn sp)|];
      unfold alike; cbn [st_out st_args st_params]; rewrite !out_text_app, A; auto.
  - destruct (pget pn sp); unfold alike; cbn [st_out st_args st_params]; rewrite !out_text_app, A; auto.
  - destruct (numbered d); [destruct (pget pn sp)|];
      unfold alike; cbn [st_out st_args st_params]; rewrite !out_text_app, A; auto.
  - unfold alike. cbn. auto.
Qed.
Lemma exec_alike d cs : forall s t, alike d s t -> alike d (exec d s cs) (exec d t cs).
Proof.
  induction cs as [|c cs IH]; intros s t H; [exact H|]. exact (IH _ _ (exec1_alike d s t c H)).
Qed.

(** ** Commands that do the same *)
Definition same (d : dialect) (m k : M) : Prop :=
  snd m = snd k /\ forall s t, alike d s t -> alike d (exec d s (fst m)) (exec d t (fst k)).

Lemma same_refl d m : same d m m.
Proof. split; [reflexivity|]. intros s t. apply exec_alike. Qed.
Lemma same_sym d m k : same d m k -> same d k m.
Proof.
  intros [A B]. split; [exact (eq_sym A)|]. intros s t H.
  apply alike_sym, B. now apply alike_sym.
Qed.
Lemma same_trans d m k l : same d m k -> same d k l -> same d m l.
Proof.
  intros [A B] [A' B']. split; [exact (eq_trans A A')|]. intros s t H.
  exact (alike_trans d _ _ _ (B s s (alike_refl d s)) (B' s t H)).
Qed.
Lemma exec_app d cs ks s : exec d s (cs ++ ks) = exec d (exec d s cs) ks.
Proof. unfold exec. apply fold_left_app. Qed.
Lemma same_seq d m m' k k' : same d m m' -> same d k k' -> same d (m ;; k) (m' ;; k').
Proof.
  intros [A B] [A' B']. unfold seq. rewrite <- A. destruct (snd m) eqn:E; split; cbn [fst snd]; auto.
  intros s t H. rewrite !exec_app. apply B', B, H.
Qed.
Lemma seq_assoc m k l : (m ;; k) ;; l = m ;; (k ;; l).
Proof.
  unfold seq. destruct (snd m) eqn:E; cbn [fst snd]; rewrite ?E; auto.
  destruct (snd k); cbn [fst snd]; rewrite ?app_assoc; auto.
Qed.

(** ** Pieces as commands *)
Fixpoint run (d : dialect) (ps : list piece) : M :=
  match ps with
  | [] => ret
  | T b :: rest => emit b ;; run d rest
  | V e x n :: rest => render d n (ctx e x) ;; run d rest
  end.
Lemma write_run d : forall ps s, write d ps s = (exec d s (fst (run d ps)), snd (run d ps)).
Proof.
  induction ps as [|[b|e x n] ps IH]; intros s; [reflexivity| |]; cbn [write run].
  - rewrite IH. reflexivity.
  - unfold append_sql, seq. destruct (snd (render d n (ctx e x))) eqn:E.
    + rewrite IH. cbn [fst snd]. now rewrite exec_app.
    + now rewrite <- E.
    + now rewrite <- E.
Qed.
Lemma run_app d ps qs : run d (ps ++ qs) = run d ps ;; run d qs.
Proof.
  induction ps as [|[b|e x n] ps IH]; cbn [app run].
  - now rewrite ret_seq.
  - now rewrite IH, seq_assoc.
  - now rewrite IH, seq_assoc.
Qed.
Lemma writes_same d n e x ps : same d (render d n (ctx e x)) (run d ps) <-> writes d n e x ps.
Proof.
  unfold writes, see, append_sql. split.
  - intros [A B] s. rewrite write_run. cbn [fst snd].
    destruct (B s s (alike_refl d s)) as (P & Q & R). now rewrite A, P, Q, R.
  - intros H. split.
    + specialize (H st0). rewrite write_run in H. exact (f_equal sn_status H).
    + intros s t J. apply alike_trans with (exec d s (fst (run d ps))); [|now apply exec_alike].
      specialize (H s). rewrite write_run in H.
      exact (conj (f_equal sn_text H) (conj (f_equal sn_args H) (f_equal sn_params H))).
Qed.

(** Texts can be joined and split; empty ones do not matter. *)
Lemma same_emit d a b : same d (emit (a ++ b)) (emit a ;; emit b).
Proof.
  split; [reflexivity|]. intros s t (P & Q & R).
  unfold seq, emit, exec, alike. cbn [fst snd app fold_left exec1 out st_out st_args st_params].
  rewrite !out_text_app, !out_text_text, P, <- app_assoc. auto.
Qed.
Lemma same_empty d : same d (emit []) ret.
Proof.
  split; [reflexivity|]. intros s t (P & Q & R).
  unfold emit, ret, exec, alike. cbn [fst snd app fold_left exec1 out st_out st_args st_params].
  rewrite out_text_app, out_text_text, app_nil_r. auto.
Qed.
Lemma same_del d : same d (act (CDel [])) ret.
Proof. split; [reflexivity|]. intros s t H. exact H. Qed.

(** ** Formats whose holes are all '{}' *)
Fixpoint fill (e : option env) (x : list bytes) (ts : list bytes) (vals : list node) : list piece :=
  match ts, vals with
  | t :: ts, v :: vals => T t :: V e x v :: fill e x ts vals
  | _, _ => []
  end.
Definition blanks (ts : list bytes) : list (bytes * hole) := map (fun t => (t, HNext)) ts.
Lemma expand_blanks d vals e x : forall ts fin next,
  next + length ts = length vals ->
  same d (expand (print_value d vals e x) vals next [] (blanks ts) fin)
    (run d (fill e x ts (skipn next vals) ++ [T fin])).
Proof.
  induction ts as [|t ts IH]; intros fin next L; cbn [blanks map expand].
  - cbn [fill app]. eapply same_trans; [apply same_seq; [apply same_del|apply same_refl]|].
    rewrite ret_seq. cbn [run]. rewrite seq_ret. apply same_refl.
  - cbn [length] in L. replace (next <? length vals) with true by (symmetry; apply Nat.ltb_lt; lia).
    unfold print_value at 1.
    destruct (nth_error vals next) as [v|] eqn:E; [|apply nth_error_None in E; lia].
    assert (K : skipn next vals = v :: skipn (S next) vals).
    { clear - E. revert next E. induction vals as [|w vals IH]; intros [|next] E; cbn in *; try discriminate.
      - now injection E as ->.
      - now apply IH. }
    rewrite K. cbn [fill app run].
    apply same_seq; [apply same_refl|]. apply same_seq; [apply same_refl|].
    apply IH. lia.
Qed.
Lemma blanks_good ts fin : Forall good_text ts -> good_text fin -> good_holes (blanks ts) fin.
Proof.
  intros A B. split; [|exact B]. unfold blanks. induction A as [|t ts H A IH]; cbn; constructor; auto.
  cbn. auto.
Qed.
Lemma p_format_writes d ts fin vals e x f :
  f = format_text (blanks ts) fin -> length ts = length vals ->
  Forall good_text ts -> good_text fin ->
  same d (render d (p_format f vals) (ctx e x)) (run d (fill e x ts vals ++ [T fin])).
Proof.
  intros -> L A B. rewrite predicatef_expands by now apply blanks_good.
  exact (expand_blanks d vals e x ts fin 0 L).
Qed.
Lemma fieldf_writes d ts fin vals e x f :
  f = format_text (blanks ts) fin -> length ts = length vals ->
  Forall good_text ts -> good_text fin ->
  same d (render d (fieldf f vals) (ctx e x)) (run d (fill None x ts vals ++ [T fin])).
Proof.
  intros -> L A B. unfold fieldf. rewrite fieldf_expands by now apply blanks_good.
  exact (expand_blanks d vals None x ts fin 0 L).
Qed.

(** Deciding [good_text]. *)
Definition clean (t : bytes) : bool := negb (existsb (Ascii.eqb "{"%char) t).
Lemma clean_good t : clean t = true -> good_text t.
Proof.
  unfold clean, good_text. intros H J. apply negb_true_iff in H.
  assert (existsb (Ascii.eqb "{"%char) t = true); [|congruence].
  apply existsb_exists. exists "{"%char. split; [exact J|reflexivity].
Qed.
Lemma clean_goods ts : forallb clean ts = true -> Forall good_text ts.
Proof. intros H. apply Forall_forall. intros t J. apply clean_good. rewrite forallb_forall in H. now apply H. Qed.

(** Joining the texts of pieces. *)
Fixpoint tidy (ps : list piece) : list piece :=
  match ps with
  | [] => []
  | T b :: rest =>
    match tidy rest with
    | T b' :: rest' => T (b ++ b') :: rest'
    | rest' => match b with [] => rest' | _ => T b :: rest' end
    end
  | v :: rest => v :: tidy rest
  end.
Lemma tidy_same d : forall ps, same d (run d ps) (run d (tidy ps)).
Proof.
  induction ps as [|[b|e x n] ps IH]; [apply same_refl| |].
  - cbn [run tidy].
    assert (D : same d (emit b ;; run d ps)
      (run d (match b with [] => tidy ps | _ => T b :: tidy ps end))).
    { destruct b as [|c b].
      - eapply same_trans; [apply same_seq; [apply same_empty|exact IH]|]. rewrite ret_seq. apply same_refl.
      - cbn [run]. apply same_seq; [apply same_refl|exact IH]. }
    destruct (tidy ps) as [|[b'|e x n] rest] eqn:E; [exact D| |exact D].
    cbn [run]. eapply same_trans; [apply same_seq; [apply same_refl|exact IH]|].
    cbn [run]. rewrite <- seq_assoc. apply same_seq; [|apply same_refl].
    apply same_sym, same_emit.
  - cbn [run tidy]. apply same_seq; [apply same_refl|exact IH].
Qed.
Lemma tidy_eq d ps qs : tidy ps = tidy qs -> same d (run d ps) (run d qs).
Proof.
  intros H. eapply same_trans; [apply tidy_same|]. rewrite H. apply same_sym, tidy_same.
Qed.
