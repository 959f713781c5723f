(** * RenderInst: the relational theorem for relations that ignore names. *)
From Verif Require Import GoBase QuoteModel SprintModel TokenModel EffectModel RenderModel
  NodeInd SpecSim RenderRel.
Local Open Scope m_scope.

Definition item_safe (i : fitem) : Prop :=
  match i with
  | FPanic => False
  | FRef body => match ref_nameonly body with LPanic | LDiverge => False | _ => True end
  | _ => True
  end.
Definition fmt_safe (format : bytes) : Prop :=
  Forall item_safe (format_items (length format) format).

Lemma values_lookup_from_lt vals : forall i m name j,
  (forall n k, mget n m = Some k -> k < i) ->
  mget name (values_lookup_from i vals m) = Some j -> j < i + length vals.
Proof.
  induction vals as [|v vals IH]; cbn; intros i m name j Hm E.
  - specialize (Hm _ _ E). now rewrite Nat.add_0_r.
  - apply IH in E; [now rewrite Nat.add_succ_r|].
    intros n k. destruct (value_name v); cbn.
    + destruct (beqb n b); [intros [= <-]; auto|]. intros Hk. apply Hm in Hk. now constructor.
    + intros Hk. apply Hm in Hk. now constructor.
Qed.
Lemma resolve_lt vals running name i o : resolve vals running name = Some (i, o) -> i < length vals.
Proof.
  unfold resolve. destruct (is_empty name).
  - destruct (Nat.leb_spec (length vals) running); [discriminate|]. now intros [= <- <-].
  - destruct (atoi name) as [z|].
    + destruct (_ || _)%bool eqn:E; [discriminate|]. intros [= <- <-].
      apply orb_false_iff in E. destruct E as [E1 E2].
      apply Z.ltb_ge in E1. apply Z.leb_gt in E2. apply Nat2Z.inj_lt. now rewrite Z2Nat.id.
    + destruct (mget name _) eqn:E; [|discriminate]. intros [= <- <-].
      apply values_lookup_from_lt in E; [exact E|]. discriminate.
Qed.

Lemma resolve_sim vals vals' running name :
  Forall2 same_tests vals vals' -> resolve vals running name = resolve vals' running name.
Proof.
  intros H. unfold resolve. rewrite (Forall2_length' _ _ _ H).
  assert (E : forall i m, values_lookup_from i vals m = values_lookup_from i vals' m).
  { induction H as [|v v' l l' Hv _ IH]; cbn; auto. intros i m. now rewrite (st_vname _ _ Hv), IH. }
  unfold values_lookup. now rewrite E.
Qed.

Section Simple.
  Context (d : dialect) (V : gval -> gval -> Prop) (R0 : M -> M -> Prop)
          (crash_ok : Prop).
  Context
    (R_ret : R0 ret ret) (R_fail : R0 fail fail) (R_crash : crash_ok -> R0 crash crash)
    (R_emit : forall b, R0 (emit b) (emit b))
    (R_del : forall ns, R0 (act (CDel ns)) (act (CDel ns)))
    (R_seq : forall m m' k k', R0 m m' -> R0 k k' -> R0 (m ;; k) (m' ;; k')).

  Lemma printf_rel vals vals' e x fmt :
    Forall2 (kid_rel d V (fun _ => R0)) vals vals' ->
    crash_ok \/ fmt_safe fmt ->
    R0 (bufprintf vals e x fmt) (bufprintf vals' e x fmt).
  Proof.
    intros H Hf. unfold bufprintf.
    assert (HT : Forall2 same_tests (map k_node vals) (map k_node vals')).
    { apply Forall2_map. eapply Forall2_imp; [|exact H]. intros a c K. apply K. }
    assert (Hi : crash_ok \/ Forall item_safe (format_items (length fmt) fmt)) by exact Hf.
    clear Hf. revert Hi. generalize (format_items (length fmt) fmt). intros items.
    generalize 0 as running. generalize (@nil bytes) as ords.
    induction items as [|it items IH]; intros ords running Hi; cbn [run_items]; auto.
    assert (Hs : crash_ok \/ item_safe it) by (destruct Hi as [|Hi]; auto; inversion Hi; auto).
    assert (Hr : crash_ok \/ Forall item_safe items) by (destruct Hi as [|Hi]; auto; inversion Hi; auto).
    destruct it; auto.
    - assert (K : forall i, opt_rel (kid_rel d V (fun _ => R0)) (nth_error vals i) (nth_error vals' i)).
      { clear -H. induction H; intros [|i]; cbn; try constructor; auto. }
      destruct (ref_nameonly body) eqn:EN; auto.
      2,3: destruct Hs as [Hs|Hs]; auto; cbn in Hs; rewrite EN in Hs; contradiction.
      rewrite <- (resolve_sim _ _ running (ref_name body) HT).
      destruct (resolve (map k_node vals) _ _) as [[i o]|] eqn:E; auto.
      apply resolve_lt in E. rewrite map_length in E.
      specialize (K i). destruct (nth_error vals i) as [k|] eqn:N.
      2: { apply nth_error_None in N. exfalso. revert E. now apply Nat.le_ngt. }
      inversion K as [|? k' Kk E1 E2]; subst.
      apply R_seq; auto.
      pose proof (kr_tests _ _ _ _ _ Kk) as T. rewrite (st_fot _ _ T), (st_name _ _ T).
      destruct (_ && _); auto. apply (kr_run _ _ _ _ _ Kk).
    - destruct Hs; auto. contradiction.
  Qed.
End Simple.

(** ** Every tree is similar to itself *)
Section Refl.
  Context (fills : bool) (V : gval -> gval -> Prop) (V_refl : forall v, V v v).
  Let P n := gsim fills V n n.
  Lemma refl_list vs : conj_list (map P vs) -> Forall2 (gsim fills V) vs vs.
  Proof. induction vs; cbn; intros; constructor; tauto. Qed.
  Lemma refl_opt vs : conj_opt (option_map P vs) -> opt_rel (gsim fills V) vs vs.
  Proof. destruct vs; cbn; intros; constructor; tauto. Qed.
  Lemma refl_opts vs : conj_list (map conj_opt (map (option_map P) vs)) -> Forall2 (opt_rel (gsim fills V)) vs vs.
  Proof. induction vs; cbn; intros; constructor; [apply refl_opt; tauto|tauto]. Qed.
  Lemma refl_pairs vs : conj_list (map conj_pair (map (pair_map P) vs)) -> Forall2 (pair_rel (gsim fills V)) vs vs.
  Proof. induction vs; cbn; intros; constructor; [split; apply H|tauto]. Qed.
  Lemma refl_rows vs : conj_list (map conj_list (map (map P) vs)) -> Forall2 (Forall2 (gsim fills V)) vs vs.
  Proof. induction vs; cbn; intros; constructor; [apply refl_list; tauto|tauto]. Qed.
  Lemma refl_vpred p : vpred_props (vpred_map P p) -> vpred_rel (gsim fills V) p p.
  Proof. intros H. constructor; auto. now apply refl_list. Qed.
  Lemma refl_join p : join_props (join_map P p) -> join_rel (gsim fills V) p p.
  Proof. intros [H1 H2]. constructor; auto. now apply refl_opt. now apply refl_vpred. Qed.
  Lemma refl_joins l : conj_list (map join_props (map (join_map P) l)) -> Forall2 (join_rel (gsim fills V)) l l.
  Proof. induction l; cbn; intros; constructor; [apply refl_join; tauto|tauto]. Qed.
  Lemma refl_cte p : cte_props (cte_map P p) -> cte_rel (gsim fills V) p p.
  Proof. intros H. constructor; auto. now apply refl_opt. Qed.
  Lemma refl_ctes l : conj_list (map cte_props (map (cte_map P) l)) -> Forall2 (cte_rel (gsim fills V)) l l.
  Proof. induction l; cbn; intros; constructor; [apply refl_cte; tauto|tauto]. Qed.
  Lemma refl_mapper o : conj_opt (option_map mapper_props (option_map (mapper_map P) o)) ->
    opt_rel (mapper_rel (gsim fills V)) o o.
  Proof. destruct o; cbn; intros; constructor. constructor; auto. now apply refl_pairs. Qed.
  Lemma refl_lim o : lim_rel V o o.
  Proof. destruct o; constructor; auto. Qed.
  Lemma refl_select q : select_props (select_map P q) -> select_rel V (gsim fills V) q q.
  Proof.
    intros (P1 & P2 & P3 & P4 & P5 & P6 & P7 & P8 & P9).
    constructor; auto using refl_ctes, refl_list, refl_opt, refl_joins, refl_vpred, refl_lim.
  Qed.
  Lemma refl_oselect o : conj_opt (option_map select_props (option_map (select_map P) o)) ->
    opt_rel (select_rel V (gsim fills V)) o o.
  Proof. destruct o; cbn; intros; constructor. now apply refl_select. Qed.
  Theorem gsim_refl n : gsim fills V n n.
  Proof.
    induction n using node_sub_ind; destruct n; cbn in H.
    1: { destruct v; try (apply sim_raw; cbn; auto; fail); constructor; auto. }
    all: try (constructor; auto using refl_list, refl_rows, refl_vpred, refl_join, refl_select; fail).
    - destruct H. now constructor.
    - destruct H. constructor; auto using refl_pairs, refl_opt.
    - destruct H as (? & ? & ?). constructor; auto using refl_pairs, refl_opt.
    - destruct hook; constructor. intros e. specialize (H e). destruct (h e); constructor. auto.
    - constructor. now apply refl_cte.
    - constructor. constructor; auto. now apply refl_opt.
    - destruct H. constructor; now apply refl_list.
    - destruct H as (P1 & P2 & P3 & P4 & P5 & P6 & P7 & P8 & P9 & P10 & P11). constructor.
      constructor; auto using refl_mapper, refl_ctes, refl_list, refl_opt, refl_rows, refl_vpred,
        refl_oselect, refl_pairs.
    - destruct H as (P1 & P2 & P3 & P4 & P5 & P6 & P7 & P8 & P9). constructor.
      constructor; auto using refl_mapper, refl_ctes, refl_list, refl_opt, refl_joins, refl_vpred,
        refl_pairs, refl_lim.
    - destruct H as (P1 & P2 & P3 & P4 & P5 & P6 & P7). constructor.
      constructor; auto using refl_ctes, refl_list, refl_opt, refl_opts, refl_joins, refl_vpred, refl_lim.
  Qed.
End Refl.
Definition sim_refl := gsim_refl false.

Lemma conj_list_forall {A} (P : A -> Prop) l : (forall a, P a) -> conj_list (map P l).
Proof. induction l; cbn; auto. Qed.
(** A condition that always holds, holds everywhere. *)
Lemma everywhere_always (P : node -> Prop) : (forall n, P n) -> forall n, everywhere P n.
Proof.
  intros H n. induction n using node_sub_ind. apply everywhere_unfold. auto.
Qed.

(** ** Effects of all trees: unary instance.
    If [Q] holds of the primitive effects and is kept by sequencing, it holds
    of every rendering. *)
Section Unary.
  Context (d : dialect) (Q : M -> Prop) (crash_ok : Prop) (pok : bytes -> gval -> Prop).
  Definition fmt_ok (fmt : bytes) (_ : list node) : Prop := crash_ok \/ fmt_safe fmt.
  Theorem render_unary :
    Q ret -> Q fail -> (crash_ok -> Q crash) -> (forall b, Q (emit b)) ->
    (forall ns, Q (act (CDel ns))) ->
    (forall m k, Q m -> Q k -> Q (m ;; k)) ->
    (forall m, Q m -> Q (ignore_err m)) ->
    (forall p v, Q (act (CBind p v))) ->
    (forall name v, pok name v -> name <> [] -> Q (act (CParam name v))) ->
    (forall name v, pok name (GNamedArg name v) -> is_postgres d || is_mysql d = false -> name <> [] ->
       Q (act (CNamedArg name v))) ->
    forall n c, everywhere (node_ok crash_ok (fun _ => True) fmt_ok pok) n -> Q (render d n c).
  Proof.
    intros H1 H2 H3 H4 H5 H6 H7 H8 H9 H10 n c HE.
    apply (render_rel d eq (fun _ m _ => Q m) crash_ok (fun _ => True) fmt_ok pok) with (n' := n) (c := c) (fills := false);
      auto; try discriminate; try (intros; unfold fmt_ok; right; repeat constructor; fail).
    - intros. apply (printf_rel d eq (fun m _ => Q m) crash_ok) with (vals' := vals'); auto.
    - intros; apply sim_refl; auto.
  Qed.
End Unary.
