(** * BindFacts: with consistent names, placeholders are bound to their values *)
From Coq Require Import Lia.
From Verif Require Import GoBase GoBaseFacts QuoteModel SprintModel TokenModel EffectModel RenderModel
  NodeInd SpecSim RenderRel RenderInst ExecFacts SpecNames.
Local Open Scope m_scope.

(** ** Effect lists in which each live name has one value *)
Definition live := list (bytes * gval).
Inductive sound : live -> list cmd -> live -> Prop :=
| s_nil L : sound L [] L
| s_text L b cs L' : sound L cs L' -> sound L (CText b :: cs) L'
| s_bind0 L v cs L' : sound L cs L' -> sound L (CBind [] v :: cs) L'
| s_bind_new L p v cs L' : p <> [] -> mget p L = None -> sound (mset p v L) cs L' ->
    sound L (CBind p v :: cs) L'
| s_bind_old L p v cs L' : p <> [] -> mget p L = Some v -> sound L cs L' ->
    sound L (CBind p v :: cs) L'
| s_param L p v cs L' : (mget p L = None \/ mget p L = Some v) -> sound (mset p v L) cs L' ->
    sound L (CParam p v :: cs) L'
| s_named L p v cs L' : (mget p L = None \/ mget p L = Some (GNamedArg p v)) ->
    sound (mset p (GNamedArg p v) L) cs L' -> sound L (CNamedArg p v :: cs) L'
| s_del L ns cs L' : sound (fold_left (fun m n => mdel n m) ns L) cs L' -> sound L (CDel ns :: cs) L'.

Lemma sound_app L a L1 b L2 : sound L a L1 -> sound L1 b L2 -> sound L (a ++ b) L2.
Proof.
  induction 1; cbn; intros; auto.
  - apply s_text; auto.
  - apply s_bind0; auto.
  - apply s_bind_new; auto.
  - apply s_bind_old; auto.
  - apply s_param; auto.
  - apply s_named; auto.
  - apply s_del; auto.
Qed.

Lemma mget_dels {V} k ns : forall m : list (bytes * V),
  mget k (fold_left (fun m n => mdel n m) ns m) = if existsb (beqb k) ns then None else mget k m.
Proof.
  induction ns as [|n ns IH]; intros m; cbn; auto. rewrite IH.
  destruct (beqb k n) eqn:E; cbn.
  - apply beqb_eq in E. subst. rewrite mget_mdel_same. now destruct (existsb _ _).
  - rewrite mget_mdel_other; auto. now apply beqb_neq.
Qed.

(** ** Executing them *)
Record agree (L : live) (s : st) : Prop := mk_agree {
  ag_params : forall name, match mget name L with
                           | None => pget name (st_params s) = []
                           | Some v => exists i, pget name (st_params s) = [i] /\
                                                 nth_error (st_args s) i = Some v
                           end;
  ag_ord : forall i v, In (KOrd i v) (st_out s) -> nth_error (st_args s) i = Some v;
  ag_mark : forall v, ~ In (KMark v) (st_out s);
  ag_named : forall name v, In (KNamed name v) (st_out s) ->
               exists i, nth_error (st_args s) i = Some (GNamedArg name v) }.

Lemma agree0 : agree [] st0.
Proof. constructor; cbn; auto; intros; contradiction. Qed.

Lemma nth_error_snoc {A} (l : list A) v i w : nth_error l i = Some w -> nth_error (l ++ [v]) i = Some w.
Proof. intros H. rewrite nth_error_app1; auto. apply nth_error_Some. congruence. Qed.
Lemma nth_error_last {A} (l : list A) v : nth_error (l ++ [v]) (length l) = Some v.
Proof. rewrite nth_error_app2, Nat.sub_diag by lia. reflexivity. Qed.

Lemma agree_grow L s ks v params' L' :
  agree L s ->
  (forall i w, In (KOrd i w) ks -> i = length (st_args s) /\ w = v) ->
  (forall w, ~ In (KMark w) ks) ->
  (forall name w, In (KNamed name w) ks -> v = GNamedArg name w) ->
  (forall name, (mget name L' = mget name L /\ pget name params' = pget name (st_params s)) \/
                (mget name L' = Some v /\ pget name params' = [length (st_args s)])) ->
  agree L' (mk_st (st_out s ++ ks) (st_args s ++ [v]) params').
Proof.
  intros [A1 A2 A3 A4] H1 H2 H3 H4. constructor; cbn.
  - intros name. destruct (H4 name) as [[-> ->]|[-> ->]].
    + specialize (A1 name). destruct (mget name L); auto. destruct A1 as (i & E1 & E2).
      exists i. split; auto. now apply nth_error_snoc.
    + exists (length (st_args s)). split; auto. apply nth_error_last.
  - intros i w I. apply in_app_or in I. destruct I as [I|I].
    + apply nth_error_snoc. auto.
    + apply H1 in I. destruct I as [-> ->]. apply nth_error_last.
  - intros w I. apply in_app_or in I. destruct I as [I|I]; [now apply A3 in I|now apply H2 in I].
  - intros name w I. apply in_app_or in I. destruct I as [I|I].
    + destruct (A4 _ _ I) as [i E]. exists i. now apply nth_error_snoc.
    + exists (length (st_args s)). rewrite (H3 _ _ I). apply nth_error_last.
Qed.
Lemma agree_same L s k :
  agree L s ->
  match k with
  | KText _ => True
  | KOrd i w => nth_error (st_args s) i = Some w
  | KMark _ => False
  | KNamed name w => exists i, nth_error (st_args s) i = Some (GNamedArg name w)
  end ->
  agree L (out s k).
Proof.
  intros [A1 A2 A3 A4] H. constructor; cbn; auto.
  - intros i w I. apply in_app_or in I. destruct I as [I|[->|[]]]; auto.
  - intros w I. apply in_app_or in I. destruct I as [I|[->|[]]]; auto. now apply A3 in I.
  - intros name w I. apply in_app_or in I. destruct I as [I|[->|[]]]; eauto.
Qed.

Lemma agree_ext L L' s : (forall name, mget name L' = mget name L) -> agree L s -> agree L' s.
Proof.
  intros H [A1 A2 A3 A4]. constructor; auto. intros name. rewrite H. apply A1.
Qed.

Lemma mset_names (p : bytes) v (L : live) l m :
  forall name, (mget name (mset p v L) = mget name L /\ pget name (mset p l m) = pget name m) \/
               (mget name (mset p v L) = Some v /\ pget name (mset p l m) = l).
Proof.
  intros name. rewrite pget_mset. cbn. destruct (beqb name p); auto.
Qed.

Lemma exec_sound d L cs L' : numbered d = true -> sound L cs L' ->
  forall s, agree L s -> agree L' (exec d s cs).
Proof.
  intros N S. induction S; intros s A; cbn [exec fold_left]; auto; apply IHS; cbn [exec1]; rewrite ?N.
  - now apply agree_same.
  - cbn [is_empty]. unfold push. rewrite N. apply (agree_grow L); auto.
    + intros i w [I|[]]. now inversion I.
    + intros w [I|[]]. discriminate.
    + intros name w [I|[]]. discriminate.
  - destruct p as [|c p]; [contradiction|]. cbn [is_empty].
    pose proof (ag_params _ _ A (c :: p)) as P. rewrite H0 in P. rewrite P. unfold push. rewrite N.
    apply (agree_grow L); auto.
    + intros i w [I|[]]. now inversion I.
    + intros w [I|[]]. discriminate.
    + intros name w [I|[]]. discriminate.
    + apply mset_names.
  - destruct p as [|c p]; [contradiction|]. cbn [is_empty].
    pose proof (ag_params _ _ A (c :: p)) as P. rewrite H0 in P. destruct P as (i & P1 & P2).
    rewrite P1. now apply agree_same.
  - pose proof (ag_params _ _ A p) as P. destruct H as [H|H]; rewrite H in P.
    + rewrite P. cbn [app]. unfold push. rewrite N. apply (agree_grow L); auto.
      * intros i w [I|[]]. now inversion I.
      * intros w [I|[]]. discriminate.
      * intros name w [I|[]]. discriminate.
      * apply mset_names.
    + destruct P as (i & P1 & P2). rewrite P1, list_set_id by auto.
      apply (agree_ext L).
      * intros name. cbn. destruct (beqb name p) eqn:E; auto. apply beqb_eq in E. now subst.
      * now apply (agree_same L s (KOrd i v)).
  - pose proof (ag_params _ _ A p) as P. destruct H as [H|H]; rewrite H in P.
    + rewrite P. apply (agree_grow L); auto.
      * intros i w [I|[]]. discriminate.
      * intros w [I|[]]. discriminate.
      * intros name w [I|[]]. now inversion I.
      * apply mset_names.
    + destruct P as (i & P1 & P2). rewrite P1, list_set_id by auto.
      apply (agree_ext L).
      * intros name. cbn. destruct (beqb name p) eqn:E; auto. apply beqb_eq in E. now subst.
      * apply (agree_same L s (KNamed p v)); eauto.
  - destruct A as [A1 A2 A3 A4]. constructor; cbn; auto. intros name. rewrite mget_dels.
    specialize (A1 name).
    destruct (existsb (beqb name) ns) eqn:E.
    + apply existsb_exists in E. destruct E as (n & I & E). apply beqb_eq in E. subst.
      now apply pget_dels_in.
    + rewrite pget_dels_notin; auto. intros I.
      assert (X : existsb (beqb name) ns = true) by (apply existsb_exists; exists name; split; auto; apply beqb_refl).
      congruence.
Qed.

(** ** Which value a reference means *)
Lemma values_lookup_named vals : forall i m name j,
  (forall n k, mget n m = Some k -> k < i) ->
  mget name (values_lookup_from i vals m) = Some j ->
  mget name m = Some j \/ (i <= j /\ exists v, nth_error vals (j - i) = Some v /\ value_name v = Some name).
Proof.
  induction vals as [|v vals IH]; cbn; intros i m name j Hm E; auto.
  destruct (value_name v) as [n|] eqn:EV.
  - apply IH in E.
    + destruct E as [E|(Hj & w & E1 & E2)].
      * cbn in E. destruct (beqb name n) eqn:EB; auto. apply beqb_eq in EB. subst.
        inversion E; subst. right. split; auto. exists v. now rewrite Nat.sub_diag.
      * right. split; [lia|]. exists w. replace (j - i) with (S (j - S i)) by lia. auto.
    + intros n0 k. cbn. destruct (beqb n0 n); [intros [= <-]; lia|]. intros H. apply Hm in H. lia.
  - apply IH in E.
    + destruct E as [E|(Hj & w & E1 & E2)]; auto.
      right. split; [lia|]. exists w. replace (j - i) with (S (j - S i)) by lia. auto.
    + intros n0 k H. apply Hm in H. lia.
Qed.

(** A value bound by its own name ignores the name it is referred to by. *)
Lemma render_name_irrel d n c : (forall v, n = NRaw v -> exists a b, v = GNamedArg a b) ->
  render d n c = render d n (mk_ctx (c_top c) [] (c_env c) (c_excl c)).
Proof.
  intros H. destruct n; try reflexivity.
  destruct (H v eq_refl) as (a & b & ->). reflexivity.
Qed.
Definition plain_raw (n : node) : option gval :=
  match n with NRaw (GNamedArg _ _) => None | NRaw v => Some v | _ => None end.
Lemma not_plain_raw n : plain_raw n = None -> forall v, n = NRaw v -> exists a b, v = GNamedArg a b.
Proof. intros H v ->. cbn in H. destruct v; try discriminate. eauto. Qed.
Lemma plain_raw_render d n v c : plain_raw n = Some v -> render d n c = act (CBind (c_name c) v).
Proof. destruct n; try discriminate. cbn. destruct v0; intros E; inversion E; reflexivity. Qed.
Lemma value_name_not_plain n a : value_name n = Some a -> plain_raw n = None.
Proof. destruct n; try discriminate; auto. destruct v; try discriminate; auto. Qed.

Lemma resolve_cases vals running name i o : resolve vals running name = Some (i, o) ->
  (name = [] /\ o = false) \/
  (exists z, atoi name = Some z /\ o = true /\ i = Z.to_nat (z - 1) /\ name <> []) \/
  (atoi name = None /\ o = false /\ exists v a, nth_error vals i = Some v /\ value_name v = Some a).
Proof.
  unfold resolve. destruct (is_empty name) eqn:E.
  - destruct name; [|discriminate]. destruct (Nat.leb _ _); [discriminate|]. intros [= <- <-]. auto.
  - destruct (atoi name) as [z|] eqn:EA.
    + destruct (_ || _)%bool; [discriminate|]. intros [= <- <-]. right. left. exists z.
      repeat split; auto. intros ->; discriminate.
    + destruct (mget name (values_lookup vals)) as [j|] eqn:EM; [|discriminate]. intros [= <- <-].
      right. right. repeat split; auto.
      apply values_lookup_named in EM; [|discriminate]. destruct EM as [EM|(_ & v & E1 & E2)]; [discriminate|].
      rewrite Nat.sub_0_r in E1. eauto.
Qed.

Definition ord_item (i : fitem) : bool :=
  match i with FRef body => match atoi (ref_name body) with Some _ => true | None => false end | _ => false end.
Lemma uses_ordinal_dec f : {uses_ordinal f} + {~ uses_ordinal f}.
Proof.
  destruct (existsb ord_item (format_items (length f) f)) eqn:E; [left|right].
  - apply existsb_exists in E. destruct E as (i & I & E). destruct i; try discriminate.
    exists body. split; auto. cbn in E. now destruct (atoi _).
  - intros (body & I & H). assert (X : existsb ord_item (format_items (length f) f) = true).
    { apply existsb_exists. exists (FRef body). split; auto. cbn. now destruct (atoi _). }
    congruence.
Qed.

Section Names.
  Context (d : dialect) (val : bytes -> gval).

  (** ** Stage 1: trees without ordinals *)
  Definition okcmd (c : cmd) : Prop :=
    match c with
    | CText _ => True
    | CBind p _ => p = []
    | CParam name v => val name = v /\ atoi name = None
    | CNamedArg name v => val name = GNamedArg name v /\ atoi name = None
    | CDel ns => ns = []
    end.
  Definition pok1 (name : bytes) (v : gval) : Prop := val name = v /\ atoi name = None.
  Definition okfmt1 (f : bytes) (_ : list node) : Prop := ~ uses_ordinal f.
  Definition R1 (p : bytes) (m m' : M) : Prop := p = [] -> Forall okcmd (fst m).
  Let ok1 := node_ok True (fun _ => True) okfmt1 pok1.

  Lemma seq_forall (C : cmd -> Prop) m k :
    Forall C (fst m) -> Forall C (fst k) -> Forall C (fst (m ;; k)).
  Proof.
    intros H1 H2. unfold seq. destruct (snd m); cbn; auto. now apply Forall_app.
  Qed.
  Lemma sep_forall (C : cmd -> Prop) s ms : C (CText s) ->
    Forall (fun m => Forall C (fst m)) ms -> Forall C (fst (sep_by s ms)).
  Proof.
    intros Hs HX. destruct HX as [|m ms Hm HX]; [constructor|]. unfold sep_by. apply seq_forall; auto.
    induction HX; [constructor|]. cbn [map seqs]. repeat apply seq_forall; auto. repeat constructor; auto.
  Qed.
  Lemma ignore_fst m : fst (ignore_err m) = fst m.
  Proof. unfold ignore_err. now destruct (snd m). Qed.

  Lemma printf1 vals vals' e x fmt :
    Forall2 (kid_rel d eq R1) vals vals' -> ~ uses_ordinal fmt ->
    Forall okcmd (fst (bufprintf vals e x fmt)).
  Proof.
    intros H Hf. unfold bufprintf.
    assert (Hi : forall body, In (FRef body) (format_items (length fmt) fmt) -> atoi (ref_name body) = None).
    { intros body I. destruct (atoi (ref_name body)) eqn:E; auto. destruct Hf. exists body. split; auto. congruence. }
    clear Hf. revert Hi. generalize (format_items (length fmt) fmt). intros items.
    generalize 0 as running.
    induction items as [|it items IH]; intros running Hi; cbn [run_items].
    - constructor.
    - assert (Hr : forall body, In (FRef body) items -> atoi (ref_name body) = None).
      { intros body I. apply Hi. now right. }
      destruct it as [b|body|b|].
      + apply seq_forall; auto. repeat constructor.
      + destruct (ref_nameonly body); try constructor.
        destruct (resolve _ _ _) as [[i o]|] eqn:E; [|constructor].
        destruct (nth_error vals i) as [k|] eqn:N; [|constructor].
        specialize (Hi body (or_introl eq_refl)).
        assert (O : o = false).
        { apply resolve_cases in E. destruct E as [E|[(z & E & _)|E]]; try tauto. congruence. }
        subst o. apply seq_forall; auto.
        destruct (_ && _); [repeat constructor|].
        assert (K : exists k', kid_rel d eq R1 k k').
        { clear -H N. revert i N. induction H; intros [|i]; cbn; intros N; try discriminate; eauto.
          inversion N; subst; eauto. }
        destruct K as [k' K].
        apply resolve_cases in E. destruct E as [[E _]|[(z & E & _)|(_ & _ & vv & aa & E1 & E2)]].
        * rewrite E. now apply (kr_run _ _ _ _ _ K (mk_ctx _ [] _ _)).
        * congruence.
        * rewrite nth_error_map, N in E1. cbn in E1. inversion E1; subst vv.
          apply value_name_not_plain in E2.
          rewrite (kr_render _ _ _ _ _ K), render_name_irrel by (now apply not_plain_raw).
          rewrite <- (kr_render _ _ _ _ _ K). now apply (kr_run _ _ _ _ _ K (mk_ctx _ [] _ _)).
      + repeat constructor.
      + constructor.
  Qed.

  Lemma render1 n c : everywhere ok1 n -> c_name c = [] -> Forall okcmd (fst (render d n c)).
  Proof.
    intros HE Hc. revert Hc.
    refine (render_rel d eq R1 True (fun _ => True) okfmt1 pok1 _ _ _ _ _ _ _ _ _ _ _ _ _ _ _ false (fun H => False_ind _ (Bool.diff_false_true H)) n n c
      (sim_refl eq (fun v => eq_refl) n) HE); unfold R1; auto; try (intros; cbn; repeat constructor; auto; fail).
    - intros. apply seq_forall; auto.
    - intros. rewrite ignore_fst. auto.
    - intros name v v' _ E _ _. constructor; auto.
    - intros name v v' _ _ E _ _ _. constructor; auto.
    - intros. eapply printf1; eauto.
    - intros z (body & I & N). cbn in I. intuition; try discriminate. inversion H0; subst. now apply N.
    - intros z (body & I & N). cbn in I. intuition; try discriminate. inversion H0; subst. now apply N.
    - intros (body & I & N). cbn in I. intuition; try discriminate.
  Qed.

  Lemma well_named_ok1 n : everywhere (well_named_here val) n -> everywhere no_ordinals n -> everywhere ok1 n.
  Proof.
    intros H1 H2. pose proof (everywhere_and _ _ _ H1 H2) as H. revert H.
    apply everywhere_mono. clear. intros n [[HW _] HN]. unfold ok1, no_ordinals in *.
    destruct n; cbn in *; auto.
    - intros k f I. apply (HN f vals). apply in_map_iff. now exists (k, f).
    - apply (HN format vals). now left.
    - apply (HN format vals). now left.
    - intros k f I. apply (HN f []). apply in_map_iff. now exists (k, f).
    - intros k f I. apply (HN f []). apply in_map_iff. now exists (k, f).
    - apply (HN format vals). now left.
  Qed.

  (** ** Stage 2: all well-named trees *)
  Definition L_ok (L : live) : Prop :=
    forall name v, mget name L = Some v -> atoi name = None /\ v = val name.
  Definition Q2 (m : M) : Prop :=
    forall L, L_ok L -> exists L', sound L (fst m) L' /\ (snd m = SOk -> L_ok L').
  Definition R2 (p : bytes) (m m' : M) : Prop := p = [] -> Q2 m.
  Definition okfmt2 (f : bytes) (vals : list node) : Prop :=
    (uses_ordinal f -> Forall (everywhere ok1) vals).
  Definition okwin2 (fs : list node) : Prop := Forall (everywhere ok1) fs.
  Let ok2 := node_ok True okwin2 okfmt2 pok1.

  (** Live names while a format is being expanded. *)
  Definition L2 (vord : bytes -> gval) (ords : list bytes) (L : live) : Prop :=
    forall name v, mget name L = Some v ->
      (atoi name = None /\ v = val name) \/ (In name ords /\ atoi name <> None /\ v = vord name).

  Lemma okcmds_sound vord ords cs : Forall okcmd cs -> forall L, L2 vord ords L ->
    exists L', sound L cs L' /\ L2 vord ords L'.
  Proof.
    induction 1 as [|c cs Hc _ IH]; intros L HL; [exists L; split; auto; constructor|].
    assert (G : forall name v, val name = v -> atoi name = None ->
      (mget name L = None \/ mget name L = Some v) /\ L2 vord ords (mset name v L)).
    { intros name v E1 E2. split.
      - destruct (mget name L) as [w|] eqn:E; auto. right. destruct (HL _ _ E) as [[_ ->]|(_ & N & _)]; congruence.
      - intros n w. cbn. destruct (beqb n name) eqn:E; [|apply HL].
        apply beqb_eq in E. subst. intros [= <-]. auto. }
    destruct c as [b|p v|name v|name v|ns]; cbn in Hc.
    - destruct (IH L HL) as (L' & S1 & S2). exists L'. split; auto. now constructor.
    - subst p. destruct (IH L HL) as (L' & S1 & S2). exists L'. split; auto. now constructor.
    - destruct Hc as [E1 E2]. destruct (G _ _ E1 E2) as [G1 G2].
      destruct (IH _ G2) as (L' & S1 & S2). exists L'. split; auto. now constructor.
    - destruct Hc as [E1 E2]. destruct (G _ _ E1 E2) as [G1 G2].
      destruct (IH _ G2) as (L' & S1 & S2). exists L'. split; auto. now constructor.
    - subst ns. destruct (IH L HL) as (L' & S1 & S2). exists L'. split; auto. now constructor.
  Qed.

  Lemma L2_nil vord L : L2 vord [] L <-> L_ok L.
  Proof.
    split; intros H name v E.
    - destruct (H _ _ E) as [|[[] _]]; auto.
    - left. auto.
  Qed.
  Lemma Q2_okcmds m : Forall okcmd (fst m) -> Q2 m.
  Proof.
    intros H L HL. apply (L2_nil (fun _ => GNil)) in HL.
    destruct (okcmds_sound _ _ _ H _ HL) as (L' & S & HL'). exists L'. split; auto.
    intros _. now apply L2_nil in HL'.
  Qed.
  Lemma Q2_seq m k : Q2 m -> Q2 k -> Q2 (m ;; k).
  Proof.
    intros Hm Hk L HL. destruct (Hm L HL) as (L1 & S1 & O1). unfold seq.
    destruct (snd m); cbn; try (exists L1; split; auto; intros; discriminate).
    destruct (Hk L1 (O1 eq_refl)) as (L2' & S2 & O2). exists L2'. split; auto.
    eapply sound_app; eauto.
  Qed.

  Lemma kid_at (R : bytes -> M -> M -> Prop) vals vals' i k :
    Forall2 (kid_rel d eq R) vals vals' -> nth_error vals i = Some k -> exists k', kid_rel d eq R k k'.
  Proof.
    intros H. revert i. induction H; intros [|i]; cbn; intros N; try discriminate; eauto.
    inversion N; subst; eauto.
  Qed.

  (** A format without ordinals. *)
  Lemma printf2a vals vals' e x fmt :
    Forall2 (kid_rel d eq R2) vals vals' -> ~ uses_ordinal fmt -> Q2 (bufprintf vals e x fmt).
  Proof.
    intros H Hf. unfold bufprintf.
    assert (Hi : forall body, In (FRef body) (format_items (length fmt) fmt) -> atoi (ref_name body) = None).
    { intros body I. destruct (atoi (ref_name body)) eqn:E; auto. destruct Hf. exists body. split; auto. congruence. }
    clear Hf. revert Hi. generalize (format_items (length fmt) fmt). intros items.
    generalize 0 as running.
    induction items as [|it items IH]; intros running Hi; cbn [run_items].
    - apply Q2_okcmds. constructor.
    - assert (Hr : forall body, In (FRef body) items -> atoi (ref_name body) = None).
      { intros body I. apply Hi. now right. }
      destruct it as [b|body|b|].
      + apply Q2_seq; auto. apply Q2_okcmds. repeat constructor.
      + destruct (ref_nameonly body); try (apply Q2_okcmds; constructor).
        destruct (resolve _ _ _) as [[i o]|] eqn:E; [|apply Q2_okcmds; constructor].
        destruct (nth_error vals i) as [k|] eqn:N; [|apply Q2_okcmds; constructor].
        specialize (Hi body (or_introl eq_refl)).
        assert (O : o = false).
        { apply resolve_cases in E. destruct E as [E|[(z & E & _)|E]]; try tauto. congruence. }
        subst o. apply Q2_seq; auto.
        destruct (_ && _); [apply Q2_okcmds; repeat constructor|].
        destruct (kid_at _ _ _ _ _ H N) as [k' K].
        apply resolve_cases in E. destruct E as [[E _]|[(z & E & _)|(_ & _ & vv & aa & E1 & E2)]].
        * rewrite E. now apply (kr_run _ _ _ _ _ K (mk_ctx _ [] _ _)).
        * congruence.
        * rewrite nth_error_map, N in E1. cbn in E1. inversion E1; subst vv.
          apply value_name_not_plain in E2.
          rewrite (kr_render _ _ _ _ _ K), render_name_irrel by (now apply not_plain_raw).
          rewrite <- (kr_render _ _ _ _ _ K). now apply (kr_run _ _ _ _ _ K (mk_ctx _ [] _ _)).
      + apply Q2_okcmds. repeat constructor.
      + apply Q2_okcmds. constructor.
  Qed.

  (** Item lists end with FEnd or FPanic. *)
  Fixpoint closed_items (l : list fitem) : Prop :=
    match l with [] => False | [FEnd _] | [FPanic] => True | _ :: l' => closed_items l' end.
  Lemma closed_cons i l : closed_items l -> closed_items (i :: l).
  Proof. intros H. cbn. destruct i; auto; destruct l; auto; contradiction. Qed.
  Lemma format_items_closed fuel : forall f, closed_items (format_items fuel f).
  Proof.
    induction fuel as [|fuel IH]; intros f; cbn [format_items];
      destruct (index_byte "{" f) as [i|]; try exact I.
    destruct (nth_error f (S i)) as [c|]; [|exact I].
    destruct (Ascii.eqb c "{").
    - apply closed_cons, closed_cons, IH.
    - apply closed_cons. destruct (index_byte "}" _); [|exact I]. apply closed_cons, IH.
  Qed.

  Lemma printf2b vals vals' e x fmt :
    Forall2 (kid_rel d eq R2) vals vals' -> Forall (everywhere ok1) (map k_node vals) ->
    Q2 (bufprintf vals e x fmt).
  Proof.
    intros H HE L HL. unfold bufprintf.
    set (vord := fun name => match atoi name with
                             | Some z => match nth_error vals (Z.to_nat (z - 1)) with
                                         | Some k => match plain_raw (k_node k) with Some v => v | None => GNil end
                                         | None => GNil end
                             | None => GNil end).
    apply (L2_nil vord) in HL. revert L HL.
    pose proof (format_items_closed (length fmt) fmt) as HC. revert HC.
    generalize (format_items (length fmt) fmt). intros items HC.
    generalize 0 as running. generalize (@nil bytes) as ords.
    induction items as [|it items IH]; intros ords running L HL; [contradiction|].
    assert (HI : forall ords running L, (forall b, it <> FEnd b) -> it <> FPanic -> L2 vord ords L ->
       exists L', sound L (fst (run_items vals e x running ords items)) L' /\
         (snd (run_items vals e x running ords items) = SOk -> L_ok L')).
    { intros o r L0 N1 N2 HL0. apply IH; auto. cbn in HC.
      destruct it; auto; [now destruct (N1 b)|contradiction]. }
    clear IH HC. cbn [run_items].
    assert (G : forall cs m ords running (P : exists L1, sound L cs L1 /\ L2 vord ords L1),
       (forall b, it <> FEnd b) -> it <> FPanic -> fst m = cs ->
       exists L', sound L (fst (m ;; run_items vals e x running ords items)) L' /\
         (snd (m ;; run_items vals e x running ords items) = SOk -> L_ok L')).
    { intros cs m o r (L1 & S1 & S2) N1 N2 <-. unfold seq.
      destruct (snd m) eqn:Em; cbn; try (exists L1; split; auto; intros; congruence).
      destruct (HI o r L1 N1 N2 S2) as (L' & S3 & S4). exists L'. split; auto. eapply sound_app; eauto. }
    destruct it as [b|body|b|].
    - apply (G [CText b]); auto; try discriminate. exists L. split; auto. repeat constructor.
    - destruct (ref_nameonly body); try (exists L; split; [constructor|discriminate]).
      destruct (resolve _ _ _) as [[i o]|] eqn:E; [|exists L; split; [constructor|discriminate]].
      destruct (nth_error vals i) as [k|] eqn:N; [|exists L; split; [constructor|discriminate]].
      assert (HL' : L2 vord (if o then ords ++ [ref_name body] else ords) L).
      { destruct o; auto. intros n v En. destruct (HL _ _ En) as [|(I & A & Ev)]; auto.
        right. repeat split; auto. apply in_or_app; auto. }
      destruct (kid_at _ _ _ _ _ H N) as [k' K].
      assert (KE : everywhere ok1 (k_node k)).
      { apply nth_error_In in N. rewrite Forall_map, Forall_forall in HE. auto. }
      eapply G; try reflexivity; try discriminate.
      destruct (_ && _); [exists L; split; auto; repeat constructor|].
      rewrite (kr_render _ _ _ _ _ K).
      destruct (plain_raw (k_node k)) as [v|] eqn:EP.
      + rewrite (plain_raw_render _ _ _ _ EP). cbn [fst act c_name].
        apply resolve_cases in E. destruct E as [[E _]|[(z & E1 & E2 & E3 & E4)|(E1 & E2 & ww & aa & E3 & E4)]].
        * rewrite E in *. exists L. split; [apply s_bind0; constructor|]. exact HL'.
        * subst o. assert (EV : vord (ref_name body) = v).
          { unfold vord. rewrite E1, <- E3, N, EP. reflexivity. }
          destruct (mget (ref_name body) L) as [w|] eqn:EM.
          -- exists L. split; auto. apply s_bind_old; auto; [|constructor].
             destruct (HL _ _ EM) as [[X _]|(_ & _ & X)]; [congruence|]. now rewrite EM, X, EV.
          -- exists (mset (ref_name body) v L). split; [apply s_bind_new; auto; constructor|].
             intros n w. cbn. destruct (beqb n (ref_name body)) eqn:EB; [|apply HL'].
             apply beqb_eq in EB. subst n. intros [= <-]. right. repeat split; auto; [|congruence].
             apply in_or_app. right. now left.
        * rewrite nth_error_map, N in E3. cbn in E3. inversion E3; subst ww.
          apply value_name_not_plain in E4. congruence.
      + rewrite render_name_irrel by (now apply not_plain_raw).
        apply okcmds_sound; auto. apply render1; auto.
    - exists (fold_left (fun m n => mdel n m) ords L). split; [repeat constructor|].
      intros _ name v. rewrite mget_dels. destruct (existsb (beqb name) ords) eqn:EX; [discriminate|].
      intros EM. destruct (HL _ _ EM) as [|(I & _)]; auto.
      assert (X : existsb (beqb name) ords = true) by (apply existsb_exists; exists name; split; auto; apply beqb_refl).
      congruence.
    - exists L. split; [constructor|discriminate].
  Qed.

  Lemma render2 n c : everywhere ok2 n -> c_name c = [] -> Q2 (render d n c).
  Proof.
    intros HE Hc. revert Hc.
    refine (render_rel d eq R2 True okwin2 okfmt2 pok1 _ _ _ _ _ _ _ _ _ _ _ _ _ _ _ false (fun H => False_ind _ (Bool.diff_false_true H)) n n c
      (sim_refl eq (fun v => eq_refl) n) HE); unfold R2; auto;
      try (intros; apply Q2_okcmds; cbn; repeat constructor; auto; fail).
    - intros. apply Q2_seq; auto.
    - intros fs fs' HF HEv HW _ _. apply Q2_okcmds. rewrite ignore_fst. unfold fields_run.
      clear -HF HW. assert (X : Forall (fun m => Forall okcmd (fst m)) (map (fun f => k_run f (ctx None [])) fs)).
      { unfold okwin2 in HW. rewrite Forall_map in HW. apply Forall_map.
        induction HF as [|k k' l l' K _ IH]; constructor.
        - rewrite (kr_render _ _ _ _ _ K). apply render1; auto. now inversion HW.
        - apply IH. now inversion HW. }
      revert X. generalize (map (fun f => k_run f (ctx None [])) fs). clear. intros ms HX.
      now apply sep_forall.
    - intros name v v' _ E _ _. apply Q2_okcmds. constructor; auto.
    - intros name v v' _ _ E _ _ _. apply Q2_okcmds. constructor; auto.
    - intros vals vals' e x fmt HF HEv HO _. destruct (uses_ordinal_dec fmt) as [U|U].
      + eapply printf2b; eauto.
      + eapply printf2a; eauto.
    - intros z _. repeat constructor.
    - intros z _. repeat constructor.
    - intros _. constructor.
  Qed.

  Lemma conj_list_Forall (P : node -> Prop) l : conj_list (map P l) <-> Forall P l.
  Proof.
    induction l; cbn; split; intros H; auto.
    - constructor; tauto.
    - inversion H; tauto.
  Qed.
  Lemma well_named_ok2 n : well_named val n -> everywhere ok2 n.
  Proof.
    unfold well_named. induction n using node_sub_ind. intros HW.
    rewrite everywhere_unfold in *. destruct HW as [[HW HF] HS]. split.
    2: { now apply (sub_all_mp (everywhere (well_named_here val))). }
    clear H.
    assert (U : forall f vals, In (f, vals) (formats_of n) ->
              conj_list (map (everywhere (well_named_here val)) vals) -> okfmt2 f vals).
    { intros f vals I HC Hu. specialize (HF _ _ I Hu). rewrite conj_list_Forall in HC.
      rewrite Forall_forall in *. intros v Iv. apply well_named_ok1; auto. }
    unfold ok2. destruct n; cbn in *; auto.
    - intros k f I. apply U; auto. apply in_map_iff. now exists (k, f).
    - intros k f I. apply U; cbn; auto. apply in_map_iff. now exists (k, f).
    - intros k f I. apply U; cbn; auto. apply in_map_iff. now exists (k, f).
    - destruct HS as [S1 S2], HW as [W1 W2]. rewrite conj_list_Forall in *. unfold okwin2.
      rewrite Forall_forall in S1, S2, W1, W2.
      split; apply Forall_forall; intros v Iv; apply well_named_ok1; auto.
  Qed.
End Names.
