(** * RenderRel: a relational (logical-relation) theorem about rendering.

    If a relation [R] between results is respected by the primitive effects
    and by sequencing, then rendering two similar trees gives related results.
    All properties that say "for every tree, the produced effects satisfy ..."
    are instances. *)
From Verif Require Import GoBase QuoteModel SprintModel TokenModel EffectModel RenderModel
  NodeInd SpecSim.
Local Open Scope m_scope.

(** The [mk] of [render]. *)
Definition hook_of (d : dialect) (v : node) (e' : option env) : hookres (node * runner) :=
  match v with
  | NTable _ _ _ (Some h) =>
    match h e' with
    | HErr => HErr
    | HNil => HNil
    | HPred p => if is_nil p then HNil else HPred (p, render d p)
    end
  | _ => HNil
  end.
Definition mk (d : dialect) (v : node) : kid := mk_kid v (render d v) (hook_of d v).

Lemma Forall2_length' {A C} (R : A -> C -> Prop) l l' : Forall2 R l l' -> length l = length l'.
Proof. induction 1; cbn; congruence. Qed.
Lemma Forall2_map {A C A' C'} (R : A' -> C' -> Prop) (f : A -> A') (g : C -> C') l l' :
  Forall2 (fun a c => R (f a) (g c)) l l' -> Forall2 R (map f l) (map g l').
Proof. induction 1; cbn; constructor; auto. Qed.
Lemma Forall2_imp {A C} (R S : A -> C -> Prop) l l' :
  (forall a c, R a c -> S a c) -> Forall2 R l l' -> Forall2 S l l'.
Proof. intros H; induction 1; constructor; auto. Qed.
Lemma Forall2_eq_map {A C E} (f : A -> E) (g : C -> E) l l' :
  Forall2 (fun a c => f a = g c) l l' -> map f l = map g l'.
Proof. induction 1; cbn; congruence. Qed.
Lemma Forall2_nil_test {A C} (R : A -> C -> Prop) l l' : Forall2 R l l' ->
  match l with [] => true | _ => false end = match l' with [] => true | _ => false end.
Proof. now destruct 1. Qed.

(** What the library can observe of a component without rendering it. *)
Record same_tests (n n' : node) : Prop := mk_same {
  st_nil : is_nil n = is_nil n'; st_vpred : is_vpred n = is_vpred n';
  st_vquery : is_vquery n = is_vquery n'; st_query : is_query n = is_query n';
  st_fot : is_field_or_table n = is_field_or_table n';
  st_alias : get_alias n = get_alias n'; st_name : get_name n = get_name n';
  st_vname : value_name n = value_name n' }.

Definition rawish (n : node) : bool := match n with NRaw _ | NSlice _ => true | _ => false end.

Section SimFacts.
  Context (fills : bool) (V : gval -> gval -> Prop).
  Lemma sim_alias n : forall n', gsim fills V n n' -> get_alias n = get_alias n'.
  Proof.
    induction n using node_sub_ind; intros n' S; inversion S; subst; cbn in *; auto;
      try (now (destruct H0; congruence)); try (now destruct H0).
    now rewrite (H _ H0).
  Qed.
  Lemma sim_name n : forall n', gsim fills V n n' -> get_name n = get_name n'.
  Proof.
    induction n using node_sub_ind; intros n' S; inversion S; subst; cbn in *; auto; now destruct H0.
  Qed.
  Lemma sim_same n n' : gsim fills V n n' -> same_tests n n'.
  Proof.
    intros S; constructor; try (now apply sim_alias); try (now apply sim_name);
      inversion S; subst; cbn; auto; destruct v, v'; cbn in *; tauto.
  Qed.
End SimFacts.

Section Rel.
  Context (d : dialect) (V : gval -> gval -> Prop) (R : bytes -> M -> M -> Prop).
  Context (crash_ok : Prop) (okwin : list node -> Prop) (okfmt : bytes -> list node -> Prop)
          (pok : bytes -> gval -> Prop).
  Local Notation R0 := (R []).

  (** A bound value is related to a bound value. *)
  Record raw_rel (n n' : node) : Prop := mk_raw_rel {
    rr_rawish : rawish n = rawish n';
    rr_of : rawish n = true -> V (raw_of n) (raw_of n');
    rr_raw : forall v, n = NRaw v -> exists v', n' = NRaw v' /\ V v v';
    rr_back : forall v', n' = NRaw v' -> exists v, n = NRaw v }.

  Record kid_rel (k k' : kid) : Prop := mk_kid_rel {
    kr_tests : same_tests (k_node k) (k_node k');
    kr_render : forall c, k_run k c = render d (k_node k) c;
    kr_raw : raw_rel (k_node k) (k_node k');
    kr_run : forall c, R (c_name c) (k_run k c) (k_run k' c);
    kr_hook : forall e, hook_rel (fun p q => is_nil (fst p) = is_nil (fst q) /\
                          is_vpred (fst p) = is_vpred (fst q) /\
                          forall c, R (c_name c) (snd p c) (snd q c)) (k_hook k e) (k_hook k' e) }.

  (** The condition a tree has to meet at each node. *)
  Definition node_ok (n : node) : Prop :=
    match n with
    | NRaw (GNamedArg name v) => pok name (GNamedArg name v)
    | NParam name (NRaw v) => pok name v
    | NField _ _ fi vals => forall k f, In (k, f) (fi_formats fi) -> okfmt f vals
    | NCTEField _ _ fi | NSubField _ _ fi => forall k f, In (k, f) (fi_formats fi) -> okfmt f []
    | NPred _ f vals _ | NTablef f vals | NQueryf _ f vals => okfmt f vals
    | NSubquery q => crash_ok \/ sb_query q <> None
    | NDelete q => crash_ok \/ ~ In None (dq_tables q)
    | NWindow p o _ => okwin p /\ okwin o
    | _ => True
    end.

  Context
    (V_refl : forall v, V v v)
    (R_weak : forall p m m', R0 m m' -> R p m m')
    (R_ret : R0 ret ret) (R_fail : R0 fail fail) (R_crash : crash_ok -> R0 crash crash)
    (R_emit : forall b, R0 (emit b) (emit b))
    (R_seq : forall m m' k k', R0 m m' -> R0 k k' -> R0 (m ;; k) (m' ;; k'))
    (R_win : forall fs fs', Forall2 kid_rel fs fs' -> Forall (everywhere node_ok) (map k_node fs) ->
                 okwin (map k_node fs) -> R0 (fields_run fs None []) (fields_run fs' None []) ->
                 R0 (ignore_err (fields_run fs None [])) (ignore_err (fields_run fs' None [])))
    (R_bind : forall p v v', V v v' -> R p (act (CBind p v)) (act (CBind p v')))
    (R_param : forall name v v', V v v' -> pok name v -> name <> [] ->
                 R0 (act (CParam name v)) (act (CParam name v')))
    (R_named : forall name v v', V (GNamedArg name v) (GNamedArg name v') -> V v v' ->
                 pok name (GNamedArg name v) ->
                 is_postgres d || is_mysql d = false -> name <> [] ->
                 R0 (act (CNamedArg name v)) (act (CNamedArg name v')))
    (R_printf : forall vals vals' e x fmt, Forall2 kid_rel vals vals' ->
                 Forall (everywhere node_ok) (map k_node vals) ->
                 okfmt fmt (map k_node vals) ->
                 R0 (bufprintf vals e x fmt) (bufprintf vals' e x fmt))
    (ok_limit : forall z, okfmt (B " LIMIT {}") [NRaw (GInt z)])
    (ok_offset : forall z, okfmt (B " OFFSET {}") [NRaw (GInt z)])
    (ok_true : okfmt (B "TRUE") []).

  Local Hint Resolve R_ret R_fail R_emit R_seq : rel.

  Lemma R_when b m m' : R0 m m' -> R0 (when b m) (when b m').
  Proof. destruct b; cbn; auto. Qed.
  Lemma R_seqs ms ms' : Forall2 R0 ms ms' -> R0 (seqs ms) (seqs ms').
  Proof. induction 1; cbn; auto. Qed.
  Lemma R_sep s ms ms' : Forall2 R0 ms ms' -> R0 (sep_by s ms) (sep_by s ms').
  Proof.
    destruct 1 as [|m m' l l' H Hl]; cbn; auto. apply R_seq; auto. apply R_seqs.
    apply Forall2_map. eapply Forall2_imp; [|exact Hl]. intros; apply R_seq; auto.
  Qed.
  Local Hint Resolve R_when R_sep : rel.

  Lemma kid_run0 k k' t e x : kid_rel k k' -> R0 (k_run k (mk_ctx t [] e x)) (k_run k' (mk_ctx t [] e x)).
  Proof. intros H. exact (kr_run _ _ H (mk_ctx t [] e x)). Qed.
  Lemma kid_run_ctx k k' e x : kid_rel k k' -> R0 (k_run k (ctx e x)) (k_run k' (ctx e x)).
  Proof. intros H. exact (kr_run _ _ H (ctx e x)). Qed.
  Local Hint Resolve kid_run0 kid_run_ctx : rel.

  Lemma R_map {A C} (S : A -> C -> Prop) (f : A -> M) (g : C -> M) l l' :
    Forall2 S l l' -> (forall a c, S a c -> R0 (f a) (g c)) -> Forall2 R0 (map f l) (map g l').
  Proof. intros H1 H2. apply Forall2_map. eapply Forall2_imp; eauto. Qed.

  Lemma k_alias_eq k k' : kid_rel k k' -> k_alias k = k_alias k'.
  Proof. intros H. apply (st_alias _ _ (kr_tests _ _ H)). Qed.

  (** Clauses present on both sides or on neither. *)
  Ltac tests H :=
    let T := fresh "T" in pose proof (kr_tests _ _ H) as T;
    rewrite ?(st_nil _ _ T), ?(st_vpred _ _ T), ?(st_vquery _ _ T), ?(st_query _ _ T),
            ?(st_fot _ _ T), ?(st_name _ _ T), ?(k_alias_eq _ _ H); clear T.

  Lemma fields_rel fs fs' e x : Forall2 kid_rel fs fs' -> R0 (fields_run fs e x) (fields_run fs' e x).
  Proof. intros H. apply R_sep. eapply R_map; eauto with rel. Qed.
  Local Hint Resolve fields_rel : rel.

  Lemma alias_fields_rel fs fs' e x :
    Forall2 kid_rel fs fs' -> R0 (alias_fields_run d fs e x) (alias_fields_run d fs' e x).
  Proof.
    intros H. apply R_sep. eapply R_map; eauto. cbn beta. intros a c K. tests K.
    destruct (is_nil (k_node c)); eauto with rel.
  Qed.
  Local Hint Resolve alias_fields_rel : rel.

  Lemma assign_rel l l' r r' e x : kid_rel l l' -> kid_rel r r' ->
    R0 (assign_run l r e x) (assign_run l' r' e x).
  Proof.
    intros H1 H2. unfold assign_run. tests H2. destruct (is_query _); eauto 8 with rel.
  Qed.
  Lemma assigns_rel l l' x : Forall2 (pair_rel kid_rel) l l' -> R0 (assigns_run l x) (assigns_run l' x).
  Proof.
    intros H. apply R_sep. eapply R_map; eauto. intros a c [K1 K2]. now apply assign_rel.
  Qed.
  Local Hint Resolve assign_rel assigns_rel : rel.

  Definition run_rel (r r' : runner) : Prop := forall e x, R0 (r (ctx e x)) (r' (ctx e x)).
  Lemma row_rel vs vs' e x : Forall2 run_rel vs vs' -> R0 (row_run vs e x) (row_run vs' e x).
  Proof.
    intros H. unfold row_run. apply R_seq; [auto|]. apply R_seq; [|auto]. apply R_sep.
    eapply R_map; eauto.
  Qed.
  Lemma rows_rel rows rows' : Forall2 (Forall2 run_rel) rows rows' -> R0 (rows_run rows) (rows_run rows').
  Proof. intros H. apply R_sep. eapply R_map; eauto. intros; now apply row_rel. Qed.
  Local Hint Resolve row_rel rows_rel : rel.

  Lemma pick_formats_in l : forall a b df f,
    pick_formats d l a b = (df, Some f) ->
    (In f (map snd l) \/ b = Some f) /\
    (forall g, df = Some g -> In g (map snd l) \/ a = Some g).
  Proof.
    induction l as [|[k g] l IH]; cbn [pick_formats map snd In]; intros a b df f E.
    - inversion E; subst. intuition.
    - destruct (beqb k (B "default")).
      + apply IH in E. destruct E as [E1 E2]. split.
        * destruct E1 as [?|E1]; auto. inversion E1; auto.
        * intros g' Hg. destruct (E2 _ Hg); auto.
      + destruct (beqb k (dialect_name d)); apply IH in E; destruct E as [E1 E2]; split.
        * destruct E1 as [?|E1]; auto.
        * intros g' Hg. destruct (E2 _ Hg) as [?|E3]; auto. inversion E3; auto.
        * destruct E1 as [?|E1]; auto.
        * intros g' Hg. destruct (E2 _ Hg) as [?|E3]; auto.
  Qed.

  Lemma field_rel fi vals vals' e x : Forall2 kid_rel vals vals' ->
    Forall (everywhere node_ok) (map k_node vals) ->
    (forall k f, In (k, f) (fi_formats fi) -> okfmt f (map k_node vals)) ->
    R0 (field_run d fi vals e x) (field_run d fi vals' e x).
  Proof.
    intros H HE Hf. unfold field_run. destruct (fi_err fi); auto.
    apply R_seq.
    - destruct (fi_formats fi) as [|kf l] eqn:E.
      + apply R_seq; auto using R_when.
      + destruct (pick_formats d (kf :: l) None None) as [df [def|]] eqn:P; auto.
        apply pick_formats_in in P. destruct P as [P1 P2].
        apply R_printf; auto.
        destruct df as [g|].
        * destruct (P2 g eq_refl) as [G|]; [|discriminate]. apply in_map_iff in G.
          destruct G as [[k g'] [<- G]]. now apply (Hf k).
        * destruct P1 as [G|]; [|discriminate]. apply in_map_iff in G.
          destruct G as [[k g'] [<- G]]. now apply (Hf k).
    - apply R_seq; auto with rel. apply R_seq; auto with rel.
      + destruct (fi_desc fi) as [[]|]; auto.
      + destruct (fi_nulls fi) as [[]|]; auto.
  Qed.

  Lemma raw_of_sim fills n n' : gsim fills V n n' -> rawish n = true -> V (raw_of n) (raw_of n').
  Proof. intros S E. inversion S; subst; cbn in *; auto; discriminate. Qed.
  Lemma raw_rel_sim fills n n' : gsim fills V n n' -> raw_rel n n'.
  Proof.
    intros S. constructor; [now inversion S|now apply (raw_of_sim fills)| |].
    - intros v ->. inversion S; subst; eauto.
    - intros v' ->. inversion S; subst; eauto.
  Qed.

  Lemma explode_rel vs vs' x : Forall2 kid_rel vs vs' -> R0 (explode_run vs x) (explode_run vs' x).
  Proof.
    intros H. apply R_sep. eapply R_map; eauto. cbn beta. intros a c K.
    pose proof (kr_raw _ _ K) as S. pose proof (rr_of _ _ S) as W.
    destruct (rawish (k_node a)) eqn:E.
    - assert (E' : rawish (k_node c) = true) by (rewrite <- (rr_rawish _ _ S); auto).
      destruct (k_node a); try discriminate; destruct (k_node c); try discriminate;
        apply R_bind; auto.
    - assert (E' : rawish (k_node c) = false) by (rewrite <- (rr_rawish _ _ S); auto).
      pose proof (kid_run_ctx _ _ None x K).
      destruct (k_node a); try discriminate; destruct (k_node c); try discriminate; auto.
  Qed.

  Lemma param_rel name v v' x : kid_rel v v' -> node_ok (NParam name (k_node v)) ->
    R0 (param_run name v x) (param_run name v' x).
  Proof.
    intros K O. unfold param_run. destruct (is_empty name) eqn:E; auto.
    assert (name <> []) by (intros ->; discriminate).
    pose proof (kr_raw _ _ K) as S. pose proof (kid_run_ctx _ _ None x K) as W.
    cbn in O. pose proof (rr_raw _ _ S) as F. pose proof (rr_back _ _ S) as G.
    destruct (k_node v) as [g| | | | | | | | | | | | | | | | | | | | | | | | | | |].
    { destruct (F g eq_refl) as (g' & -> & Vg). now apply R_param. }
    all: destruct (k_node v') as [g'| | | | | | | | | | | | | | | | | | | | | | | | | | |];
      [now destruct (G g' eq_refl)|auto ..].
  Qed.

  Lemma case_tail_rel cs cs' f f' e x :
    Forall2 (pair_rel kid_rel) cs cs' -> opt_rel kid_rel f f' ->
    R0 (case_tail cs f e x) (case_tail cs' f' e x).
  Proof.
    intros H1 H2. unfold case_tail. apply R_seq; [|apply R_seq; auto].
    - apply R_seqs. eapply R_map; eauto. intros a c [K1 K2]. auto 10 with rel.
    - destruct H2 as [|a c K]; auto. tests K. destruct (is_nil _); auto with rel.
  Qed.

  Definition nr_rel (p q : node * runner) : Prop :=
    is_nil (fst p) = is_nil (fst q) /\ is_vpred (fst p) = is_vpred (fst q) /\
    forall c, R (c_name c) (snd p c) (snd q c).
  Lemma k_pair_rel k k' : kid_rel k k' -> nr_rel (k_pair k) (k_pair k').
  Proof.
    intros K. unfold nr_rel, k_pair; cbn. tests K. repeat split. apply (kr_run _ _ K).
  Qed.
  Lemma vpred_run_rel top or neg ps ps' x : Forall2 nr_rel ps ps' ->
    R0 (vpred_run top or neg ps x) (vpred_run top or neg ps' x).
  Proof.
    intros H. unfold vpred_run. destruct H as [|[p r] [p' r'] l l' H0 Hl]; auto.
    destruct Hl as [|pr pr' l l' H1 Hl].
    - destruct H0 as (N & P & K); cbn in N, P, K. rewrite N, P.
      apply R_seq; auto with rel. destruct (is_nil p'); auto.
      destruct (is_vpred p').
      + apply R_seq; auto with rel. apply R_seq; auto with rel. exact (K (mk_ctx _ [] _ _)).
      + exact (K (ctx None x)).
    - apply R_seq; auto with rel. apply R_seq; auto with rel. apply R_seq; auto with rel.
      apply R_sep. eapply (R_map nr_rel); [constructor; [exact H0|constructor; [exact H1|exact Hl]]|].
      intros [a r0] [c r1] (N & P & K). cbn [fst snd] in *. rewrite N. destruct (is_nil c); auto. exact (K (ctx None x)).
  Qed.

  Lemma k_pairs_rel l l' : Forall2 kid_rel l l' -> Forall2 nr_rel (map k_pair l) (map k_pair l').
  Proof. intros H. apply Forall2_map. eapply Forall2_imp; [|exact H]. apply k_pair_rel. Qed.

  Lemma clause_rel p p' x : vpred_rel kid_rel p p' -> R0 (clause_run p x) (clause_run p' x).
  Proof.
    intros [H1 H2 H3 H4 H5]. unfold clause_run. rewrite H3, H5.
    apply vpred_run_rel. now apply k_pairs_rel.
  Qed.
  Lemma as_alias_rel k k' : kid_rel k k' -> R0 (as_alias d (k_alias k)) (as_alias d (k_alias k')).
  Proof. intros K. rewrite (k_alias_eq _ _ K). unfold as_alias. auto with rel. Qed.
  Local Hint Resolve clause_rel as_alias_rel : rel.

  Lemma join_rel_run j j' : join_rel kid_rel j j' -> R0 (join_run d j) (join_run d j').
  Proof.
    intros [H1 H2 H3]. unfold join_run. rewrite H1.
    pose proof (Forall2_nil_test _ _ _ (vr_preds _ _ _ H3)) as ->.
    destruct (_ && _); auto. destruct (is_sqlite d && _); auto.
    apply R_seq; auto. destruct H2 as [|a c K]; auto.
    rewrite (k_alias_eq _ _ K). auto 10 with rel.
  Qed.
  Lemma joins_rel l l' : Forall2 (join_rel kid_rel) l l' -> R0 (joins_run d l) (joins_run d l').
  Proof. intros H. apply R_sep. eapply R_map; eauto. apply join_rel_run. Qed.
  Local Hint Resolve joins_rel : rel.

  Lemma cte_def_rel c c' : cte_rel kid_rel c c' -> R0 (cte_def_run d c) (cte_def_run d c').
  Proof.
    intros [H1 H2 H3 H4 H5 H6 H7 H8 H9]. unfold cte_def_run.
    rewrite H2, H4, H5, H7, H9.
    destruct (cte_err c'); auto. destruct (is_empty _); auto.
    repeat (apply R_seq; auto with rel).
    - destruct (cte_mat c') as [[]|]; auto with rel.
    - destruct H1 as [|a b K]; auto. tests K. auto with rel.
  Qed.
  Lemma with_rel l l' : Forall2 (cte_rel kid_rel) l l' -> R0 (with_clause d l) (with_clause d l').
  Proof.
    intros H. unfold with_clause. assert (E : existsb cte_rec l = existsb cte_rec l').
    { clear -H. induction H as [|a c l l' K _ IH]; cbn; auto. now rewrite (cr_rec _ _ _ K), IH. }
    assert (W : R0 (ctes_run d l) (ctes_run d l')).
    { unfold ctes_run. rewrite E. apply R_seq; auto. apply R_seq; auto. apply R_sep.
      eapply R_map; eauto. apply cte_def_rel. }
    destruct H; auto.
  Qed.
  Local Hint Resolve with_rel : rel.

  Lemma hooks_rel ts ts' e : Forall2 (opt_rel kid_rel) ts ts' ->
    opt_rel (Forall2 nr_rel) (hooks_run ts e) (hooks_run ts' e).
  Proof.
    induction 1 as [|t t' l l' H _ IH]; cbn; [repeat constructor|].
    destruct H as [|a c K]; auto.
    destruct (kr_hook _ _ K e) as [| |p q Hpq]; auto; [constructor|].
    destruct IH; constructor. constructor; auto.
  Qed.

  Lemma where_rel o o' w w' : opt_rel (Forall2 nr_rel) o o' -> vpred_rel kid_rel w w' ->
    R0 (where_run o w) (where_run o' w').
  Proof.
    intros Ho Hw. unfold where_run. destruct Ho as [|ps ps' Hps]; auto.
    pose proof Hw as Hc. destruct Hw as [H1 H2 H3 H4 H5].
    assert (W : Forall2 nr_rel
      [(NVPred (vpred_map k_node w),
        fun c => vpred_run (match c_top c with Some b => b | None => vp_top w end)
                   (vp_or w) (vp_neg w) (map k_pair (vp_preds w)) (c_excl c))]
      [(NVPred (vpred_map k_node w'),
        fun c => vpred_run (match c_top c with Some b => b | None => vp_top w' end)
                   (vp_or w') (vp_neg w') (map k_pair (vp_preds w')) (c_excl c))]).
    { constructor; [|constructor]. repeat split. intros c. cbn. rewrite H1, H3, H5.
      apply R_weak. apply vpred_run_rel. now apply k_pairs_rel. }
    destruct Hps as [|p p' l l' Hp Hl].
    - pose proof (clause_rel _ _ [] Hc). destruct H4; auto.
    - apply R_seq; auto. apply vpred_run_rel.
      apply Forall2_app; auto.
  Qed.

  Lemma pred_clause_rel kw p p' : vpred_rel kid_rel p p' -> R0 (pred_clause kw p) (pred_clause kw p').
  Proof.
    intros H. pose proof (clause_rel _ _ [] H) as W. unfold pred_clause.
    destruct (vr_preds _ _ _ H); auto.
  Qed.
  Lemma fields_clause_rel kw l l' e : Forall2 kid_rel l l' ->
    R0 (fields_clause kw l e) (fields_clause kw l' e).
  Proof.
    intros H. pose proof (fields_rel _ _ e [] H) as W. unfold fields_clause. destruct H; auto.
  Qed.
  Lemma returning_rel l l' e : Forall2 kid_rel l l' ->
    R0 (returning_clause d l e) (returning_clause d l' e).
  Proof.
    intros H. pose proof (alias_fields_rel _ _ e [] H) as W. unfold returning_clause.
    destruct H; auto. destruct (_ && _); auto.
  Qed.
  Lemma int_kid_rel z z' : V (GInt z) (GInt z') -> kid_rel (int_kid z) (int_kid z').
  Proof.
    intros H. constructor; cbn; auto.
    - constructor; auto.
    - apply (raw_rel_sim false). apply sim_raw; cbn; auto.
    - constructor.
  Qed.
  Lemma int_clause_rel fmt o o' e : lim_rel V o o' -> (forall z, okfmt fmt [NRaw (GInt z)]) ->
    R0 (int_clause fmt o e) (int_clause fmt o' e).
  Proof.
    intros H Hf. unfold int_clause. destruct H as [|z z' H]; auto.
    apply R_printf; [constructor; [now apply int_kid_rel|constructor] | |apply Hf].
    constructor; [|constructor]. split; exact I.
  Qed.
  Lemma fields_clause0 kw l l' e : Forall2 kid_rel l l' ->
    R0 (fields_clause kw l e) (fields_clause kw l' e).
  Proof. apply fields_clause_rel. Qed.
  Local Hint Resolve where_rel hooks_rel pred_clause_rel fields_clause_rel returning_rel
    int_clause_rel : rel.

  Lemma joins_tables l l' : Forall2 (join_rel kid_rel) l l' ->
    Forall2 (opt_rel kid_rel) (map jn_table l) (map jn_table l').
  Proof. intros H. apply Forall2_map. eapply Forall2_imp; [|exact H]. intros a c K. apply K. Qed.
  Local Hint Resolve joins_tables : rel.

  Lemma from_rel kw e o o' : opt_rel kid_rel o o' ->
    R0 match o with None => ret | Some t => emit kw ;; k_run t (ctx e []) ;; as_alias d (k_alias t) end
       match o' with None => ret | Some t => emit kw ;; k_run t (ctx e []) ;; as_alias d (k_alias t) end.
  Proof. intros [|a c K]; auto with rel. Qed.

  Lemma select_rel_run q q' e : select_rel V kid_rel q q' -> R0 (select_run d q e) (select_run d q' e).
  Proof.
    intros [H1 H2 H3 H4 H5 H6 H7 H8 H9 H10 H11 H12 H13 H14]. unfold select_run. cbn zeta.
    rewrite H2, H4.
    apply R_seq; auto with rel. apply R_seq; auto.
    apply R_seq.
    { pose proof (fields_rel _ _ (pick_env e (sq_env q')) [] H6) as W.
      destruct H6; auto with rel. destruct (negb _); auto. destruct (sq_distinct q'); auto.  }
    apply R_seq.
    { pose proof (alias_fields_rel _ _ (pick_env e (sq_env q')) [] H5) as W.
      destruct H5; auto. }
    apply R_seq. { now apply from_rel. }
    apply R_seq. { pose proof (joins_rel _ _ H8). destruct H8; auto. destruct H7; auto. }
    apply R_seq. { apply where_rel; auto. apply hooks_rel. constructor; auto with rel. }
    repeat (apply R_seq; auto with rel).
  Qed.

  Lemma true_kid_rel : kid_rel true_kid true_kid.
  Proof.
    constructor.
    - constructor; auto.
    - reflexivity.
    - apply (raw_rel_sim false). apply sim_pred. constructor.
    - intros c. apply R_weak. unfold true_kid, k_run. apply R_printf; auto; constructor.
    - intros e. constructor.
  Qed.
  Lemma where_true_rel q q' : select_rel V kid_rel q q' -> select_rel V kid_rel (where_true q) (where_true q').
  Proof.
    intros [H1 H2 H3 H4 H5 H6 H7 H8 [P1 P2 P3 P4 P5] H10 H11 H12 H13 H14].
    constructor; cbn; auto. constructor; cbn; auto. constructor; [apply true_kid_rel|constructor].
  Qed.

  Lemma own_qualifier_rel k k' : kid_rel k k' -> own_qualifier k = own_qualifier k'.
  Proof.
    intros K. unfold own_qualifier. tests K. reflexivity.
  Qed.

  Lemma k_run_rel k k' : kid_rel k k' -> run_rel (k_run k) (k_run k').
  Proof. intros K e x. auto with rel. Qed.

  Lemma append_last_rel {A C} (S : A -> C -> Prop) rows rows' v v' :
    Forall2 (Forall2 S) rows rows' -> S v v' ->
    Forall2 (Forall2 S) (append_last rows v) (append_last rows' v').
  Proof.
    intros H Hv. induction H as [|r r' l l' H Hl IH]; cbn; [constructor|].
    destruct Hl.
    - constructor; [|constructor]. apply Forall2_app; auto.
    - constructor; auto.
  Qed.
  Record col_rel (c c' : column kid runner) : Prop := mk_col_rel {
    xr_started : col_started c = col_started c'; xr_ended : col_ended c = col_ended c';
    xr_first : col_first c = col_first c';
    xr_fields : Forall2 kid_rel (col_fields c) (col_fields c');
    xr_rows : Forall2 (Forall2 run_rel) (col_rows c) (col_rows c') }.
  Lemma col_set_rel c c' name f f' v v' : col_rel c c' -> kid_rel f f' -> run_rel v v' ->
    col_rel (col_set c name f v) (col_set c' name f' v').
  Proof.
    intros [H1 H2 H3 H4 H5] Kf Kv. unfold col_set. rewrite H1, H3, H2.
    assert (Forall2 kid_rel (col_fields c ++ [f]) (col_fields c' ++ [f'])) by (apply Forall2_app; auto).
    assert (Forall2 (Forall2 run_rel) (col_rows c ++ [[v]]) (col_rows c' ++ [[v']]))
      by (apply Forall2_app; auto).
    destruct (negb (col_started c')); [|destruct (beqb _ _)]; constructor; cbn; auto.
    - destruct (col_ended c'); auto.
    - now apply append_last_rel.
  Qed.
  Lemma col_run_rel calls calls' : Forall2 (pair_rel kid_rel) calls calls' ->
    col_rel (col_run (map (fun c => (get_name (k_node (fst c)), fst c, k_run (snd c))) calls))
            (col_run (map (fun c => (get_name (k_node (fst c)), fst c, k_run (snd c))) calls')).
  Proof.
    intros H. unfold col_run.
    assert (G : col_rel col_init col_init) by (constructor; cbn; auto).
    revert G. generalize (@col_init kid runner) at 1 3. generalize (@col_init kid runner).
    induction H as [|p p' l l' [K1 K2] _ IH]; intros c' c G; cbn; auto.
    apply IH. tests K1. apply col_set_rel; auto. now apply k_run_rel.
  Qed.

  Lemma insert_source_rel q q' : insert_rel V kid_rel q q' ->
    opt_rel (fun s s' => Forall2 kid_rel (fst s) (fst s') /\ Forall2 (Forall2 run_rel) (snd s) (snd s'))
      (insert_source q) (insert_source q').
  Proof.
    intros H. unfold insert_source. destruct (ir_mapper _ _ _ _ H) as [|[calls err] [calls' err'] [Hc He]].
    - constructor. cbn. split; [apply H|]. apply Forall2_map.
      eapply Forall2_imp; [|apply H]. intros a c Hac. apply Forall2_map.
      eapply Forall2_imp; [|exact Hac]. intros; now apply k_run_rel.
    - cbn in *. subst err'. destruct err; constructor. cbn.
      destruct (col_run_rel _ _ Hc); auto.
  Qed.

  Lemma conflict_rel q q' e x : insert_rel V kid_rel q q' ->
    R0 (conflict_run d q e x) (conflict_run d q' e x).
  Proof.
    intros H. unfold conflict_run.
    pose proof (ir_constraint _ _ _ _ H) as ->. pose proof (ir_nothing _ _ _ _ H) as ->.
    pose proof (ir_cfields _ _ _ _ H) as Hc. pose proof (ir_resolution _ _ _ _ H) as Hr.
    pose proof (ir_rpred _ _ _ _ H) as Hp. pose proof (ir_cpred _ _ _ _ H) as Ho.
    rewrite (Forall2_nil_test _ _ _ Hc). destruct (_ && _); auto.
    apply R_seq; auto. apply R_seq.
    - destruct (negb (is_empty _)); auto.
      + destruct (negb (is_postgres d)); auto.
      + pose proof (fields_rel _ _ e x Hc) as W. destruct Hc; auto.
        repeat (apply R_seq; auto). destruct Ho as [|p p' K]; auto.
        tests K. auto with rel.
    - pose proof (assigns_rel _ _ x Hr) as W. destruct Hr; auto.
      destruct (iq_nothing q'); auto. auto 10 with rel.
  Qed.

  Lemma insert_rel_run q q' e : insert_rel V kid_rel q q' -> R0 (insert_run d q e) (insert_run d q' e).
  Proof.
    intros H. unfold insert_run. pose proof (ir_env _ _ _ _ H) as ->.
    destruct (insert_source_rel _ _ H) as [|[cols rows] [cols' rows'] [Hc Hr]]; auto.
    cbn in Hc, Hr. apply R_seq. { apply with_rel. apply H. }
    pose proof (ir_ignore _ _ _ _ H) as ->.
    apply R_seq. { destruct (iq_ignore q'); auto. destruct (negb _); auto. }
    destruct (ir_into _ _ _ _ H) as [|t t' K]; auto.
    rewrite (own_qualifier_rel _ _ K), (k_alias_eq _ _ K). cbn zeta.
    apply R_seq; auto with rel.
    apply R_seq. { destruct (is_empty _); auto. destruct (is_mysql d); auto. }
    apply R_seq.
    { pose proof (fields_rel _ _ (pick_env e (iq_env q')) [own_qualifier t'] Hc) as W. destruct Hc; auto. }
    apply R_seq.
    { pose proof (rows_rel _ _ Hr) as W. destruct Hr.
      - destruct (ir_select _ _ _ _ H) as [|s s' Hs]; auto.
        apply R_seq; auto. apply select_rel_run.
        rewrite (Forall2_nil_test _ _ _ (vr_preds _ _ _ (sr_where _ _ _ _ Hs))).
        destruct (is_sqlite d && _); auto using where_true_rel.
      - apply R_seq; auto. apply R_seq; auto.
        pose proof (ir_rowalias _ _ _ _ H) as ->. pose proof (ir_colaliases _ _ _ _ H) as ->.
        destruct (is_empty _); auto. destruct (negb _); auto. apply R_seq; auto.
        destruct (iq_colaliases q'); auto. }
    apply R_seq.
    { destruct (is_sqlite d || is_postgres d); [now apply conflict_rel|].
      destruct (is_mysql d); auto.
      pose proof (assigns_rel _ _ [own_qualifier t'] (ir_resolution _ _ _ _ H)) as W.
      destruct (ir_resolution _ _ _ _ H); auto. }
    apply returning_rel. apply H.
  Qed.

  Lemma update_rel_run q q' e : update_rel V kid_rel q q' -> R0 (update_run d q e) (update_run d q' e).
  Proof.
    intros H. unfold update_run. pose proof (ur_env _ _ _ _ H) as ->.
    assert (S : opt_rel (Forall2 (pair_rel kid_rel)) (update_source q) (update_source q')).
    { unfold update_source. destruct (ur_mapper _ _ _ _ H) as [|[c b] [c' b'] [Hc Hb]].
      - constructor. apply H.
      - cbn in *. subst b'. destruct b; constructor. auto. }
    destruct S as [|as_ as' Ha]; auto.
    apply R_seq. { apply with_rel. apply H. }
    apply R_seq; auto.
    destruct (ur_table _ _ _ _ H) as [|t t' K]; auto.
    rewrite (own_qualifier_rel _ _ K). cbn zeta.
    apply R_seq; auto with rel. apply R_seq; auto with rel.
    apply R_seq. { destruct Ha; auto. }
    apply R_seq; auto 6 with rel.
    pose proof (ur_from _ _ _ _ H) as HF. pose proof (ur_joins _ _ _ _ H) as HJ.
    apply R_seq. { destruct HF as [|f f' Kf]; auto. destruct (is_mysql d); auto with rel. }
    apply R_seq.
    { pose proof (joins_rel _ _ HJ) as W.
      assert (E : match uq_from q with None => true | _ => false end
                = match uq_from q' with None => true | _ => false end) by (destruct HF; auto).
      rewrite E. destruct HJ; auto. destruct (_ && _); auto. }
    apply R_seq; auto 6 with rel.
    apply R_seq.
    { assert (HH : Forall2 (opt_rel kid_rel) (Some t :: uq_from q :: map jn_table (uq_joins q))
                    (Some t' :: uq_from q' :: map jn_table (uq_joins q'))).
      { constructor; [now constructor|]. constructor; auto with rel. }
      destruct (hooks_rel _ _ (pick_env e (uq_env q')) HH); auto. }
    apply R_seq. { apply pred_clause_rel. apply H. }
    apply R_seq.
    { pose proof (fields_clause_rel (B " ORDER BY ") _ _ (pick_env e (uq_env q')) (ur_order _ _ _ _ H)) as W.
      destruct (ur_order _ _ _ _ H); auto. destruct (_ && _); auto. }
    apply R_seq.
    { pose proof (int_clause_rel (B " LIMIT {}") _ _ (pick_env e (uq_env q')) (ur_limit _ _ _ _ H) ok_limit) as W.
      destruct (ur_limit _ _ _ _ H); auto. destruct (_ && _); auto. }
    apply R_seq.
    { pose proof (int_clause_rel (B " OFFSET {}") _ _ (pick_env e (uq_env q')) (ur_offset _ _ _ _ H) ok_offset) as W.
      destruct (ur_offset _ _ _ _ H); auto. destruct (negb _); auto. }
    apply returning_rel. apply H.
  Qed.

  Lemma delete_rel_run q q' e : delete_rel V kid_rel q q' -> (crash_ok \/ ~ In None (dq_tables q)) ->
    R0 (delete_run d q e) (delete_run d q' e).
  Proof.
    intros H Hn. unfold delete_run. pose proof (dr_env _ _ _ _ H) as ->.
    pose proof (dr_tables _ _ _ _ H) as HT. pose proof (dr_using _ _ _ _ H) as HU.
    pose proof (dr_joins _ _ _ _ H) as HJ.
    set (m1 := match dq_using q with Some _ => true | None => false end).
    set (m2 := match dq_using q' with Some _ => true | None => false end).
    assert (E1 : m1 = m2) by (unfold m1, m2; destruct HU; auto). rewrite <- E1. clearbody m1.
    set (j1 := match dq_joins q with [] => false | _ => true end).
    set (j2 := match dq_joins q' with [] => false | _ => true end).
    assert (E2 : j1 = j2) by (unfold j1, j2; destruct HJ; auto). rewrite <- E2. clearbody j1.
    cbn zeta. clear j2 E2 m2 E1.
    apply R_seq. { apply with_rel. apply H. }
    apply R_seq; auto.
    apply R_seq.
    { assert (W : R0 (sep_by (B ", ") (map (fun t => match t with None => crash | Some t => emit (own_qualifier t) end) (dq_tables q)))
                     (sep_by (B ", ") (map (fun t => match t with None => crash | Some t => emit (own_qualifier t) end) (dq_tables q')))).
      { apply R_sep. apply Forall2_map. clear -HT Hn R_crash R_emit. revert Hn.
        induction HT as [|t t' l l' Ht Hl IH]; intros Hn; constructor.
        - destruct Ht as [|a c K].
          + apply R_crash. destruct Hn as [|Hn]; auto. destruct Hn. now left.
          + rewrite (own_qualifier_rel _ _ K). auto.
        - apply IH. destruct Hn as [|Hn]; auto. right. intros I. apply Hn. now right. }
      destruct HT as [|t t' l l' Ht Hl]; auto. destruct (m1 && is_mysql d); auto.
      destruct Ht as [|a c K]; auto with rel. }
    apply R_seq. { destruct HU as [|a c K]; auto. destruct (is_sqlite d); auto with rel. }
    apply R_seq.
    { pose proof (joins_rel _ _ HJ) as W. destruct HJ; auto. destruct (is_sqlite d); auto.
      destruct HU; auto. }
    apply R_seq. { apply where_rel; [now apply hooks_rel|apply H]. }
    apply R_seq.
    { pose proof (fields_clause_rel (B " ORDER BY ") _ _ (pick_env e (dq_env q')) (dr_order _ _ _ _ H)) as W.
      destruct (dr_order _ _ _ _ H); auto. destruct (_ && _); auto. destruct (m1 || j1); auto. }
    apply R_seq.
    { pose proof (int_clause_rel (B " LIMIT {}") _ _ (pick_env e (dq_env q')) (dr_limit _ _ _ _ H) ok_limit) as W.
      destruct (dr_limit _ _ _ _ H); auto. destruct (_ && _); auto. destruct (m1 || j1); auto. }
    apply R_seq.
    { pose proof (int_clause_rel (B " OFFSET {}") _ _ (pick_env e (dq_env q')) (dr_offset _ _ _ _ H) ok_offset) as W.
      destruct (dr_offset _ _ _ _ H); auto. destruct (negb _); auto. }
    apply returning_rel. apply H.
  Qed.

  Definition vq_rel (p q : node * runner) : Prop :=
    is_nil (fst p) = is_nil (fst q) /\ is_vquery (fst p) = is_vquery (fst q) /\
    forall c, R (c_name c) (snd p c) (snd q c).
  Lemma vquery_rel top op qs qs' : Forall2 vq_rel qs qs' ->
    R0 (vquery_run top op qs) (vquery_run top op qs').
  Proof.
    intros H. unfold vquery_run. destruct H as [|[p r] [p' r'] l l' H0 Hl]; auto.
    destruct Hl as [|pr pr' l l' H1 Hl].
    - destruct H0 as (N & P & K); cbn in N, P, K. rewrite N, P.
      destruct (is_nil p'); auto. exact (K (mk_ctx _ [] _ _)).
    - apply R_seq; auto with rel. apply R_seq; auto with rel.
      apply R_sep. eapply (R_map vq_rel); [constructor; [exact H0|constructor; [exact H1|exact Hl]]|].
      intros [a r0] [c r1] (N & P & K). cbn [fst snd] in *. rewrite N, P. destruct (is_nil c); auto.
      exact (K (mk_ctx _ [] _ _)).
  Qed.

  (** ** Lifting from the components of a tree to its kids *)
  Let E := everywhere node_ok.
  Context (fills : bool) (fills_sqlite : fills = true -> is_sqlite d = true).

  Definition IHP (n : node) : Prop := forall n', gsim fills V n n' -> E n -> kid_rel (mk d n) (mk d n').

  Lemma lift1 v v' : gsim fills V v v' -> IHP v -> E v -> kid_rel (mk d v) (mk d v').
  Proof. auto. Qed.
  Lemma lift_list vs vs' : Forall2 (gsim fills V) vs vs' -> conj_list (map IHP vs) -> conj_list (map E vs) ->
    Forall2 kid_rel (map (mk d) vs) (map (mk d) vs').
  Proof. induction 1; cbn; intros HP HE; constructor; [apply HP; tauto|tauto]. Qed.
  Lemma lift_opt o o' : opt_rel (gsim fills V) o o' -> conj_opt (option_map IHP o) -> conj_opt (option_map E o) ->
    opt_rel kid_rel (option_map (mk d) o) (option_map (mk d) o').
  Proof. intros [|a c H]; cbn; intros HP HE; constructor; auto. Qed.
  Lemma lift_opts l l' : Forall2 (opt_rel (gsim fills V)) l l' ->
    conj_list (map conj_opt (map (option_map IHP) l)) -> conj_list (map conj_opt (map (option_map E) l)) ->
    Forall2 (opt_rel kid_rel) (map (option_map (mk d)) l) (map (option_map (mk d)) l').
  Proof. induction 1; cbn; intros HP HE; constructor; [apply lift_opt; tauto|tauto]. Qed.
  Lemma lift_pairs l l' : Forall2 (pair_rel (gsim fills V)) l l' ->
    conj_list (map conj_pair (map (pair_map IHP) l)) -> conj_list (map conj_pair (map (pair_map E) l)) ->
    Forall2 (pair_rel kid_rel) (map (pair_map (mk d)) l) (map (pair_map (mk d)) l').
  Proof.
    induction 1 as [|a c l l' [H1 H2] _ IH]; cbn; intros HP HE; constructor; [|tauto].
    destruct HP as [[P1 P2] _], HE as [[E1 E2] _]. split; cbn in *; auto.
  Qed.
  Lemma lift_rows l l' : Forall2 (Forall2 (gsim fills V)) l l' ->
    conj_list (map conj_list (map (map IHP) l)) -> conj_list (map conj_list (map (map E) l)) ->
    Forall2 (Forall2 kid_rel) (map (map (mk d)) l) (map (map (mk d)) l').
  Proof. induction 1; cbn; intros HP HE; constructor; [apply lift_list; tauto|tauto]. Qed.
  Lemma lift_vpred p p' : vpred_rel (gsim fills V) p p' -> vpred_props (vpred_map IHP p) -> vpred_props (vpred_map E p) ->
    vpred_rel kid_rel (vpred_map (mk d) p) (vpred_map (mk d) p').
  Proof. intros [H1 H2 H3 H4 H5] HP HE. constructor; cbn; auto. now apply lift_list. Qed.
  Lemma lift_join p p' : join_rel (gsim fills V) p p' -> join_props (join_map IHP p) -> join_props (join_map E p) ->
    join_rel kid_rel (join_map (mk d) p) (join_map (mk d) p').
  Proof.
    intros [H1 H2 H3] [P1 P2] [E1 E2]. constructor; cbn; auto; [now apply lift_opt|now apply lift_vpred].
  Qed.
  Lemma lift_joins l l' : Forall2 (join_rel (gsim fills V)) l l' ->
    conj_list (map join_props (map (join_map IHP) l)) -> conj_list (map join_props (map (join_map E) l)) ->
    Forall2 (join_rel kid_rel) (map (join_map (mk d)) l) (map (join_map (mk d)) l').
  Proof. induction 1; cbn; intros HP HE; constructor; [apply lift_join; tauto|tauto]. Qed.
  Lemma lift_cte p p' : cte_rel (gsim fills V) p p' -> cte_props (cte_map IHP p) -> cte_props (cte_map E p) ->
    cte_rel kid_rel (cte_map (mk d) p) (cte_map (mk d) p').
  Proof. intros [H1 H2 H3 H4 H5 H6 H7 H8 H9] HP HE. constructor; cbn; auto. now apply lift_opt. Qed.
  Lemma lift_ctes l l' : Forall2 (cte_rel (gsim fills V)) l l' ->
    conj_list (map cte_props (map (cte_map IHP) l)) -> conj_list (map cte_props (map (cte_map E) l)) ->
    Forall2 (cte_rel kid_rel) (map (cte_map (mk d)) l) (map (cte_map (mk d)) l').
  Proof. induction 1; cbn; intros HP HE; constructor; [apply lift_cte; tauto|tauto]. Qed.
  Lemma lift_mapper o o' : opt_rel (mapper_rel (gsim fills V)) o o' ->
    conj_opt (option_map mapper_props (option_map (mapper_map IHP) o)) ->
    conj_opt (option_map mapper_props (option_map (mapper_map E) o)) ->
    opt_rel (mapper_rel kid_rel) (option_map (mapper_map (mk d)) o) (option_map (mapper_map (mk d)) o').
  Proof.
    intros [|a c [H1 H2]]; cbn; intros HP HE; constructor. constructor; cbn; auto. now apply lift_pairs.
  Qed.
  Lemma lift_select p p' : select_rel V (gsim fills V) p p' ->
    select_props (select_map IHP p) -> select_props (select_map E p) ->
    select_rel V kid_rel (select_map (mk d) p) (select_map (mk d) p').
  Proof.
    intros [] (P1 & P2 & P3 & P4 & P5 & P6 & P7 & P8 & P9) (E1 & E2 & E3 & E4 & E5 & E6 & E7 & E8 & E9).
    constructor; cbn; auto using lift_ctes, lift_list, lift_opt, lift_joins, lift_vpred.
  Qed.
  Lemma lift_oselect o o' : opt_rel (select_rel V (gsim fills V)) o o' ->
    conj_opt (option_map select_props (option_map (select_map IHP) o)) ->
    conj_opt (option_map select_props (option_map (select_map E) o)) ->
    opt_rel (select_rel V kid_rel) (option_map (select_map (mk d)) o) (option_map (select_map (mk d)) o').
  Proof. intros [|a c H]; cbn; intros HP HE; constructor; auto using lift_select. Qed.
  Lemma lift_insert p p' : insert_rel V (gsim fills V) p p' ->
    insert_props (insert_map IHP p) -> insert_props (insert_map E p) ->
    insert_rel V kid_rel (insert_map (mk d) p) (insert_map (mk d) p').
  Proof.
    intros [] (P1 & P2 & P3 & P4 & P5 & P6 & P7 & P8 & P9 & P10 & P11)
      (E1 & E2 & E3 & E4 & E5 & E6 & E7 & E8 & E9 & E10 & E11).
    constructor; cbn; auto using lift_mapper, lift_ctes, lift_list, lift_opt, lift_rows, lift_vpred,
      lift_oselect, lift_pairs.
  Qed.
  Lemma lift_update p p' : update_rel V (gsim fills V) p p' ->
    update_props (update_map IHP p) -> update_props (update_map E p) ->
    update_rel V kid_rel (update_map (mk d) p) (update_map (mk d) p').
  Proof.
    intros [] (P1 & P2 & P3 & P4 & P5 & P6 & P7 & P8 & P9) (E1 & E2 & E3 & E4 & E5 & E6 & E7 & E8 & E9).
    constructor; cbn; auto using lift_mapper, lift_ctes, lift_list, lift_opt, lift_joins, lift_vpred,
      lift_pairs.
  Qed.
  Lemma lift_delete p p' : delete_rel V (gsim fills V) p p' ->
    delete_props (delete_map IHP p) -> delete_props (delete_map E p) ->
    delete_rel V kid_rel (delete_map (mk d) p) (delete_map (mk d) p').
  Proof.
    intros [] (P1 & P2 & P3 & P4 & P5 & P6 & P7) (E1 & E2 & E3 & E4 & E5 & E6 & E7).
    constructor; cbn; auto using lift_ctes, lift_list, lift_opt, lift_opts, lift_joins, lift_vpred.
  Qed.

  Lemma map_mk_node vs : map k_node (map (mk d) vs) = vs.
  Proof. rewrite map_map. apply map_id. Qed.

  Lemma E_list vs : conj_list (map E vs) -> Forall (everywhere node_ok) (map k_node (map (mk d) vs)).
  Proof. rewrite map_mk_node. induction vs; cbn; intros; constructor; tauto. Qed.

  Lemma kids_nr vs vs' : Forall2 kid_rel (map (mk d) vs) (map (mk d) vs') ->
    Forall2 nr_rel (map (fun v => (v, render d v)) vs) (map (fun v => (v, render d v)) vs').
  Proof. intros H. apply k_pairs_rel in H. now rewrite !map_map in H. Qed.
  Lemma kids_vq vs vs' : Forall2 kid_rel (map (mk d) vs) (map (mk d) vs') ->
    Forall2 vq_rel (map (fun v => (v, render d v)) vs) (map (fun v => (v, render d v)) vs').
  Proof.
    revert vs'. induction vs as [|v vs IH]; intros [|v' vs'] H; inversion H; subst; cbn; constructor; auto.
    destruct H3 as [T _ _ K _]. repeat split; try apply T. apply K.
  Qed.
  Lemma kids_run vs vs' : Forall2 kid_rel (map (mk d) vs) (map (mk d) vs') ->
    Forall2 run_rel (map (render d) vs) (map (render d) vs').
  Proof.
    revert vs'. induction vs as [|v vs IH]; intros [|v' vs'] H; inversion H; subst; cbn; constructor; auto.
    apply (k_run_rel _ _ H3).
  Qed.

  Lemma true_IHP : IHP (NPred [] (B "TRUE") [] false).
  Proof. intros n' S _. inversion S; subst. inversion H4; subst. apply true_kid_rel. Qed.

  Lemma filled_props (f : node -> Prop) q s : insert_props (insert_map f q) -> iq_select q = Some s ->
    f (NPred [] (B "TRUE") [] false) -> insert_props (insert_map f (with_source q (filled_select s))).
  Proof.
    unfold insert_props, insert_map.
    cbn [iq_mapper iq_ctes iq_into iq_columns iq_rows iq_select iq_cfields iq_cpred iq_resolution iq_rpred iq_returning with_source].
    intros (A1 & A2 & A3 & A4 & A5 & A6 & A7 & A8 & A9 & A10 & A11) Es T.
    rewrite Es in A6. destruct A6 as (B1 & B2 & B3 & B4 & B5 & B6 & B7 & B8 & B9).
    repeat (split; [assumption|]). split; [|now repeat (split; [assumption|])].
    repeat (split; [assumption|]). split; [|now repeat (split; [assumption|])].
    split; [exact T|exact I].
  Qed.

  (** On sqlite, `WHERE TRUE` written into the SELECT beforehand makes no difference. *)
  Lemma insert_filled q s e : is_sqlite d = true -> iq_select q = Some s -> vp_preds (sq_where s) = [] ->
    insert_run d (insert_map (mk d) q) e = insert_run d (insert_map (mk d) (with_source q (filled_select s))) e.
  Proof.
    intros Sq Es Ew. unfold insert_run. cbn. rewrite Es. cbn. rewrite Sq, Ew. cbn. reflexivity.
  Qed.

  Theorem render_kid_rel : forall n, IHP n.
  Proof.
    induction n using node_sub_ind. unfold IHP. intros n' S HE.
    assert (HN : node_ok n) by (apply everywhere_unfold in HE; tauto).
    assert (HS : sub_all E n) by (apply everywhere_unfold in HE; tauto).
    assert (HK : forall c, R (c_name c) (render d n c) (render d n' c)).
    { intros c. destruct S; cbn [render] in *.
      all: [> | apply R_weak | | apply R_weak .. ].
      - apply R_bind; auto.
      - unfold named_arg_run. destruct (is_postgres d || is_mysql d) eqn:Ed; auto.
        destruct (is_empty name) eqn:En; auto. destruct (existsb trimmable _); auto.
        apply R_named; auto. intros ->; discriminate.
      - destruct v; try contradiction; destruct v'; try contradiction; apply R_bind; auto.
      - apply explode_rel. now apply lift_list.
      - apply param_rel; auto. now apply lift1.
      - apply R_seq; auto with rel. cbn in H, HS.
        apply field_rel; [now apply lift_list|now apply E_list|]. now rewrite map_mk_node.
      - auto.
      - exact (kr_run _ _ (lift1 _ _ S H HS) (ctx _ _)).
      - apply fields_rel. now apply lift_list.
      - apply row_rel. apply kids_run. now apply lift_list.
      - apply rows_rel. cbn in H, HS. pose proof (lift_rows _ _ H0 H HS) as W. clear -W R_weak R_seq.
        revert vs' W. induction vs as [|v vs IH]; intros [|v' vs'] W; inversion W; subst; cbn; constructor; auto.
        now apply kids_run.
      - destruct H, HS. apply assign_rel; now apply lift1.
      - destruct H as [P1 P2], HS as [E1 E2]. pose proof (lift_pairs _ _ H0 P1 E1) as W.
        apply R_seq; auto. apply R_seq. { destruct H0; auto. }
        apply case_tail_rel; auto. now apply lift_opt.
      - destruct H as (P0 & P1 & P2), HS as (E0 & E1 & E2). pose proof (lift_pairs _ _ H0 P1 E1) as W.
        apply R_seq; auto. apply R_seq. { destruct H0; auto. }
        apply R_seq. { exact (kr_run _ _ (lift1 _ _ S P0 E0) (ctx _ _)). }
        apply case_tail_rel; auto. now apply lift_opt.
      - apply R_seq; auto with rel. cbn in H, HS.
        apply R_printf; [now apply lift_list|now apply E_list|]. now rewrite map_mk_node.
      - cbn in H, HS. pose proof (lift_vpred _ _ H0 H HS) as [W1 W2 W3 W4 W5]. cbn in W1, W3, W4, W5.
        rewrite W1, W3, W5. apply vpred_run_rel. now apply kids_nr.
      - auto with rel.
      - auto with rel.
      - cbn in H, HS. apply R_printf; [now apply lift_list|now apply E_list|]. now rewrite map_mk_node.
      - destruct H0 as [_ C1 _ _ C2 _ _ _ _]. rewrite C1, C2. destruct (cte_err c'); auto. destruct (is_empty _); auto.
      - destruct (existsb _ _); auto. apply field_rel; auto; constructor.
      - destruct H0 as [Hq He Ha Hf Hc]. rewrite He, Ha. destruct (sb_err q'); auto.
        unfold sub_all, subq_props, subq_map in H, HS. cbn [node_ok] in HN. cbn [sb_query] in H, HS.
        apply R_seq; auto. apply R_seq; [|apply R_seq; auto with rel].
        destruct Hq as [|a b Hq].
        + apply R_crash. destruct HN as [|HN]; auto. now destruct HN.
        + exact (kr_run _ _ (lift1 _ _ Hq H HS) (ctx _ _)).
      - destruct (_ && _); auto. destruct (existsb _ _); auto. apply field_rel; auto; constructor.
      - apply join_rel_run. now apply lift_join.
      - cbn in HN. destruct HN as [N1 N2]. destruct H as [P1 P2], HS as [E1 E2].
        pose proof (lift_list _ _ H0 P1 E1) as W1. pose proof (lift_list _ _ H1 P2 E2) as W2.
        assert (T1 : match p with [] => false | _ => true end = match p' with [] => false | _ => true end)
          by (destruct H0; auto).
        assert (T2 : match o with [] => false | _ => true end = match o' with [] => false | _ => true end)
          by (destruct H1; auto).
        cbn zeta. rewrite T1, T2.
        apply R_seq; [auto|]. apply R_seq.
        { apply R_when. apply R_seq; [auto|]. apply R_win; auto using fields_rel, E_list. now rewrite map_mk_node. }
        apply R_seq.
        { apply R_when. apply R_seq; [auto with rel|]. apply R_seq; [auto|].
          apply R_win; auto using fields_rel, E_list. now rewrite map_mk_node. }
        apply R_seq; auto. apply R_when. apply R_seq; auto with rel.
      - cbn in H, HS. apply R_printf; [now apply lift_list|now apply E_list|]. now rewrite map_mk_node.
      - apply vquery_rel. apply kids_vq. now apply lift_list.
      - apply select_rel_run. now apply lift_select.
      - apply insert_rel_run. now apply lift_insert.
      - rewrite (insert_filled q s _ (fills_sqlite H0) H1 H2). apply insert_rel_run.
        apply lift_insert; [exact H3|now apply filled_props; [| | apply true_IHP]|].
        apply filled_props; auto. apply everywhere_unfold. split; [exact ok_true|exact I].
      - apply update_rel_run. now apply lift_update.
      - apply delete_rel_run; [now apply lift_delete|]. cbn in HN |- *. destruct HN as [|HN]; auto.
        right. intros I. apply HN. apply in_map_iff in I. destruct I as [[x|] [Ex Ix]]; [discriminate|auto]. }
    constructor; auto.
    - cbn. now apply (sim_same fills V).
    - cbn. now apply (raw_rel_sim fills).
    - intros e. cbn. destruct S; try constructor. cbn in H, HS. cbn.
      specialize (H0 e). specialize (H e). specialize (HS e).
      destruct H0 as [| |p q Hpq]; try constructor. cbn in H, HS.
      pose proof (H _ Hpq HS) as K. pose proof (kr_tests _ _ K) as T. cbn in T.
      rewrite (st_nil _ _ T). destruct (is_nil q) eqn:Eq; constructor.
      cbn. rewrite (st_nil _ _ T). repeat split; auto. apply T. apply (kr_run _ _ K).
  Qed.

  Theorem render_rel n n' c : gsim fills V n n' -> everywhere node_ok n ->
    R (c_name c) (render d n c) (render d n' c).
  Proof. intros S HE. apply (kr_run _ _ (render_kid_rel n n' S HE)). Qed.
End Rel.
