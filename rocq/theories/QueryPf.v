(** * QueryPf: proofs for PropertiesQuery *)
From Coq Require Import Lia.
From Verif Require Import GoBase GoBaseFacts QuoteModel SprintModel TokenModel EffectModel RenderModel BuildModel
  SpecText SpecQuery BoolModel BoolFacts NodeInd RenderRel SpecClauses ClauseFacts PredPf.
Local Open Scope m_scope.

(** ** Set operations *)
Section Parser.
  Context (tight : setop -> bool).
  Local Notation sp := (sparse tight).
  Lemma sparse_mono f : forall m ts r, sp f m ts = Some r -> sp (S f) m ts = Some r.
  Proof.
    induction f as [|f IH]; intros m ts r; [discriminate|]. intros H. cbn [sparse] in H. remember (S f) as g eqn:Eg.
    destruct m; cbn [sparse].
    - destruct (sp f MTerm ts) as [[a rest]|] eqn:E; [|discriminate]. rewrite (IH _ _ _ E). auto.
    - destruct ts as [|[] rest]; auto. destruct (tight o); auto.
      destruct (sp f MTerm rest) as [[b rest']|] eqn:E; [|discriminate]. rewrite (IH _ _ _ E). auto.
    - destruct (sp f MPrim ts) as [[a rest]|] eqn:E; [|discriminate]. rewrite (IH _ _ _ E). auto.
    - destruct ts as [|[] rest]; auto. destruct (tight o); auto.
      destruct (sp f MPrim rest) as [[b rest']|] eqn:E; [|discriminate]. rewrite (IH _ _ _ E). auto.
    - destruct ts as [|[] rest]; auto. destruct (sp f MLoose rest) as [[a rest']|] eqn:E; [|discriminate].
      rewrite (IH _ _ _ E). auto.
  Qed.
  Lemma sparse_mono_le f g m ts r : f <= g -> sp f m ts = Some r -> sp g m ts = Some r.
  Proof. induction 1; auto. intros. now apply sparse_mono, IHle. Qed.
  Lemma set_reads_unique ts a b : set_reads_as tight ts a -> set_reads_as tight ts b -> a = b.
  Proof.
    intros [f F] [g G]. apply (sparse_mono_le f (f + g)) in F; [|lia].
    apply (sparse_mono_le g (f + g)) in G; [|lia]. congruence.
  Qed.

  Definition sparses m ts e rest := exists f, sp f m ts = Some (e, rest).
  (** Nothing that continues an expression follows. *)
  Definition sends (rest : list stok) := match rest with TOp _ :: _ => False | _ => True end.
  Lemma loose_step ts a rest e r : sparses MTerm ts a rest -> sparses (MLooseRest a) rest e r -> sparses MLoose ts e r.
  Proof.
    intros [f F] [g G]. exists (S (f + g)). cbn [sparse].
    rewrite (sparse_mono_le f (f + g) _ _ _ ltac:(lia) F). apply (sparse_mono_le g); auto; lia.
  Qed.
  Lemma term_step ts a rest e r : sparses MPrim ts a rest -> sparses (MTermRest a) rest e r -> sparses MTerm ts e r.
  Proof.
    intros [f F] [g G]. exists (S (f + g)). cbn [sparse].
    rewrite (sparse_mono_le f (f + g) _ _ _ ltac:(lia) F). apply (sparse_mono_le g); auto; lia.
  Qed.
  Lemma loose_more o a ts b rest e r : tight o = false -> sparses MTerm ts b rest ->
    sparses (MLooseRest (EOp o a b)) rest e r -> sparses (MLooseRest a) (TOp o :: ts) e r.
  Proof.
    intros T [f F] [g G]. exists (S (f + g)). cbn [sparse]. rewrite T.
    rewrite (sparse_mono_le f (f + g) _ _ _ ltac:(lia) F). apply (sparse_mono_le g); auto; lia.
  Qed.
  Lemma term_more o a ts b rest e r : tight o = true -> sparses MPrim ts b rest ->
    sparses (MTermRest (EOp o a b)) rest e r -> sparses (MTermRest a) (TOp o :: ts) e r.
  Proof.
    intros T [f F] [g G]. exists (S (f + g)). cbn [sparse]. rewrite T.
    rewrite (sparse_mono_le f (f + g) _ _ _ ltac:(lia) F). apply (sparse_mono_le g); auto; lia.
  Qed.
  Lemma loose_end a rest : sends rest -> sparses (MLooseRest a) rest a rest.
  Proof. intros H. exists 1. cbn [sparse]. destruct rest as [|[] rest]; cbn in H; tauto. Qed.
  Lemma term_end a rest : sends rest -> sparses (MTermRest a) rest a rest.
  Proof. intros H. exists 1. cbn [sparse]. destruct rest as [|[] rest]; cbn in H; tauto. Qed.
  Lemma term_end_op a o rest : tight o = false -> sparses (MTermRest a) (TOp o :: rest) a (TOp o :: rest).
  Proof. intros H. exists 1. cbn [sparse]. now rewrite H. Qed.
  Lemma prim_loose ts a rest : sparses MPrim ts a rest -> sends rest -> sparses MLoose ts a rest.
  Proof.
    intros H E. eapply loose_step; [eapply term_step; [exact H|now apply term_end]|now apply loose_end].
  Qed.
  Lemma paren_prim ts a rest : sparses MLoose ts a (TRp :: rest) -> sparses MPrim (TLp :: ts) a rest.
  Proof. intros [f F]. exists (S f). cbn [sparse]. now rewrite F. Qed.

  (** op t1 op t2 ... *)
  Definition chain (o : setop) (tss : list (list stok)) : list stok := flat_map (fun t => TOp o :: t) tss.
  Definition is_prim (ts : list stok) (e : sexp) := forall rest, sparses MPrim (ts ++ rest) e rest.

  Lemma chain_tight o tss es : tight o = true -> Forall2 is_prim tss es -> forall a rest, sends rest ->
    sparses (MTermRest a) (chain o tss ++ rest) (fold_left (EOp o) es a) rest.
  Proof.
    intros T F. induction F as [|ts e tss es P F IH]; intros a rest E.
    - now apply term_end.
    - cbn [chain flat_map app fold_left]. rewrite <- app_assoc.
      eapply term_more; [exact T|apply P|]. now apply IH.
  Qed.
  Lemma chain_loose o tss es : tight o = false -> Forall2 is_prim tss es -> forall a rest, sends rest ->
    sparses (MLooseRest a) (chain o tss ++ rest) (fold_left (EOp o) es a) rest.
  Proof.
    intros T F. induction F as [|ts e tss es P F IH]; intros a rest E.
    - now apply loose_end.
    - cbn [chain flat_map app fold_left]. rewrite <- app_assoc.
      eapply loose_more; [exact T| |apply IH; exact E].
      eapply term_step; [apply P|]. destruct tss; cbn [flat_map app].
      + now apply term_end.
      + now apply term_end_op.
  Qed.
  Lemma chain_reads o ts e tss es rest : is_prim ts e -> Forall2 is_prim tss es -> sends rest ->
    sparses MLoose (ts ++ chain o tss ++ rest) (fold_left (EOp o) es e) rest.
  Proof.
    intros P F E. destruct (tight o) eqn:T.
    - eapply loose_step; [|apply loose_end; exact E].
      eapply term_step; [apply P|]. now apply chain_tight.
    - destruct F as [|u e2 tss es P2 F].
      + cbn [chain flat_map app fold_left]. apply prim_loose; auto.
      + eapply loose_step; [eapply term_step; [apply P|]|apply (chain_loose o (u :: tss) (e2 :: es)); auto].
        cbn [chain flat_map app]. now apply term_end_op.
  Qed.
End Parser.

Fixpoint qtree_ind' (P : qtree -> Prop) (HA : forall i, P (QQuery i))
  (HL : forall o l, Forall P l -> P (QSet o l)) (t : qtree) : P t :=
  let all := fix all (cs : list qtree) : Forall P cs :=
    match cs with [] => Forall_nil P | c :: cs => Forall_cons c (qtree_ind' P HA HL c) (all cs) end in
  match t with QQuery i => HA i | QSet o l => HL o l (all l) end.

(** The tokens the library writes. *)
Definition swrap (top : bool) (ts : list stok) : list stok := if top then ts else TLp :: ts ++ [TRp].
Fixpoint qtoks (top : bool) (t : qtree) : list stok :=
  match t with
  | QQuery i => [TQuery i]
  | QSet o l =>
    match l with
    | [] => []
    | [c] => qtoks top c
    | c :: l => swrap top (qtoks false c ++ chain o (map (qtoks false) l))
    end
  end.

Lemma qtoks_reads tight t : set_ok t = true ->
  is_prim tight (qtoks false t) (set_meaning t) /\
  (forall rest, sends rest -> sparses tight MLoose (qtoks true t ++ rest) (set_meaning t) rest).
Proof.
  induction t as [i|o l IH] using qtree_ind'; intros OK.
  - assert (P : is_prim tight [TQuery i] (EQuery i)) by (intros rest; now exists 1).
    split; [exact P|]. intros rest E. apply prim_loose; [apply P|exact E].
  - cbn [set_ok] in OK. destruct l as [|c l]; [discriminate|].
    rewrite forallb_forall in OK. rewrite Forall_forall in IH.
    destruct (IH c (or_introl eq_refl) (OK c (or_introl eq_refl))) as [P0 L0].
    destruct l as [|c2 l]; [exact (conj P0 L0)|].
    cbn [qtoks set_meaning swrap]. set (l' := c2 :: l) in *. clearbody l'.
    assert (F : Forall2 (is_prim tight) (map (qtoks false) l') (map set_meaning l')).
    { apply Forall2_map. assert (K : forall t, In t l' -> is_prim tight (qtoks false t) (set_meaning t)).
      { intros t I. apply IH; [now right|]. apply OK. now right. }
      clear - K. induction l'; constructor; auto. apply K; now left. apply IHl'. intros; apply K; now right. }
    assert (E : fold_left (fun a t => EOp o a (set_meaning t)) l' (set_meaning c)
                = fold_left (EOp o) (map set_meaning l') (set_meaning c)).
    { clear. generalize (set_meaning c). induction l'; cbn; auto. }
    rewrite E. clear E. split.
    + intros rest. cbn [app]. rewrite <- !app_assoc. apply paren_prim. cbn [app]. now apply chain_reads.
    + intros rest HE. rewrite <- app_assoc. now apply chain_reads.
Qed.

Section RenderSet.
  Context (d : dialect) (query : nat -> node).
  Context (HQ : forall i, is_query (query i) = true /\ is_vquery (query i) = false).
  Local Notation sql := (stoks_sql d query).
  Lemma ssql_app a b : sql (a ++ b) = sql a ;; sql b.
  Proof. unfold stoks_sql. now rewrite map_app, seqs_app. Qed.
  Lemma ssql_cons a b : sql (a :: b) = stok_sql d query a ;; sql b.
  Proof. reflexivity. Qed.
  Lemma build_nil t : is_nil (build_set query t) = false.
  Proof. destruct t as [i|]; cbn; auto. destruct (HQ i) as [H _]. destruct (query i); cbn in *; auto; discriminate. Qed.
  Lemma build_vq t : is_vquery (build_set query t) = match t with QSet _ _ => true | _ => false end.
  Proof. destruct t as [i|]; cbn; auto. now destruct (HQ i). Qed.
  Lemma op_nonempty o : is_empty (op_sql o) = false.
  Proof. now destruct o. Qed.
  Lemma query_ctx i top name : render d (query i) (mk_ctx top name None []) = render d (query i) (ctx None []).
  Proof. destruct (HQ i) as [H1 H2]. destruct (query i); try discriminate; reflexivity. Qed.
  Lemma ssql_chain o tss : sql (chain o tss) = seqs (map (fun m => emit (B " " ++ op_sql o ++ B " ") ;; m) (map sql tss)).
  Proof.
    induction tss as [|t tss IH]; [reflexivity|]. cbn [chain flat_map map seqs]. change (flat_map (fun t0 => TOp o :: t0) tss) with (chain o tss).
    rewrite ssql_app, IH, ssql_cons. cbn [stok_sql]. now rewrite seq_assoc.
  Qed.
  Lemma render_qtoks t : forall top name,
    render d (build_set query t) (mk_ctx top name None [])
    = sql (qtoks (match top with Some b => b | None => true end) t).
  Proof.
    induction t as [i|o l IH] using qtree_ind'; intros top name.
    - cbn [build_set qtoks]. rewrite query_ctx. unfold stoks_sql. cbn [map seqs stok_sql]. now rewrite seq_ret'.
    - cbn [build_set]. set (b := match top with Some b => b | None => true end).
      change (vquery_run b (op_sql o) (map (fun v => (v, render d v)) (map (build_set query) l)) = sql (qtoks b (QSet o l))).
      clearbody b. rewrite map_map. unfold vquery_run. rewrite op_nonempty. rewrite Forall_forall in IH.
      destruct l as [|c [|c2 l]]; [reflexivity| |].
      + cbn [map qtoks]. rewrite build_nil, build_vq. destruct c as [i|o2 l2].
        * apply (IH _ (or_introl eq_refl) None []).
        * apply (IH _ (or_introl eq_refl) (Some b) []).
      + set (l' := c2 :: l) in *.
        assert (K : forall t, In t (c :: l') ->
          (if is_nil (build_set query t) then fail
           else render d (build_set query t) (mk_ctx (if is_vquery (build_set query t) then Some false else None) [] None []))
          = sql (qtoks false t)).
        { intros t I. rewrite build_nil, build_vq. destruct t as [i|o2 l2].
          - apply (IH _ I None []).
          - apply (IH _ I (Some false) []). }
        transitivity (when (negb b) (emit (B "(")) ;;
          sep_by (B " " ++ op_sql o ++ B " ") (map (fun t => sql (qtoks false t)) (c :: l')) ;;
          when (negb b) (emit (B ")"))).
        { rewrite <- (map_ext_in _ _ _ K). unfold l'. cbn [map]. rewrite map_map. reflexivity. }
        change (qtoks b (QSet o (c :: l'))) with (swrap b (qtoks false c ++ chain o (map (qtoks false) l'))).
        clear K IH. clearbody l'.
        assert (S : sep_by (B " " ++ op_sql o ++ B " ") (map (fun t => sql (qtoks false t)) (c :: l'))
                    = sql (qtoks false c ++ chain o (map (qtoks false) l'))).
        { unfold sep_by. cbn [map]. rewrite ssql_app, ssql_chain, !map_map. reflexivity. }
        rewrite S. destruct b; cbn [negb when swrap].
        * now rewrite ret_seq', seq_ret'.
        * rewrite ssql_cons, (ssql_app _ [TRp]). cbn [stok_sql]. change (sql [TRp]) with (emit (B ")") ;; ret).
          now rewrite seq_ret'.
  Qed.
End RenderSet.

Lemma set_operation_pf : forall (d : dialect) (tight : setop -> bool) (query : nat -> node) (t : qtree),
  (forall i, is_query (query i) = true /\ is_vquery (query i) = false) -> set_ok t = true ->
  exists toks, render d (build_set query t) (ctx None []) = stoks_sql d query toks /\
    set_reads_as tight toks (set_meaning t).
Proof.
  intros d tight query t HQ OK. exists (qtoks true t). split.
  - exact (render_qtoks d query HQ t None []).
  - destruct (proj2 (qtoks_reads tight t OK) [] I) as [f F]. rewrite app_nil_r in F. now exists f.
Qed.
Lemma default_operator_pf : forall (d : dialect) (top : bool) (qs : list node) (c : rctx),
  render d (NVQuery top [] qs) c = render d (NVQuery top (B "UNION") qs) c.
Proof. reflexivity. Qed.

(** ** Column mappers *)
Section Cols.
  Context {F V : Type}.
  Lemma append_last_app (rows : list (list V)) r v : append_last (rows ++ [r]) v = rows ++ [r ++ [v]].
  Proof.
    induction rows as [|a rows IH]; auto. cbn [app]. destruct (rows ++ [r]) eqn:E; [now destruct rows|].
    rewrite <- E in IH |- *. cbn [append_last]. rewrite IH. destruct (rows ++ [r]); [discriminate|reflexivity].
  Qed.
  Definition set_all (col : column F V) (calls : list (bytes * F * V)) : column F V :=
    fold_left (fun col c => col_set col (fst (fst c)) (snd (fst c)) (snd c)) calls col.
  Definition row_calls (cols : list (bytes * F)) (row : list V) : list (bytes * F * V) := combine cols row.

  Lemma set_rest ended first fs rows cols : ~ In first (map fst cols) -> forall r row, length row = length cols ->
    set_all (mk_column true ended first fs (rows ++ [r])) (row_calls cols row) =
    mk_column true ended first (if ended then fs else fs ++ map snd cols) (rows ++ [r ++ row]).
  Proof.
    revert fs. induction cols as [|[n f] cols IH]; intros fs HN r row L; destruct row as [|v row]; try discriminate.
    - cbn. rewrite !app_nil_r. now destruct ended.
    - cbn [row_calls combine]. unfold set_all. cbn [fold_left fst snd].
      assert (N : beqb n first = false).
      { destruct (beqb n first) eqn:E; auto. apply beqb_eq in E. subst. destruct HN. now left. }
      unfold col_set at 2. cbn [col_started negb col_first col_ended col_fields col_rows]. rewrite N.
      rewrite append_last_app. change (combine cols row) with (row_calls cols row).
      fold (set_all (mk_column true ended first (if ended then fs else fs ++ [f]) (rows ++ [r ++ [v]])) (row_calls cols row)).
      rewrite IH; [|intros H; apply HN; now right|now injection L].
      f_equal.
      + destruct ended; auto. now rewrite <- app_assoc.
      + now rewrite <- app_assoc.
  Qed.
  Lemma set_row ended n0 f0 cols fs rows v row : ~ In n0 (map fst cols) -> length row = length cols ->
    set_all (mk_column true ended n0 fs rows) (row_calls ((n0, f0) :: cols) (v :: row)) =
    mk_column true true n0 fs (rows ++ [v :: row]).
  Proof.
    intros HN L. unfold row_calls, set_all. cbn [combine fold_left fst snd]. unfold col_set at 2.
    cbn [col_started negb col_first col_ended col_fields col_rows]. rewrite beqb_refl.
    apply (set_rest true n0 fs rows cols HN [v] row L).
  Qed.
  Lemma set_rows n0 f0 cols fs : ~ In n0 (map fst cols) -> forall more, Forall (fun r => length r = S (length cols)) more ->
    forall ended rows, more <> [] \/ ended = true ->
    set_all (mk_column true ended n0 fs rows) (flat_map (row_calls ((n0, f0) :: cols)) more)
    = mk_column true true n0 fs (rows ++ more).
  Proof.
    intros HN more H. induction H as [|r more L H IH]; intros ended rows C.
    - destruct C as [C| ->]; [congruence|]. cbn. now rewrite app_nil_r.
    - cbn [flat_map]. destruct r as [|v r]; [discriminate|]. unfold set_all. rewrite fold_left_app.
      change (set_all (set_all (mk_column true ended n0 fs rows) (row_calls ((n0, f0) :: cols) (v :: r)))
                (flat_map (row_calls ((n0, f0) :: cols)) more) = mk_column true true n0 fs (rows ++ (v :: r) :: more)).
      rewrite set_row; auto. rewrite IH; auto. now rewrite <- app_assoc.
  Qed.
  Lemma col_run_rows n0 f0 (cols : list (bytes * F)) (rows : list (list V)) :
    ~ In n0 (map fst cols) -> rows <> [] -> Forall (fun r => length r = S (length cols)) rows ->
    let col := col_run (flat_map (row_calls ((n0, f0) :: cols)) rows) in
    col_fields col = f0 :: map snd cols /\ col_rows col = rows.
  Proof.
    intros HN H0 H. destruct rows as [|r rows]; [congruence|]. inversion H as [|? ? L H']; subst.
    destruct r as [|v r]; [discriminate|].
    assert (E : col_run (flat_map (row_calls ((n0, f0) :: cols)) ((v :: r) :: rows)) =
      set_all (set_all (mk_column true false n0 [f0] ([] ++ [[v]])) (row_calls cols r)) (flat_map (row_calls ((n0, f0) :: cols)) rows)).
    { unfold col_run, set_all. cbn [flat_map]. rewrite fold_left_app. reflexivity. }
    cbn zeta. rewrite E, set_rest; auto.
    destruct rows as [|r2 rows].
    - cbn. auto.
    - rewrite set_rows; [cbn; auto|auto|auto|left; discriminate].
  Qed.

  (** Any calls: each group begins with the first field and does not repeat it. *)
  Definition group_of (n0 : bytes) (g : list (bytes * F * V)) : Prop :=
    exists c tl, g = c :: tl /\ fst (fst c) = n0 /\ ~ In n0 (map (fun c => fst (fst c)) tl).
  Lemma calls_split (tl : list (bytes * F * V)) : row_calls (map fst tl) (map snd tl) = tl.
  Proof. unfold row_calls. induction tl as [|[a b] tl IH]; [reflexivity|]. cbn [map combine fst snd]. now rewrite IH. Qed.
  Lemma set_tail ended n0 fs rows r (tl : list (bytes * F * V)) : ~ In n0 (map (fun c => fst (fst c)) tl) ->
    set_all (mk_column true ended n0 fs (rows ++ [r])) tl =
    mk_column true ended n0 (if ended then fs else fs ++ map (fun c => snd (fst c)) tl) (rows ++ [r ++ map snd tl]).
  Proof.
    intros H. rewrite <- (calls_split tl) at 1. rewrite set_rest.
    - now rewrite map_map.
    - now rewrite map_map.
    - now rewrite !map_length.
  Qed.
  Lemma set_groups n0 fs gs : Forall (group_of n0) gs -> forall ended rows, gs <> [] \/ ended = true ->
    set_all (mk_column true ended n0 fs rows) (concat gs) = mk_column true true n0 fs (rows ++ map (map snd) gs).
  Proof.
    intros H. induction H as [|g gs (c & tl & -> & Hc & Ht) H IH]; intros ended rows C.
    - destruct C as [C| ->]; [congruence|]. cbn. now rewrite app_nil_r.
    - cbn [concat]. unfold set_all. rewrite fold_left_app.
      change (set_all (set_all (col_set (mk_column true ended n0 fs rows) (fst (fst c)) (snd (fst c)) (snd c)) tl) (concat gs)
              = mk_column true true n0 fs (rows ++ map (map snd) ((c :: tl) :: gs))).
      unfold col_set. cbn [col_started negb col_first col_ended col_fields col_rows]. rewrite Hc, beqb_refl.
      rewrite set_tail; auto. rewrite IH; auto. cbn [map]. now rewrite <- app_assoc.
  Qed.
  Lemma col_run_groups n0 (g : list (bytes * F * V)) gs : Forall (group_of n0) (g :: gs) ->
    let col := col_run (concat (g :: gs)) in
    col_fields col = map (fun c => snd (fst c)) g /\ col_rows col = map (map snd) (g :: gs).
  Proof.
    intros H. inversion H as [|? ? (c & tl & -> & Hc & Ht) H']; subst.
    assert (E : col_run (concat ((c :: tl) :: gs)) =
      set_all (set_all (mk_column true false (fst (fst c)) [snd (fst c)] ([] ++ [[snd c]])) tl) (concat gs)).
    { unfold col_run, set_all. cbn [concat]. rewrite fold_left_app. reflexivity. }
    cbn zeta. rewrite E, set_tail; auto.
    destruct gs as [|g2 gs].
    - cbn. auto.
    - rewrite (set_groups (fst (fst c)) _ (g2 :: gs)); [cbn; auto|exact H'|left; discriminate].
  Qed.
End Cols.

Lemma calls_eq d fs rows :
  map (fun c => (get_name (k_node (fst c)), fst c, k_run (snd c)))
    (map (pair_map (mk d)) (mapper_calls fs rows)) =
  flat_map (row_calls (map (fun f => (get_name f, mk d f)) fs)) (map (map (fun v => k_run (mk d v))) rows).
Proof.
  unfold mapper_calls. induction rows as [|r rows IH]; auto. cbn [flat_map map].
  rewrite !map_app, IH. f_equal. clear.
  revert r. induction fs as [|f fs IH]; intros [|v r]; auto. cbn [combine map row_calls pair_map]. f_equal. apply IH.
Qed.
Lemma mapper_source d (q : insert_ node) f0 fs rows :
  iq_mapper q = Some (mapper_calls (f0 :: fs) rows, false) ->
  ~ In (get_name f0) (map get_name fs) -> rows <> [] -> Forall (fun r => length r = length (f0 :: fs)) rows ->
  insert_source (insert_map (mk d) q) = insert_source (insert_map (mk d) (with_rows q (f0 :: fs) rows)).
Proof.
  intros HM HN H0 HL. unfold insert_source.
  change (iq_mapper (insert_map (mk d) q)) with (option_map (mapper_map (mk d)) (iq_mapper q)). rewrite HM.
  change (iq_mapper (insert_map (mk d) (with_rows q (f0 :: fs) rows))) with (@None (list (kid * kid) * bool)).
  cbn [option_map mapper_map fst snd]. cbv iota. rewrite calls_eq.
  cbn [map]. destruct (col_run_rows (get_name f0) (mk d f0) (map (fun f => (get_name f, mk d f)) fs)
    (map (map (fun v => k_run (mk d v))) rows)) as [E1 E2].
  - rewrite map_map. cbn [fst]. exact HN.
  - now destruct rows.
  - apply Forall_map. eapply Forall_impl; [|exact HL]. intros r L. rewrite !map_length. cbn in L. congruence.
  - cbn zeta. rewrite E1, E2. rewrite map_map. cbn [snd].
    change (iq_columns (insert_map (mk d) (with_rows q (f0 :: fs) rows))) with (map (mk d) (f0 :: fs)).
    change (iq_rows (insert_map (mk d) (with_rows q (f0 :: fs) rows))) with (map (map (mk d)) rows).
    cbn [map]. f_equal. f_equal. rewrite map_map. apply map_ext. intros r. now rewrite map_map.
Qed.
Lemma insert_mapper_pf : forall (d : dialect) (q : insert_ node) (c : rctx) (f0 : node) (fs : list node) (rows : list (list node)),
  iq_mapper q = Some (mapper_calls (f0 :: fs) rows, false) ->
  ~ In (get_name f0) (map get_name fs) -> rows <> [] -> Forall (fun r => length r = length (f0 :: fs)) rows ->
  render d (NInsert q) c = render d (NInsert (with_rows q (f0 :: fs) rows)) c.
Proof.
  intros d q c f0 fs rows HM HN H0 HL.
  change (insert_run d (insert_map (mk d) q) (c_env c) = insert_run d (insert_map (mk d) (with_rows q (f0 :: fs) rows)) (c_env c)).
  unfold insert_run. rewrite (mapper_source d q f0 fs rows HM HN H0 HL).
  destruct (insert_source _) as [[cols rs]|]; reflexivity.
Qed.
Lemma split_groups_pf : forall (calls : list (node * node)) f v,
  exists g gs, (f, v) :: calls = concat (g :: gs) /\ Forall (call_group (get_name f)) (g :: gs).
Proof.
  intros calls f v. remember (get_name f) as n0 eqn:E0. revert f v E0.
  induction calls as [|[f' v'] calls IH]; intros f v E0.
  - exists [(f, v)], []. split; [reflexivity|]. constructor; [|constructor]. exists f, v, []. repeat split; auto.
  - destruct (beqb (get_name f') n0) eqn:E.
    + apply beqb_eq in E. destruct (IH f' v' (eq_sym E)) as (g & gs & E1 & E2).
      exists [(f, v)], (g :: gs). split; [cbn [concat app] in E1 |- *; now rewrite E1|].
      constructor; [|exact E2]. exists f, v, []. repeat split; auto.
    + destruct (IH f v E0) as (g & gs & E1 & E2). inversion E2 as [|? ? (f1 & v1 & tl & -> & Hf & Ht) E3]; subst.
      cbn [concat app] in E1. injection E1 as -> -> ->.
      exists ((f1, v1) :: (f', v') :: tl), gs. split; [reflexivity|]. constructor; [|exact E3].
      exists f1, v1, ((f', v') :: tl). repeat split; auto. cbn [map fst]. intros [H|H]; [|now apply Ht].
      rewrite H, beqb_refl in E. discriminate.
Qed.
Lemma tail_groups_unique n0 : forall (t1 t2 : list (node * node)) (r1 r2 : list (list (node * node))),
  ~ In n0 (map (fun c => get_name (fst c)) t1) -> ~ In n0 (map (fun c => get_name (fst c)) t2) ->
  Forall (call_group n0) r1 -> Forall (call_group n0) r2 ->
  t1 ++ concat r1 = t2 ++ concat r2 -> t1 = t2 /\ concat r1 = concat r2.
Proof.
  assert (A : forall t (r : list (list (node * node))) c t2, Forall (call_group n0) r -> concat r = (c :: t2) ++ t ->
    ~ In n0 (map (fun c => get_name (fst c)) (c :: t2)) -> False).
  { intros t r c t2 H E N. destruct H as [|g r (f & v & tl & -> & Hf & _) H]; [discriminate|].
    cbn [concat app] in E. injection E as <- _. apply N. now left. }
  induction t1 as [|c1 t1 IH]; intros [|c2 t2] r1 r2 N1 N2 H1 H2 E.
  - auto.
  - destruct (A (concat r2) r1 c2 t2 H1 E N2).
  - destruct (A (concat r1) r2 c1 t1 H2 (eq_sym E) N1).
  - cbn [app] in E. injection E as -> E. destruct (IH t2 r1 r2) as [-> X]; auto.
    + intros I. apply N1. now right.
    + intros I. apply N2. now right.
Qed.
Lemma groups_unique_pf : forall n0 (gs hs : list (list (node * node))),
  Forall (call_group n0) gs -> Forall (call_group n0) hs -> concat gs = concat hs -> gs = hs.
Proof.
  intros n0 gs. induction gs as [|g gs IH]; intros hs H1 H2 E.
  - destruct H2 as [|h hs (f & v & tl & -> & _)]; [reflexivity|discriminate].
  - inversion H1 as [|? ? (f & v & tl & -> & Hf & Ht) H1']; subst.
    destruct H2 as [|h hs (f2 & v2 & tl2 & -> & Hf2 & Ht2) H2]; [discriminate|].
    cbn [concat app] in E. injection E as <- <- E.
    destruct (tail_groups_unique (get_name f) tl tl2 gs hs Ht Ht2 H1' H2 E) as [-> X].
    f_equal. now apply IH.
Qed.
Lemma insert_groups_pf : forall (d : dialect) (q : insert_ node) (c : rctx) (n0 : bytes) (g : list (node * node)) (gs : list (list (node * node))),
  iq_mapper q = Some (concat (g :: gs), false) -> Forall (call_group n0) (g :: gs) ->
  render d (NInsert q) c = render d (NInsert (with_rows q (map fst g) (map (map snd) (g :: gs)))) c.
Proof.
  intros d q c n0 g gs HM HG.
  change (insert_run d (insert_map (mk d) q) (c_env c)
    = insert_run d (insert_map (mk d) (with_rows q (map fst g) (map (map snd) (g :: gs)))) (c_env c)).
  assert (E : insert_source (insert_map (mk d) q) = insert_source (insert_map (mk d) (with_rows q (map fst g) (map (map snd) (g :: gs))))).
  { unfold insert_source.
    change (iq_mapper (insert_map (mk d) q)) with (option_map (mapper_map (mk d)) (iq_mapper q)). rewrite HM.
    change (iq_mapper (insert_map (mk d) (with_rows q (map fst g) (map (map snd) (g :: gs))))) with (@None (list (kid * kid) * bool)).
    cbn [option_map mapper_map fst snd]. cbv iota.
    set (h := fun c : kid * kid => (get_name (k_node (fst c)), fst c, k_run (snd c))).
    set (G := fun l : list (node * node) => map h (map (pair_map (mk d)) l)).
    assert (EC : map h (map (pair_map (mk d)) (concat (g :: gs))) = concat (map G (g :: gs))).
    { rewrite !concat_map, !map_map. reflexivity. }
    rewrite EC.
    assert (HF : Forall (group_of n0) (map G (g :: gs))).
    { apply Forall_map. eapply Forall_impl; [|exact HG]. intros l (f & v & tl & -> & Hf & Ht).
      exists (h (pair_map (mk d) (f, v))), (G tl). split; [reflexivity|]. split; [exact Hf|].
      intros I. apply Ht. unfold G in I. rewrite !map_map in I. exact I. }
    destruct (col_run_groups n0 (G g) (map G gs) HF) as [E1 E2].
    change (map G (g :: gs)) with (G g :: map G gs). cbn zeta. rewrite E1, E2.
    change (iq_columns (insert_map (mk d) (with_rows q (map fst g) (map (map snd) (g :: gs))))) with (map (mk d) (map fst g)).
    change (iq_rows (insert_map (mk d) (with_rows q (map fst g) (map (map snd) (g :: gs))))) with (map (map (mk d)) (map (map snd) (g :: gs))).
    unfold G. f_equal. f_equal; [now rewrite !map_map|].
    change (map h (map (pair_map (mk d)) g) :: map (fun l => map h (map (pair_map (mk d)) l)) gs)
      with (map (fun l => map h (map (pair_map (mk d)) l)) (g :: gs)).
    rewrite !map_map. apply map_ext. intros l. now rewrite !map_map. }
  unfold insert_run. rewrite E. destruct (insert_source _) as [[cols rs]|]; reflexivity.
Qed.
Lemma insert_no_calls_pf : forall (d : dialect) (q : insert_ node) (c : rctx),
  iq_mapper q = Some ([], false) ->
  render d (NInsert q) c = render d (NInsert (with_rows q [] [])) c.
Proof.
  intros d q c HM.
  change (insert_run d (insert_map (mk d) q) (c_env c) = insert_run d (insert_map (mk d) (with_rows q [] [])) (c_env c)).
  unfold insert_run, insert_source.
  change (iq_mapper (insert_map (mk d) q)) with (option_map (mapper_map (mk d)) (iq_mapper q)). rewrite HM. reflexivity.
Qed.
Lemma update_mapper_pf : forall (d : dialect) (q : update_ node) (c : rctx) (calls : list (node * node)),
  uq_mapper q = Some (calls, false) ->
  render d (NUpdate q) c = render d (NUpdate (with_assigns q calls)) c.
Proof.
  intros d q c calls HM.
  change (update_run d (update_map (mk d) q) (c_env c) = update_run d (update_map (mk d) (with_assigns q calls)) (c_env c)).
  unfold update_run. assert (E : update_source (update_map (mk d) q) = update_source (update_map (mk d) (with_assigns q calls))).
  { unfold update_source. change (uq_mapper (update_map (mk d) q)) with (option_map (mapper_map (mk d)) (uq_mapper q)). rewrite HM. reflexivity. }
  rewrite E. destruct (update_source _); reflexivity.
Qed.
Lemma mapper_error_pf : forall (d : dialect) (c : rctx),
  (forall q calls, iq_mapper q = Some (calls, true) -> render d (NInsert q) c = fail) /\
  (forall q calls, uq_mapper q = Some (calls, true) -> render d (NUpdate q) c = fail).
Proof.
  intros d c. split; intros q calls HM.
  - change (insert_run d (insert_map (mk d) q) (c_env c) = fail). unfold insert_run, insert_source.
    change (iq_mapper (insert_map (mk d) q)) with (option_map (mapper_map (mk d)) (iq_mapper q)). now rewrite HM.
  - change (update_run d (update_map (mk d) q) (c_env c) = fail). unfold update_run, update_source.
    change (uq_mapper (update_map (mk d) q)) with (option_map (mapper_map (mk d)) (uq_mapper q)). now rewrite HM.
Qed.

(** ** CASE *)
Lemma case_pf : forall (d : dialect) (cases : list (node * node)) (fallback : option node) (alias : bytes) (c : rctx),
  (cases = [] -> snd (render d (NCase cases fallback alias) c) <> SOk) /\
  (cases <> [] -> render d (NCase cases fallback alias) c =
     emit (B "CASE") ;; seqs (map (when_then_sql d c) cases) ;; else_sql d c fallback ;; emit (B " END")).
Proof.
  intros d cases fb alias c. split; [intros ->; discriminate|]. intros H.
  change (render d (NCase cases fb alias) c) with
    (emit (B "CASE") ;; match cases with [] => fail | _ => ret end ;;
     case_tail (map (pair_map (mk d)) cases) (option_map (mk d) fb) (c_env c) (c_excl c)).
  replace (match cases with [] => fail | _ => ret end) with ret by (now destruct cases).
  rewrite ret_seq'. unfold case_tail. rewrite map_map. f_equal. f_equal. f_equal.
  destruct fb as [f|]; auto. cbn [option_map else_sql mk k_node k_run]. now destruct (is_nil f).
Qed.
Lemma simple_case_pf : forall (d : dialect) (expr : node) (cases : list (node * node)) (fallback : option node)
    (alias : bytes) (c : rctx),
  (cases = [] -> snd (render d (NSimpleCase expr cases fallback alias) c) <> SOk) /\
  (cases <> [] -> render d (NSimpleCase expr cases fallback alias) c =
     emit (B "CASE ") ;; render d expr (ctx (c_env c) (c_excl c)) ;;
     seqs (map (when_then_sql d c) cases) ;; else_sql d c fallback ;; emit (B " END")).
Proof.
  intros d expr cases fb alias c. split; [intros ->; discriminate|]. intros H.
  change (render d (NSimpleCase expr cases fb alias) c) with
    (emit (B "CASE ") ;; match cases with [] => fail | _ => ret end ;; render d expr (ctx (c_env c) (c_excl c)) ;;
     case_tail (map (pair_map (mk d)) cases) (option_map (mk d) fb) (c_env c) (c_excl c)).
  replace (match cases with [] => fail | _ => ret end) with ret by (now destruct cases).
  rewrite ret_seq'. unfold case_tail. rewrite map_map. f_equal. f_equal. f_equal. f_equal.
  destruct fb as [f|]; auto. cbn [option_map else_sql mk k_node k_run]. now destruct (is_nil f).
Qed.

(** ** Columns of CTEs and subqueries *)
Lemma returning_dialect_in s : returning_dialect s = true <-> In s [B "postgres"; B "sqlite"].
Proof.
  unfold returning_dialect. rewrite orb_true_iff, !beqb_eq. cbn [In]. split; intros H.
  - destruct H as [-> | ->]; auto.
  - destruct H as [<-|[<-|[]]]; auto.
Qed.
Lemma fetchable_produces q : forall fs, fs <> [] -> fetchable q = FFields fs -> produces q fs.
Proof.
  induction q as [n H] using node_sub_ind. intros fs H0 E. destruct n; cbn [fetchable] in E; try discriminate.
  - destruct qs as [|q qs]; [injection E as <-; congruence|]. constructor. apply H; auto.
  - injection E as <-. constructor.
  - destruct (returning_dialect (iq_dialect q)) eqn:R; [|discriminate]. injection E as <-. constructor. now apply returning_dialect_in.
  - destruct (returning_dialect (uq_dialect q)) eqn:R; [|discriminate]. injection E as <-. constructor. now apply returning_dialect_in.
  - destruct (returning_dialect (dq_dialect q)) eqn:R; [|discriminate]. injection E as <-. constructor. now apply returning_dialect_in.
Qed.
Lemma produces_fetchable q fs : produces q fs -> fetchable q = FFields fs.
Proof.
  induction 1; cbn [fetchable]; auto; try (apply returning_dialect_in in H; now rewrite H).
Qed.
Lemma output_column f : output_name f = column_name f.
Proof. unfold output_name, column_name. now destruct (get_alias f). Qed.
Lemma existsb_in n l : existsb (beqb n) l = true <-> In n l.
Proof.
  rewrite existsb_exists. split; [intros (x & I & E); apply beqb_eq in E; now subst|intros I; exists n; split; auto; apply beqb_refl].
Qed.
Lemma unnamed_existsb fs : existsb (fun f => is_empty (output_name f)) fs = false <-> Forall (fun f => column_name f <> []) fs.
Proof.
  induction fs as [|f fs IH]; cbn [existsb]; [split; auto|]. rewrite orb_false_iff, IH, Forall_cons_iff, output_column.
  destruct (column_name f); cbn [is_empty]; intuition congruence.
Qed.
Lemma names_eq fs : map output_name fs = map column_name fs.
Proof. apply map_ext, output_column. Qed.

Lemma cte_built r name columns query ct alias : new_cte r name columns query = Some ct ->
  let ct' := cte_as ct alias in
  cte_name ct' = name /\
  (forall f, In f (cte_cache ct') <->
     name <> [] /\ exists q, query = Some q /\ (In f columns \/ columns = [] /\ has_column q f)) /\
  (cte_cache ct' <> [] -> cte_alias ct' = alias).
Proof.
  assert (AS : forall ct, cte_name (cte_as ct alias) = cte_name ct /\ cte_cache (cte_as ct alias) = cte_cache ct).
  { intros c0. unfold cte_as. destruct (cte_err c0); auto. destruct (is_empty (cte_name c0)); auto.
    destruct (cte_query c0); auto. destruct (cte_cache c0) eqn:E; cbn; auto. }
  assert (OK : forall q e r x n fs cache, cache <> [] -> is_empty n = false ->
    cte_alias (cte_as (mk_cte (Some q) false e r n x fs cache None) alias) = alias).
  { intros. unfold cte_as. cbn. rewrite H0. destruct cache; [congruence|reflexivity]. }
  intros H. cbn zeta. destruct (AS ct) as [A1 A2]. rewrite A1, A2. clear A1.
  unfold new_cte in H. destruct (is_empty name) eqn:EN.
  { injection H as <-. destruct name; [|discriminate]. cbn. split; [reflexivity|]. split; [|congruence].
    intros f. split; [tauto|]. intros [[] _]. reflexivity. }
  assert (NE : name <> []) by (now destruct name).
  destruct query as [q|].
  2:{ injection H as <-. cbn. split; [reflexivity|]. split; [|congruence]. intros f. split; [tauto|]. intros (_ & q & E & _). discriminate. }
  destruct columns as [|c0 columns].
  - assert (NO : (forall f, ~ has_column q f) -> forall f, In f (@nil bytes) <->
        name <> [] /\ exists q0, Some q = Some q0 /\ (In f [] \/ @nil bytes = [] /\ has_column q0 f)).
    { intros K f. split; [intros []|]. intros (_ & q0 & [= <-] & [[]|[_ HC]]). now destruct (K f). }
    destruct (fetchable q) as [fs| |] eqn:FE; [| |discriminate].
    + destruct fs as [|f0 fs].
      { injection H as <-. cbn. split; [reflexivity|]. split; [|congruence]. apply NO.
        intros f (fs & P & _ & I). apply produces_fetchable in P. rewrite FE in P. injection P as <-. destruct I. }
      destruct (existsb is_nil (f0 :: fs)) eqn:NIL; [discriminate|].
      assert (PR : produces q (f0 :: fs)) by (apply fetchable_produces; [discriminate|auto]).
      assert (UN : forall fs', produces q fs' -> fs' = f0 :: fs).
      { intros fs' P. apply produces_fetchable in P. rewrite FE in P. now injection P. }
      destruct (existsb (fun f => is_empty (output_name f)) (f0 :: fs)) eqn:EE.
      { injection H as <-. cbn. split; [reflexivity|]. split; [|congruence]. apply NO.
        intros f (fs' & P & FA & I). rewrite (UN _ P) in FA. apply unnamed_existsb in FA. congruence. }
      injection H as <-. cbn [cte_name cte_cache]. split; [reflexivity|]. split.
      * intros f. change (output_name f0 :: map output_name fs) with (map output_name (f0 :: fs)). rewrite names_eq. split.
        -- intros I. split; [exact NE|]. exists q. split; [reflexivity|]. right. split; [reflexivity|].
           exists (f0 :: fs). split; [exact PR|]. split; [now apply unnamed_existsb|exact I].
        -- intros (_ & q0 & [= <-] & [[]|[_ (fs' & P & _ & I)]]). now rewrite (UN _ P) in I.
      * intros HC. apply OK; auto.
    + injection H as <-. cbn. split; [reflexivity|]. split; [|congruence]. apply NO.
      intros f (fs & P & _). apply produces_fetchable in P. congruence.
  - injection H as <-. cbn [cte_name cte_cache]. split; [reflexivity|]. split.
    + intros f. split.
      * intros I. split; [exact NE|]. exists q. auto.
      * intros (_ & q0 & _ & [I|[E _]]); [exact I|discriminate].
    + intros HC. apply OK; auto.
Qed.

Lemma cte_field_pf : forall (recursive : bool) (name : bytes) (columns : list bytes) (query : option node)
    (cte : cte_ node) (alias field : bytes) (d : dialect) (c : rctx),
  new_cte recursive name columns query = Some cte -> c_excl c = [] ->
  let m := render d (cte_field (cte_as cte alias) field) c in
  (snd m = SOk <->
   name <> [] /\ exists q, query = Some q /\ (In field columns \/ columns = [] /\ has_column q field)) /\
  (snd m = SOk ->
   text_of m = Some (quote_identifier d (match alias with [] => name | _ => alias end) ++ B "." ++
                     quote_identifier d field)).
Proof.
  intros r name columns query ct alias field d c H HX m.
  destruct (cte_built r name columns query ct alias H) as (N & C & A). set (ct' := cte_as ct alias) in *.
  assert (E : m = if existsb (beqb field) (cte_cache ct')
                  then field_run d (plain_field (cte_name ct') (cte_alias ct') field) [] None [] else fail).
  { unfold m, cte_field. cbn [render]. now rewrite HX. }
  rewrite E. clear m E. rewrite <- C. destruct (existsb (beqb field) (cte_cache ct')) eqn:EX.
  - apply existsb_in in EX. rewrite N, A by (intros Z; rewrite Z in EX; destruct EX).
    assert (NE : name <> []) by (apply C in EX; tauto).
    assert (T := field_text d (plain_field name alias field) [] None [] eq_refl eq_refl).
    assert (SQ : shown_qualifier [] (plain_field name alias field) = match alias with [] => name | _ => alias end)
      by (destruct alias, name; reflexivity).
    rewrite SQ in T. assert (Q : is_empty (match alias with [] => name | _ => alias end) = false)
      by (destruct alias, name; try reflexivity; congruence).
    rewrite Q in T. cbn [plain_field fi_name] in T. unfold field_suffix in T. cbn [plain_field fi_collation fi_desc fi_nulls is_empty] in T.
    cbn [app] in T. rewrite app_nil_r, <- app_assoc in T.
    split; [|intros _; exact T]. split; [auto|intros _].
    unfold text_of in T. destruct (snd _); congruence.
  - split; [|discriminate]. split; [discriminate|]. intros I. apply existsb_in in I. congruence.
Qed.

Lemma sub_built alias query sq : new_subquery alias query = Some sq ->
  sb_alias sq = alias /\ sb_query sq = query /\
  (sb_err sq = false <-> exists q fs, query = Some q /\ produces q fs /\ fs <> [] /\ Forall (fun f => column_name f <> []) fs) /\
  (forall f, In f (sb_cache sq) <-> exists q, query = Some q /\ has_column q f).
Proof.
  intros H. unfold new_subquery in H. destruct query as [q|].
  2:{ injection H as <-. cbn. repeat split; try discriminate.
      - intros (q & fs & E & _). discriminate.
      - intros [].
      - intros (q & E & _). discriminate. }
  assert (BAD : (forall fs, produces q fs -> fs <> [] -> Forall (fun f => column_name f <> []) fs -> False) ->
    forall names, (true = false <-> exists q0 fs, Some q = Some q0 /\ produces q0 fs /\ fs <> [] /\ Forall (fun f => column_name f <> []) fs) /\
    (forall f : bytes, In f (sb_cache (mk_subq (Some q) true alias names [])) <-> exists q0, Some q = Some q0 /\ has_column q0 f)).
  { intros K names. split; [split; [discriminate|]|intros f; split; [intros []|]].
    - intros (q0 & fs & [= <-] & P & NE & FA). destruct (K fs P NE FA).
    - intros (q0 & [= <-] & fs & P & FA & I). destruct (K fs P); auto. intros ->. destruct I. }
  destruct (fetchable q) as [fs| |] eqn:FE; [| |discriminate].
  - destruct fs as [|f0 fs].
    { injection H as <-. split; [reflexivity|]. split; [reflexivity|]. apply BAD. intros fs P NE _.
      apply produces_fetchable in P. rewrite FE in P. injection P as <-. congruence. }
    destruct (existsb is_nil (f0 :: fs)) eqn:NIL; [discriminate|].
    assert (PR : produces q (f0 :: fs)) by (apply fetchable_produces; [discriminate|auto]).
    assert (UN : forall fs', produces q fs' -> fs' = f0 :: fs).
    { intros fs' P. apply produces_fetchable in P. rewrite FE in P. now injection P. }
    destruct (existsb (fun f => is_empty (output_name f)) (f0 :: fs)) eqn:EE.
    { injection H as <-. split; [reflexivity|]. split; [reflexivity|]. apply BAD. intros fs' P _ FA.
      rewrite (UN _ P) in FA. apply unnamed_existsb in FA. congruence. }
    injection H as <-. cbn [sb_alias sb_query sb_err sb_cache]. split; [reflexivity|]. split; [reflexivity|].
    assert (FA : Forall (fun f => column_name f <> []) (f0 :: fs)) by now apply unnamed_existsb.
    split; [split; [intros _|reflexivity]|].
    + exists q, (f0 :: fs). repeat split; auto. discriminate.
    + intros f. change (output_name f0 :: map output_name fs) with (map output_name (f0 :: fs)). rewrite names_eq. split.
      * intros I. exists q. split; auto. exists (f0 :: fs). auto.
      * intros (q0 & [= <-] & fs' & P & _ & I). now rewrite (UN _ P) in I.
  - injection H as <-. split; [reflexivity|]. split; [reflexivity|]. apply BAD. intros fs P _ _.
    apply produces_fetchable in P. congruence.
Qed.

Lemma subquery_field_pf : forall (alias : bytes) (query : option node) (sq : subq_ node) (field : bytes)
    (d : dialect) (c : rctx),
  new_subquery alias query = Some sq -> c_excl c = [] ->
  let m := render d (sub_field sq field) c in
  (snd m = SOk <->
   (alias <> [] \/ (d <> DPostgres /\ d <> DMySQL)) /\ exists q, query = Some q /\ has_column q field) /\
  (snd m = SOk ->
   text_of m = Some ((match alias with [] => [] | _ => quote_identifier d alias ++ B "." end) ++ quote_identifier d field)).
Proof.
  intros alias query sq field d c H HX m.
  destruct (sub_built alias query sq H) as (N & _ & _ & C).
  assert (E : m = if is_empty alias && (is_postgres d || is_mysql d) then fail
                  else if existsb (beqb field) (sb_cache sq)
                  then field_run d (plain_field [] alias field) [] None [] else fail).
  { unfold m, sub_field. cbn [render]. rewrite HX, N. reflexivity. }
  rewrite E. clear m E. rewrite <- C.
  destruct (is_empty alias && (is_postgres d || is_mysql d)) eqn:EA.
  { split; [|discriminate]. split; [discriminate|]. intros [HA _]. apply andb_true_iff in EA. destruct EA as [E1 E2].
    destruct alias; [|discriminate]. destruct HA as [HA|[HA HB]]; [congruence|]. destruct d; try discriminate; congruence. }
  assert (OKA : alias <> [] \/ (d <> DPostgres /\ d <> DMySQL)).
  { apply andb_false_iff in EA. destruct EA as [E1|E1]; [left; now destruct alias|right; destruct d; try discriminate; split; discriminate]. }
  destruct (existsb (beqb field) (sb_cache sq)) eqn:EX.
  - apply existsb_in in EX.
    assert (T := field_text d (plain_field [] alias field) [] None [] eq_refl eq_refl).
    assert (SQ : shown_qualifier [] (plain_field [] alias field) = alias) by (destruct alias; reflexivity).
    rewrite SQ in T. cbn [plain_field fi_name] in T. unfold field_suffix in T.
    cbn [plain_field fi_collation fi_desc fi_nulls is_empty] in T. cbn [app] in T. rewrite app_nil_r in T.
    split; [|intros _; rewrite T; now destruct alias]. split; [auto|intros _].
    unfold text_of in T. destruct (snd _); congruence.
  - split; [|discriminate]. split; [discriminate|]. intros [_ I]. apply existsb_in in I. congruence.
Qed.
Lemma subquery_table_pf : forall (alias : bytes) (query : option node) (sq : subq_ node) (d : dialect) (c : rctx),
  new_subquery alias query = Some sq ->
  snd (render d (NSubquery sq) c) = SOk ->
  (alias <> [] \/ (d <> DPostgres /\ d <> DMySQL)) /\
  exists q fs, query = Some q /\ produces q fs /\ fs <> [] /\ Forall (fun f => column_name f <> []) fs /\
    render d (NSubquery sq) c = emit (B "(") ;; render d q (ctx None []) ;; emit (B ")").
Proof.
  intros alias query sq d c H S. destruct (sub_built alias query sq H) as (N & Q & E & _).
  assert (R : render d (NSubquery sq) c =
    if sb_err sq then fail else emit (B "(") ;; match sb_query sq with None => crash | Some q => render d q (ctx None []) end ;;
      emit (B ")") ;; when (is_empty (sb_alias sq) && (is_postgres d || is_mysql d)) fail) by reflexivity.
  rewrite R in S |- *. destruct (sb_err sq) eqn:EE; [discriminate|].
  destruct (proj1 E eq_refl) as (q & fs & QE & P & NE & FA). rewrite Q, QE, N in *.
  apply seq_ok in S. destruct S as [_ S]. apply seq_ok in S. destruct S as [_ S]. apply seq_ok in S. destruct S as [_ S].
  rewrite when_ok in S. destruct (is_empty alias && (is_postgres d || is_mysql d)) eqn:EA; [discriminate S; reflexivity|].
  split.
  - apply andb_false_iff in EA. destruct EA as [E1|E1]; [left; now destruct alias|right; destruct d; try discriminate; split; discriminate].
  - exists q, fs. repeat split; auto.
Qed.

(** ** Identifiers *)
Lemma table_text d schema name alias hook c :
  text_of (render d (NTable schema name alias hook) c) =
  Some ((match schema with [] => [] | _ => quote_identifier d schema ++ B "." end) ++ quote_identifier d name).
Proof.
  assert (E : render d (NTable schema name alias hook) c =
    when (negb (is_empty schema)) (emit (quote_identifier d schema ++ B ".")) ;; emit (quote_identifier d name)) by reflexivity.
  rewrite E. apply text_of_seq; [destruct schema; [reflexivity|apply text_of_emit]|apply text_of_emit].
Qed.
