(** * NodeInd: all components of a value, and induction over values.

    [sub_all P n]: every direct component of [n] satisfies [P].
    [everywhere P n]: [n] and all values inside it satisfy [P]. *)
From Verif Require Import GoBase QuoteModel SprintModel TokenModel EffectModel RenderModel.

Fixpoint conj_list (l : list Prop) : Prop :=
  match l with [] => True | p :: l' => p /\ conj_list l' end.
Definition conj_opt (o : option Prop) : Prop := match o with Some p => p | None => True end.
Definition conj_pair (p : Prop * Prop) : Prop := fst p /\ snd p.
Definition vpred_props (p : vpred_ Prop) : Prop := conj_list (vp_preds p).
Definition join_props (j : join_ Prop) : Prop := conj_opt (jn_table j) /\ vpred_props (jn_on j).
Definition cte_props (c : cte_ Prop) : Prop := conj_opt (cte_query c).
Definition subq_props (q : subq_ Prop) : Prop := conj_opt (sb_query q).
Definition mapper_props (m : list (Prop * Prop) * bool) : Prop := conj_list (map conj_pair (fst m)).
Definition select_props (q : select_ Prop) : Prop :=
  conj_list (map cte_props (sq_ctes q)) /\ conj_list (sq_fields q) /\
  conj_list (sq_distinct_on q) /\ conj_opt (sq_from q) /\
  conj_list (map join_props (sq_joins q)) /\ vpred_props (sq_where q) /\
  conj_list (sq_group q) /\ vpred_props (sq_having q) /\ conj_list (sq_order q).
Definition insert_props (q : insert_ Prop) : Prop :=
  conj_opt (option_map mapper_props (iq_mapper q)) /\ conj_list (map cte_props (iq_ctes q)) /\
  conj_opt (iq_into q) /\ conj_list (iq_columns q) /\ conj_list (map conj_list (iq_rows q)) /\
  conj_opt (option_map select_props (iq_select q)) /\ conj_list (iq_cfields q) /\
  conj_opt (iq_cpred q) /\ conj_list (map conj_pair (iq_resolution q)) /\
  vpred_props (iq_rpred q) /\ conj_list (iq_returning q).
Definition update_props (q : update_ Prop) : Prop :=
  conj_opt (option_map mapper_props (uq_mapper q)) /\ conj_list (map cte_props (uq_ctes q)) /\
  conj_opt (uq_table q) /\ conj_opt (uq_from q) /\ conj_list (map join_props (uq_joins q)) /\
  conj_list (map conj_pair (uq_assigns q)) /\ vpred_props (uq_where q) /\
  conj_list (uq_order q) /\ conj_list (uq_returning q).
Definition delete_props (q : delete_ Prop) : Prop :=
  conj_list (map cte_props (dq_ctes q)) /\ conj_list (map conj_opt (dq_tables q)) /\
  conj_opt (dq_using q) /\ conj_list (map join_props (dq_joins q)) /\ vpred_props (dq_where q) /\
  conj_list (dq_order q) /\ conj_list (dq_returning q).

(** The predicate a hook returns, if any. *)
Definition hook_props (r : hookres Prop) : Prop := match r with HPred p => p | _ => True end.
Definition hookres_map {A C} (f : A -> C) (r : hookres A) : hookres C :=
  match r with HErr => HErr | HNil => HNil | HPred p => HPred (f p) end.

Definition sub_all (f : node -> Prop) (n : node) : Prop :=
  match n with
  | NRaw _ | NLiteral _ _ | NCTEField _ _ _ | NSubField _ _ _ => True
  | NSlice vs => conj_list (map f vs)
  | NParam _ v => f v
  | NField _ _ _ vals => conj_list (map f vals)
  | NValue v _ => f v
  | NFields fs => conj_list (map f fs)
  | NRowValue vs => conj_list (map f vs)
  | NRowValues rows => conj_list (map conj_list (map (map f) rows))
  | NAssign l r => f l /\ f r
  | NCase cases fallback _ =>
    conj_list (map conj_pair (map (pair_map f) cases)) /\ conj_opt (option_map f fallback)
  | NSimpleCase expr cases fallback _ =>
    f expr /\ conj_list (map conj_pair (map (pair_map f) cases)) /\ conj_opt (option_map f fallback)
  | NPred _ _ vals _ => conj_list (map f vals)
  | NVPred p => vpred_props (vpred_map f p)
  | NTable _ _ _ None => True
  | NTable _ _ _ (Some h) => forall e, hook_props (hookres_map f (h e))
  | NTablef _ vals => conj_list (map f vals)
  | NCTE c => cte_props (cte_map f c)
  | NSubquery q => subq_props (subq_map f q)
  | NJoin j => join_props (join_map f j)
  | NWindow p o _ => conj_list (map f p) /\ conj_list (map f o)
  | NQueryf _ _ vals => conj_list (map f vals)
  | NVQuery _ _ qs => conj_list (map f qs)
  | NSelect q => select_props (select_map f q)
  | NInsert q => insert_props (insert_map f q)
  | NUpdate q => update_props (update_map f q)
  | NDelete q => delete_props (delete_map f q)
  end.

Fixpoint everywhere (P : node -> Prop) (n : node) {struct n} : Prop :=
  P n /\ sub_all (everywhere P) n.

(** ** The induction principle *)
Section Intro.
  Context (P : node -> Prop) (F : forall n, P n).
  Fixpoint i_list (l : list node) : conj_list (map P l) :=
    match l with [] => I | n :: l' => conj (F n) (i_list l') end.
  Definition i_opt (o : option node) : conj_opt (option_map P o) :=
    match o with Some n => F n | None => I end.
  Fixpoint i_pairs (l : list (node * node)) : conj_list (map conj_pair (map (pair_map P) l)) :=
    match l with
    | [] => I
    | p :: l' => conj (conj (F (fst p)) (F (snd p))) (i_pairs l')
    end.
  Fixpoint i_rows (l : list (list node)) : conj_list (map conj_list (map (map P) l)) :=
    match l with [] => I | r :: l' => conj (i_list r) (i_rows l') end.
  Fixpoint i_opts (l : list (option node)) : conj_list (map conj_opt (map (option_map P) l)) :=
    match l with [] => I | r :: l' => conj (i_opt r) (i_opts l') end.
  Definition i_hook (r : hookres node) : hook_props (hookres_map P r) :=
    match r with HErr => I | HNil => I | HPred p => F p end.
  Definition i_vpred (p : vpred_ node) : vpred_props (vpred_map P p) := i_list (vp_preds p).
  Definition i_join (j : join_ node) : join_props (join_map P j) :=
    conj (i_opt (jn_table j)) (i_vpred (jn_on j)).
  Definition i_cte (c : cte_ node) : cte_props (cte_map P c) := i_opt (cte_query c).
  Definition i_subq (q : subq_ node) : subq_props (subq_map P q) := i_opt (sb_query q).
  Fixpoint i_joins (l : list (join_ node)) : conj_list (map join_props (map (join_map P) l)) :=
    match l with [] => I | j :: l' => conj (i_join j) (i_joins l') end.
  Fixpoint i_ctes (l : list (cte_ node)) : conj_list (map cte_props (map (cte_map P) l)) :=
    match l with [] => I | j :: l' => conj (i_cte j) (i_ctes l') end.
  Definition i_mapper (m : option (list (node * node) * bool)) :
    conj_opt (option_map mapper_props (option_map (mapper_map P) m)) :=
    match m with Some m => i_pairs (fst m) | None => I end.
  Definition i_select (q : select_ node) : select_props (select_map P q) :=
    conj (i_ctes _) (conj (i_list _) (conj (i_list _) (conj (i_opt _) (conj (i_joins _)
      (conj (i_vpred _) (conj (i_list _) (conj (i_vpred _) (i_list _)))))))).
  Definition i_oselect (m : option (select_ node)) :
    conj_opt (option_map select_props (option_map (select_map P) m)) :=
    match m with Some m => i_select m | None => I end.
  Definition i_insert (q : insert_ node) : insert_props (insert_map P q) :=
    conj (i_mapper _) (conj (i_ctes _) (conj (i_opt _) (conj (i_list _) (conj (i_rows _)
      (conj (i_oselect _) (conj (i_list _) (conj (i_opt _) (conj (i_pairs _)
      (conj (i_vpred _) (i_list _)))))))))).
  Definition i_update (q : update_ node) : update_props (update_map P q) :=
    conj (i_mapper _) (conj (i_ctes _) (conj (i_opt _) (conj (i_opt _) (conj (i_joins _)
      (conj (i_pairs _) (conj (i_vpred _) (conj (i_list _) (i_list _)))))))).
  Definition i_delete (q : delete_ node) : delete_props (delete_map P q) :=
    conj (i_ctes _) (conj (i_opts _) (conj (i_opt _) (conj (i_joins _)
      (conj (i_vpred _) (conj (i_list _) (i_list _)))))).
End Intro.

Section Ind.
  Context (P : node -> Prop) (step : forall n, sub_all P n -> P n).
  Fixpoint node_sub_ind (n : node) : P n :=
    step n
      (match n return sub_all P n with
       | NRaw _ | NLiteral _ _ | NCTEField _ _ _ | NSubField _ _ _ => I
       | NSlice vs => i_list P node_sub_ind vs
       | NParam _ v => node_sub_ind v
       | NField _ _ _ vals => i_list P node_sub_ind vals
       | NValue v _ => node_sub_ind v
       | NFields fs => i_list P node_sub_ind fs
       | NRowValue vs => i_list P node_sub_ind vs
       | NRowValues rows => i_rows P node_sub_ind rows
       | NAssign l r => conj (node_sub_ind l) (node_sub_ind r)
       | NCase cases fallback _ =>
         conj (i_pairs P node_sub_ind cases) (i_opt P node_sub_ind fallback)
       | NSimpleCase expr cases fallback _ =>
         conj (node_sub_ind expr)
           (conj (i_pairs P node_sub_ind cases) (i_opt P node_sub_ind fallback))
       | NPred _ _ vals _ => i_list P node_sub_ind vals
       | NVPred p => i_vpred P node_sub_ind p
       | NTable _ _ _ None => I
       | NTable _ _ _ (Some h) =>
         fun e => i_hook P node_sub_ind (h e)
       | NTablef _ vals => i_list P node_sub_ind vals
       | NCTE c => i_cte P node_sub_ind c
       | NSubquery q => i_subq P node_sub_ind q
       | NJoin j => i_join P node_sub_ind j
       | NWindow p o _ => conj (i_list P node_sub_ind p) (i_list P node_sub_ind o)
       | NQueryf _ _ vals => i_list P node_sub_ind vals
       | NVQuery _ _ qs => i_list P node_sub_ind qs
       | NSelect q => i_select P node_sub_ind q
       | NInsert q => i_insert P node_sub_ind q
       | NUpdate q => i_update P node_sub_ind q
       | NDelete q => i_delete P node_sub_ind q
       end).
End Ind.

(** [everywhere] is monotone and unfolds. *)
Lemma everywhere_unfold P n : everywhere P n <-> P n /\ sub_all (everywhere P) n.
Proof. destruct n; reflexivity. Qed.

(** ** [sub_all] and [everywhere] are monotone *)
Section MP.
  Context (A C : node -> Prop).
  Let I n := A n -> C n.
  Lemma mp_list l : conj_list (map I l) -> conj_list (map A l) -> conj_list (map C l).
  Proof. induction l; cbn; unfold I in *; tauto. Qed.
  Lemma mp_opt l : conj_opt (option_map I l) -> conj_opt (option_map A l) -> conj_opt (option_map C l).
  Proof. destruct l; cbn; unfold I in *; tauto. Qed.
  Lemma mp_opts l : conj_list (map conj_opt (map (option_map I) l)) ->
    conj_list (map conj_opt (map (option_map A) l)) -> conj_list (map conj_opt (map (option_map C) l)).
  Proof. induction l; cbn; auto. intros [] []. split; auto using mp_opt. Qed.
  Lemma mp_pairs l : conj_list (map conj_pair (map (pair_map I) l)) ->
    conj_list (map conj_pair (map (pair_map A) l)) -> conj_list (map conj_pair (map (pair_map C) l)).
  Proof. induction l; cbn; auto. unfold I, conj_pair in *; cbn. tauto. Qed.
  Lemma mp_rows l : conj_list (map conj_list (map (map I) l)) ->
    conj_list (map conj_list (map (map A) l)) -> conj_list (map conj_list (map (map C) l)).
  Proof. induction l; cbn; auto. intros [] []. split; auto using mp_list. Qed.
  Lemma mp_vpred p : vpred_props (vpred_map I p) -> vpred_props (vpred_map A p) -> vpred_props (vpred_map C p).
  Proof. apply mp_list. Qed.
  Lemma mp_join p : join_props (join_map I p) -> join_props (join_map A p) -> join_props (join_map C p).
  Proof. intros [] []. split; [now apply mp_opt|now apply mp_vpred]. Qed.
  Lemma mp_joins l : conj_list (map join_props (map (join_map I) l)) ->
    conj_list (map join_props (map (join_map A) l)) -> conj_list (map join_props (map (join_map C) l)).
  Proof. induction l; cbn; auto. intros [] []. split; auto using mp_join. Qed.
  Lemma mp_cte p : cte_props (cte_map I p) -> cte_props (cte_map A p) -> cte_props (cte_map C p).
  Proof. apply mp_opt. Qed.
  Lemma mp_ctes l : conj_list (map cte_props (map (cte_map I) l)) ->
    conj_list (map cte_props (map (cte_map A) l)) -> conj_list (map cte_props (map (cte_map C) l)).
  Proof. induction l; cbn; auto. intros [] []. split; auto using mp_cte. Qed.
  Lemma mp_mapper o : conj_opt (option_map mapper_props (option_map (mapper_map I) o)) ->
    conj_opt (option_map mapper_props (option_map (mapper_map A) o)) ->
    conj_opt (option_map mapper_props (option_map (mapper_map C) o)).
  Proof. destruct o; cbn; auto. apply mp_pairs. Qed.
  Lemma mp_select q : select_props (select_map I q) -> select_props (select_map A q) -> select_props (select_map C q).
  Proof.
    intros (P1 & P2 & P3 & P4 & P5 & P6 & P7 & P8 & P9) (E1 & E2 & E3 & E4 & E5 & E6 & E7 & E8 & E9).
    unfold select_props; cbn. auto 20 using mp_ctes, mp_list, mp_opt, mp_joins, mp_vpred.
  Qed.
  Lemma mp_oselect o : conj_opt (option_map select_props (option_map (select_map I) o)) ->
    conj_opt (option_map select_props (option_map (select_map A) o)) ->
    conj_opt (option_map select_props (option_map (select_map C) o)).
  Proof. destruct o; cbn; auto. apply mp_select. Qed.
  Lemma mp_insert q : insert_props (insert_map I q) -> insert_props (insert_map A q) -> insert_props (insert_map C q).
  Proof.
    intros (P1 & P2 & P3 & P4 & P5 & P6 & P7 & P8 & P9 & P10 & P11)
      (E1 & E2 & E3 & E4 & E5 & E6 & E7 & E8 & E9 & E10 & E11).
    unfold insert_props; cbn.
    repeat split; auto using mp_ctes, mp_list, mp_opt, mp_vpred, mp_mapper, mp_rows, mp_oselect, mp_pairs.
  Qed.
  Lemma mp_update q : update_props (update_map I q) -> update_props (update_map A q) -> update_props (update_map C q).
  Proof.
    intros (P1 & P2 & P3 & P4 & P5 & P6 & P7 & P8 & P9) (E1 & E2 & E3 & E4 & E5 & E6 & E7 & E8 & E9).
    unfold update_props; cbn.
    repeat split; auto using mp_ctes, mp_list, mp_opt, mp_vpred, mp_mapper, mp_joins, mp_pairs.
  Qed.
  Lemma mp_delete q : delete_props (delete_map I q) -> delete_props (delete_map A q) -> delete_props (delete_map C q).
  Proof.
    intros (P1 & P2 & P3 & P4 & P5 & P6 & P7) (E1 & E2 & E3 & E4 & E5 & E6 & E7).
    unfold delete_props; cbn.
    repeat split; auto using mp_ctes, mp_list, mp_opt, mp_opts, mp_vpred, mp_joins.
  Qed.
  Lemma sub_all_mp n : sub_all I n -> sub_all A n -> sub_all C n.
  Proof.
    destruct n; cbn; auto using mp_list, mp_opt, mp_rows, mp_vpred, mp_cte, mp_join, mp_select,
      mp_insert, mp_update, mp_delete; unfold I in *; try tauto.
    - intros [] []; auto using mp_pairs, mp_opt.
    - intros (? & ? & ?) (? & ? & ?); auto using mp_pairs, mp_opt.
    - destruct hook; auto. intros H1 H2 e. specialize (H1 e). specialize (H2 e).
      destruct (h e); cbn in *; auto.
    - apply mp_opt.
    - intros [] []; split; now apply mp_list.
  Qed.
End MP.

Lemma sub_all_intro (P : node -> Prop) (F : forall n, P n) n : sub_all P n.
Proof.
  destruct n; cbn; auto using i_list, i_opt, i_rows, i_pairs, i_vpred, i_cte, i_join, i_select,
    i_insert, i_update, i_delete.
  - destruct hook; auto. intros e. now apply i_hook.
  - now apply i_subq.
Qed.

Lemma everywhere_mono (P Q : node -> Prop) : (forall n, P n -> Q n) ->
  forall n, everywhere P n -> everywhere Q n.
Proof.
  intros H n. induction n using node_sub_ind. rewrite !everywhere_unfold. intros [HP HS].
  split; auto. now apply (sub_all_mp (everywhere P)).
Qed.
Lemma everywhere_and (P Q : node -> Prop) n :
  everywhere P n -> everywhere Q n -> everywhere (fun n => P n /\ Q n) n.
Proof.
  induction n using node_sub_ind. rewrite !everywhere_unfold. intros [HP1 HS1] [HP2 HS2].
  split; auto. apply (sub_all_mp (everywhere Q)); auto. apply (sub_all_mp (everywhere P)); auto.
Qed.
Lemma everywhere_here P n : everywhere P n -> P n.
Proof. rewrite everywhere_unfold. tauto. Qed.
