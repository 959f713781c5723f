(** * SpecSim: trees that differ only in the values they bind.

    [sim V n n']: the two values have the same shape; where one has a bound
    value [v] the other has a bound value [v'] with [V v v'].  Nil stays nil
    (the library tests for nil) and an sql.NamedArg keeps its name. *)
From Verif Require Import GoBase QuoteModel SprintModel TokenModel EffectModel RenderModel.

(** An INSERT ... SELECT whose SELECT had no WHERE clause, after `WHERE TRUE`
    was written into that SELECT. *)
Definition filled_select (s : select_ node) : select_ node :=
  let w := sq_where s in
  mk_select (sq_dialect s) (sq_env s) (sq_ctes s) (sq_distinct s) (sq_fields s)
    (sq_distinct_on s) (sq_from s) (sq_joins s)
    (mk_vpred (vp_top w) (vp_alias w) (vp_or w) [NPred [] (B "TRUE") [] false] (vp_neg w))
    (sq_group s) (sq_having s) (sq_order s) (sq_limit s) (sq_offset s).
Definition with_source (q : insert_ node) (s : select_ node) : insert_ node :=
  mk_insert (iq_dialect q) (iq_env q) (iq_mapper q) (iq_ctes q) (iq_ignore q) (iq_into q)
    (iq_columns q) (iq_rows q) (iq_rowalias q) (iq_colaliases q) (Some s) (iq_constraint q)
    (iq_cfields q) (iq_cpred q) (iq_nothing q) (iq_resolution q) (iq_rpred q) (iq_returning q).

(** [fills]: the second tree may also be one in which some of these writes
    have happened (used for C77; [sim] is the relation without them). *)
Section Sim.
  Context (fills : bool) (V : gval -> gval -> Prop).

  Definition plain (v : gval) : Prop :=
    match v with GNil | GNamedArg _ _ => False | _ => True end.

  Inductive opt_rel {A B : Type} (R : A -> B -> Prop) : option A -> option B -> Prop :=
  | opt_none : opt_rel R None None
  | opt_some a b : R a b -> opt_rel R (Some a) (Some b).

  Definition pair_rel {A B : Type} (R : A -> B -> Prop) (p : A * A) (q : B * B) : Prop :=
    R (fst p) (fst q) /\ R (snd p) (snd q).

  Section Shapes.
    Context {A C : Type} (R : A -> C -> Prop).
    Record vpred_rel (p : vpred_ A) (q : vpred_ C) : Prop := mk_vpred_rel {
      vr_top : vp_top p = vp_top q; vr_alias : vp_alias p = vp_alias q;
      vr_or : vp_or p = vp_or q; vr_preds : Forall2 R (vp_preds p) (vp_preds q);
      vr_neg : vp_neg p = vp_neg q }.
    Record join_rel (p : join_ A) (q : join_ C) : Prop := mk_join_rel {
      jr_type : jn_type p = jn_type q; jr_table : opt_rel R (jn_table p) (jn_table q);
      jr_on : vpred_rel (jn_on p) (jn_on q) }.
    Record cte_rel (p : cte_ A) (q : cte_ C) : Prop := mk_cte_rel {
      cr_query : opt_rel R (cte_query p) (cte_query q); cr_err : cte_err p = cte_err q;
      cr_rec : cte_rec p = cte_rec q; cr_explicit : cte_explicit p = cte_explicit q;
      cr_name : cte_name p = cte_name q; cr_alias : cte_alias p = cte_alias q;
      cr_fields : cte_fields p = cte_fields q; cr_cache : cte_cache p = cte_cache q;
      cr_mat : cte_mat p = cte_mat q }.
    Record subq_rel (p : subq_ A) (q : subq_ C) : Prop := mk_subq_rel {
      sbr_query : opt_rel R (sb_query p) (sb_query q); sbr_err : sb_err p = sb_err q;
      sbr_alias : sb_alias p = sb_alias q; sbr_fields : sb_fields p = sb_fields q;
      sbr_cache : sb_cache p = sb_cache q }.
    (** LIMIT and OFFSET are bound values, too. *)
    Definition lim_rel : option Z -> option Z -> Prop := opt_rel (fun a b => V (GInt a) (GInt b)).
    Record select_rel (p : select_ A) (q : select_ C) : Prop := mk_select_rel {
      sr_dialect : sq_dialect p = sq_dialect q; sr_env : sq_env p = sq_env q;
      sr_ctes : Forall2 cte_rel (sq_ctes p) (sq_ctes q);
      sr_distinct : sq_distinct p = sq_distinct q;
      sr_fields : Forall2 R (sq_fields p) (sq_fields q);
      sr_distinct_on : Forall2 R (sq_distinct_on p) (sq_distinct_on q);
      sr_from : opt_rel R (sq_from p) (sq_from q);
      sr_joins : Forall2 join_rel (sq_joins p) (sq_joins q);
      sr_where : vpred_rel (sq_where p) (sq_where q);
      sr_group : Forall2 R (sq_group p) (sq_group q);
      sr_having : vpred_rel (sq_having p) (sq_having q);
      sr_order : Forall2 R (sq_order p) (sq_order q);
      sr_limit : lim_rel (sq_limit p) (sq_limit q);
      sr_offset : lim_rel (sq_offset p) (sq_offset q) }.
    Record mapper_rel (p : list (A * A) * bool) (q : list (C * C) * bool) : Prop := mk_mapper_rel {
      mr_calls : Forall2 (pair_rel R) (fst p) (fst q); mr_err : snd p = snd q }.
    Record insert_rel (p : insert_ A) (q : insert_ C) : Prop := mk_insert_rel {
      ir_dialect : iq_dialect p = iq_dialect q; ir_env : iq_env p = iq_env q;
      ir_mapper : opt_rel mapper_rel (iq_mapper p) (iq_mapper q);
      ir_ctes : Forall2 cte_rel (iq_ctes p) (iq_ctes q);
      ir_ignore : iq_ignore p = iq_ignore q; ir_into : opt_rel R (iq_into p) (iq_into q);
      ir_columns : Forall2 R (iq_columns p) (iq_columns q);
      ir_rows : Forall2 (Forall2 R) (iq_rows p) (iq_rows q);
      ir_rowalias : iq_rowalias p = iq_rowalias q; ir_colaliases : iq_colaliases p = iq_colaliases q;
      ir_select : opt_rel select_rel (iq_select p) (iq_select q);
      ir_constraint : iq_constraint p = iq_constraint q;
      ir_cfields : Forall2 R (iq_cfields p) (iq_cfields q);
      ir_cpred : opt_rel R (iq_cpred p) (iq_cpred q); ir_nothing : iq_nothing p = iq_nothing q;
      ir_resolution : Forall2 (pair_rel R) (iq_resolution p) (iq_resolution q);
      ir_rpred : vpred_rel (iq_rpred p) (iq_rpred q);
      ir_returning : Forall2 R (iq_returning p) (iq_returning q) }.
    Record update_rel (p : update_ A) (q : update_ C) : Prop := mk_update_rel {
      ur_dialect : uq_dialect p = uq_dialect q; ur_env : uq_env p = uq_env q;
      ur_mapper : opt_rel mapper_rel (uq_mapper p) (uq_mapper q);
      ur_ctes : Forall2 cte_rel (uq_ctes p) (uq_ctes q);
      ur_table : opt_rel R (uq_table p) (uq_table q); ur_from : opt_rel R (uq_from p) (uq_from q);
      ur_joins : Forall2 join_rel (uq_joins p) (uq_joins q);
      ur_assigns : Forall2 (pair_rel R) (uq_assigns p) (uq_assigns q);
      ur_where : vpred_rel (uq_where p) (uq_where q);
      ur_order : Forall2 R (uq_order p) (uq_order q);
      ur_limit : lim_rel (uq_limit p) (uq_limit q);
      ur_offset : lim_rel (uq_offset p) (uq_offset q);
      ur_returning : Forall2 R (uq_returning p) (uq_returning q) }.
    Record delete_rel (p : delete_ A) (q : delete_ C) : Prop := mk_delete_rel {
      dr_dialect : dq_dialect p = dq_dialect q; dr_env : dq_env p = dq_env q;
      dr_ctes : Forall2 cte_rel (dq_ctes p) (dq_ctes q);
      dr_tables : Forall2 (opt_rel R) (dq_tables p) (dq_tables q);
      dr_using : opt_rel R (dq_using p) (dq_using q);
      dr_joins : Forall2 join_rel (dq_joins p) (dq_joins q);
      dr_where : vpred_rel (dq_where p) (dq_where q);
      dr_order : Forall2 R (dq_order p) (dq_order q);
      dr_limit : lim_rel (dq_limit p) (dq_limit q);
      dr_offset : lim_rel (dq_offset p) (dq_offset q);
      dr_returning : Forall2 R (dq_returning p) (dq_returning q) }.
    Inductive hook_rel : hookres A -> hookres C -> Prop :=
    | hr_err : hook_rel HErr HErr
    | hr_nil : hook_rel HNil HNil
    | hr_pred p q : R p q -> hook_rel (HPred p) (HPred q).
  End Shapes.

  Inductive gsim : node -> node -> Prop :=
  | sim_nil : gsim (NRaw GNil) (NRaw GNil)
  | sim_named name v v' :
      V (GNamedArg name v) (GNamedArg name v') -> V v v' ->
      gsim (NRaw (GNamedArg name v)) (NRaw (GNamedArg name v'))
  | sim_raw v v' : plain v -> plain v' -> V v v' -> gsim (NRaw v) (NRaw v')
  | sim_slice vs vs' : Forall2 gsim vs vs' -> gsim (NSlice vs) (NSlice vs')
  | sim_param name v v' : gsim v v' -> gsim (NParam name v) (NParam name v')
  | sim_field keepenv neg fi vs vs' : Forall2 gsim vs vs' ->
      gsim (NField keepenv neg fi vs) (NField keepenv neg fi vs')
  | sim_literal t a : gsim (NLiteral t a) (NLiteral t a)
  | sim_value v v' a : gsim v v' -> gsim (NValue v a) (NValue v' a)
  | sim_fields fs fs' : Forall2 gsim fs fs' -> gsim (NFields fs) (NFields fs')
  | sim_row vs vs' : Forall2 gsim vs vs' -> gsim (NRowValue vs) (NRowValue vs')
  | sim_rows vs vs' : Forall2 (Forall2 gsim) vs vs' -> gsim (NRowValues vs) (NRowValues vs')
  | sim_assign l r l' r' : gsim l l' -> gsim r r' -> gsim (NAssign l r) (NAssign l' r')
  | sim_case cs cs' f f' a : Forall2 (pair_rel gsim) cs cs' -> opt_rel gsim f f' ->
      gsim (NCase cs f a) (NCase cs' f' a)
  | sim_simple_case x x' cs cs' f f' a :
      gsim x x' -> Forall2 (pair_rel gsim) cs cs' -> opt_rel gsim f f' ->
      gsim (NSimpleCase x cs f a) (NSimpleCase x' cs' f' a)
  | sim_pred a fmt vs vs' neg : Forall2 gsim vs vs' -> gsim (NPred a fmt vs neg) (NPred a fmt vs' neg)
  | sim_vpred p p' : vpred_rel gsim p p' -> gsim (NVPred p) (NVPred p')
  | sim_table s n a : gsim (NTable s n a None) (NTable s n a None)
  | sim_hooked s n a h h' : (forall e, hook_rel gsim (h e) (h' e)) ->
      gsim (NTable s n a (Some h)) (NTable s n a (Some h'))
  | sim_tablef fmt vs vs' : Forall2 gsim vs vs' -> gsim (NTablef fmt vs) (NTablef fmt vs')
  | sim_cte c c' : cte_rel gsim c c' -> gsim (NCTE c) (NCTE c')
  | sim_cte_field err cache fi : gsim (NCTEField err cache fi) (NCTEField err cache fi)
  | sim_subquery q q' : subq_rel gsim q q' -> gsim (NSubquery q) (NSubquery q')
  | sim_sub_field err cache fi : gsim (NSubField err cache fi) (NSubField err cache fi)
  | sim_join j j' : join_rel gsim j j' -> gsim (NJoin j) (NJoin j')
  | sim_window p p' o o' f : Forall2 gsim p p' -> Forall2 gsim o o' ->
      gsim (NWindow p o f) (NWindow p' o' f)
  | sim_queryf dl fmt vs vs' : Forall2 gsim vs vs' -> gsim (NQueryf dl fmt vs) (NQueryf dl fmt vs')
  | sim_vquery top op qs qs' : Forall2 gsim qs qs' -> gsim (NVQuery top op qs) (NVQuery top op qs')
  | sim_select q q' : select_rel gsim q q' -> gsim (NSelect q) (NSelect q')
  | sim_insert q q' : insert_rel gsim q q' -> gsim (NInsert q) (NInsert q')
  | sim_filled q q' s : fills = true -> iq_select q = Some s -> vp_preds (sq_where s) = [] ->
      insert_rel gsim (with_source q (filled_select s)) q' -> gsim (NInsert q) (NInsert q')
  | sim_update q q' : update_rel gsim q q' -> gsim (NUpdate q) (NUpdate q')
  | sim_delete q q' : delete_rel gsim q q' -> gsim (NDelete q) (NDelete q').
End Sim.
Notation sim := (gsim false).
