(** * SpecPlain: the expressions and statements of the package, as a grammar

    What C86 says about texts it can follow is said here about syntax: which
    calls of the package the statement is made of.  Names are those that read
    back when quoted and that are not, unquoted, one of the keywords the reader
    knows; free text of the user (a literal, the frame of a window) has matching
    parentheses.  Nothing is said about what is rendered. *)
From Verif Require Import GoBase QuoteModel SpecLex SpecIdent SpecSql SprintModel TokenModel EffectModel RenderModel BuildModel
  SpecClauses FieldFacts SpecField PropertiesField FieldModel ExprModel SpecExpr SpecReadSql ReadExpr.

Section Plain.
  Context (d : dialect).
  (** Text of the user's without the words [stop] outside of parentheses. *)
  Definition free_text (stop : tok -> bool) (s : bytes) : Prop :=
    exists ts, tokens d s = Some ts /\ ts <> [] /\ closed stop 0 ts = true.
  (** A column that is not a format of the user's. *)
  Definition plain_column (fi : finfo) : Prop :=
    fi_err fi = false /\ fi_formats fi = [] /\ fi_collation fi = [] /\ plain_name d (fi_name fi) /\
    let q := if is_empty (fi_talias fi) then fi_table fi else fi_talias fi in q = [] \/ plain_name d q.
  Definition common_names (c : cte_ node) : Prop :=
    word_ok d (cte_name c) /\ (cte_explicit c = true -> Forall (plain_word d) (cte_fields c)).
  Definition functions_of (f v w : node) (n : Z) : list node :=
    [count f; count_all; sum f; avg f; min f; max f;
     count_over f w; count_all_over w; sum_over f w; avg_over f w; min_over f w; max_over f w;
     row_number_over w; rank_over w; dense_rank_over w; percent_rank_over w; cume_dist_over w;
     lead_over f n v w; lag_over f n v w; ntile_over n w; first_value_over f w; last_value_over f w; nth_value_over f n w].

  Inductive plain_expr : node -> Prop :=
  | E_column k neg fi vals : plain_column fi -> plain_expr (NField k neg fi vals)
  | E_cte_column err cache fi : plain_column fi -> plain_expr (NCTEField err cache fi)
  | E_sub_column err cache fi : plain_column fi -> plain_expr (NSubField err cache fi)
  | E_value v : (forall n w, v <> GNamedArg n w) -> plain_expr (NRaw v)
  | E_param name v : plain_expr v -> plain_expr (NParam name v)
  | E_aliased v a : plain_expr v -> plain_expr (NValue v a)
  | E_literal t a : free_text separates t -> plain_expr (NLiteral t a)
  | E_compare a b c : plain_operand a -> plain_operand b -> In c [p_eq; p_ne; p_gt; p_ge; p_lt; p_le] -> plain_expr (c a b)
  | E_test f v c : plain_expr f -> In c [p_is_null f; p_is_not_null f; like_string f v; ilike_string f v] -> plain_expr c
  | E_in_list a vs : plain_expr a -> Forall element vs -> (forall v, In v vs -> plain_expr v) -> plain_expr (p_in a (NSlice vs))
  | E_in_row a vs : plain_expr a -> (forall v, In v vs -> plain_expr v) -> plain_expr (p_in a (NRowValue vs))
  | E_in_query a q : plain_expr a -> plain_statement q -> plain_expr (p_in a q)
  | E_exists q c : plain_statement q -> In c [p_exists q; p_not_exists q] -> plain_expr c
  | E_row vs : (forall v, In v vs -> plain_expr v) -> plain_expr (NRowValue vs)
  | E_function f v w n c : plain_expr f -> plain_expr v -> plain_window w -> In c (functions_of f v w n) -> plain_expr c
  | E_case p r calls : plain_expr p -> plain_expr r ->
      (forall b, In b (flat_map as_when calls) -> plain_expr (fst b)) ->
      (forall b, In b (flat_map as_when calls) -> plain_expr (snd b)) ->
      (forall v, last_of as_else calls = Some v -> plain_expr v) ->
      plain_expr (fold_left case_step calls (case_when p r))
  | E_simple_case f calls : plain_expr f ->
      (forall b, In b (flat_map as_when calls) -> plain_expr (fst b)) ->
      (forall b, In b (flat_map as_when calls) -> plain_expr (snd b)) ->
      (forall v, last_of as_else calls = Some v -> plain_expr v) ->
      plain_expr (fold_left case_step calls (case_of f))
  | E_list w : plain_list w -> plain_expr (NVPred w)
  | E_subquery sq : (forall q, sb_query sq = Some q -> plain_statement q) -> plain_expr (NSubquery sq)
  (** Either side of a comparison. *)
  with plain_operand : node -> Prop :=
  | O_expr a : is_query a = false -> plain_expr a -> plain_operand a
  | O_query a : is_query a = true -> plain_statement a -> plain_operand a
  (** AND and OR. *)
  with plain_list : vpred_ node -> Prop :=
  | L_one w p : vp_preds w = [p] -> is_vpred p = false -> plain_expr p -> plain_list w
  | L_nested w w' : vp_preds w = [NVPred w'] -> plain_list w' -> plain_list w
  | L_many w : 2 <= length (vp_preds w) -> (forall p, In p (vp_preds w) -> plain_expr p) -> plain_list w
  (** Windows: of fields that can be written (see C66 for those that cannot). *)
  with plain_window : node -> Prop :=
  | W_window ms :
      (forall f, In f (given (last_of as_partition ms) ++ given (last_of as_window_order ms)) -> plain_expr f) ->
      (forall f, In f (given (last_of as_partition ms) ++ given (last_of as_window_order ms)) -> snd (render d f (ctx None [])) = SOk) ->
      (given (last_of as_frame ms) = [] \/ free_text (fun _ => false) (given (last_of as_frame ms))) ->
      plain_window (fold_left w_modify ms window0)
  with plain_table : node -> Prop :=
  | T_table sch name alias hook : (sch = [] \/ plain_name d sch) -> plain_name d name -> plain_table (NTable sch name alias hook)
  | T_common c : word_ok d (cte_name c) -> plain_table (NCTE c)
  | T_subquery sq : (forall q, sb_query sq = Some q -> plain_statement q) -> plain_table (NSubquery sq)
  with plain_statement : node -> Prop :=
  | S_select q :
      (forall c, In c (sq_ctes q) -> common_names c) ->
      (forall c b, In c (sq_ctes q) -> cte_query c = Some b -> plain_statement b) ->
      (forall f, In f (sq_distinct_on q ++ sq_fields q ++ sq_group q ++ sq_order q) -> plain_expr f) ->
      (forall f, In f (sq_fields q) -> alias_ok d (get_alias f)) ->
      (forall t, In (Some t) (sq_from q :: map jn_table (sq_joins q)) -> plain_table t) ->
      (forall t, In (Some t) (sq_from q :: map jn_table (sq_joins q)) -> alias_ok d (get_alias t)) ->
      (forall j, In j (sq_joins q) -> join_type_ok d (join_type j)) ->
      (forall j, In j (sq_joins q) -> vp_preds (jn_on j) <> [] -> plain_list (jn_on j)) ->
      (forall e p, In p (injected (sq_from q :: map jn_table (sq_joins q)) e) -> plain_expr p) ->
      (vp_preds (sq_where q) <> [] -> plain_list (sq_where q)) ->
      (vp_preds (sq_having q) <> [] -> plain_list (sq_having q)) ->
      plain_statement (NSelect q)
  | S_delete q :
      (forall c, In c (dq_ctes q) -> common_names c) ->
      (forall c b, In c (dq_ctes q) -> cte_query c = Some b -> plain_statement b) ->
      (forall f, In f (dq_order q ++ dq_returning q) -> plain_expr f) ->
      (forall f, In f (dq_returning q) -> alias_ok d (get_alias f)) ->
      (forall t, In (Some t) (dq_using q :: dq_tables q ++ map jn_table (dq_joins q)) -> plain_table t) ->
      (forall t, In (Some t) (dq_using q :: dq_tables q ++ map jn_table (dq_joins q)) -> alias_ok d (get_alias t)) ->
      (present (dq_using q) && is_mysql d = true -> forall t, In (Some t) (dq_tables q) -> word_ok d (table_qualifier t)) ->
      (forall j, In j (dq_joins q) -> join_type_ok d (join_type j)) ->
      (forall j, In j (dq_joins q) -> vp_preds (jn_on j) <> [] -> plain_list (jn_on j)) ->
      (forall e p, In p (injected (dq_tables q) e) -> plain_expr p) ->
      (vp_preds (dq_where q) <> [] -> plain_list (dq_where q)) ->
      plain_statement (NDelete q)
  | S_update q :
      (forall c, In c (uq_ctes q) -> common_names c) ->
      (forall c b, In c (uq_ctes q) -> cte_query c = Some b -> plain_statement b) ->
      (forall f, In f (uq_order q ++ uq_returning q) -> plain_expr f) ->
      (forall f, In f (uq_returning q) -> alias_ok d (get_alias f)) ->
      (forall t, In (Some t) (uq_table q :: uq_from q :: map jn_table (uq_joins q)) -> plain_table t) ->
      (forall t, In (Some t) (uq_table q :: uq_from q :: map jn_table (uq_joins q)) -> alias_ok d (get_alias t)) ->
      (forall j, In j (uq_joins q) -> join_type_ok d (join_type j)) ->
      (forall j, In j (uq_joins q) -> vp_preds (jn_on j) <> [] -> plain_list (jn_on j)) ->
      (forall l a, update_assigns q = Some l -> In a l ->
         exists k fi vals, fst a = NField k false fi vals /\ plain_column fi /\ fi_desc fi = None /\ fi_nulls fi = None) ->
      (forall l a, update_assigns q = Some l -> In a l -> plain_operand (snd a)) ->
      (vp_preds (uq_where q) <> [] -> plain_list (uq_where q)) ->
      plain_statement (NUpdate q)
  | S_insert q : iq_mapper q = None ->
      (forall c, In c (iq_ctes q) -> common_names c) ->
      (forall c b, In c (iq_ctes q) -> cte_query c = Some b -> plain_statement b) ->
      (forall t, iq_into q = Some t -> alias_ok d (get_alias t) /\
         exists sch name alias hook, t = NTable sch name alias hook /\ (sch = [] \/ plain_name d sch) /\ plain_name d name) ->
      (forall f, In f (iq_columns q ++ iq_cfields q ++ iq_returning q) -> plain_expr f) ->
      (forall f, In f (iq_returning q) -> alias_ok d (get_alias f)) ->
      (forall r v, In r (iq_rows q) -> In v r -> plain_expr v) ->
      (iq_rowalias q <> [] -> word_ok d (iq_rowalias q) /\ Forall (plain_word d) (iq_colaliases q)) ->
      (forall s, iq_select q = Some s -> plain_statement (NSelect s)) ->
      (iq_constraint q <> [] -> word_ok d (iq_constraint q)) ->
      (forall p, iq_cpred q = Some p -> is_vpred p = false -> plain_expr p) ->
      (forall w, iq_cpred q = Some (NVPred w) -> plain_list w) ->
      (forall a, In a (iq_resolution q) ->
         exists k fi vals, fst a = NField k false fi vals /\ plain_column fi /\ fi_desc fi = None /\ fi_nulls fi = None) ->
      (forall a, In a (iq_resolution q) -> plain_operand (snd a)) ->
      (vp_preds (iq_rpred q) <> [] -> plain_list (iq_rpred q)) ->
      plain_statement (NInsert q)
  | S_set top op qs : In op set_operators -> 2 <= length qs -> (forall q, In q qs -> plain_statement q) ->
      plain_statement (NVQuery top op qs).
  Scheme plain_expr_mut := Minimality for plain_expr Sort Prop
  with plain_operand_mut := Minimality for plain_operand Sort Prop
  with plain_list_mut := Minimality for plain_list Sort Prop
  with plain_window_mut := Minimality for plain_window Sort Prop
  with plain_table_mut := Minimality for plain_table Sort Prop
  with plain_statement_mut := Minimality for plain_statement Sort Prop.
  Combined Scheme plain_ind from plain_expr_mut, plain_operand_mut, plain_list_mut, plain_window_mut, plain_table_mut, plain_statement_mut.
End Plain.
