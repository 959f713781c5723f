(** * More components the reader can follow: C86, continued. *)
From Verif Require Import GoBase QuoteModel SpecLex SpecIdent SpecSql SprintModel TokenModel EffectModel RenderModel BuildModel
  SpecClauses FieldFacts PropertiesClauses SpecField PropertiesField FieldModel ExprModel SpecExpr PropertiesExpr
  SpecReadSql ReadParts ReadExpr ReadMore PropertiesReadSql.
Local Open Scope m_scope.

(** [expr] and [fragment] are those of SpecReadSql: the text is cut into tokens,
    there is at least one, the parentheses match, and none of the words that
    end a component stands outside of parentheses.  Where a component stands in
    parentheses nothing has to be avoided: [element_ok d e x v] says that [v] is
    a fragment for some set of words, so that its parentheses match. *)
(** IS NULL, IS NOT NULL, LIKE and ILIKE of an expression. *)
Theorem tests_are_followed : forall (d : dialect) (f : node) (v : bytes) (e : option env) (x : list bytes), expr d e x f ->
  expr d e x (p_is_null f) /\ expr d e x (p_is_not_null f) /\ expr d e x (like_string f v) /\ expr d e x (ilike_string f v).
Proof.
  intros d f v e x H. destruct (tests_fragment_pf d f e x H) as (A & B0 & C). destruct (C v). auto.
Qed.
Print Assumptions tests_are_followed.

(** IN a list, a row value, a query or anything else that can be written. *)
Theorem in_is_followed : forall (d : dialect) (a b : node) (e : option env) (x : list bytes), expr d e x a ->
  match b with
  | NRowValue vs => Forall (element_ok d e x) vs
  | NSlice vs => Forall element vs /\ Forall (element_ok d None x) vs
  | _ => element_ok d e x b
  end -> expr d e x (p_in a b).
Proof. exact in_fragment_pf. Qed.
Print Assumptions in_is_followed.

Theorem exists_are_followed : forall (d : dialect) (q : node) (e : option env) (x : list bytes), element_ok d e x q ->
  expr d e x (p_exists q) /\ expr d e x (p_not_exists q).
Proof. intros d q e x (stop & H). exact (exists_fragment_pf d q e x stop H). Qed.
Print Assumptions exists_are_followed.

Theorem rows_are_followed : forall (d : dialect) (vs : list node) (e : option env) (x : list bytes),
  Forall (element_ok d e x) vs -> expr d e x (NRowValue vs).
Proof. exact row_fragment_pf. Qed.
Print Assumptions rows_are_followed.

(** The functions of the package, of any arguments and over any window. *)
Theorem functions_are_followed : forall (d : dialect) (f v w : node) (n : Z) (e : option env) (x : list bytes),
  element_ok d None x f -> element_ok d None x v -> expr d None x w ->
  Forall (expr d e x)
    [count f; count_all; sum f; avg f; min f; max f;
     count_over f w; count_all_over w; sum_over f w; avg_over f w; min_over f w; max_over f w;
     row_number_over w; rank_over w; dense_rank_over w; percent_rank_over w; cume_dist_over w;
     lead_over f n v w; lag_over f n v w; ntile_over n w; first_value_over f w; last_value_over f w; nth_value_over f n w].
Proof. exact functions_fragment_pf. Qed.
Print Assumptions functions_are_followed.

(** A window made by any calls, if its fields can be written and its frame, which
    is the user's text, has matching parentheses. *)
Theorem windows_are_followed : forall (d : dialect) (ms : list wmod) (e : option env) (x : list bytes),
  let partition := given (last_of as_partition ms) in
  let order := given (last_of as_window_order ms) in
  let frame := given (last_of as_frame ms) in
  (forall f, In f (partition ++ order) -> snd (render d f (ctx None [])) = SOk /\ element_ok d None [] f) ->
  (exists t, tokens d frame = Some t /\ closed (fun _ => false) 0 t = true) ->
  expr d e x (fold_left w_modify ms window0).
Proof. exact window_fragment_pf. Qed.
Print Assumptions windows_are_followed.

(** Both forms of CASE, made by any calls of When, Else and As. *)
Theorem cases_are_followed : forall (d : dialect) (calls : list case_call) (e : option env) (x : list bytes),
  Forall (fun b => expr d e x (fst b) /\ expr d e x (snd b)) (flat_map as_when calls) ->
  (forall v, last_of as_else calls = Some v -> expr d e x v) ->
  (forall p r, expr d e x p -> expr d e x r -> expr d e x (fold_left case_step calls (case_when p r))) /\
  (forall f, expr d e x f -> expr d e x (fold_left case_step calls (case_of f))).
Proof.
  intros d calls e x H HE. split.
  - intros p r HP HR. apply case_fragment_pf; [now constructor|exact HE].
  - intros f HF. now apply simple_case_fragment_pf.
Qed.
Print Assumptions cases_are_followed.

(** Named parameters: of a value, or of an expression. *)
Theorem params_are_followed : forall (d : dialect) (name : bytes) (v : node) (e : option env) (x : list bytes),
  (match v with NRaw _ => True | _ => expr d None x v end) -> expr d e x (NParam name v).
Proof. exact param_fragment_pf. Qed.
Print Assumptions params_are_followed.

(** An AND/OR list whose only member is itself a list. *)
Theorem nested_conditions_are_followed : forall (d : dialect) (w : vpred_ node) (c : rctx) (p : node),
  c_excl c = [] -> vp_preds w = [p] ->
  (if is_vpred p then fragment d separates (render d p (mk_ctx (Some true) [] None [])) else expr d None [] p) ->
  fragment d separates (render d (NVPred w) c).
Proof. exact nested_fragment_pf. Qed.
Print Assumptions nested_conditions_are_followed.

(** *** A query with all of these *)
Definition the_window : node :=
  fold_left w_modify [WPartitionBy [fld (B "u") (B "a"); fld [] (B "from it")]; WOrderBy [fld (B "u") (B "b")];
    WFrame (B "ROWS BETWEEN 1 PRECEDING AND CURRENT ROW")] window0.
Definition the_case : node :=
  fold_left case_step [CWhen (p_is_not_null (fld (B "u") (B "b"))) (NRaw (GInt 2)); CElse (NRaw (GString (B "WHERE")))]
    (case_when (p_is_null (fld (B "u") (B "a"))) (NRaw (GInt 1))).
Definition in_list : node := p_in (fld (B "u") (B "id")) (NSlice [NRaw (GInt 1); NRaw (GString (B ", FROM x"))]).
Definition in_query : node := p_in (NRowValue [fld (B "u") (B "id"); NRaw (GInt 3)]) (NSelect inner_select).
Definition more_select : select_ node :=
  mk_select (B "postgres") None [] false
    [sum_over (fld (B "u") (B "n")) the_window; the_case; count_all] []
    (Some (tbl (B "users") (B "u"))) []
    (mk_vpred false [] false [in_list; NVPred (mk_vpred false [] false [NVPred (mk_vpred false [] true [in_query; p_not_exists (NSelect inner_select)] false)] true);
      like_string (fld (B "u") (B "name")) (B "%a%")] false)
    [] no_pred [fld (B "u") (B "id")] None None.
Lemma inner_ok : forall c, c_env c = None -> fragment DPostgres (fun _ => false) (render DPostgres (NSelect inner_select) c).
Proof. intros c E. apply statements_are_followed. rewrite E. exact inner_reads. Qed.
Lemma elem d e x v : expr d e x v -> element_ok d e x v.
Proof. intros H. now exists separates. Qed.
Lemma the_window_ok : expr DPostgres None [] the_window.
Proof.
  apply windows_are_followed.
  - intros f [<-|[<-|[<-|[]]]]; (split; [reflexivity|]); apply elem; pexpr.
  - eexists. split; vm_compute; reflexivity.
Qed.
Lemma the_case_ok : expr DPostgres None [] the_case.
Proof.
  refine (proj1 (cases_are_followed _ _ _ _ _ _) _ _ _ _).
  - constructor; [|constructor]. split; [|cbn [snd]; pexpr]. cbn [fst].
    refine (proj1 (proj2 (tests_are_followed DPostgres (fld (B "u") (B "b")) [] None [] _))). pexpr.
  - intros v E. injection E as <-. pexpr.
  - refine (proj1 (tests_are_followed DPostgres (fld (B "u") (B "a")) [] None [] _)). pexpr.
  - pexpr.
Qed.
Lemma sum_ok : expr DPostgres None [] (sum_over (fld (B "u") (B "n")) the_window) /\ expr DPostgres None [] count_all.
Proof.
  assert (A : element_ok DPostgres None [] (fld (B "u") (B "n"))) by (apply elem; pexpr).
  assert (H := functions_are_followed DPostgres (fld (B "u") (B "n")) _ the_window 0%Z None [] A A the_window_ok).
  rewrite Forall_forall in H. split; apply H; cbn; tauto.
Qed.
Lemma in_list_ok : expr DPostgres None [] in_list.
Proof. apply in_is_followed; [pexpr|]. split; repeat constructor; apply elem; pexpr. Qed.
Lemma in_query_ok : expr DPostgres None [] in_query.
Proof.
  apply in_is_followed.
  - apply rows_are_followed. repeat constructor; apply elem; pexpr.
  - exists (fun _ => false). now apply inner_ok.
Qed.
Lemma nested_ok : expr DPostgres None []
  (NVPred (mk_vpred false [] false [NVPred (mk_vpred false [] true [in_query; p_not_exists (NSelect inner_select)] false)] true)).
Proof.
  apply nested_conditions_are_followed with (p := NVPred (mk_vpred false [] true [in_query; p_not_exists (NSelect inner_select)] false));
    [reflexivity|reflexivity|]. cbn [is_vpred].
  apply conditions_are_followed; [reflexivity|discriminate| |discriminate].
  constructor; [exact in_query_ok|]. constructor; [|constructor].
  refine (proj2 (exists_are_followed DPostgres (NSelect inner_select) None [] _)). exists (fun _ => false). now apply inner_ok.
Qed.
Example more_select_reads : select_reads DPostgres more_select None.
Proof.
  unfold select_reads. cbn [more_select sq_ctes sq_distinct_on sq_fields sq_from sq_joins sq_where sq_group sq_having sq_order sq_env own_env].
  split; [constructor|split; [constructor|split; [|split; [intros t E; injection E as <-; pexpr|split; [constructor|split; [|split; [constructor|split; [|pexpr]]]]]]]].
  - constructor; [split; [exact (proj1 sum_ok)|left; reflexivity]|].
    constructor; [split; [exact the_case_ok|left; reflexivity]|].
    constructor; [split; [exact (proj2 sum_ok)|left; reflexivity]|constructor].
  - intros _. apply conditions_are_followed; [reflexivity|discriminate| |discriminate].
    constructor; [exact in_list_ok|]. constructor; [exact nested_ok|]. constructor; [|constructor].
    refine (proj1 (proj2 (proj2 (tests_are_followed DPostgres (fld (B "u") (B "name")) (B "%a%") None [] _)))). pexpr.
  - intros Z. now contradiction Z.
Qed.
Example more_select_read :
  r_status (to_sql [] (NSelect more_select)) = SOk /\
  r_query (to_sql [] (NSelect more_select)) =
    B "SELECT SUM(u.n) OVER (PARTITION BY u.a, ""from it"" ORDER BY u.b ROWS BETWEEN 1 PRECEDING AND CURRENT ROW), CASE WHEN u.a IS NULL THEN $1 WHEN u.b IS NOT NULL THEN $2 ELSE $3 END, COUNT(*) FROM users AS u WHERE u.id IN ($4, $5) AND NOT ((u.id, $6) IN (SELECT id FROM posts) OR NOT EXISTS (SELECT id FROM posts)) AND u.name LIKE $7 ORDER BY u.id" /\
  match tokens DPostgres (r_query (to_sql [] (NSelect more_select))) with
  | Some ts => match read_select ts with
    | Some r => (length (rs_columns r), rs_group r, rs_order r)
    | None => (0, [], []) end
  | None => (0, [], []) end = (3, [], [dot "u" "id"]).
Proof. split; [vm_compute; reflexivity|]. split; vm_compute; reflexivity. Qed.
