(** * Reading statements back: C86.  See SpecReadSql for the reader. *)
From Verif Require Import GoBase QuoteModel SpecLex SpecIdent SpecSql SprintModel TokenModel EffectModel RenderModel BuildModel
  SpecClauses FieldFacts PropertiesClauses SpecReadSql ReadParts ReadSqlPf ReadExpr.
Local Open Scope m_scope.

(** ** C86 *)
(** From every state of the buffer and the arguments: a SELECT that is rendered
    without error is read back, and has the clauses of the query. *)
Theorem select_reads_back : forall (d : dialect) (q : select_ node) (c : rctx) (s : st),
  snd (render d (NSelect q) c) = SOk -> select_reads d q (c_env c) ->
  exists ts r, tokens d (text_after d s (render d (NSelect q) c)) = Some ts /\ read_select ts = Some r /\
    select_found d q (c_env c) r.
Proof. exact select_reads_back_pf. Qed.
Print Assumptions select_reads_back.
Theorem update_reads_back : forall (d : dialect) (q : update_ node) (c : rctx) (s : st),
  snd (render d (NUpdate q) c) = SOk -> update_reads d q (c_env c) ->
  exists ts r, tokens d (text_after d s (render d (NUpdate q) c)) = Some ts /\ read_update ts = Some r /\
    update_found d q (c_env c) r.
Proof. exact update_reads_back_pf. Qed.
Print Assumptions update_reads_back.
Theorem delete_reads_back : forall (d : dialect) (q : delete_ node) (c : rctx) (s : st),
  snd (render d (NDelete q) c) = SOk -> delete_reads d q (c_env c) ->
  exists ts r, tokens d (text_after d s (render d (NDelete q) c)) = Some ts /\ read_delete ts = Some r /\
    delete_found d q (c_env c) r.
Proof. exact delete_reads_back_pf. Qed.
Print Assumptions delete_reads_back.
(** The string ToSQL returns. *)
Lemma to_sql_text : forall dname n, r_query (to_sql dname n) = text_after (to_sql_dialect dname n) st0 (render (to_sql_dialect dname n) n (ctx None [])).
Proof. reflexivity. Qed.
Theorem tosql_reads_back : forall (dname : bytes),
  (forall q, r_status (to_sql dname (NSelect q)) = SOk -> select_reads (to_sql_dialect dname (NSelect q)) q None ->
     exists ts r, tokens (to_sql_dialect dname (NSelect q)) (r_query (to_sql dname (NSelect q))) = Some ts /\
       read_select ts = Some r /\ select_found (to_sql_dialect dname (NSelect q)) q None r) /\
  (forall q, r_status (to_sql dname (NUpdate q)) = SOk -> update_reads (to_sql_dialect dname (NUpdate q)) q None ->
     exists ts r, tokens (to_sql_dialect dname (NUpdate q)) (r_query (to_sql dname (NUpdate q))) = Some ts /\
       read_update ts = Some r /\ update_found (to_sql_dialect dname (NUpdate q)) q None r) /\
  (forall q, r_status (to_sql dname (NDelete q)) = SOk -> delete_reads (to_sql_dialect dname (NDelete q)) q None ->
     exists ts r, tokens (to_sql_dialect dname (NDelete q)) (r_query (to_sql dname (NDelete q))) = Some ts /\
       read_delete ts = Some r /\ delete_found (to_sql_dialect dname (NDelete q)) q None r).
Proof.
  intros dname. split; [|split]; intros q OK H.
  - exact (select_reads_back _ q (ctx None []) st0 OK H).
  - exact (update_reads_back _ q (ctx None []) st0 OK H).
  - exact (delete_reads_back _ q (ctx None []) st0 OK H).
Qed.
Print Assumptions tosql_reads_back.

(** The components the reader can follow include: columns, with or without
    qualifier and ordering, and tables, whose names are not keywords; bound
    values; comparisons of such and of queries; AND/OR lists of such; and, in
    parentheses, the statements themselves and set operations over them: so
    queries nested to any depth are covered. *)
Theorem columns_are_followed : forall d k fi vals e x,
  fi_err fi = false -> fi_formats fi = [] -> ascending x -> fi_collation fi = [] ->
  let q := if is_empty (fi_talias fi) then fi_table fi else fi_talias fi in
  (q = [] \/ plain_name d q) -> plain_name d (fi_name fi) -> expr d e x (NField k false fi vals).
Proof. exact column_fragment_pf. Qed.
Print Assumptions columns_are_followed.
Theorem tables_are_followed : forall d sch name alias hook e x, (sch = [] \/ plain_name d sch) -> plain_name d name ->
  expr d e x (NTable sch name alias hook).
Proof. exact table_fragment_pf. Qed.
Print Assumptions tables_are_followed.
Theorem values_are_followed : forall d v e x, (forall n w, v <> GNamedArg n w) -> expr d e x (NRaw v).
Proof. exact value_fragment_pf. Qed.
Print Assumptions values_are_followed.
Theorem comparisons_are_followed : forall d a b e x, operand_ok d e x a -> operand_ok d e x b ->
  Forall (fun c => expr d e x (c a b)) [p_eq; p_ne; p_gt; p_ge; p_lt; p_le].
Proof. exact compare_fragment_pf. Qed.
Print Assumptions comparisons_are_followed.
Theorem conditions_are_followed : forall d w c, c_excl c = [] -> vp_preds w <> [] -> Forall (expr d None []) (vp_preds w) ->
  (forall p, vp_preds w = [p] -> is_vpred p = false) -> fragment d separates (render d (NVPred w) c).
Proof. exact list_fragment_pf. Qed.
Print Assumptions conditions_are_followed.
Theorem statements_are_followed : forall d c,
  (forall q, select_reads d q (c_env c) -> fragment d (fun _ => false) (render d (NSelect q) c)) /\
  (forall q, update_reads d q (c_env c) -> fragment d (fun _ => false) (render d (NUpdate q) c)) /\
  (forall q, delete_reads d q (c_env c) -> fragment d (fun _ => false) (render d (NDelete q) c)).
Proof. exact statement_fragment_pf. Qed.
Print Assumptions statements_are_followed.
Theorem subqueries_are_followed : forall d sq e x,
  (forall q, sb_query sq = Some q -> fragment d (fun _ => false) (render d q (ctx None []))) -> expr d e x (NSubquery sq).
Proof. exact subquery_fragment_pf. Qed.
Print Assumptions subqueries_are_followed.
Theorem set_operations_are_followed : forall d top op qs c, In op set_operators -> 2 <= length qs ->
  Forall (fun q => fragment d (fun _ => false) (render d q (mk_ctx (if is_vquery q then Some false else None) [] None []))) qs ->
  fragment d (fun _ => false) (render d (NVQuery top op qs) c).
Proof. exact set_fragment_pf. Qed.
Print Assumptions set_operations_are_followed.

(** *** Concrete queries that meet the hypotheses, and what is read *)
Lemma asc_nil : ascending [].
Proof. intros i j _ H. inversion H. Qed.
Lemma no_pair : forall q n, forallb (fun c => negb (Ascii.eqb c q)) n = true -> ~ has_inner_pair q n.
Proof.
  intros q n H (a & x & b & ->). rewrite forallb_app in H. apply andb_true_iff in H. destruct H as [_ H].
  cbn [forallb] in H. now rewrite Ascii.eqb_refl in H.
Qed.
Lemma fld_expr d e t n : (t = [] \/ plain_name d t) -> plain_name d n -> expr d e [] (fld t n).
Proof. intros T N. unfold fld. apply columns_are_followed; auto. exact asc_nil. Qed.
Lemma eq_expr d e a b : expr d e [] a -> expr d e [] b -> is_query a = false -> is_query b = false -> expr d e [] (p_eq a b).
Proof.
  intros A B0 NA NB. assert (H := comparisons_are_followed d a b e []). unfold operand_ok in H. rewrite NA, NB in H.
  specialize (H A B0). now inversion H.
Qed.
Lemma one_condition d p w : vp_preds w = [p] -> is_vpred p = false -> expr d None [] p -> pred_reads d w.
Proof.
  intros E V H NE. unfold cond_sql. apply conditions_are_followed; [reflexivity|exact NE|rewrite E; now repeat constructor|].
  intros p' E'. rewrite E in E'. now injection E' as <-.
Qed.
Definition alias_of (t n a : bytes) : node := NField false false (mk_finfo [] t [] n a [] [] None None false) [].
Lemma alias_expr d e t n a : (t = [] \/ plain_name d t) -> plain_name d n -> expr d e [] (alias_of t n a).
Proof. intros T N. unfold alias_of. apply columns_are_followed; auto. exact asc_nil. Qed.
Ltac pname := split; [apply no_pair; vm_compute; reflexivity|intros _; vm_compute; reflexivity].
Ltac pexpr :=
  match goal with
  | |- Forall _ _ => repeat (constructor; [pexpr|]); constructor
  | |- item_ok _ _ _ => split; [pexpr|try (left; reflexivity); right; pname]
  | |- expr _ _ _ (fld _ _) => apply fld_expr; [try (left; reflexivity); right; pname|pname]
  | |- expr _ _ _ (alias_of _ _ _) => apply alias_expr; [try (left; reflexivity); right; pname|pname]
  | |- expr _ _ _ (tbl _ _) => apply tables_are_followed; [left; reflexivity|pname]
  | |- expr _ _ _ (p_eq _ _) => apply eq_expr; [pexpr|pexpr|reflexivity|reflexivity]
  | |- expr _ _ _ (NRaw _) => apply values_are_followed; discriminate
  | |- pred_reads _ _ => eapply one_condition; [reflexivity|reflexivity|pexpr]
  | _ => idtac
  end.
Definition one (p : node) : vpred_ node := mk_vpred false [] false [p] false.
(** SELECT id FROM posts *)
Definition inner_select : select_ node :=
  mk_select (B "postgres") None [] false [fld [] (B "id")] [] (Some (tbl (B "posts") [])) [] no_pred [] no_pred [] None None.
Definition sub_posts : node := NSubquery (mk_subq (Some (NSelect inner_select)) false (B "p") [B "id"] [B "id"]).
(** Every clause, a CTE, a subquery, a name that has to be quoted. *)
Definition big_select : select_ node :=
  mk_select (B "postgres") None
    [mk_cte (Some (NSelect inner_select)) false false true (B "recent") [] [B "id"] [B "id"] (Some false)]
    true [alias_of (B "u") (B "id") (B "i"); fld [] (B "first name")] []
    (Some (tbl (B "users") (B "u")))
    [mk_join (B "LEFT JOIN") (Some sub_posts) (one (p_eq (fld (B "p") (B "id")) (fld (B "u") (B "id"))))]
    (mk_vpred false [] false [p_eq (fld (B "u") (B "id")) (NRaw (GInt 7)); p_eq (fld (B "u") (B "a,b")) (NRaw (GString (B "x")))] false)
    [fld (B "u") (B "id")] (one (p_eq (fld (B "u") (B "id")) (NRaw (GInt 1)))) [fld (B "u") (B "id"); fld [] (B "n")] (Some 5%Z) (Some 6%Z).
Lemma inner_reads : select_reads DPostgres inner_select None.
Proof.
  unfold select_reads. cbn [inner_select sq_ctes sq_distinct_on sq_fields sq_from sq_joins sq_where sq_group sq_having sq_order sq_env own_env].
  split; [constructor|split; [constructor|split; [pexpr|split; [intros t E; injection E as <-; pexpr|split; [constructor|split; [|split; [constructor|split; [|constructor]]]]]]]].
  - intros Z. discriminate Z.
  - intros Z. now contradiction Z.
Qed.
Example big_select_reads : select_reads DPostgres big_select None.
Proof.
  unfold select_reads. cbn [big_select sq_ctes sq_distinct_on sq_fields sq_from sq_joins sq_where sq_group sq_having sq_order sq_env own_env].
  assert (IN : forall c, c_env c = None -> fragment DPostgres (fun _ => false) (render DPostgres (NSelect inner_select) c)).
  { intros c E. apply statements_are_followed. rewrite E. exact inner_reads. }
  split; [|split; [constructor|split; [pexpr|split; [intros t E; injection E as <-; pexpr|split; [|split; [|split; [pexpr|split; [pexpr|pexpr]]]]]]]].
  - constructor; [|constructor]. split; [split; [vm_compute; reflexivity|reflexivity]|]. split; [intros _; constructor; [vm_compute; reflexivity|constructor]|].
    intros q E. injection E as <-. now apply IN.
  - constructor; [|constructor]. split; [|split].
    + eexists. split; [vm_compute; reflexivity|]. repeat split; discriminate.
    + intros t E. injection E as <-. split; [|right; pname]. apply subqueries_are_followed. intros q E. injection E as <-. now apply IN.
    + intros _. apply conditions_are_followed; [reflexivity|discriminate|pexpr|intros p E; injection E as <-; reflexivity].
  - intros _. apply conditions_are_followed; [reflexivity|discriminate|pexpr|discriminate].
Qed.
Definition big_text : bytes :=
  B "WITH recent (id) AS NOT MATERIALIZED (SELECT id FROM posts) SELECT DISTINCT u.id AS i, ""first name"" FROM users AS u LEFT JOIN (SELECT id FROM posts) AS p ON p.id = u.id WHERE u.id = $1 AND u.""a,b"" = $2 GROUP BY u.id HAVING u.id = $3 ORDER BY u.id, n LIMIT $4 OFFSET $5".
Definition word (w : string) : tok := TWord (B w).
Definition dot (a b : string) : list tok := [word a; TSym "."; word b].
Definition posts_toks : list tok := [word "SELECT"; word "id"; word "FROM"; word "posts"].
Example big_select_read :
  r_status (to_sql [] (NSelect big_select)) = SOk /\ r_query (to_sql [] (NSelect big_select)) = big_text /\
  match tokens DPostgres big_text with Some ts => read_select ts | None => None end =
  Some (mk_select_read
    (Some (false, [mk_common (B "recent") (Some [B "id"]) (Some false) posts_toks]))
    Distinct [mk_item (dot "u" "id") (Some (B "i")); mk_item [TName (B "first name")] None]
    (Some (mk_source (mk_item [word "users"] (Some (B "u")))
       [mk_joined [word "LEFT"; word "JOIN"] (mk_item (lp :: posts_toks ++ [rp]) (Some (B "p")))
          (Some (dot "p" "id" ++ TSym "=" :: dot "u" "id"))]))
    (Some (dot "u" "id" ++ [TSym "="; word "$1"; word "AND"; word "u"; TSym "."; TName (B "a,b"); TSym "="; word "$2"]))
    [dot "u" "id"] (Some (dot "u" "id" ++ [TSym "="; word "$3"])) [dot "u" "id"; [word "n"]]
    (Some [word "$4"]) (Some [word "$5"])).
Proof. split; [vm_compute; reflexivity|]. split; vm_compute; reflexivity. Qed.
Example update_and_delete_read :
  update_reads DSQLite ex_update None /\ delete_reads DMySQL ex_delete None /\
  match tokens DSQLite (r_query (to_sql [] (NUpdate ex_update))) with Some ts => read_update ts | None => None end =
  Some (mk_update_read None (mk_source (mk_item [word "users"] None) []) [([word "name"], [word "$1"])] None
    (Some (dot "users" "id" ++ [TSym "="; word "$2"])) [] None None [mk_item (dot "users" "id") None]) /\
  match tokens DMySQL (r_query (to_sql [] (NDelete ex_delete))) with Some ts => read_delete ts | None => None end =
  Some (mk_delete_read None [mk_item [word "users"] None] None (Some (dot "users" "id" ++ [TSym "="; TSym "?"]))
    [dot "users" "id"] (Some [TSym "?"]) None []).
Proof.
  split; [|split; [|split; vm_compute; reflexivity]].
  - unfold update_reads. cbn [ex_update uq_ctes uq_table uq_from uq_joins uq_where uq_order uq_returning uq_env own_env].
    split; [constructor|split; [intros t E; injection E as <-; pexpr|split; [|split; [discriminate|split; [constructor|split; [pexpr|split; [constructor|pexpr]]]]]]].
    intros t a E A. injection E as <-. cbn in A. injection A as <-. constructor; [|constructor]. split.
    + intros _ s. exists [word "name"]. split; [|split; [discriminate|reflexivity]].
      rewrite (text_of_after DSQLite _ (B "name") s); vm_compute; reflexivity.
    + change (expr DSQLite None [B "users"] (NRaw (GString (B "x")))). apply values_are_followed. discriminate.
  - unfold delete_reads. cbn [ex_delete dq_ctes dq_tables dq_using dq_joins dq_where dq_order dq_returning dq_env own_env present andb].
    split; [constructor|split; [intros t rest E; injection E as <- <-; pexpr|split; [discriminate|split; [constructor|split; [|split; [pexpr|constructor]]]]]].
    intros _. assert (P : pred_reads DMySQL (one (p_eq (fld (B "users") (B "id")) (NRaw (GInt 7))))) by pexpr.
    apply P. discriminate.
Qed.

(** The hypothesis that no bare name is a keyword is needed: the library writes
    a column called from without quotes, and the statement is read wrongly. *)
Definition keyword_select : select_ node :=
  mk_select (B "postgres") None [] false [fld [] (B "from")] [] (Some (tbl (B "users") [])) [] no_pred [] no_pred [] None None.
Theorem keyword_column_refuted :
  r_query (to_sql [] (NSelect keyword_select)) = B "SELECT from FROM users" /\
  r_status (to_sql [] (NSelect keyword_select)) = SOk /\
  tokens DPostgres (B "SELECT from FROM users") = Some [word "SELECT"; word "from"; word "FROM"; word "users"] /\
  read_select [word "SELECT"; word "from"; word "FROM"; word "users"] = None.
Proof. split; [vm_compute; reflexivity|]. split; [vm_compute; reflexivity|]. split; vm_compute; reflexivity. Qed.
Print Assumptions keyword_column_refuted.
