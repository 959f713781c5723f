(** * Reading INSERT back: C87.  See SpecReadSql for the reader. *)
From Verif Require Import GoBase QuoteModel SpecLex SpecIdent SpecSql SprintModel TokenModel EffectModel RenderModel BuildModel
  SpecText SqlFacts SpecClauses FieldFacts SpecDdl DdlToks DdlRead SpecReadSql ReadToks ReadParts ReadSqlPf ReadExpr ReadInsert PropertiesPred PropertiesClauses PropertiesReadSql.
From Coq Require Import Lia.
From Verif Require SpecQuery QueryPf PropertiesQuery.
Local Open Scope m_scope.

(** ** C87 *)
Theorem insert_reads_back : forall (d : dialect) (q : insert_ node) (c : rctx) (s : st),
  iq_mapper q = None -> snd (render d (NInsert q) c) = SOk -> insert_reads d q (c_env c) ->
  exists ts r, tokens d (text_after d s (render d (NInsert q) c)) = Some ts /\ read_insert ts = Some r /\
    insert_found d q (c_env c) r.
Proof.
  intros d q c s M O H. destruct (insert_reads_full d q c s M O H) as (ts & r & T & R & F & _). now exists ts, r.
Qed.
Print Assumptions insert_reads_back.
(** With a column mapper: the columns and rows it sets. *)
Theorem mapped_insert_reads_back : forall (d : dialect) (q : insert_ node) (c : rctx) (s : st) (f0 : node) (fs : list node)
    (rows : list (list node)),
  let q' := SpecQuery.with_rows q (f0 :: fs) rows in
  iq_mapper q = Some (SpecQuery.mapper_calls (f0 :: fs) rows, false) ->
  ~ In (get_name f0) (map get_name fs) -> rows <> [] -> Forall (fun r => length r = length (f0 :: fs)) rows ->
  snd (render d (NInsert q) c) = SOk -> insert_reads d q' (c_env c) ->
  exists ts r, tokens d (text_after d s (render d (NInsert q) c)) = Some ts /\ read_insert ts = Some r /\
    insert_found d q' (c_env c) r.
Proof.
  intros d q c s f0 fs rows q' M N NR L O H.
  rewrite (PropertiesQuery.mapper_inserts_rows d q c f0 fs rows M N NR L) in *. now apply insert_reads_back.
Qed.
Print Assumptions mapped_insert_reads_back.
Theorem tosql_insert_reads_back : forall (dname : bytes) (q : insert_ node),
  let d := to_sql_dialect dname (NInsert q) in
  iq_mapper q = None -> r_status (to_sql dname (NInsert q)) = SOk -> insert_reads d q None ->
  exists ts r, tokens d (r_query (to_sql dname (NInsert q))) = Some ts /\ read_insert ts = Some r /\ insert_found d q None r.
Proof. intros dname q d M O H. exact (insert_reads_back d q (ctx None []) st0 M O H). Qed.
Print Assumptions tosql_insert_reads_back.
(** An INSERT may be part of another statement (WITH x AS (INSERT ... RETURNING ...)). *)
Theorem inserts_are_followed : forall (d : dialect) (q : insert_ node) (c : rctx),
  iq_mapper q = None -> insert_reads d q (c_env c) -> fragment d (fun _ => false) (render d (NInsert q) c).
Proof.
  intros d q c M H O s. destruct (insert_reads_full d q c s M O H) as (ts & r & T & _ & _ & N & C). now exists ts.
Qed.
Print Assumptions inserts_are_followed.
(** A table one inserts into. *)
Theorem insert_tables_are_followed : forall d sch name alias hook e x, (sch = [] \/ plain_name d sch) -> plain_name d name ->
  fragment d (fun k => separates k || sym "(" k) (render d (NTable sch name alias hook) (ctx e x)).
Proof.
  intros d sch name alias hook e x HS HN O s. rewrite (text_of_after d _ _ s (QueryPf.table_text d sch name alias hook _)).
  assert (NS : forall n, plain_name d n -> separates (name_tok d n) || sym "(" (name_tok d n) = false).
  { intros n H. rewrite (name_sep d n H). apply name_tok_sym. }
  assert (NC : closed (fun k => separates k || sym "(" k) 0 [name_tok d name] = true).
  { apply closed_cons; [now apply NS|apply name_tok_sym|apply name_tok_sym|reflexivity]. }
  destruct sch as [|a sch].
  - exists [name_tok d name]. split; [apply toks_name, HN|]. split; [discriminate|exact NC].
  - destruct HS as [HS|HS]; [discriminate|]. exists (name_tok d (a :: sch) :: TSym "." :: [name_tok d name]).
    split; [|split; [discriminate|]].
    + rewrite <- app_assoc. apply (toks_app d _ [name_tok d (a :: sch)]); [apply toks_name, HS|apply toks_sym; [cbn; tauto|apply toks_name, HN]|reflexivity].
    + apply closed_cons; [now apply NS|apply name_tok_sym|apply name_tok_sym|]. apply closed_cons; try reflexivity. exact NC.
Qed.
Print Assumptions insert_tables_are_followed.

(** *** Concrete statements *)
Lemma asc_one : forall a : bytes, ascending [a].
Proof. intros a i j L H. cbn in H. assert (E : i = 0 /\ j = 0) by lia. destruct E as [-> ->]. apply bltb_irrefl. Qed.
Lemma col_expr d e x n : plain_name d x -> plain_name d n -> expr d e [x] (fld x n).
Proof. intros X N. unfold fld. apply columns_are_followed; auto using asc_one. Qed.
Lemma assign_of d x n v : plain_name d x -> plain_name d n -> sym "=" (name_tok d n) = false -> (forall a w, v <> GNamedArg a w) ->
  assign_reads d [x] (fld x n, NRaw v).
Proof.
  intros X N E V. split; [|cbn [snd is_query]; now apply values_are_followed].
  intros O s. exists [name_tok d n]. cbn [fst].
  destruct (qualifier_dropped_iff_excluded d false (mk_finfo [] x [] n [] [] [] None None false) [] None [] None [x] eq_refl eq_refl (asc_one x)) as [H _].
  cbv zeta in H. cbn [fi_talias fi_table fi_collation fi_desc fi_nulls is_empty app fi_name] in H.
  assert (T := H (or_intror (or_introl eq_refl))). rewrite app_nil_r in T. unfold fld, ctx. rewrite (text_of_after d _ _ s T).
  split; [apply toks_name, N|]. split; [discriminate|]. apply closed_cons; [|apply name_tok_sym|apply name_tok_sym|reflexivity].
  rewrite (name_sep d n N), E. reflexivity.
Qed.
Lemma source_reads : forall s e, select_reads DSQLite s e -> sq_where s = no_pred -> injected (select_tables s) (own_env e (sq_env s)) = [] ->
  select_reads DSQLite (source_select DSQLite s) e.
Proof.
  intros s e H W J. unfold source_select. rewrite W. cbn [is_sqlite vp_preds no_pred nonempty negb andb].
  unfold select_reads in *. cbv zeta in *. cbn [sq_ctes sq_distinct_on sq_fields sq_from sq_joins sq_where sq_group sq_having sq_order sq_env].
  destruct H as (H1 & H2 & H3 & H4 & H5 & H6 & H7). repeat (split; [assumption|]). split; [|exact H7].
  change (select_tables (mk_select (sq_dialect s) (sq_env s) (sq_ctes s) (sq_distinct s) (sq_fields s) (sq_distinct_on s) (sq_from s) (sq_joins s)
     (mk_vpred (vp_top no_pred) (vp_alias no_pred) (vp_or no_pred) [NPred [] (B "TRUE") [] false] (vp_neg no_pred)) (sq_group s) (sq_having s) (sq_order s) (sq_limit s) (sq_offset s))) with (select_tables s).
  rewrite J. intros _ O s0. exists [word "TRUE"]. split; [|split; [discriminate|reflexivity]].
  assert (E : where_cond DSQLite [] (mk_vpred (vp_top no_pred) (vp_alias no_pred) (vp_or no_pred) [NPred [] (B "TRUE") [] false] (vp_neg no_pred)) =
    (act (CDel []) ;; emit (B "TRUE"))) by (vm_compute; reflexivity).
  rewrite E, text_after_seq, text_after_del, text_after_emit by reflexivity. vm_compute. reflexivity.
Qed.
(** SQLite: INSERT ... SELECT with a join and an upsert; both have the word ON. *)
Definition ins_select : select_ node :=
  mk_select (B "sqlite") None [] false [fld (B "p") (B "id")] [] (Some (tbl (B "posts") (B "p")))
    [mk_join (B "JOIN") (Some (tbl (B "users") [])) (one (p_eq (fld (B "p") (B "id")) (fld (B "users") (B "id"))))]
    no_pred [] no_pred [] None None.
Definition big_insert : insert_ node :=
  mk_insert (B "sqlite") None None [] false (Some (tbl (B "log") [])) [fld (B "log") (B "id")] [] [] [] (Some ins_select)
    [] [fld (B "log") (B "id")] None false [(fld (B "log") (B "n"), NRaw (GInt 3))]
    (one (p_eq (fld (B "log") (B "n")) (NRaw (GInt 4)))) [fld (B "log") (B "id")].
(** MySQL: INSERT IGNORE ... VALUES ... AS new (x) ON DUPLICATE KEY UPDATE. *)
Definition my_insert : insert_ node :=
  mk_insert (B "mysql") None None [] true (Some (tbl (B "log") [])) [fld (B "log") (B "id"); fld (B "log") (B "n")]
    [[NRaw (GInt 1); NRaw (GString (B "a,b) AS"))]; [NRaw (GInt 2); NRaw (GString (B "c"))]] (B "new") [B "i"; B "m"] None
    [] [] None false [(fld (B "log") (B "n"), NRaw (GInt 3))] no_pred [].
Ltac ipname := pname.
Example big_insert_reads : insert_reads DSQLite big_insert None.
Proof.
  unfold insert_reads. cbn [big_insert iq_ctes iq_rows iq_rowalias iq_colaliases iq_select iq_constraint iq_rpred iq_returning iq_into iq_columns iq_cfields iq_cpred iq_resolution iq_env own_env].
  split; [constructor|]. split; [constructor|]. split; [intros Z; now contradiction Z|]. split; [|split; [intros Z; now contradiction Z|split; [pexpr|split; [pexpr|]]]].
  - intros s E. injection E as <-. apply source_reads; [|reflexivity|reflexivity].
    unfold select_reads. cbn [ins_select sq_ctes sq_distinct_on sq_fields sq_from sq_joins sq_where sq_group sq_having sq_order sq_env own_env].
    split; [constructor|split; [constructor|split; [pexpr|split; [intros t E; injection E as <-; pexpr|split; [|split; [|split; [constructor|split; [|constructor]]]]]]]].
    + constructor; [|constructor]. split; [|split].
      * eexists. split; [vm_compute; reflexivity|]. repeat split; discriminate.
      * intros t E. injection E as <-. pexpr.
      * intros _. apply conditions_are_followed; [reflexivity|discriminate|pexpr|intros p E; injection E as <-; reflexivity].
    + intros Z. discriminate Z.
    + intros Z. now contradiction Z.
  - intros t E. injection E as <-. change (table_qualifier (tbl (B "log") [])) with (B "log").
    split; [apply insert_tables_are_followed; [now left|ipname]|]. split; [now left|].
    split; [constructor; [apply col_expr; ipname|constructor]|]. split; [constructor; [apply col_expr; ipname|constructor]|].
    split; [discriminate|]. constructor; [|constructor]. apply assign_of; [ipname|ipname|reflexivity|discriminate].
Qed.
Example my_insert_reads : insert_reads DMySQL my_insert None.
Proof.
  unfold insert_reads. cbn [my_insert iq_ctes iq_rows iq_rowalias iq_colaliases iq_select iq_constraint iq_rpred iq_returning iq_into iq_columns iq_cfields iq_cpred iq_resolution iq_env own_env].
  split; [constructor|]. split; [repeat (constructor; [pexpr|]); constructor|].
  split; [intros _; split; [split; [vm_compute; reflexivity|reflexivity]|repeat (constructor; [vm_compute; reflexivity|]); constructor]|].
  split; [discriminate|]. split; [intros Z; now contradiction Z|]. split; [intros Z; now contradiction Z|]. split; [constructor|].
  intros t E. injection E as <-. change (table_qualifier (tbl (B "log") [])) with (B "log").
  split; [apply insert_tables_are_followed; [now left|ipname]|]. split; [now left|].
  split; [repeat (constructor; [apply col_expr; ipname|]); constructor|]. split; [constructor|]. split; [discriminate|].
  constructor; [|constructor]. apply assign_of; [ipname|ipname|reflexivity|discriminate].
Qed.
Example inserts_read :
  r_query (to_sql [] (NInsert big_insert)) =
    B "INSERT INTO log (id) SELECT p.id FROM posts AS p JOIN users ON p.id = users.id WHERE TRUE ON CONFLICT (id) DO UPDATE SET n = $1 WHERE log.n = $2 RETURNING log.id" /\
  match tokens DSQLite (r_query (to_sql [] (NInsert big_insert))) with Some ts => read_insert ts | None => None end =
  Some (mk_insert_read None false (mk_item [word "log"] None) (Some [[word "id"]])
    (Query (mk_select_read None All [mk_item (dot "p" "id") None]
       (Some (mk_source (mk_item [word "posts"] (Some (B "p")))
          [mk_joined [word "JOIN"] (mk_item [word "users"] None) (Some (dot "p" "id" ++ TSym "=" :: dot "users" "id"))]))
       (Some [word "TRUE"]) [] None [] None None))
    (OnConflict (OnColumns [[word "id"]] None) (DoUpdate [([word "n"], [word "$1"])] (Some (dot "log" "n" ++ [TSym "="; word "$2"]))))
    [mk_item (dot "log" "id") None]) /\
  r_query (to_sql [] (NInsert my_insert)) =
    B "INSERT IGNORE INTO log (id, n) VALUES (?, ?), (?, ?) AS new (i, m) ON DUPLICATE KEY UPDATE n = ?" /\
  match tokens DMySQL (r_query (to_sql [] (NInsert my_insert))) with Some ts => read_insert ts | None => None end =
  Some (mk_insert_read None true (mk_item [word "log"] None) (Some [[word "id"]; [word "n"]])
    (Values [[[TSym "?"]; [TSym "?"]]; [[TSym "?"]; [TSym "?"]]] (Some (B "new", [B "i"; B "m"])))
    (OnDuplicate [([word "n"], [TSym "?"])]) []).
Proof. split; [vm_compute; reflexivity|]. split; [vm_compute; reflexivity|]. split; vm_compute; reflexivity. Qed.
