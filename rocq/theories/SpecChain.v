(** * SpecChain: what a chain of builder calls asks for *)
From Verif Require Import GoBase QuoteModel SprintModel TokenModel EffectModel RenderModel BuildModel SpecClauses ChainModel.

(** The argument of the last call of a kind. *)
Definition last_of {C T} (f : C -> option T) (cs : list C) (start : T) : T :=
  match find (fun c => present (f c)) (rev cs) with
  | Some c => match f c with Some x => x | None => start end
  | None => start
  end.
(** The calls after the last one that starts anew. *)
Fixpoint until {C} (stop : C -> bool) (cs : list C) : list C :=
  match cs with [] => [] | c :: cs => if stop c then [] else c :: until stop cs end.
Definition since_last {C} (stop : C -> bool) (cs : list C) : list C := rev (until stop (rev cs)).

(** Joins: the words, the table, the conditions. *)
Definition join_words (j : join_call) : bytes :=
  match j with
  | Join _ _ => B "JOIN" | LeftJoin _ _ => B "LEFT JOIN" | RightJoin _ _ => B "RIGHT JOIN" | FullJoin _ _ => B "FULL JOIN"
  | CrossJoin _ => B "CROSS JOIN" | CustomJoin ty _ _ => ty
  end.
Definition joined (j : join_call) : option node :=
  match j with Join t _ | LeftJoin t _ | RightJoin t _ | FullJoin t _ | CrossJoin t | CustomJoin _ t _ => t end.
Definition join_conditions (j : join_call) : list node :=
  match j with Join _ ps | LeftJoin _ ps | RightJoin _ ps | FullJoin _ ps | CustomJoin _ _ ps => ps | CrossJoin _ => [] end.
Definition conjunction (ps : list node) : vpred_ node := mk_vpred false [] false ps false.
Definition asked_join (j : join_call) : join_ node := mk_join (join_words j) (joined j) (conjunction (join_conditions j)).

(** ** SELECT *)
Definition first_select (s : select_start) : select_call :=
  match s with
  | StFrom t => SFrom t | StSelectWith cs => SWith cs | StSelect fs => SSelect fs | StSelectOne => SSelectOne
  | StSelectDistinct fs => SSelectDistinct fs
  end.
(** Output columns: those of the last SelectDistinct or SelectOne and of the
    calls of Select after it. *)
Definition restarts (c : select_call) : bool := match c with SSelectDistinct _ | SSelectOne => true | _ => false end.
Definition output_columns (cs : list select_call) : list node :=
  last_of (fun c => match c with SSelectDistinct fs => Some fs | SSelectOne => Some [NLiteral (B "1") []] | _ => None end) cs [] ++
  flat_map (fun c => match c with SSelect fs => fs | _ => [] end) (since_last restarts cs).
Definition asked_select (dname : bytes) (e : option env) (cs : list select_call) : select_ node :=
  mk_select dname e
    (flat_map (fun c => match c with SWith x => x | _ => [] end) cs)
    (existsb (fun c => match c with SSelectDistinct _ => true | _ => false end) cs)
    (output_columns cs)
    (last_of (fun c => match c with SDistinctOn fs => Some fs | _ => None end) cs [])
    (last_of (fun c => match c with SFrom t => Some t | _ => None end) cs None)
    (flat_map (fun c => match c with SJoin j => [asked_join j] | _ => [] end) cs)
    (conjunction (flat_map (fun c => match c with SWhere ps => ps | _ => [] end) cs))
    (flat_map (fun c => match c with SGroupBy fs => fs | _ => [] end) cs)
    (conjunction (flat_map (fun c => match c with SHaving ps => ps | _ => [] end) cs))
    (flat_map (fun c => match c with SOrderBy fs => fs | _ => [] end) cs)
    (last_of (fun c => match c with SLimit n => Some (Some n) | _ => None end) cs None)
    (last_of (fun c => match c with SOffset n => Some (Some n) | _ => None end) cs None).

(** ** UPDATE *)
Definition first_update (s : update_start) : update_call :=
  match s with StUpdateWith cs => UWith cs | StUpdate t => UUpdate t end.
Definition asked_update (dname : bytes) (e : option env) (cs : list update_call) : update_ node :=
  mk_update dname e
    (last_of (fun c => match c with USetx m => Some (Some m) | _ => None end) cs None)
    (flat_map (fun c => match c with UWith x => x | _ => [] end) cs)
    (last_of (fun c => match c with UUpdate t => Some t | _ => None end) cs None)
    (last_of (fun c => match c with UFrom t => Some t | _ => None end) cs None)
    (flat_map (fun c => match c with UJoin j => [asked_join j] | _ => [] end) cs)
    (flat_map (fun c => match c with USet l => l | _ => [] end) cs)
    (conjunction (flat_map (fun c => match c with UWhere ps => ps | _ => [] end) cs))
    (flat_map (fun c => match c with UOrderBy fs => fs | _ => [] end) cs)
    (last_of (fun c => match c with ULimit n => Some (Some n) | _ => None end) cs None)
    (last_of (fun c => match c with UOffset n => Some (Some n) | _ => None end) cs None)
    (flat_map (fun c => match c with UReturning fs => fs | _ => [] end) cs).

(** ** DELETE: here the last OrderBy counts. *)
Definition first_delete (s : delete_start) : delete_call :=
  match s with StDeleteWith cs => DWith cs | StDeleteFrom ts => DDeleteFrom ts end.
Definition asked_delete (dname : bytes) (e : option env) (cs : list delete_call) : delete_ node :=
  mk_delete dname e
    (flat_map (fun c => match c with DWith x => x | _ => [] end) cs)
    (last_of (fun c => match c with DDeleteFrom ts => Some ts | _ => None end) cs [])
    (last_of (fun c => match c with DUsing t => Some t | _ => None end) cs None)
    (flat_map (fun c => match c with DJoin j => [asked_join j] | _ => [] end) cs)
    (conjunction (flat_map (fun c => match c with DWhere ps => ps | _ => [] end) cs))
    (last_of (fun c => match c with DOrderBy fs => Some fs | _ => None end) cs [])
    (last_of (fun c => match c with DLimit n => Some (Some n) | _ => None end) cs None)
    (last_of (fun c => match c with DOffset n => Some (Some n) | _ => None end) cs None)
    (flat_map (fun c => match c with DReturning fs => fs | _ => [] end) cs).

(** ** INSERT *)
Definition first_insert (s : insert_start) : insert_call :=
  match s with StInsertWith cs => IWith cs | StInsertInto t | StInsertIgnoreInto t => IInsertInto t end.
Definition ignores (s : insert_start) : bool := match s with StInsertIgnoreInto _ => true | _ => false end.
(** The parts of conflict clauses: each counts where it was given last. *)
Definition asked_insert (dname : bytes) (e : option env) (ignore : bool) (cs : list insert_call) : insert_ node :=
  mk_insert dname e
    (last_of (fun c => match c with IValuesx m => Some (Some m) | _ => None end) cs None)
    (flat_map (fun c => match c with IWith x => x | _ => [] end) cs)
    ignore
    (last_of (fun c => match c with IInsertInto t => Some t | _ => None end) cs None)
    (last_of (fun c => match c with IColumns fs => Some fs | _ => None end) cs [])
    (flat_map (fun c => match c with IValues vs => [vs] | _ => [] end) cs)
    (last_of (fun c => match c with IAsRow a => Some a | _ => None end) cs [])
    (last_of (fun c => match c with IAsColumns l => Some l | _ => None end) cs [])
    (last_of (fun c => match c with ISelect s => Some (Some s) | _ => None end) cs None)
    (last_of (fun c => match c with IConflict (OnConstraint n) _ _ => Some n | _ => None end) cs [])
    (last_of (fun c => match c with IConflict (OnFields fs) _ _ => Some fs | _ => None end) cs [])
    (last_of (fun p => Some (if is_nil p then None else Some p))
       (flat_map (fun c => match c with IConflict _ ws _ => ws | _ => [] end) cs) None)
    (existsb (fun c => match c with IConflict _ _ DoNothing => true | _ => false end) cs)
    (last_of (fun c => match c with IConflict _ _ (DoUpdateSet l) => Some l | IOnDuplicateKeyUpdate l => Some l | _ => None end) cs [])
    (conjunction (flat_map (fun c => match c with IWhere ps => ps | _ => [] end) cs))
    (flat_map (fun c => match c with IReturning fs => fs | _ => [] end) cs).

(** ** The builder of a dialect *)
(** The dialect and its name. *)
Inductive builder_of : dialect -> bytes -> Prop :=
| BSQLite : builder_of DSQLite (B "sqlite")
| BPostgres : builder_of DPostgres (B "postgres")
| BMySQL : builder_of DMySQL (B "mysql").
(** CustomJoin can ask for anything; here: nothing sqlite lacks. *)
Definition tame (d : dialect) (j : join_call) : Prop :=
  match j with CustomJoin ty _ _ => d = DSQLite -> ~ In ty [B "RIGHT JOIN"; B "FULL JOIN"] | _ => True end.
(** Complete statements, whatever the dialect. *)
Definition join_complete (j : join_ node) : bool :=
  present (jn_table j) && (nonempty (vp_preds (jn_on j)) || negb (needs_on (join_type j))).
Definition select_complete (q : select_ node) (e : option env) : bool :=
  forallb cte_ok (sq_ctes q)
  && (negb (nonempty (sq_distinct_on q)) || negb (sq_distinct q))
  && nonempty (sq_fields q)
  && (negb (nonempty (sq_joins q)) || present (sq_from q))
  && forallb join_complete (sq_joins q)
  && negb (hook_fails (select_tables q) (own_env e (sq_env q))).
(** Joins need a FROM table, in mysql the updated table will do. *)
Definition update_complete (mysql : bool) (q : update_ node) (e : option env) : bool :=
  match update_assigns q with None => false | Some a => nonempty a end
  && forallb cte_ok (uq_ctes q)
  && present (uq_table q)
  && (negb (nonempty (uq_joins q)) || present (uq_from q) || mysql)
  && forallb join_complete (uq_joins q)
  && negb (hook_fails (uq_table q :: uq_from q :: map jn_table (uq_joins q)) (own_env e (uq_env q))).
(** mysql deletes from all tables; ORDER BY and LIMIT only from one. *)
Definition delete_complete (mysql : bool) (q : delete_ node) (e : option env) : bool :=
  forallb cte_ok (dq_ctes q)
  && match dq_tables q with
     | [] => false
     | t :: _ => if present (dq_using q) && mysql then forallb present (dq_tables q) else present t
     end
  && (negb (nonempty (dq_joins q)) || present (dq_using q))
  && forallb join_complete (dq_joins q)
  && negb (hook_fails (dq_tables q) (own_env e (dq_env q)))
  && (negb (nonempty (dq_order q) || present (dq_limit q)) || negb (delete_multi q)).
(** mysql has no alias for the table. *)
Definition insert_complete (d : dialect) (q : insert_ node) (e : option env) : bool :=
  forallb cte_ok (iq_ctes q)
  && match iq_into q with None => false | Some t => is_empty (get_alias t) || negb (is_mysql d) end
  && (nonempty (iq_rows q)
      || match iq_select q with Some s => select_ok d (source_select d s) (own_env e (iq_env q)) | None => false end).
