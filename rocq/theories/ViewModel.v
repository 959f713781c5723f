(** * ViewModel: the DDL method of a view and its loading (ddl/v.go, ddl/view.go) *)
From Verif Require Import GoBase QuoteModel CacheModel UpsertModel TokenModel DdlModel MigrateModel LoadModel TriggerModel.

(** ** The column check of SetQuery *)
(** v.go:54-56, 69: [columnDiff[column] += k].  A map read of an absent key is 0.
    The order of the list stands for the map's order, which is not observed:
    the error message is sorted and not kept here. *)
Fixpoint diff_add (column : bytes) (k : Z) (m : list (bytes * Z)) : list (bytes * Z) :=
  match m with
  | [] => [(column, k)]
  | (c, n) :: m' => if beqb c column then (c, (n + k)%Z) :: m' else (c, n) :: diff_add column k m'
  end.
(** A field of the query: GetAlias and GetName. *)
Record fetch_field := mk_fetch_field { ff_alias : bytes; ff_name : bytes }.
Definition field_column (f : fetch_field) : bytes := if is_empty (ff_alias f) then ff_name f else ff_alias f.
(** v.go:61-70: the loop over the fields; [None]: a field without a name. *)
Fixpoint diff_fields (fs : list fetch_field) (m : list (bytes * Z)) : option (list (bytes * Z)) :=
  match fs with
  | [] => Some m
  | f :: fs' => if is_empty (field_column f) then None else diff_fields fs' (diff_add (field_column f) 1 m)
  end.
(** v.go:53-93: whether there is an error. *)
Definition columns_match (want : list bytes) (fs : list fetch_field) : bool :=
  match diff_fields fs (fold_left (fun m c => diff_add c (-1) m) want []) with
  | None => false
  | Some m => forallb (fun kv => (snd kv =? 0)%Z) m
  end.

(** ** The triggers of a view (view.go:65-108) *)
Definition trigger_key := (bytes * bytes * bytes)%type.
Definition key_of (g : trigger) : trigger_key := (g_schema g, g_table g, g_name g).
Definition key_eqb (a b : trigger_key) : bool :=
  beqb (fst (fst a)) (fst (fst b)) && beqb (snd (fst a)) (snd (fst b)) && beqb (snd a) (snd b).
Fixpoint kget (k : trigger_key) (m : list (trigger_key * nat)) : option nat :=
  match m with
  | [] => None
  | (k', n) :: m' => if key_eqb k' k then Some n else kget k m'
  end.
Definition kdel (k : trigger_key) (m : list (trigger_key * nat)) : list (trigger_key * nat) :=
  filter (fun kv => negb (key_eqb (fst kv) k)) m.
Definition kset (k : trigger_key) (n : nat) (m : list (trigger_key * nat)) : list (trigger_key * nat) := (k, n) :: kdel k m.
Record view_triggers := mk_vt { vt_list : list trigger; vt_cache : list (trigger_key * nat) }.
(** view.go:65-84 [CachedTriggerPosition]. *)
Definition vt_lookup (k : trigger_key) (s : view_triggers) : option nat * view_triggers :=
  if is_empty (snd k) then (None, s)
  else
    match kget k (vt_cache s) with
    | None => (None, s)
    | Some i =>
      match nth_error (vt_list s) i with
      | None => (None, mk_vt (vt_list s) (kdel k (vt_cache s)))
      | Some g => if negb (key_eqb (key_of g) k) || g_ignore g then (None, mk_vt (vt_list s) (kdel k (vt_cache s)))
                  else (Some i, s)
      end
    end.
(** view.go:86-95 [AppendTrigger]. *)
Definition vt_append (g : trigger) (s : view_triggers) : view_triggers :=
  mk_vt (vt_list s ++ [g]) (kset (key_of g) (length (vt_list s)) (vt_cache s)).

(** ** The DDL method *)
(** The view under construction: IsMaterialized, SQL, the indexes and the VIndex
    values made so far, the triggers. *)
Record v_state := mk_v { vs_materialized : bool; vs_sql : bytes; vs_indexes : index_state; vs_triggers : view_triggers }.
Definition v_start : v_state := mk_v false [] (cached_new, []) (mk_vt [] []).
(** What a DDL method can do with its V.  A query is nil ([None]) or has a text
    with its arguments written into it ([None]: an error) and fetchable fields
    ([None]: an error).  The text of a trigger is formatted ([None]: an error),
    the columns and expressions of an index are what getColumnNamesAndExprs made
    of the fields; an error there is the same as an empty name. *)
Inductive v_call :=
| VMaterialized
| VSetQuery (q : option (option bytes * option (list fetch_field)))
| VTrigger (text : option bytes)
| VIndex (c : index_call).
(** v.go:24-28 IsMaterialized; 30-94 SetQuery; 96-114 Trigger; 123-174 Index and
    NameIndex; 176-226 the methods of VIndex.  An error (panicErr) is LErr.
    CachedIndexPosition, AppendIndex and createOrUpdateIndex (view.go:23-51,
    110-131) and the methods of VIndex are those of tables: [index_step]. *)
Definition v_step (d : dialect) (id : table_id) (want : list bytes) (st : v_state) (c : v_call) : lexres v_state :=
  match c with
  | VMaterialized => LOk (if is_postgres d then mk_v true (vs_sql st) (vs_indexes st) (vs_triggers st) else st)
  | VSetQuery (Some (Some text, Some fs)) =>
    if columns_match want fs then LOk (mk_v (vs_materialized st) text (vs_indexes st) (vs_triggers st)) else LErr
  | VSetQuery _ => LErr
  | VTrigger text =>
    if negb (is_postgres d) then LOk st
    else match text with
         | None => LErr
         | Some text =>
           let sql := trim_space text in
           lbind (trigger_info (S (length sql)) d sql) (fun g =>
             match vt_lookup (key_of g) (vs_triggers st) with
             | (Some n, ts) =>
               match nth_error (vt_list ts) n with
               | Some old => LOk (mk_v (vs_materialized st) (vs_sql st) (vs_indexes st)
                                    (mk_vt (list_set (vt_list ts) n (g_set_sql (g_sql g) old)) (vt_cache ts)))
               | None => LPanic
               end
             | (None, ts) => LOk (mk_v (vs_materialized st) (vs_sql st) (vs_indexes st) (vt_append g ts))
             end)
         end
  | VIndex call =>
    if negb (is_postgres d) then LOk st
    else if (match call with IDefine _ _ _ => negb (vs_materialized st) | IAttr _ _ => false end) then LErr
    else match index_step id (Some (vs_indexes st)) call with
         | Some xs => LOk (mk_v (vs_materialized st) (vs_sql st) xs (vs_triggers st))
         | None => LErr
         end
  end.

(** ** LoadDDLView *)
(** A field of the view struct: a column (GetName), another exported field, or an
    unexported one (reflect's Interface panics, v.go:256). *)
Inductive view_field := VFColumn (name : bytes) | VFOther | VFUnexported.
(** v.go:255-265. *)
Fixpoint view_columns (fs : list view_field) : lexres (list bytes) :=
  match fs with
  | [] => LOk []
  | VFColumn name :: fs' => if is_empty name then LErr else lbind (view_columns fs') (fun l => LOk (name :: l))
  | VFOther :: fs' => view_columns fs'
  | VFUnexported :: _ => LPanic
  end.
(** v.go:229-238: a panic becomes an error. *)
Definition recovered {A} (r : lexres A) : lexres A := match r with LPanic => LErr | _ => r end.
(** v.go:228-268 [LoadDDLView], of a struct, into a View with state [st0]; the
    VIndex values of an earlier load are gone. *)
Definition load_view_state (d : dialect) (schema name : bytes) (fs : list view_field) (ddl : list v_call) (st0 : v_state) : lexres v_state :=
  recovered
    (if is_empty name then LErr
     else lbind (view_columns fs) (fun want =>
       lfold (v_step d (mk_table_id schema name) want) ddl
         (mk_v (vs_materialized st0) (vs_sql st0) (fst (vs_indexes st0), []) (vs_triggers st0)))).
Definition view_of (schema name : bytes) (ignore : bool) (st : v_state) : view :=
  mk_view schema name (vs_materialized st) (objects (fst (vs_indexes st))) (vt_list (vs_triggers st)) (vs_sql st) ignore.
(** ... into a new View. *)
Definition load_view (d : dialect) (schema name : bytes) (fs : list view_field) (ddl : list v_call) : lexres view :=
  lbind (load_view_state d schema name fs ddl v_start) (fun st => LOk (view_of schema name false st)).

(** view.go:53-63 [View.RefreshIndexCache], which looks at the view's Ignore, not
    the index's (Table.RefreshIndexCache looks at the index's: CacheModel.refresh). *)
Definition view_refresh_indexes (view_ignored : bool) (s : cached index) : cached index :=
  if view_ignored then s else mk_cached (objects s) (refresh_from x_name (fun _ => false) 0 (objects s) (positions s)).
