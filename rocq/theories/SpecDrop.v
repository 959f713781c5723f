(** * SpecDrop: how a database reads the other DDL statements: DROP, CREATE VIEW,
    CREATE SCHEMA and CREATE EXTENSION

    The first part does not refer to the library. *)
From Verif Require Import GoBase QuoteModel SpecLex SpecIdent SpecSql.
From Verif Require Import CacheModel UpsertModel DdlModel SpecDdl.
Local Open Scope opt_scope.

Fixpoint read_name_list (fuel : nat) (ts : list tok) : option (list (bytes * bytes) * list tok) :=
  match fuel with
  | 0 => None
  | S f =>
    '(s, n, r) <- read_qualified ts ;;
    match r with
    | t :: r' => if sym "," t then '(l, r) <- read_name_list f r' ;; Some ((s, n) :: l, r) else Some ([(s, n)], r)
    | [] => Some ([(s, n)], [])
    end
  end.
Record drop_def := mk_drop_def { pd_if_exists : bool; pd_names : list (bytes * bytes); pd_cascade : bool }.
(** [IF EXISTS] name, ... [CASCADE] *)
Definition read_drop_objects (ts : list tok) : option drop_def :=
  let (ie, r) := option_words ["IF"; "EXISTS"]%string ts in
  '(ns, r) <- read_name_list (length r) r ;;
  let (ca, r) := option_words ["CASCADE"]%string r in
  match r with [] => Some (mk_drop_def ie ns ca) | _ => None end.
Definition read_drop_table (ts : list tok) : option drop_def := r <- words ["DROP"; "TABLE"]%string ts ;; read_drop_objects r.
Definition read_drop_extension (ts : list tok) : option drop_def := r <- words ["DROP"; "EXTENSION"]%string ts ;; read_drop_objects r.
(** with MATERIALIZED or not *)
Definition read_drop_view (ts : list tok) : option (bool * drop_def) :=
  r <- words ["DROP"]%string ts ;; let (ma, r) := option_words ["MATERIALIZED"]%string r in
  r <- words ["VIEW"]%string r ;; o <- read_drop_objects r ;; Some (ma, o).
(** DROP INDEX [CONCURRENTLY] ... *)
Definition read_drop_index (ts : list tok) : option (bool * drop_def) :=
  r <- words ["DROP"; "INDEX"]%string ts ;; let (cc, r) := option_words ["CONCURRENTLY"]%string r in
  o <- read_drop_objects r ;; Some (cc, o).
(** DROP TRIGGER [IF EXISTS] name [ON table] [CASCADE] *)
Record trigger_drop := mk_trigger_drop { gd_if_exists : bool; gd_name : bytes * bytes; gd_table : option (bytes * bytes); gd_cascade : bool }.
Definition read_drop_trigger (ts : list tok) : option trigger_drop :=
  r <- words ["DROP"; "TRIGGER"]%string ts ;; let (ie, r) := option_words ["IF"; "EXISTS"]%string r in
  '(s, n, r) <- read_qualified r ;;
  '(tb, r) <- match words ["ON"]%string r with
              | Some r => '(ts, tn, r) <- read_qualified r ;; Some (Some (ts, tn), r)
              | None => Some (None, r)
              end ;;
  let (ca, r) := option_words ["CASCADE"]%string r in
  match r with [] => Some (mk_trigger_drop ie (s, n) tb ca) | _ => None end.
(** DROP FUNCTION [IF EXISTS] name [(arguments)] [CASCADE] *)
Record function_drop := mk_function_drop { fd_if_exists : bool; fd_name : bytes * bytes; fd_args : option (list tok); fd_cascade : bool }.
Definition read_drop_function (ts : list tok) : option function_drop :=
  r <- words ["DROP"; "FUNCTION"]%string ts ;; let (ie, r) := option_words ["IF"; "EXISTS"]%string r in
  '(s, n, r) <- read_qualified r ;;
  let (args, r) := match read_group r with Some (g, r) => (Some g, r) | None => (None, r) end in
  let (ca, r) := option_words ["CASCADE"]%string r in
  match r with [] => Some (mk_function_drop ie (s, n) args ca) | _ => None end.
(** CREATE [OR REPLACE] [MATERIALIZED] VIEW [IF NOT EXISTS] name AS query *)
Record view_def := mk_view_def {
  vw_or_replace : bool; vw_materialized : bool; vw_if_not_exists : bool; vw_schema : bytes; vw_name : bytes; vw_query : list tok }.
Definition read_create_view (ts : list tok) : option view_def :=
  r <- words ["CREATE"]%string ts ;; let (rp, r) := option_words ["OR"; "REPLACE"]%string r in
  let (ma, r) := option_words ["MATERIALIZED"]%string r in r <- words ["VIEW"]%string r ;;
  let (ie, r) := option_words ["IF"; "NOT"; "EXISTS"]%string r in
  '(s, n, r) <- read_qualified r ;; q <- words ["AS"]%string r ;; Some (mk_view_def rp ma ie s n q).
(** CREATE SCHEMA [IF NOT EXISTS] name *)
Definition read_create_schema (ts : list tok) : option (bool * bytes) :=
  r <- words ["CREATE"; "SCHEMA"]%string ts ;; let (ie, r) := option_words ["IF"; "NOT"; "EXISTS"]%string r in
  match r with [t] => option_map (pair ie) (name_of t) | _ => None end.
(** CREATE EXTENSION [IF NOT EXISTS] name [WITH [VERSION 'v'] [CASCADE]] *)
Record extension_def := mk_extension_def { xd_if_not_exists : bool; xd_name : bytes; xd_version : option bytes; xd_cascade : bool }.
Definition read_create_extension (ts : list tok) : option extension_def :=
  r <- words ["CREATE"; "EXTENSION"]%string ts ;; let (ie, r) := option_words ["IF"; "NOT"; "EXISTS"]%string r in
  '(n, r) <- read_name r ;;
  match r with
  | [] => Some (mk_extension_def ie n None false)
  | _ =>
    r <- words ["WITH"]%string r ;;
    '(v, r) <- match words ["VERSION"]%string r with
               | Some (TStr v :: r) => Some (Some v, r)
               | Some _ => None
               | None => Some (None, r)
               end ;;
    let (ca, r) := option_words ["CASCADE"]%string r in
    match r with [] => Some (mk_extension_def ie n v ca) | _ => None end
  end.

(** ** What the commands of the library say, and when they report an error *)
(** A bare name that is not this word. *)
Definition is_not_word (w : string) (n : bytes) : Prop := is_bare n = true -> map fold_case n <> B w.
Definition names_ok (d : dialect) (ns : list (bytes * bytes)) : Prop :=
  ns <> [] /\ Forall (fun sn => good_name d (fst sn) /\ good_name d (snd sn)) ns.
Definition drop_table_supported (d : dialect) (c : drop_table) : Prop := dt_cascade c = true -> d = DPostgres \/ d = DMySQL.
Definition drop_view_supported (d : dialect) (c : drop_view) : Prop :=
  (dv_materialized c = true -> d = DPostgres) /\ (d = DSQLite -> length (dv_names c) <= 1 /\ dv_cascade c = false).
Definition drop_index_supported (d : dialect) (c : drop_index) : Prop :=
  (dx_concurrently c = true -> d = DPostgres) /\ (dx_if_exists c = true -> d = DPostgres \/ d = DSQLite) /\ (dx_cascade c = true -> d = DPostgres).
(** In MySQL indexes have no schema; a name may not be the word CONCURRENTLY. *)
Record drop_index_ok (d : dialect) (c : drop_index) : Prop := {
  okdx_schema : good_name d (dx_schema c);
  okdx_name : good_name d (dx_name c);
  okdx_schema_word : is_not_word "CONCURRENTLY" (dx_schema c);
  okdx_name_word : is_not_word "CONCURRENTLY" (dx_name c) }.
Definition said_drop_index (d : dialect) (c : drop_index) : bool * drop_def :=
  (dx_concurrently c, mk_drop_def (dx_if_exists c) [(match d with DMySQL => [] | _ => dx_schema c end, dx_name c)] (dx_cascade c)).
(** Only Postgres names the table, and has CASCADE. *)
Definition said_drop_trigger (d : dialect) (c : drop_trigger) : trigger_drop :=
  match d with
  | DPostgres => mk_trigger_drop (dg_if_exists c) ([], dg_name c) (Some (dg_schema c, dg_table c)) (dg_cascade c)
  | _ => mk_trigger_drop (dg_if_exists c) (dg_schema c, dg_name c) None false
  end.
Record drop_trigger_ok (d : dialect) (c : drop_trigger) : Prop := {
  okdg_schema : good_name d (dg_schema c);
  okdg_table : good_name d (dg_table c);
  okdg_name : good_name d (dg_name c) }.
Record drop_function_ok (d : dialect) (c : drop_function) : Prop := {
  okdf_schema : good_name d (f_schema (df_function c));
  okdf_name : good_name d (f_name (df_function c));
  okdf_args : plain_sql d no_stop (f_args (df_function c)) }.
(** Only Postgres has the arguments. *)
Definition said_drop_function (d : dialect) (c : drop_function) : function_drop :=
  mk_function_drop (df_if_exists c) (f_schema (df_function c), f_name (df_function c))
    (match d with DPostgres => Some (frag d (f_args (df_function c))) | _ => None end) (df_cascade c).
Definition create_view_supported (d : dialect) (c : create_view) : Prop :=
  (cv_or_replace c = true -> (d = DPostgres /\ v_materialized (cv_view c) = false) \/ d = DMySQL) /\
  (cv_if_not_exists c = true -> (d = DPostgres /\ v_materialized (cv_view c) = true) \/ d = DSQLite).
Record create_view_ok (d : dialect) (c : create_view) : Prop := {
  okcv_schema : good_name d (v_schema (cv_view c));
  okcv_name : good_name d (v_name (cv_view c));
  okcv_sql : tokens d (v_sql (cv_view c)) <> None }.
Definition said_create_view (d : dialect) (c : create_view) : view_def :=
  mk_view_def (cv_or_replace c) (v_materialized (cv_view c)) (cv_if_not_exists c) (v_schema (cv_view c)) (v_name (cv_view c))
    (frag d (v_sql (cv_view c))).
(** An extension is given as name, or name@version. *)
Definition extension_parts (e n v : bytes) : Prop :=
  ~ In "@"%char n /\ ((e = n /\ v = []) \/ e = n ++ "@"%char :: v).
Definition said_extension (c : create_extension) (n v : bytes) : extension_def :=
  mk_extension_def (ce_if_not_exists c) n (match v with [] => None | _ => Some v end) (ce_cascade c).
