(** * SpecRename: how a database reads a statement that renames tables

    The first part does not refer to the library. *)
From Verif Require Import GoBase QuoteModel SpecLex SpecIdent SpecSql.
From Verif Require Import CacheModel UpsertModel DdlModel SpecDdl RenameModel.
Local Open Scope opt_scope.

(** ALTER TABLE [IF EXISTS] name RENAME TO name (Postgres, SQLite). *)
Record rename_def := mk_rename_def { rd_if_exists : bool; rd_from : bytes * bytes; rd_to : bytes }.
Definition read_rename (ts : list tok) : option rename_def :=
  r <- words ["ALTER"; "TABLE"]%string ts ;; let (ie, r) := option_words ["IF"; "EXISTS"]%string r in
  '(s, n, r) <- read_qualified r ;;
  r <- words ["RENAME"; "TO"]%string r ;;
  match r with [t] => option_map (mk_rename_def ie (s, n)) (name_of t) | _ => None end.
(** RENAME TABLE name <ws> name, ..., where MySQL has the word TO for ws. *)
Definition read_rename_pair (ws : list string) (ts : list tok) : option ((bytes * bytes) * (bytes * bytes)) :=
  '(s, n, r) <- read_qualified ts ;; r <- words ws r ;;
  '(s', n', r) <- read_qualified r ;;
  match r with [] => Some ((s, n), (s', n')) | _ => None end.
Definition read_renames (ws : list string) (ts : list tok) : option (list ((bytes * bytes) * (bytes * bytes))) :=
  r <- words ["RENAME"; "TABLE"]%string ts ;; read_all (read_rename_pair ws) (elements r).

(** ** What the command says *)
Fixpoint renames (schemas names to_schemas to_names : list bytes) : list ((bytes * bytes) * (bytes * bytes)) :=
  match schemas, names, to_schemas, to_names with
  | s :: ss, n :: ns, s' :: ss', n' :: ns' => ((s, n), (s', n')) :: renames ss ns ss' ns'
  | _, _, _, _ => []
  end.
Definition rename_names_ok (d : dialect) (c : rename_table) : Prop :=
  Forall (good_name d) (rt_schemas c ++ rt_names c ++ rt_to_schemas c ++ rt_to_names c).
(** The command as it is meant: one new name, and one schema, for every table. *)
Definition rename_well_formed (c : rename_table) : Prop :=
  rt_names c <> [] /\ length (rt_schemas c) = length (rt_names c) /\
  length (rt_to_schemas c) = length (rt_names c) /\ length (rt_to_names c) = length (rt_names c).
Definition rename_supported (d : dialect) (c : rename_table) : Prop :=
  d <> DMySQL -> length (rt_names c) <= 1 /\ (rt_if_exists c = true -> d = DPostgres).
