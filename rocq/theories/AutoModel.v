(** * AutoModel: AutoMigrate (ddl/migration.go) *)
From Verif Require Import GoBase QuoteModel CacheModel EffectModel TokenModel LoadModel DdlModel MigrateModel DbModel IntroModel.

(** How a call ended: [LOk tt] if its error is nil. *)
Definition ended (st : status) : lexres unit := match st with SOk => LOk tt | SErr => LErr | SPanic => LPanic end.
(** [x, err := r; if err != nil { return err }] before anything was sent. *)
Definition first_of {A} (r : lexres A) (k : A -> list bytes * lexres unit) : list bytes * lexres unit :=
  match r with LOk a => k a | LErr => ([], LErr) | LPanic => ([], LPanic) | LDiverge => ([], LDiverge) end.
(** migration.go:47-67 [AutoMigrate]: the statements of the migration that were
    sent, and how the call ended.  [rd]: what the database answers to the queries
    of the introspector; [db]: which of the statements of the migration it
    accepts.  The mode ValidateColRef does nothing (56-58). *)
Definition auto_migrate (numeric : bytes -> bool) (dialect : bytes) (rd : raw_db) (db : database) (m : mode) (opts : list db_option)
  : list bytes * lexres unit :=
  first_of (with_raw_db numeric rd (mk_dbm dialect [] [] [] cached_new)) (fun got =>
  first_of (new_metadata numeric dialect opts) (fun want =>
  match migrate m (plain_metadata got) (plain_metadata want) with
  | Ok mg => let (sent, st) := exec_context db mg in (sent, ended st)
  | Err _ => ([], LErr)
  | Panic => ([], LPanic)
  end)).
