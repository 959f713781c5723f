(** * NameModel: generated constraint and index names (ddl/ddl.go) *)
From Verif Require Import GoBase.

(** [strings.ReplaceAll(s, " ", "_")]: both strings are one byte long. *)
Definition underscored (s : bytes) : bytes :=
  map (fun c => if Ascii.eqb c " " then "_"%char else c) s.

(** ddl/ddl.go:53-67: the suffix of a constraint type; empty for any other string. *)
Definition name_suffix (ty : bytes) : bytes :=
  if beqb ty (B "PRIMARY KEY") then B "_pkey"
  else if beqb ty (B "FOREIGN KEY") then B "_fkey"
  else if beqb ty (B "UNIQUE") then B "_key"
  else if beqb ty (B "INDEX") then B "_idx"
  else if beqb ty (B "CHECK") then B "_check"
  else if beqb ty (B "EXCLUDE") then B "_excl"
  else [].

(** ddl/ddl.go:43-75 [generateName].  [length buf - excess] is Go's
    [len(trimmedPrefix)-excessLength], never negative as suffixes are short. *)
Definition generate_name (ty table : bytes) (columns : list bytes) : bytes :=
  let buf := underscored table ++ flat_map (fun c => B "_" ++ underscored c) columns in
  let suffix := name_suffix ty in
  let excess := length buf + length suffix - 63 in
  if Nat.ltb 0 excess then firstn (length buf - excess) buf ++ suffix
  else buf ++ suffix.
