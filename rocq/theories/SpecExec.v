(** * SpecExec: the order and the effect of executing and writing a migration (C33) *)
From Verif Require Import GoBase QuoteModel EffectModel DdlModel MigrateModel.

(** The text of a command, and whether there is one. *)
Definition text (d : dialect) (c : command) : bytes := written_text (command_sql d c).
Definition writable (d : dialect) (c : command) : Prop := snd (command_sql d c) = SOk.
(** The commands that are not ignored. *)
Definition live (l : list command) : list command := filter (fun c => negb (cmd_ignore c)) l.

(** The order of the kinds of commands. *)
Definition rank (c : command) : nat :=
  match c with
  | KCreateSchema _ => 0 | KCreateExtension _ => 1 | KCreateFunction _ => 2 | KCreateTable _ => 3
  | KAlterTable _ => 4 | KCreateView _ => 5 | KCreateIndex _ => 6 | KCreateTrigger _ => 7
  | KAddForeignKey _ => 8 | KDropView _ => 9 | KDropTable _ => 10 | KDropTrigger _ => 11
  | KDropIndex _ => 12 | KAlterTableDrop _ => 13 | KDropFunction _ => 14 | KDropExtension _ => 15
  end.
(** [es] is [l] sorted by kind, without the ignored commands; commands of one
    kind stay in the order of [l]. *)
Inductive in_rank_order : list command -> Prop :=
| ro_nil : in_rank_order []
| ro_cons c l : (forall c', In c' l -> rank c <= rank c') -> in_rank_order l -> in_rank_order (c :: l).
Definition arranged (es l : list command) : Prop :=
  in_rank_order es /\
  forall k, filter (fun c => Nat.eqb (rank c) k) es = filter (fun c => Nat.eqb (rank c) k) (live l).

(** The database accepted the [j]-th statement sent. *)
Definition accepted (db : database) (sent : list bytes) (j : nat) : Prop :=
  exists q, nth_error sent j = Some q /\ db (firstn j sent) q = true.

(** ** Scripts *)
(** A statement in a script ends with one semicolon. *)
Definition terminated (q : bytes) : bytes := q ++ (if Ascii.eqb (last_byte q) ";" then [] else B ";").
Definition is_routine_command (c : command) : bool :=
  match c with KCreateFunction _ | KCreateTrigger _ => true | _ => false end.
(** Pieces are separated by an empty line. *)
Definition script (pieces : list bytes) : bytes :=
  match pieces with
  | [] => []
  | p :: ps => p ++ flat_map (fun p => B "

" ++ p) ps
  end.
Definition statement_piece (d : dialect) (c : command) : bytes := terminated (trim_space (text d c)).
(** MySQL: functions and triggers stand between DELIMITER comments. *)
Definition routine_piece (d : dialect) (c : command) : bytes := trim_space (text d c) ++ B "; -- ;;".
Definition with_rank (p : nat -> bool) (l : list command) : list command := filter (fun c => p (rank c)) l.
Definition routine_pieces (d : dialect) (k : nat) (all es : list command) : list bytes :=
  match with_rank (Nat.eqb k) all with
  | [] => []
  | _ => [B "-- DELIMITER ;;"] ++ map (routine_piece d) (with_rank (Nat.eqb k) es) ++ [B "-- DELIMITER ;"]
  end.
(** [all]: the commands of the migration; [es]: the commands to execute. *)
Definition pieces (d : dialect) (all es : list command) : list bytes :=
  if is_mysql d then
    map (statement_piece d) (with_rank (fun k => Nat.ltb k 2) es)
    ++ routine_pieces d 2 all es
    ++ map (statement_piece d) (with_rank (fun k => Nat.ltb 2 k && Nat.ltb k 7) es)
    ++ routine_pieces d 7 all es
    ++ map (statement_piece d) (with_rank (fun k => Nat.ltb 7 k) es)
  else map (statement_piece d) es.
