(** * SpecIdent: how each database quotes identifiers (specification side). *)
From Verif Require Import GoBase QuoteModel SpecLex.

(** MySQL: backticks; SQL Server: brackets; standard SQL: double quotes. *)
Definition identifier_quotes (d : dialect) : ascii * ascii :=
  match d with
  | DMySQL => ("`", "`")
  | DSQLServer => ("[", "]")
  | _ => ("""", """")
  end%char.

(** Reads one identifier token of the dialect: its name and the text after. *)
Definition read_identifier (d : dialect) (s : bytes) : option (bytes * bytes) :=
  let (op, cl) := identifier_quotes d in lex_ident op cl s.

(** Text that may follow an identifier token without becoming part of it. *)
Definition may_follow (d : dialect) (rest : bytes) : Prop :=
  ends_word rest /\ not_starting_with (snd (identifier_quotes d)) rest.

(** Some words that standard SQL (and all four databases) reserve: they are
    not identifiers unless quoted. *)
Definition reserved_words : list bytes :=
  [B "select"; B "from"; B "where"; B "order"; B "group"; B "table"; B "user"; B "desc"].
