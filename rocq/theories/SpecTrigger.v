(** * SpecTrigger: the words of a CREATE TRIGGER or CREATE FUNCTION statement

    Does not refer to the library's scanners. *)
From Verif Require Import GoBase QuoteModel SpecSprintf SpecToken DdlModel.

(** The quotes an identifier may have in a dialect, opening and closing. *)
Definition ident_quotes (d : dialect) : list (ascii * ascii) :=
  match d with
  | DMySQL => [(""""%char, """"%char); ("`"%char, "`"%char)]
  | DSQLServer => [(""""%char, """"%char); ("["%char, "]"%char)]
  | _ => [(""""%char, """"%char)]
  end.
(** The inside of a quoted identifier: the closing quote is doubled. *)
Inductive quote_body (q : ascii) : bytes -> Prop :=
| qb_nil : quote_body q []
| qb_char c s : c <> q -> quote_body q s -> quote_body q (c :: s)
| qb_quote s : quote_body q s -> quote_body q (q :: q :: s).
(** A word of the statement: anything without white space, except that white
    space may stand inside quoted identifiers. *)
Inductive ident (d : dialect) : bytes -> Prop :=
| id_nil : ident d []
| id_rune r s : scalar r = true -> is_space r = false -> ~ In r (map (fun p => ord (fst p)) (ident_quotes d)) ->
    ident d s -> ident d (encode_rune r ++ s)
| id_quoted o c b s : In (o, c) (ident_quotes d) -> quote_body c b -> ~ starts_with c s ->
    ident d s -> ident d (o :: b ++ c :: s).
(** The text consists of these words, each after some blanks, and then [rest]. *)
Inductive words_text (d : dialect) : list bytes -> bytes -> bytes -> Prop :=
| wt_nil rest : after_word rest -> words_text d [] rest rest
| wt_cons b w ws rest s : blanks b -> b <> [] -> ident d w -> w <> [] -> words_text d ws rest s ->
    words_text d (w :: ws) rest (b ++ w ++ s).

(** Not distinguishing upper and lower case. *)
Definition keyword (k w : bytes) : Prop := equal_fold w k = true.
Definition not_keyword (k w : bytes) : Prop := equal_fold w k = false.
(** A table, perhaps qualified, as written. *)
Inductive qualified_text : bytes -> bytes -> bytes -> Prop :=
| qt_plain t : ~ In "."%char t -> qualified_text [] t t
| qt_schema s t : ~ In "."%char s -> qualified_text s t (s ++ B "." ++ t).

(** The only white space in the text are blanks (no U+1680, U+2000 - U+200A,
    U+2028, U+2029, U+202F, U+205F, U+3000). *)
Definition only_blanks (sql : bytes) : Prop :=
  forall pre t, sql = pre ++ t -> is_space (fst (decode_rune t)) = true -> blank (fst (decode_rune t)).

(** ** Functions *)
(** A plain name: no white space, quotes, brackets or dots. *)
Definition plain_name (n : bytes) : Prop :=
  exists rs, n = string_of_runes rs /\ Forall (fun r => scalar r = true /\ is_space r = false /\ ~ In r (map ord [""""; "("; ")"; "."]%char)) rs.
(** The declared arguments: no quoted names, no closing bracket. *)
Definition plain_args (a : bytes) : Prop :=
  exists rs, a = string_of_runes rs /\ Forall (fun r => scalar r = true /\ ~ In r (map ord [""""; ")"]%char)) rs.
(** What follows the arguments: RETURNS and a type, or anything else. *)
Inductive returns_text : bytes -> bytes -> Prop :=
| rt_type k ty rest s : keyword (B "RETURNS") k -> words_text DPostgres [k; ty] rest s -> returns_text ty s
| rt_other w rest s : not_keyword (B "RETURNS") w -> words_text DPostgres [w] rest s -> returns_text [] s
| rt_none s : blanks s -> returns_text [] s.
(** Without the white space at both ends. *)
Definition trimmed (s core : bytes) : Prop :=
  exists a c b, s = string_of_runes (a ++ c ++ b) /\ core = string_of_runes c /\ forallb scalar (a ++ c ++ b) = true /\
    forallb is_space a = true /\ forallb is_space b = true /\
    (forall r, hd_error c = Some r -> is_space r = false) /\ (forall r, hd_error (rev c) = Some r -> is_space r = false).

(** ** Whole statements *)
(** A trigger statement: anything up to the word TRIGGER; the name of the trigger,
    in SQLite perhaps after IF NOT EXISTS; anything up to the word ON; the table;
    anything. *)
Definition trigger_text (d : dialect) (name schema table sql : bytes) : Prop :=
  exists pre kw ine mid on tab rest,
    words_text d (pre ++ kw :: ine ++ name :: mid ++ on :: [tab]) rest (B " " ++ sql) /\
    Forall (not_keyword (B "TRIGGER")) pre /\ keyword (B "TRIGGER") kw /\
    (ine = [] /\ (d = DSQLite -> not_keyword (B "IF") name) \/
     exists a b c, d = DSQLite /\ ine = [a; b; c] /\ keyword (B "IF") a /\ keyword (B "NOT") b /\ keyword (B "EXISTS") c) /\
    Forall (not_keyword (B "ON")) mid /\ keyword (B "ON") on /\ qualified_text schema table tab /\ table <> [].
(** A function statement: anything up to the word FUNCTION; the name, perhaps
    qualified; the arguments in brackets; perhaps RETURNS and a type; anything.
    The three names of the last line are what a reader takes from it. *)
Definition function_text (schema name args ty sql : bytes) : Prop :=
  exists pre kw b q b1 text tail,
    words_text DPostgres (pre ++ [kw]) (b ++ q ++ b1 ++ B "(" ++ text ++ B ")" ++ tail) (B " " ++ sql) /\
    Forall (not_keyword (B "FUNCTION")) pre /\ keyword (B "FUNCTION") kw /\
    blanks b /\ b <> [] /\ (schema = [] \/ plain_name schema) /\ plain_name name /\ name <> [] /\
    qualified_text schema name q /\ blanks b1 /\ plain_args text /\ trimmed text args /\ returns_text ty tail /\
    (schema <> [] \/ b1 <> [] \/ ~ In "."%char text).
