(** * SpecToken: struct tags and argument lists

    Does not refer to the library's tokenizers. *)
From Verif Require Import GoBase SpecSprintf.

(** ** Braces (C35) *)
(** Texts in which every brace has its partner. *)
Inductive balanced : bytes -> Prop :=
| b_nil : balanced []
| b_char c s : c <> "{"%char -> c <> "}"%char -> balanced s -> balanced (c :: s)
| b_group s t : balanced s -> balanced t -> balanced ("{"%char :: s ++ "}"%char :: t).
(** Blanks as they are skipped before a token: tab to carriage return, space,
    U+0085, U+00A0. *)
Definition blank (r : rune) : Prop := (9 <= r <= 13 \/ r = 32 \/ r = 133 \/ r = 160)%N.
Definition blanks (s : bytes) : Prop := exists rs, s = string_of_runes rs /\ Forall blank rs.
(** A word: no white space and no lone braces; between braces anything may stand. *)
Inductive word : bytes -> Prop :=
| w_nil : word []
| w_rune r s : scalar r = true -> is_space r = false -> r <> R "{" -> r <> R "}" -> word s -> word (encode_rune r ++ s)
| w_group s t : balanced s -> word t -> word ("{"%char :: s ++ "}"%char :: t).
Definition starts_with (c : ascii) (s : bytes) : Prop := exists t, s = c :: t.
(** What may follow a word: the end or white space. *)
Definition after_word (s : bytes) : Prop :=
  s = [] \/ exists r t, s = encode_rune r ++ t /\ scalar r = true /\ is_space r = true.

(** ** Modifiers (C37) *)
Inductive modifier := MKey (k : bytes) | MVal (k v : bytes) | MBraced (k v : bytes).
Definition mod_text (m : modifier) : bytes :=
  match m with
  | MKey k => k
  | MVal k v => k ++ B "=" ++ v
  | MBraced k v => k ++ B "={" ++ v ++ B "}"
  end.
Definition mod_pair (m : modifier) : bytes * bytes :=
  match m with MKey k => (k, []) | MVal k v => (k, v) | MBraced k v => (k, v) end.
Definition key_ok (k : bytes) : Prop := word k /\ k <> [] /\ ~ starts_with "{" k /\ ~ In "="%char k.
Definition mod_ok (m : modifier) : Prop :=
  match m with
  | MKey k => key_ok k
  | MVal k v => key_ok k /\ word v /\ v <> [] /\ ~ starts_with "{" v
  | MBraced k v => key_ok k /\ balanced v
  end.
(** The modifiers, each after some white space (at least one blank). *)
Inductive mods_text : list modifier -> bytes -> Prop :=
| mt_nil : mods_text [] []
| mt_cons b m ms s : blanks b -> b <> [] -> mod_ok m -> mods_text ms s -> mods_text (m :: ms) (b ++ mod_text m ++ s).

(** ** Argument lists (C36) *)
Fixpoint join_commas (l : list bytes) : bytes :=
  match l with
  | [] => []
  | [x] => x
  | x :: l => x ++ B "," ++ join_commas l
  end.
(** The inside of a string: a quote is doubled. *)
Inductive string_body : bytes -> Prop :=
| sb_nil : string_body []
| sb_char c s : c <> "'"%char -> string_body s -> string_body (c :: s)
| sb_quote s : string_body s -> string_body ("'"%char :: "'"%char :: s).
(** The inside of a pair of brackets: inner brackets of the same kind match. *)
Inductive nested (o c : ascii) : bytes -> Prop :=
| n_nil : nested o c []
| n_char x s : x <> o -> x <> c -> nested o c s -> nested o c (x :: s)
| n_group s t : nested o c s -> nested o c t -> nested o c (o :: s ++ c :: t).
(** One argument: no comma outside strings, parentheses and square brackets. *)
Inductive arg : bytes -> Prop :=
| arg_nil : arg []
| arg_char c s : ~ In c [","; "'"; "("; "["]%char -> arg s -> arg (c :: s)
| arg_string b s : string_body b -> ~ starts_with "'" s -> arg s -> arg ("'"%char :: b ++ "'"%char :: s)
| arg_paren b s : nested "(" ")" b -> arg s -> arg ("("%char :: b ++ ")"%char :: s)
| arg_array b s : nested "[" "]" b -> arg s -> arg ("["%char :: b ++ "]"%char :: s).
