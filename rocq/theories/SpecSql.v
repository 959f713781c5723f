(** * SpecSql: how a database splits a statement into tokens, and tokens into
    parenthesised groups and comma separated elements.

    Nothing here refers to the library.  Not supported (no tokens): comments. *)
From Verif Require Import GoBase QuoteModel SpecLex SpecIdent.

Inductive tok :=
| TWord (w : bytes)                      (* a bare word or number, as written *)
| TName (n : bytes)                      (* a quoted identifier, without quotes *)
| TStr (s : bytes)                       (* a string literal, without quotes *)
| TSym (c : ascii).                      (* any other character *)

Definition blank (c : ascii) : bool := ((ord c =? 32) || (ord c =? 9) || (ord c =? 10) || (ord c =? 13))%N.
Definition starts_with (c : ascii) (s : bytes) : bool := match s with x :: _ => Ascii.eqb x c | [] => false end.
Definition comment_start (c : ascii) (rest : bytes) : bool :=
  (Ascii.eqb c "-" && starts_with "-" rest) || (Ascii.eqb c "/" && starts_with "*" rest).
(** MySQL also reads "..." as a string. *)
Definition string_quote (d : dialect) (c : ascii) : bool :=
  Ascii.eqb c "'" || (is_mysql d && Ascii.eqb c """").
Definition cons_tok (t : tok) (r : option (list tok)) : option (list tok) := option_map (cons t) r.
(** [fuel]: the length of [s] is enough. *)
Fixpoint lex (d : dialect) (fuel : nat) (s : bytes) : option (list tok) :=
  match s with
  | [] => Some []
  | c :: s' =>
    match fuel with
    | 0 => None
    | S f =>
      if blank c then lex d f s'
      else if Ascii.eqb c (fst (identifier_quotes d)) then
        match lex_quoted (snd (identifier_quotes d)) s' with
        | Some (n, r) => cons_tok (TName n) (lex d f r)
        | None => None
        end
      else if string_quote d c then
        match lex_quoted c s' with
        | Some (v, r) => cons_tok (TStr v) (lex d f r)
        | None => None
        end
      else if comment_start c s' then None
      else if word_char c then let (w, r) := take_word s in cons_tok (TWord w) (lex d f r)
      else cons_tok (TSym c) (lex d f s')
    end
  end.
Definition tokens (d : dialect) (s : bytes) : option (list tok) := lex d (length s) s.

(** Words compare without regard to upper and lower case. *)
Definition fold_case (c : ascii) : ascii := if in_range 97 122 (ord c) then chr (ord c - 32) else c.
Definition kw (w : string) (t : tok) : bool :=
  match t with TWord x => beqb (map fold_case x) (B w) | _ => false end.
Definition sym (c : ascii) (t : tok) : bool := match t with TSym x => Ascii.eqb x c | _ => false end.
Definition lp : tok := TSym "(".
Definition rp : tok := TSym ")".
Definition comma : tok := TSym ",".
Definition dot : tok := TSym ".".

(** The tokens up to the closing parenthesis of the current group, and those
    after it. *)
Fixpoint group (depth : nat) (ts : list tok) : option (list tok * list tok) :=
  match ts with
  | [] => None
  | t :: r =>
    if sym ")" t then
      match depth with
      | 0 => Some ([], r)
      | S k => option_map (fun x => (t :: fst x, snd x)) (group k r)
      end
    else option_map (fun x => (t :: fst x, snd x)) (group (if sym "(" t then S depth else depth) r)
  end.
(** Splits at the commas outside of parentheses. *)
Fixpoint split_from (depth : nat) (ts : list tok) : list (list tok) :=
  match ts with
  | [] => [[]]
  | t :: r =>
    if sym "," t && Nat.eqb depth 0 then [] :: split_from depth r
    else match split_from (if sym "(" t then S depth else if sym ")" t then Nat.pred depth else depth) r with
         | e :: es => (t :: e) :: es
         | [] => [[t]]
         end
  end.
Definition elements (ts : list tok) : list (list tok) := match ts with [] => [] | _ => split_from 0 ts end.
(** The tokens before the first one outside of parentheses that satisfies [stop],
    and the others. *)
Fixpoint until (stop : tok -> bool) (depth : nat) (ts : list tok) : list tok * list tok :=
  match ts with
  | [] => ([], [])
  | t :: r =>
    if stop t && Nat.eqb depth 0 then ([], ts)
    else let (a, b) := until stop (if sym "(" t then S depth else if sym ")" t then Nat.pred depth else depth) r in (t :: a, b)
  end.

(** Fragments of SQL given by the user: parentheses match, and no token outside
    of parentheses satisfies [stop]. *)
Fixpoint closed (stop : tok -> bool) (depth : nat) (ts : list tok) : bool :=
  match ts with
  | [] => Nat.eqb depth 0
  | t :: r =>
    negb (stop t && Nat.eqb depth 0)
    && (if sym "(" t then closed stop (S depth) r
        else if sym ")" t then match depth with 0 => false | S k => closed stop k r end
        else closed stop depth r)
  end.
Definition plain_sql (d : dialect) (stop : tok -> bool) (s : bytes) : Prop :=
  exists ts, tokens d s = Some ts /\ closed stop 0 ts = true.
(** The tokens of such a fragment. *)
Definition frag (d : dialect) (s : bytes) : list tok := match tokens d s with Some ts => ts | None => [] end.
(** One bare word. *)
Definition plain_word (d : dialect) (s : bytes) : Prop := tokens d s = Some [TWord s].
(** A name that reads back when quoted: no doubled quote inside (see C02). *)
Definition good_name (d : dialect) (n : bytes) : Prop := ~ has_inner_pair (snd (identifier_quotes d)) n.

(** One name, possibly qualified. *)
Definition name_of (t : tok) : option bytes := match t with TWord w => Some w | TName n => Some n | _ => None end.
Definition read_name (ts : list tok) : option (bytes * list tok) :=
  match ts with
  | t :: r => option_map (fun n => (n, r)) (name_of t)
  | [] => None
  end.
Definition read_qualified (ts : list tok) : option (bytes * bytes * list tok) :=
  match read_name ts with
  | Some (a, t :: r) =>
    if sym "." t then option_map (fun x => (a, fst x, snd x)) (read_name r) else Some ([], a, t :: r)
  | Some (a, []) => Some ([], a, [])
  | None => None
  end.
(** "name, ..., name" *)
Fixpoint read_all {A} (f : list tok -> option A) (es : list (list tok)) : option (list A) :=
  match es with
  | [] => Some []
  | e :: es' => match f e, read_all f es' with Some a, Some l => Some (a :: l) | _, _ => None end
  end.
Definition read_names (ts : list tok) : option (list bytes) :=
  read_all (fun e => match e with [t] => name_of t | _ => None end) (elements ts).
(** An optional word: is it there, and what follows. *)
Fixpoint words (ws : list string) (ts : list tok) : option (list tok) :=
  match ws, ts with
  | [], _ => Some ts
  | w :: ws', t :: r => if kw w t then words ws' r else None
  | _ :: _, [] => None
  end.
Definition option_words (ws : list string) (ts : list tok) : bool * list tok :=
  match words ws ts with Some r => (true, r) | None => (false, ts) end.
Definition read_group (ts : list tok) : option (list tok * list tok) :=
  match ts with t :: r => if sym "(" t then group 0 r else None | [] => None end.
