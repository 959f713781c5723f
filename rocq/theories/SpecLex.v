(** * SpecLex: what an SQL lexer reads.  Independent of the model: this is the
    specification side of the quoting properties. *)
From Verif Require Import GoBase.

(** The body of a quoted token, after its opening quote: two closing quotes in
    a row stand for one, a single one ends the token.  Returns the denoted text
    and what follows the token; [None] if the token is never closed. *)
Fixpoint lex_quoted (q : ascii) (s : bytes) : option (bytes * bytes) :=
  match s with
  | [] => None
  | c :: s' =>
    if Ascii.eqb c q then
      match s' with
      | c2 :: s2 => if Ascii.eqb c2 q
                    then match lex_quoted q s2 with
                         | Some (v, r) => Some (q :: v, r)
                         | None => None
                         end
                    else Some ([], s')
      | [] => Some ([], [])
      end
    else match lex_quoted q s' with
         | Some (v, r) => Some (c :: v, r)
         | None => None
         end
  end.

(** Text that may follow a token whose closing quote is [q] without changing
    its end. *)
Definition not_starting_with (q : ascii) (rest : bytes) : Prop :=
  match rest with [] => True | c :: _ => c <> q end.

(** A doubled quote followed by at least one more byte. *)
Definition has_inner_pair (q : ascii) (s : bytes) : Prop :=
  exists a x b, s = a ++ q :: q :: x :: b.

(** The text with every doubled quote that is followed by at least one more
    byte merged into a single quote (reading left to right). *)
Fixpoint collapse (q : ascii) (s : bytes) : bytes :=
  match s with
  | [] => []
  | c :: s' =>
    if Ascii.eqb c q then
      q :: match s' with
           | c2 :: ((_ :: _) as s2) => if Ascii.eqb c2 q then collapse q s2 else collapse q s'
           | _ => collapse q s'
           end
    else c :: collapse q s'
  end.

(** MySQL's default string lexer also gives backslash an escaping role. *)
Fixpoint lex_quoted_backslash (q : ascii) (s : bytes) : option (bytes * bytes) :=
  match s with
  | [] => None
  | c :: s' =>
    if Ascii.eqb c "\" then
      match s' with
      | c2 :: s2 => match lex_quoted_backslash q s2 with
                    | Some (v, r) => Some (c2 :: v, r)
                    | None => None
                    end
      | [] => None
      end
    else if Ascii.eqb c q then
      match s' with
      | c2 :: s2 => if Ascii.eqb c2 q
                    then match lex_quoted_backslash q s2 with
                         | Some (v, r) => Some (q :: v, r)
                         | None => None
                         end
                    else Some ([], s')
      | [] => Some ([], [])
      end
    else match lex_quoted_backslash q s' with
         | Some (v, r) => Some (c :: v, r)
         | None => None
         end
  end.

(** ** Identifier tokens *)

(** Characters that can continue a bare word in some supported dialect:
    letters, digits, [_], [$], [#], [@] and every non-ASCII byte. *)
Definition word_char (c : ascii) : bool :=
  let n := ord c in
  (in_range 97 122 n || in_range 65 90 n || in_range 48 57 n
   || (n =? 95) || (n =? 36) || (n =? 35) || (n =? 64) || (128 <=? n))%N.

(** Characters that can start a bare word. *)
Definition word_start (c : ascii) : bool :=
  let n := ord c in
  (in_range 97 122 n || in_range 65 90 n || (n =? 95) || (128 <=? n))%N.

Fixpoint take_word (s : bytes) : bytes * bytes :=
  match s with
  | c :: s' => if word_char c then let (w, r) := take_word s' in (c :: w, r)
               else ([], s)
  | [] => ([], [])
  end.

(** Identifiers that every dialect reads as a bare word without changing its
    case: [a-z_][a-z0-9_]*. *)
Definition bare_start (c : ascii) : bool := ((ord c =? 95) || in_range 97 122 (ord c))%N.
Definition bare_char (c : ascii) : bool :=
  ((ord c =? 95) || in_range 48 57 (ord c) || in_range 97 122 (ord c))%N.
Definition is_bare (s : bytes) : bool :=
  match s with [] => false | c :: s' => bare_start c && forallb bare_char s' end.

(** Reads one identifier token: a bare word or a quoted one with the given
    opening and closing quote. *)
Definition lex_ident (op cl : ascii) (s : bytes) : option (bytes * bytes) :=
  match s with
  | [] => None
  | c :: s' =>
    if Ascii.eqb c op then lex_quoted cl s'
    else if word_start c then let (w, r) := take_word s in Some (w, r)
    else None
  end.

(** Text that may follow an identifier token without becoming part of it. *)
Definition ends_word (rest : bytes) : Prop :=
  match rest with [] => True | c :: _ => word_char c = false end.

(** ** Literals *)
Inductive lit :=
| LNull | LBool (b : bool) | LInt (z : Z) | LStr (s : bytes) | LBlob (bs : bytes).

(** Hexadecimal digits, as the database decodes them (either case). *)
Definition unhex (c : ascii) : option N :=
  let n := ord c in
  if in_range 48 57 n then Some (n - 48)%N
  else if in_range 97 102 n then Some (n - 87)%N
  else if in_range 65 70 n then Some (n - 55)%N
  else None.
Fixpoint hex_decode (s : bytes) : option bytes :=
  match s with
  | [] => Some []
  | a :: b :: s' =>
    match unhex a, unhex b, hex_decode s' with
    | Some x, Some y, Some r => Some (chr (16 * x + y)%N :: r)
    | _, _, _ => None
    end
  | _ => None
  end.

(** The value of a run of decimal digits. *)
Fixpoint digits_value (acc : N) (s : bytes) : option N :=
  match s with
  | [] => Some acc
  | c :: s' => if in_range 48 57 (ord c)
               then digits_value (10 * acc + (ord c - 48))%N s'
               else None
  end.
Definition decimal_value (s : bytes) : option N :=
  match s with [] => None | _ => digits_value 0 s end.

Definition strip_prefix (p s : bytes) : option bytes :=
  if has_prefix p s then Some (skipn (length p) s) else None.

(** Reads one complete literal token starting at [s].  [pg] selects postgres'
    bytea syntax instead of x'..' (which is a bit string there).  Words and numbers extend as far as word characters go. *)
Definition lex_literal (pg : bool) (s : bytes) : option (lit * bytes) :=
  match s with
  | [] => None
  | c :: s' =>
    if Ascii.eqb c "'" then
      match lex_quoted "'" s' with
      | None => None
      | Some (v, r) =>
        match (if pg then strip_prefix (B "::BYTEA") r else None) with
        | Some r' =>
          match strip_prefix (B "\x") v with
          | Some h => match hex_decode h with
                      | Some bs => Some (LBlob bs, r')
                      | None => None
                      end
          | None => None
          end
        | None => Some (LStr v, r)
        end
      end
    else if negb pg && Ascii.eqb c "x" && match s' with c2 :: _ => Ascii.eqb c2 "'" | [] => false end then
      match lex_quoted "'" (skipn 1 s') with
      | Some (v, r) => match hex_decode v with
                       | Some bs => Some (LBlob bs, r)
                       | None => None
                       end
      | None => None
      end
    else if Ascii.eqb c "-" then
      let (w, r) := take_word s' in
      match decimal_value w with
      | Some n => Some (LInt (- Z.of_N n), r)
      | None => None
      end
    else
      let (w, r) := take_word s in
      if beqb w (B "NULL") then Some (LNull, r)
      else if beqb w (B "TRUE") then Some (LBool true, r)
      else if beqb w (B "FALSE") then Some (LBool false, r)
      else match decimal_value w with
           | Some n => Some (LInt (Z.of_N n), r)
           | None => None
           end
  end.

(** Reads a comma separated list of string literals. *)
Inductive lex_string_list : bytes -> list bytes -> Prop :=
| lsl_nil : lex_string_list [] []
| lsl_one : forall s v, lex_quoted "'" s = Some (v, []) ->
    lex_string_list ("'"%char :: s) [v]
| lsl_cons : forall s v r vs,
    lex_quoted "'" s = Some (v, B ", " ++ r) -> r <> [] ->
    lex_string_list r vs ->
    lex_string_list ("'"%char :: s) (v :: vs).
