(** * SpecSprintf: what interpolating arguments into a query should do.

    A query is described as a list of segments; [seg_src] is the query text the
    user writes, [expected] the text interpolation should produce. *)
From Verif Require Import GoBase QuoteModel SprintModel.

Inductive seg :=
| Text (rs : list rune)                   (* plain SQL text *)
| Quoted (q : rune) (body : list rune)    (* quoted token denoting [body] *)
| Ordinal (n : nat)                       (* $(n+1), @p(n+1) *)
| NamedP (sigil : rune) (name : list rune)  (* $name :name @name *)
| Anon.                                   (* ? *)

(** Closing delimiter of a quoted token. *)
Definition close_of (q : rune) : rune := if (q =? 91)%N (* [ *) then 93%N (* ] *) else q.

(** Write a text with every occurrence of [c] doubled. *)
Fixpoint double (c : rune) (l : list rune) : list rune :=
  match l with
  | [] => []
  | x :: l' => if (x =? c)%N then x :: x :: double c l' else x :: double c l'
  end.

Definition seg_src (d : dialect) (s : seg) : list rune :=
  match s with
  | Text rs => rs
  | Quoted q body => q :: double (close_of q) body ++ [close_of q]
  | Ordinal n => (if is_sqlserver d then [R "@"; R "p"] else [R "$"])
                 ++ map R (itoa (S n))
  | NamedP sigil name => sigil :: name
  | Anon => [R "?"]
  end.
Definition src (d : dialect) (segs : list seg) : list rune := flat_map (seg_src d) segs.

(** The last [sql.NamedArg] of that name. *)
Definition find_named (name : bytes) (args : list gval) : option gval :=
  find (fun v => match v with GNamedArg n _ => beqb n name | _ => false end) (rev args).

(** The argument a placeholder designates; [k] anonymous ones came before. *)
Definition designated (args : list gval) (k : nat) (s : seg) : option gval :=
  match s with
  | Ordinal n => nth_error args n
  | NamedP _ name => find_named (string_of_runes name) args
  | Anon => nth_error args k
  | _ => None
  end.

(** The interpolated query; [None] if a placeholder designates nothing or its
    argument has no literal. *)
Fixpoint expected (d : dialect) (args : list gval) (k : nat) (segs : list seg)
  : option bytes :=
  match segs with
  | [] => Some []
  | s :: segs' =>
    let k' := match s with Anon => S k | _ => k end in
    let here := match s with
                | Text _ | Quoted _ _ => Some (string_of_runes (seg_src d s))
                | _ => match designated args k s with
                       | Some v => match sprint d v with Ok t => Some t | _ => None end
                       | None => None
                       end
                end in
    match here, expected d args k' segs' with
    | Some a, Some b => Some (a ++ b)
    | _, _ => None
    end
  end.

(** Unicode scalar values. *)
Definition scalar (r : rune) : bool :=
  (r <? 1114112)%N && negb (in_range 55296 57343 r).

(** Runes with a special meaning to the dialect outside quotes. *)
Definition quote_runes (d : dialect) : list rune :=
  match d with
  | DMySQL => [R "'"; R """"; R "`"]
  | DSQLServer => [R "'"; R """"; R "["]
  | _ => [R "'"; R """"]
  end.
Definition param_runes (d : dialect) : list rune :=
  match d with
  | DSQLite => [R "$"; R ":"; R "@"; R "?"]
  | DPostgres => [R "$"]
  | DSQLServer => [R "@"; R "?"]
  | _ => [R "?"]
  end.
Definition memr (r : rune) (l : list rune) : bool := existsb (N.eqb r) l.
Definition plain (d : dialect) (r : rune) : bool :=
  scalar r && negb (memr r (quote_runes d)) && negb (memr r (param_runes d)).

(** Characters after which a placeholder name has ended. *)
Definition terminators : list rune :=
  [R ","; R "("; R ")"; R ";"; R "="; R ">"; R "<"; R "+"; R "-"; R "*"; R "/";
   9; 10; 11; 12; 13; 32; 133; 160; R ":"]%N.

Definition name_rune (d : dialect) (r : rune) : bool :=
  scalar r && negb (memr r (quote_runes d)) && negb (memr r terminators).

Definition wf_seg (d : dialect) (s : seg) : bool :=
  match s with
  | Text rs => forallb (plain d) rs
  | Quoted q body => memr q (quote_runes d) && forallb scalar body
  | Ordinal n => (is_postgres d || is_sqlite d || is_sqlserver d)
                 && (Z.of_nat (S n) <=? max_int64)%Z
  | NamedP sigil name =>
    (is_sqlite d && memr sigil [R "$"; R ":"; R "@"; R "?"] || is_sqlserver d && (sigil =? R "@")%N)
    && negb (nullb name) && forallb (name_rune d) name
    && match atoi (string_of_runes name) with None => true | _ => false end
    && match name with
       | p :: rest =>
         if is_sqlserver d && ((p =? R "p")%N || (p =? R "P")%N)
         then negb (nullb rest) && match atoi (string_of_runes rest) with None => true | _ => false end
         else true
       | [] => true
       end
  | Anon => negb (is_postgres d)
  end.

(** Does the name of this placeholder extend up to a terminator? *)
Definition needs_terminator (d : dialect) (s : seg) : bool :=
  match s with
  | Ordinal _ | NamedP _ _ => true
  | Anon => is_sqlite d
  | _ => false
  end.

(** Segments do not run into each other. *)
Definition separated (d : dialect) (s : seg) (rest : list seg) : bool :=
  match s with
  | Quoted q _ => match src d rest with
                  | [] => true
                  | r :: _ => negb (r =? close_of q)%N
                  end
  | _ => if needs_terminator d s
         then match rest with
              | [] => true
              | Text (r :: _) :: _ => memr r terminators
              | _ => false
              end
         else true
  end.

Fixpoint wf_segs (d : dialect) (segs : list seg) : bool :=
  match segs with
  | [] => true
  | s :: rest => wf_seg d s && separated d s rest && wf_segs d rest
  end.

Definition starts_with_text (segs : list seg) : bool :=
  match segs with Text (_ :: _) :: _ => true | _ => false end.

(** Reading a text: [None] = outside quotes, [Some q] = inside a token opened
    by [q]; a doubled closing quote does not close. *)
Fixpoint quote_state (d : dialect) (st : option rune) (rs : list rune) : option rune :=
  match rs with
  | [] => st
  | c :: rest =>
    match st with
    | None => quote_state d (if memr c (quote_runes d) then Some c else None) rest
    | Some q =>
      if (c =? close_of q)%N
      then match rest with
           | c2 :: rest2 => if (c2 =? close_of q)%N then quote_state d (Some q) rest2
                            else quote_state d None rest
           | [] => None
           end
      else quote_state d (Some q) rest
    end
  end.
