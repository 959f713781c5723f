(** * GoBase: the fragment of Go's run-time and standard library that the
    modelled code uses.

    A Go [string] is a byte string; we use [list ascii].  Everything here is a
    total computable function; no proofs in this file. *)
From Coq Require Export Ascii String.
From Coq Require Import Decimal.
From Coq Require Export Arith NArith ZArith Bool List.
Export ListNotations.
Open Scope list_scope.

Definition bytes := list ascii.

(** String literals: [B "abc"] is the Go constant ["abc"]. *)
Definition B (s : string) : bytes := list_ascii_of_string s.

(** A single byte given by its code. *)
Definition chr (n : N) : ascii := ascii_of_N n.
Definition ord (c : ascii) : N := N_of_ascii c.

(** ** Comparison of strings (Go [==] on strings) *)
Fixpoint beqb (a b : bytes) : bool :=
  match a, b with
  | [], [] => true
  | x :: a', y :: b' => Ascii.eqb x y && beqb a' b'
  | _, _ => false
  end.

(** Go's [<] on strings: lexicographic on bytes. *)
Fixpoint bltb (a b : bytes) : bool :=
  match a, b with
  | _, [] => false
  | [], _ :: _ => true
  | x :: a', y :: b' =>
      if (ord x <? ord y)%N then true
      else if (ord y <? ord x)%N then false
      else bltb a' b'
  end.

(** [strings.IndexByte(s, c)]: position of the first [c]. *)
Fixpoint index_byte (c : ascii) (s : bytes) : option nat :=
  match s with
  | [] => None
  | x :: s' => if Ascii.eqb x c then Some 0
               else option_map S (index_byte c s')
  end.

Definition contains_byte (c : ascii) (s : bytes) : bool :=
  existsb (Ascii.eqb c) s.

(** [strings.HasPrefix]. *)
Fixpoint has_prefix (p s : bytes) : bool :=
  match p, s with
  | [], _ => true
  | x :: p', y :: s' => Ascii.eqb x y && has_prefix p' s'
  | _, [] => false
  end.

(** [strings.Join(parts, sep)]. *)
Fixpoint join (sep : bytes) (parts : list bytes) : bytes :=
  match parts with
  | [] => []
  | [x] => x
  | x :: rest => x ++ sep ++ join sep rest
  end.

Definition is_empty (s : bytes) : bool := match s with [] => true | _ => false end.

(** ** UTF-8 as Go decodes it ([unicode/utf8.DecodeRuneInString]) *)

Definition rune := N.
Definition rune_error : rune := 65533%N.  (* U+FFFD *)

Definition in_range (lo hi x : N) : bool := ((lo <=? x) && (x <=? hi))%N.

(** Decodes the rune at the start of [s]; returns the rune and its width.
    Invalid or truncated encodings give U+FFFD with width 1; the empty string
    gives width 0.  Ranges of the second byte follow Go's [acceptRanges]. *)
Definition decode_rune (s : bytes) : rune * nat :=
  match s with
  | [] => (rune_error, 0)
  | c0 :: s1 =>
    let b0 := ord c0 in
    if (b0 <? 128)%N then (b0, 1)
    else if in_range 194 223 b0 then
      match s1 with
      | c1 :: _ =>
        let b1 := ord c1 in
        if in_range 128 191 b1 then (((b0 - 192) * 64 + (b1 - 128))%N, 2)
        else (rune_error, 1)
      | _ => (rune_error, 1)
      end
    else if in_range 224 239 b0 then
      let lo := if (b0 =? 224)%N then 160%N else 128%N in
      let hi := if (b0 =? 237)%N then 159%N else 191%N in
      match s1 with
      | c1 :: c2 :: _ =>
        let b1 := ord c1 in let b2 := ord c2 in
        if in_range lo hi b1 && in_range 128 191 b2
        then (((b0 - 224) * 4096 + (b1 - 128) * 64 + (b2 - 128))%N, 3)
        else (rune_error, 1)
      | _ => (rune_error, 1)
      end
    else if in_range 240 244 b0 then
      let lo := if (b0 =? 240)%N then 144%N else 128%N in
      let hi := if (b0 =? 244)%N then 143%N else 191%N in
      match s1 with
      | c1 :: c2 :: c3 :: _ =>
        let b1 := ord c1 in let b2 := ord c2 in let b3 := ord c3 in
        if in_range lo hi b1 && in_range 128 191 b2 && in_range 128 191 b3
        then (((b0 - 240) * 262144 + (b1 - 128) * 4096 + (b2 - 128) * 64
               + (b3 - 128))%N, 4)
        else (rune_error, 1)
      | _ => (rune_error, 1)
      end
    else (rune_error, 1)
  end.

(** [buf.WriteRune(r)] / [string(r)]: UTF-8 encoding; surrogates and
    out-of-range runes are encoded as U+FFFD. *)
Definition encode_rune (r : rune) : bytes :=
  if (r <? 128)%N then [chr r]
  else if (r <? 2048)%N then
    [chr (192 + r / 64)%N; chr (128 + r mod 64)%N]
  else if (in_range 55296 57343 r || (1114111 <? r)%N) then
    [chr 239; chr 191; chr 189]
  else if (r <? 65536)%N then
    [chr (224 + r / 4096)%N; chr (128 + (r / 64) mod 64)%N; chr (128 + r mod 64)%N]
  else
    [chr (240 + r / 262144)%N; chr (128 + (r / 4096) mod 64)%N;
     chr (128 + (r / 64) mod 64)%N; chr (128 + r mod 64)%N].

(** [for i, char := range s]: the list of (index, rune, suffix s[i:]).
    [skip] counts the continuation bytes of the rune being passed over. *)
Fixpoint range_from (i : nat) (skip : nat) (s : bytes) : list (nat * rune * bytes) :=
  match s with
  | [] => []
  | _ :: s' =>
    match skip with
    | S k => range_from (S i) k s'
    | 0 => let (r, w) := decode_rune s in
           (i, r, s) :: range_from (S i) (w - 1) s'
    end
  end.
Definition range_string (s : bytes) : list (nat * rune * bytes) := range_from 0 0 s.

(** The runes of a string, [[]rune(s)]. *)
Definition runes_of (s : bytes) : list rune := map (fun x => snd (fst x)) (range_string s).
(** [string(runes)]. *)
Definition string_of_runes (rs : list rune) : bytes := flat_map encode_rune rs.

(** A rune constant that is an ASCII character. *)
Definition R (c : ascii) : rune := ord c.

(** [unicode.IsSpace]. *)
Definition is_space (r : rune) : bool :=
  (in_range 9 13 r || (r =? 32) || (r =? 133) || (r =? 160)
   || (r =? 5760) || in_range 8192 8202 r || (r =? 8232) || (r =? 8233)
   || (r =? 8239) || (r =? 8287) || (r =? 12288))%N.

(** ** strconv *)

Fixpoint bytes_of_uint (d : uint) : bytes :=
  match d with
  | Nil => []
  | D0 d => "0"%char :: bytes_of_uint d
  | D1 d => "1"%char :: bytes_of_uint d
  | D2 d => "2"%char :: bytes_of_uint d
  | D3 d => "3"%char :: bytes_of_uint d
  | D4 d => "4"%char :: bytes_of_uint d
  | D5 d => "5"%char :: bytes_of_uint d
  | D6 d => "6"%char :: bytes_of_uint d
  | D7 d => "7"%char :: bytes_of_uint d
  | D8 d => "8"%char :: bytes_of_uint d
  | D9 d => "9"%char :: bytes_of_uint d
  end.

(** [strconv.FormatUint(n, 10)]. *)
Definition format_uint (n : N) : bytes := bytes_of_uint (N.to_uint n).
(** [strconv.Itoa] on a non-negative index. *)
Definition itoa (n : nat) : bytes := format_uint (N.of_nat n).
(** [strconv.FormatInt(z, 10)]. *)
Definition format_int (z : Z) : bytes :=
  match z with
  | Z0 => B "0"
  | Zpos p => format_uint (Npos p)
  | Zneg p => "-"%char :: format_uint (Npos p)
  end.

Definition digit_val (c : ascii) : option N :=
  if in_range 48 57 (ord c) then Some (ord c - 48)%N else None.

Fixpoint parse_digits (acc : N) (s : bytes) : option N :=
  match s with
  | [] => Some acc
  | c :: s' => match digit_val c with
               | Some d => parse_digits (acc * 10 + d)%N s'
               | None => None
               end
  end.

Definition max_int64 : Z := 9223372036854775807%Z.

(** [strconv.Atoi]: optional sign, at least one digit, decimal digits only,
    range error outside int64 (a 64-bit platform is assumed). *)
Definition atoi (s : bytes) : option Z :=
  let body neg d :=
    match d with
    | [] => None
    | _ => match parse_digits 0 d with
           | None => None
           | Some n =>
             let z := if (neg : bool) then (- Z.of_N n)%Z else Z.of_N n in
             if (z <=? max_int64)%Z && (- max_int64 - 1 <=? z)%Z then Some z else None
           end
    end in
  match s with
  | [] => None
  | c :: d => if Ascii.eqb c "-" then body true d
              else if Ascii.eqb c "+" then body false d
              else body false s
  end.

(** [hex.EncodeToString]. *)
Definition hex_digit (n : N) : ascii :=
  if (n <? 10)%N then chr (48 + n)%N else chr (87 + n)%N.
Fixpoint hex_encode (s : bytes) : bytes :=
  match s with
  | [] => []
  | c :: s' => hex_digit (ord c / 16)%N :: hex_digit (ord c mod 16)%N :: hex_encode s'
  end.

(** [sort.SearchStrings(a, x)]: Go's binary search for the smallest index [i]
    with [a[i] >= x] ([sort.Search]: [i, j := 0, n; for i < j { h := (i+j)/2;
    if !f(h) { i = h+1 } else { j = h } }]).  [fuel] bounds the iterations. *)
Fixpoint search_loop (fuel : nat) (a : list bytes) (x : bytes) (i j : nat) : nat :=
  match fuel with
  | 0 => i
  | S f =>
    if Nat.ltb i j then
      let h := Nat.div (i + j) 2 in
      if bltb (nth h a []) x then search_loop f a x (S h) j
      else search_loop f a x i h
    else i
  end.
Definition search_strings (a : list bytes) (x : bytes) : nat :=
  search_loop (length a) a x 0 (length a).

(** Outcome of a Go call: a value, an [error], or a run-time panic. *)
Inductive outcome (A : Type) : Type :=
| Ok (a : A)
| Err (msg : bytes)
| Panic.
Arguments Ok {A} _.
Arguments Err {A} _.
Arguments Panic {A}.

(** ** Go maps with string keys, as association lists.  Only [mget] is
    observable; [mset] overwrites, [mdel] deletes every entry of the key. *)
Section Map.
  Context {V : Type}.
  Fixpoint mget (k : bytes) (m : list (bytes * V)) : option V :=
    match m with
    | [] => None
    | (k', v) :: m' => if beqb k k' then Some v else mget k m'
    end.
  Definition mset (k : bytes) (v : V) (m : list (bytes * V)) : list (bytes * V) :=
    (k, v) :: m.
  Definition mdel (k : bytes) (m : list (bytes * V)) : list (bytes * V) :=
    filter (fun kv => negb (beqb k (fst kv))) m.
End Map.

(** [args[i] = v] for an index known to be in range. *)
Fixpoint list_set {A} (l : list A) (i : nat) (v : A) : list A :=
  match l, i with
  | [], _ => []
  | _ :: l', 0 => v :: l'
  | x :: l', S i' => x :: list_set l' i' v
  end.
