(** * TokenModel: cutValue / lexModifiers (reflect_table.go) and popBraceToken /
    tokenizeModifiers / splitArgs (ddl/fmt.go) *)
From Verif Require Import GoBase.

(** The cutset of [strings.TrimLeft(s, " \t\n\v\f\r\u0085\u00A0")]. *)
Definition trimmable (r : rune) : bool :=
  (in_range 9 13 r || (r =? 32) || (r =? 133) || (r =? 160))%N.

(** [strings.TrimLeft]: the suffix starting at the first rune not in the cutset. *)
Fixpoint trim_ranged (rs : list (nat * rune * bytes)) : bytes :=
  match rs with
  | [] => []
  | (_, r, suf) :: rs' => if trimmable r then trim_ranged rs' else suf
  end.
Definition trim_left (s : bytes) : bytes := trim_ranged (range_string s).

(** The loop of cutValue, reflect_table.go:114-136 (= popBraceToken,
    ddl/fmt.go:19-42, the two bodies are the same).  Result: the final
    bracelevel and splitAt; [None] is the "too many closing braces" error. *)
Fixpoint cut_loop (quoted : bool) (level : Z) (split : nat)
    (rs : list (nat * rune * bytes)) : option (Z * nat) :=
  match rs with
  | [] => Some (level, split)
  | (i, r, suf) :: rs' =>
    let size := snd (decode_rune suf) in
    let level' := (if (r =? R "{")%N then level + 1
                   else if (r =? R "}")%N then level - 1 else level)%Z in
    if (level' <? 0)%Z then None
    else if (level' =? 0)%Z && quoted then Some (level', i + size)
    else if (level' =? 0)%Z && is_space r then Some (level', i)
    else cut_loop quoted level' (i + size) rs'
  end.

(** reflect_table.go:107-144 [cutValue], ddl/fmt.go:12-50 [popBraceToken]. *)
Definition cut_value (s0 : bytes) : outcome (bytes * bytes) :=
  let s := trim_left s0 in
  match s with
  | [] => Ok ([], [])
  | c :: _ =>
    let quoted := Ascii.eqb c "{" in
    match cut_loop quoted 0 0 (range_string s) with
    | None => Err (B "too many closing braces")
    | Some (level, split) =>
      if (0 <? level)%Z then Err (B "unclosed brace")
      else
        let value := firstn split s in
        let rest := skipn split s in
        if quoted
        then if Nat.ltb (length value) 2 then Panic
             else Ok (firstn (length value - 2) (skipn 1 value), rest)
        else Ok (value, rest)
    end
  end.

(** Results of the tokenizing loops.  [LDiverge] is the model's out-of-fuel
    value: the Go loop does not terminate within that many iterations. *)
Inductive lexres (A : Type) := LOk (a : A) | LErr | LPanic | LDiverge.
Arguments LOk {A} _. Arguments LErr {A}. Arguments LPanic {A}. Arguments LDiverge {A}.

(** reflect_table.go:167-173 (= ddl/fmt.go:76-82): split "key=value" and strip
    the braces of a braced value. *)
Definition split_modifier (value : bytes) : outcome (bytes * bytes) :=
  match index_byte "=" value with
  | None => Ok (value, [])
  | Some j =>
    let subname := firstn j value in
    let subvalue := skipn (S j) value in
    match subvalue with
    | [] => Panic                                          (* subvalue[0] *)
    | c :: _ =>
      if Ascii.eqb c "{"
      then if Nat.ltb (length subvalue) 2 then Panic       (* subvalue[1:0] *)
           else Ok (subname, firstn (length subvalue - 2) (skipn 1 subvalue))
      else Ok (subname, subvalue)
    end
  end.

(** reflect_table.go:158-179 [lexModifiers]; the modifierIndex map is the
    position of the last modifier of each name, so it is determined by the
    list and only the list is returned. *)
Fixpoint lex_modifiers (fuel : nat) (rest : bytes) (acc : list (bytes * bytes))
  : lexres (list (bytes * bytes)) :=
  match rest with
  | [] => LOk acc
  | _ :: _ =>
    match fuel with
    | 0 => LDiverge
    | S f =>
      match cut_value rest with
      | Err _ => LErr
      | Panic => LPanic
      | Ok (value, rest') =>
        match split_modifier value with
        | Err _ => LErr
        | Panic => LPanic
        | Ok m => lex_modifiers f rest' (acc ++ [m])
        end
      end
    end
  end.

(** reflect_table.go:146-156 [lexValue]. *)
Definition lex_value (fuel : nat) (s : bytes) : lexres (bytes * list (bytes * bytes)) :=
  match cut_value s with
  | Err _ => LErr
  | Panic => LPanic
  | Ok (value, rest) =>
    match lex_modifiers fuel rest [] with
    | LOk ms => LOk (value, ms)
    | LErr => LErr | LPanic => LPanic | LDiverge => LDiverge
    end
  end.

(** ddl/fmt.go:64-88 [tokenizeModifiers]: like lexModifiers but empty tokens
    are skipped. *)
Fixpoint tokenize_modifiers (fuel : nat) (rest : bytes) (acc : list (bytes * bytes))
  : lexres (list (bytes * bytes)) :=
  match rest with
  | [] => LOk acc
  | _ :: _ =>
    match fuel with
    | 0 => LDiverge
    | S f =>
      match cut_value rest with
      | Err _ => LErr
      | Panic => LPanic
      | Ok (token, rest') =>
        match token with
        | [] => tokenize_modifiers f rest' acc
        | _ =>
          match split_modifier token with
          | Err _ => LErr
          | Panic => LPanic
          | Ok m => tokenize_modifiers f rest' (acc ++ [m])
          end
        end
      end
    end
  end.

(** ddl/fmt.go:52-62 [tokenizeValue]. *)
Definition tokenize_value (fuel : nat) (s : bytes) : lexres (bytes * list (bytes * bytes)) :=
  match cut_value s with
  | Err _ => LErr
  | Panic => LPanic
  | Ok (value, rest) =>
    match tokenize_modifiers fuel rest [] with
    | LOk ms => LOk (value, ms)
    | LErr => LErr | LPanic => LPanic | LDiverge => LDiverge
    end
  end.

(** ** splitArgs, ddl/fmt.go:148-230 *)

(** Locals of the inner loop, initialised at 153-154. *)
Record split_st := mk_split { sp_skip : Z; sp_array : nat; sp_bracket : nat; sp_string : bool }.
Definition split_init : split_st := mk_split (-1) 0 0 false.

(** One iteration of the inner loop 155-217: the new locals, or [None] when
    the char is an argument delimiter (211-214). *)
Definition split_step (st : split_st) (x : nat * rune * bytes) : option split_st :=
  let '(i, c, suf) := x in
  if (sp_skip st =? Z.of_nat i)%Z then Some st                          (* 157 *)
  else if Nat.ltb 0 (sp_array st) then                                   (* 161 *)
    Some (mk_split (sp_skip st)
            (if (c =? R "]")%N then sp_array st - 1
             else if (c =? R "[")%N then S (sp_array st) else sp_array st)
            (sp_bracket st) (sp_string st))
  else if Nat.ltb 0 (sp_bracket st) then                                 (* 173 *)
    Some (mk_split (sp_skip st) (sp_array st)
            (if (c =? R ")")%N then sp_bracket st - 1
             else if (c =? R "(")%N then S (sp_bracket st) else sp_bracket st)
            (sp_string st))
  else if sp_string st then                                              (* 185 *)
    if (c =? R "'")%N then
      match nth_error suf 1 with
      | Some b => if Ascii.eqb b "'"
                  then Some (mk_split (Z.of_nat (i + 1)) (sp_array st) (sp_bracket st) true)
                  else Some (mk_split (sp_skip st) (sp_array st) (sp_bracket st) false)
      | None => Some (mk_split (sp_skip st) (sp_array st) (sp_bracket st) false)
      end
    else Some st
  else if (c =? R "[")%N then Some (mk_split (sp_skip st) 1 (sp_bracket st) false)
  else if (c =? R "(")%N then Some (mk_split (sp_skip st) (sp_array st) 1 false)
  else if (c =? R "'")%N then Some (mk_split (sp_skip st) (sp_array st) (sp_bracket st) true)
  else if (c =? R ",")%N then None
  else Some st.

(** The inner loop: position of the first top-level comma. *)
Fixpoint split_at (st : split_st) (rs : list (nat * rune * bytes)) : option nat :=
  match rs with
  | [] => None
  | x :: rs' => match split_step st x with
                | None => Some (fst (fst x))
                | Some st' => split_at st' rs'
                end
  end.

(** The outer loop 152-228.  Each round drops at least the comma, so [length
    s] rounds suffice; out of fuel the rest is returned unsplit (unreachable,
    see C36). *)
Fixpoint split_args_loop (fuel : nat) (s : bytes) : list bytes :=
  match split_at split_init (range_string s) with
  | None => [s]
  | Some i =>
    match fuel with
    | 0 => [s]
    | S f => firstn i s :: split_args_loop f (skipn (S i) s)
    end
  end.
Definition split_args (s : bytes) : list bytes := split_args_loop (length s) s.
