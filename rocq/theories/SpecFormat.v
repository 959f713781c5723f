(** * SpecFormat: what a format string means.

    A format is a sequence of brace-free texts separated by holes: '{{' (a
    literal brace), '{}' (the next value), '{n}' (the n-th value, counted from
    1), '{name}' (the value of that name), or one of the last three with
    ':nameonly' before the closing brace; and a final text. *)
From Verif Require Import GoBase QuoteModel SprintModel TokenModel EffectModel RenderModel.
Local Open Scope m_scope.

Inductive hole := HBrace | HNext | HOrd (n : nat) | HName (name : bytes) | HBare (h : hole).
(** What stands in the braces. *)
Fixpoint reference (h : hole) : bytes :=
  match h with
  | HBrace | HNext => []
  | HOrd n => itoa n
  | HName name => name
  | HBare h' => reference h' ++ B ":nameonly"
  end.
Definition hole_text (h : hole) : bytes :=
  match h with
  | HBrace => B "{{"
  | _ => B "{" ++ reference h ++ B "}"
  end.
Definition format_text (hs : list (bytes * hole)) (fin : bytes) : bytes :=
  flat_map (fun th => fst th ++ hole_text (snd th)) hs ++ fin.

Definition good_text (t : bytes) : Prop := ~ In "{"%char t.
Fixpoint good_hole (h : hole) : Prop :=
  match h with
  | HBare h' => match h' with HBrace | HBare _ => False | _ => good_hole h' end
  | HOrd n => (Z.of_nat n <= max_int64)%Z
  | HName name =>
    name <> [] /\ ~ In "}"%char name /\ ~ In ":"%char name /\ hd "a"%char name <> "{"%char /\ atoi name = None
  | _ => True
  end.
Definition good_holes (hs : list (bytes * hole)) (fin : bytes) : Prop :=
  Forall (fun th => good_text (fst th) /\ good_hole (snd th)) hs /\ good_text fin.

(** The last value called [name]. *)
Fixpoint last_named (name : bytes) (vals : list node) : option nat :=
  match vals with
  | [] => None
  | v :: rest =>
    match last_named name rest with
    | Some i => Some (S i)
    | None => match value_name v with
              | Some name' => if beqb name name' then Some 0 else None
              | None => None
              end
    end
  end.

(** With ':nameonly', a field or a table is written as its bare name. *)
Definition bare_name (vals : list node) (i : nat) : option bytes :=
  match nth_error vals i with
  | Some v => if is_field_or_table v then Some (get_name v) else None
  | None => None
  end.

(** The expansion.  [print i name] prints value [i] (counted from 0) under the
    name it is referred to by; at the end the ordinals used are forgotten. *)
Fixpoint expand (print : nat -> bytes -> M) (vals : list node) (next : nat) (ords : list bytes)
    (hs : list (bytes * hole)) (fin : bytes) : M :=
  match hs with
  | [] => act (CDel ords) ;; emit fin
  | (t, h) :: rest =>
    emit t ;;
    match h with
    | HBrace => emit (B "{") ;; expand print vals next ords rest fin
    | HNext =>
      if next <? length vals then print next [] ;; expand print vals (S next) ords rest fin else fail
    | HOrd n =>
      if (1 <=? n) && (n <=? length vals)
      then print (n - 1) (itoa n) ;; expand print vals next (ords ++ [itoa n]) rest fin else fail
    | HName name =>
      match last_named name vals with
      | Some i => print i name ;; expand print vals next ords rest fin
      | None => fail
      end
    | HBare h' =>
      let bare i name := match bare_name vals i with Some n => emit n | None => print i name end in
      match h' with
      | HNext =>
        if next <? length vals then bare next [] ;; expand print vals (S next) ords rest fin else fail
      | HOrd n =>
        if (1 <=? n) && (n <=? length vals)
        then bare (n - 1) (itoa n) ;; expand print vals next (ords ++ [itoa n]) rest fin else fail
      | HName name =>
        match last_named name vals with
        | Some i => bare i name ;; expand print vals next ords rest fin
        | None => fail
        end
      | _ => fail
      end
    end
  end.

(** A hole that has no value, when [next] '{}' came before it. *)
Fixpoint no_value (vals : list node) (next : nat) (h : hole) : Prop :=
  match h with
  | HBare h' => no_value vals next h'
  | HBrace => False
  | HNext => length vals <= next
  | HOrd n => n = 0 \/ length vals < n
  | HName name => forall v, In v vals -> value_name v <> Some name
  end.
Definition is_next (th : bytes * hole) : bool := match snd th with HNext | HBare HNext => true | _ => false end.
Definition nexts (hs : list (bytes * hole)) : nat := length (filter is_next hs).
