(** * TemplateModel: the queries made from the introspection scripts
    (ddl/introspect.go:22-32, 76-122), with the part of Go's text/template that
    the scripts use *)
From Verif Require Import GoBase QuoteModel.

(** ** Filter (ddl/introspect.go:22-32) *)
Record filter := mk_filter {
  f_system : bool;                       (* IncludeSystemCatalogs *)
  f_comments : bool;                     (* IncludeComments *)
  f_sort : bool;                         (* SortOutput *)
  f_with_schemas : list bytes; f_without_schemas : list bytes;
  f_with_tables : list bytes; f_without_tables : list bytes;
  f_with_functions : list bytes; f_without_functions : list bytes }.
(** &Filter{} *)
Definition no_filter : filter := mk_filter false false false [] [] [] [] [] [].
Inductive field_value := VBool (b : bool) | VList (l : list bytes).
(** What [.Name] is in a template executed with a Filter. *)
Definition field_of (f : filter) (name : bytes) : option field_value :=
  if beqb name (B "IncludeSystemCatalogs") then Some (VBool (f_system f))
  else if beqb name (B "IncludeComments") then Some (VBool (f_comments f))
  else if beqb name (B "SortOutput") then Some (VBool (f_sort f))
  else if beqb name (B "WithSchemas") then Some (VList (f_with_schemas f))
  else if beqb name (B "WithoutSchemas") then Some (VList (f_without_schemas f))
  else if beqb name (B "WithTables") then Some (VList (f_with_tables f))
  else if beqb name (B "WithoutTables") then Some (VList (f_without_tables f))
  else if beqb name (B "WithFunctions") then Some (VList (f_with_functions f))
  else if beqb name (B "WithoutFunctions") then Some (VList (f_without_functions f))
  else None.

(** ** text/template: parsing.  Only what the scripts contain is covered: text,
    [{{ if .X }}], [{{ if not .X }}], [{{ printList .X }}], [{{ end }}], the trim
    markers; no nested [if].  Anything else is [None] here. *)
Inductive leaf := LText (t : bytes) | LList (field : bytes).
Inductive node := NLeaf (l : leaf) | NIf (neg : bool) (field : bytes) (body : list leaf).
Inductive item := IText (t : bytes) | IIf (neg : bool) (field : bytes) | IList (field : bytes) | IEnd.
(** The text before the first [cc] and the text after it. *)
Fixpoint cut2 (c : ascii) (s : bytes) : option (bytes * bytes) :=
  match s with
  | c1 :: ((c2 :: r) as s') =>
    if Ascii.eqb c1 c && Ascii.eqb c2 c then Some ([], r)
    else match cut2 c s' with Some (a, b) => Some (c1 :: a, b) | None => None end
  | _ => None
  end.
(** space, tab, newline, carriage return: what the trim markers remove *)
Definition blank (c : ascii) : bool := existsb (N.eqb (ord c)) [32; 9; 10; 13]%N.
Fixpoint drop_blanks (s : bytes) : bytes :=
  match s with c :: s' => if blank c then drop_blanks s' else s | [] => [] end.
Definition drop_end_blanks (s : bytes) : bytes := rev (drop_blanks (rev s)).
Fixpoint words_from (w : bytes) (s : bytes) : list bytes :=
  match s with
  | [] => match w with [] => [] | _ => [rev w] end
  | c :: s' => if blank c then match w with [] => words_from [] s' | _ => rev w :: words_from [] s' end
               else words_from (c :: w) s'
  end.
Definition dotted (w : bytes) : option bytes := match w with "."%char :: n => Some n | _ => None end.
Definition action (w : list bytes) : option item :=
  match w with
  | [a] => if beqb a (B "end") then Some IEnd else None
  | [a; b] =>
    match dotted b with
    | Some n => if beqb a (B "if") then Some (IIf false n) else if beqb a (B "printList") then Some (IList n) else None
    | None => None
    end
  | [a; b; c] =>
    match dotted c with
    | Some n => if beqb a (B "if") && beqb b (B "not") then Some (IIf true n) else None
    | None => None
    end
  | _ => None
  end.
Definition left_marked (s : bytes) : bool := match s with "-"%char :: c :: _ => blank c | _ => false end.
Definition right_marked (s : bytes) : bool := match rev s with "-"%char :: c :: _ => blank c | _ => false end.
Fixpoint template_items (fuel : nat) (s : bytes) : option (list item) :=
  match fuel with
  | O => None
  | S fuel =>
    match cut2 "{" s with
    | None => Some [IText s]
    | Some (text, r) =>
      let (text, r) := if left_marked r then (drop_end_blanks text, tl r) else (text, r) in
      match cut2 "}" r with
      | None => None
      | Some (act, rest) =>
        let (act, rest) := if right_marked act then (removelast act, drop_blanks rest) else (act, rest) in
        match action (words_from [] act), template_items fuel rest with
        | Some i, Some is => Some (IText text :: i :: is)
        | _, _ => None
        end
      end
    end
  end.
(** Text that is empty makes no node.  [open]: the [if] that is open, with its
    body so far. *)
Fixpoint template_nodes (open : option (bool * bytes * list leaf)) (is : list item) : option (list node) :=
  match is, open with
  | [], None => Some []
  | [], Some _ => None
  | IText [] :: is, _ => template_nodes open is
  | IText t :: is, None => match template_nodes None is with Some ns => Some (NLeaf (LText t) :: ns) | None => None end
  | IList n :: is, None => match template_nodes None is with Some ns => Some (NLeaf (LList n) :: ns) | None => None end
  | IText t :: is, Some (neg, n, body) => template_nodes (Some (neg, n, body ++ [LText t])) is
  | IList m :: is, Some (neg, n, body) => template_nodes (Some (neg, n, body ++ [LList m])) is
  | IIf neg n :: is, None => template_nodes (Some (neg, n, [])) is
  | IIf _ _ :: _, Some _ => None
  | IEnd :: is, Some (neg, n, body) => match template_nodes None is with Some ns => Some (NIf neg n body :: ns) | None => None end
  | IEnd :: _, None => None
  end.
Definition parse_template (s : bytes) : option (list node) :=
  match template_items (S (length s)) s with Some is => template_nodes None is | None => None end.

(** ** text/template: execution.  A bool is true if it is, a slice if it is not
    empty. *)
Definition truth (v : field_value) : bool := match v with VBool b => b | VList l => negb (match l with [] => true | _ => false end) end.
(** printList (ddl/introspect.go:76-89; QuoteModel.print_list) wants a []string. *)
Definition exec_leaf (f : filter) (l : leaf) : option bytes :=
  match l with
  | LText t => Some t
  | LList n => match field_of f n with Some (VList l) => Some (print_list l) | _ => None end
  end.
Fixpoint exec_leaves (f : filter) (ls : list leaf) : option bytes :=
  match ls with
  | [] => Some []
  | l :: ls => match exec_leaf f l, exec_leaves f ls with Some a, Some b => Some (a ++ b) | _, _ => None end
  end.
Definition exec_node (f : filter) (n : node) : option bytes :=
  match n with
  | NLeaf l => exec_leaf f l
  | NIf neg n body =>
    match field_of f n with
    | Some v => if xorb neg (truth v) then exec_leaves f body else Some []
    | None => None
    end
  end.
Fixpoint exec_nodes (f : filter) (ns : list node) : option bytes :=
  match ns with
  | [] => Some []
  | n :: ns => match exec_node f n, exec_nodes f ns with Some a, Some b => Some (a ++ b) | _, _ => None end
  end.

(** ** queryContext (ddl/introspect.go:91-122): the text that is sent to the
    database; [None] if parsing or executing fails.  The cache of parsed templates
    and its lock: SharedModel. *)
Definition query_text (default f : option filter) (script : bytes) : option bytes :=
  let f := match f with Some f => f | None => match default with Some f => f | None => no_filter end end in
  match parse_template script with Some ns => exec_nodes f ns | None => None end.
