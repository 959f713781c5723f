(** * Properties of Sprint and Sprintf: C04 - C07 *)
From Verif Require Import GoBase QuoteModel SpecLex SprintModel SpecSprint SpecSprintf
  SprintFacts SprintfFacts SprintfFail SprintfSafety SprintPf.

(** C04: the interpolated value is one literal, of the right value. *)
Theorem sprint_is_literal : forall (d : dialect) (v : gval) (l : lit),
  denotes d v l -> forall rest, after_literal rest ->
  exists t, sprint d v = Ok t /\ lex_literal (is_postgres d) (t ++ rest) = Some (l, rest).
Proof. exact sprint_literal_pf. Qed.
Print Assumptions sprint_is_literal.
Example sprint_is_literal_ex :
  denotes DPostgres (GNamedArg (B "x") (GPtr (GPtr (GInt (-42))))) (LInt (-42)) /\
  denotes DMySQL (GValuer (Some (GBytes (B "a'b")))) (LBlob (B "a'b")) /\
  after_literal (B ") AND x").
Proof.
  repeat split; try (repeat constructor); try discriminate.
Qed.

(** C04: every string, even one the code alters, stays inside one literal. *)
Theorem sprint_string_contained : forall (d : dialect) (s rest : bytes),
  after_literal rest ->
  exists t w, sprint d (GString s) = Ok t /\
    lex_literal (is_postgres d) (t ++ rest) = Some (LStr w, rest).
Proof. exact sprint_string_contained_pf. Qed.
Print Assumptions sprint_string_contained.

(** C04, findings: values the API accepts elsewhere that Sprint gets wrong. *)
(** postgres: bytes from a driver.Valuer are written x'..' (a bit string). *)
Theorem sprint_valuer_bytes_postgres_refuted : forall bs,
  exists t, sprint DPostgres (GValuer (Some (GBytes bs))) = Ok t /\
    lex_literal true t <> Some (LBlob bs, []).
Proof.
  intro bs. eexists. split; [reflexivity|]. cbn. discriminate.
Qed.
Print Assumptions sprint_valuer_bytes_postgres_refuted.
(** A Valuer that returns nil, or a pointer to an invalid Null value, is an
    error instead of NULL. *)
Theorem sprint_null_pointer_refuted : forall d s,
  (exists e, sprint d (GPtr (GNullString false s)) = Err e) /\
  (exists e, sprint d (GValuer (Some GNil)) = Err e).
Proof. intros d s. split; eexists; reflexivity. Qed.
Print Assumptions sprint_null_pointer_refuted.
(** A nil pointer whose element type is a Valuer crashes. *)
Theorem sprint_nil_valuer_refuted : forall d, sprint d (GNilPtr true) = Panic.
Proof. reflexivity. Qed.
Print Assumptions sprint_nil_valuer_refuted.

(** C04/C07: nothing else makes Sprint crash. *)
Theorem sprint_panics_only_on_nil_valuers : forall (d : dialect) (v : gval),
  sprint d v = Panic -> has_nil_valuer v = true.
Proof. exact sprint_panic_pf. Qed.
Print Assumptions sprint_panics_only_on_nil_valuers.

(** C05: exactly the placeholders are substituted. *)
Theorem sprintf_substitutes : forall (d : dialect) (segs : list seg) (args : list gval) (out : bytes),
  args <> [] -> starts_with_text segs = true -> wf_segs d segs = true ->
  expected d args 0 segs = Some out ->
  sprintf d (string_of_runes (src d segs)) args = Ok out.
Proof. exact sprintf_expected. Qed.
Print Assumptions sprintf_substitutes.

(** ... and if some placeholder designates no argument, or a value that cannot be
    written, there is no text at all: together the result is exactly the expected one. *)
Theorem sprintf_exact : forall (d : dialect) (segs : list seg) (args : list gval) (out : bytes),
  args <> [] -> starts_with_text segs = true -> wf_segs d segs = true ->
  (sprintf d (string_of_runes (src d segs)) args = Ok out <-> expected d args 0 segs = Some out).
Proof.
  intros d segs args out A T W. split; intros H.
  - destruct (expected d args 0 segs) as [out'|] eqn:E.
    + rewrite (sprintf_expected d segs args out' A T W E) in H. now injection H as ->.
    + now destruct (sprintf_expected_none d segs args A T W E out).
  - now apply sprintf_expected.
Qed.
Print Assumptions sprintf_exact.

Definition rn (s : string) : list rune := map R (B s).
Definition demo : list seg :=
  [Text (rn "SELECT "); Quoted (R "'") (rn "it's $1 ?"); Text (rn ", "); Ordinal 1;
   Text (rn " = "); Ordinal 0; Text (rn ", "); NamedP (R ":") (rn "nm"); Text (rn ", "); Anon].
Example sprintf_substitutes_ex :
  starts_with_text demo = true /\ wf_segs DSQLite demo = true /\
  expected DSQLite [GInt 5; GNamedArg (B "nm") (GString (B "x'y"))] 0 demo
    = Some (B "SELECT 'it''s $1 ?', 'x''y' = 5, 'x''y', 5").
Proof. repeat split; vm_compute; reflexivity. Qed.

(** C05, finding: a query that begins with a placeholder or quote is misread,
    because its first character is always written verbatim. *)
Theorem sprintf_first_char_refuted :
  exists args out, expected DPostgres args 0 [Ordinal 0; Text (rn " = 1")] = Some out /\
    wf_segs DPostgres [Ordinal 0; Text (rn " = 1")] = true /\
    sprintf DPostgres (string_of_runes (src DPostgres [Ordinal 0; Text (rn " = 1")])) args <> Ok out.
Proof. exists [GInt 7], (B "7 = 1"). repeat split; vm_compute; discriminate. Qed.
Print Assumptions sprintf_first_char_refuted.

(** C05, finding: a quote directly at the start makes the whole token be
    scanned as plain text, so a look-alike inside it is substituted. *)
Theorem sprintf_first_quote_refuted :
  sprintf DMySQL (B "'a?'") [GInt 7] = Err (B "unclosed string or identifier") /\
  sprintf DMySQL (B "'?b' x") [GInt 7] = Err (B "unclosed string or identifier") /\
  sprintf DMySQL (B "'?' 'x") [GInt 7] = Ok (B "'7' 'x").
Proof. repeat split; vm_compute; reflexivity. Qed.
Print Assumptions sprintf_first_quote_refuted.

(** C05, finding: placeholders followed by a character missing from the
    terminator list (here ']') are reported as errors. *)
Theorem sprintf_bracket_refuted :
  exists e, sprintf DPostgres (B "SELECT ARRAY[$1]") [GInt 7] = Err e.
Proof. eexists. vm_compute. reflexivity. Qed.
Print Assumptions sprintf_bracket_refuted.

(** C05, finding: on sqlserver a named argument called p cannot be found. *)
Theorem sprintf_sqlserver_p_refuted :
  exists e, sprintf DSQLServer (B "SELECT @p") [GNamedArg (B "p") (GInt 7)] = Err e.
Proof. eexists. vm_compute. reflexivity. Qed.
Print Assumptions sprintf_sqlserver_p_refuted.

(** C06: without arguments the query is returned byte for byte. *)
Theorem sprintf_no_args : forall (d : dialect) (query : bytes), sprintf d query [] = Ok query.
Proof. reflexivity. Qed.
Print Assumptions sprintf_no_args.

(** C06: if it succeeds, the query did not end inside quotes. *)
Theorem sprintf_rejects_unclosed : forall (d : dialect) (c : rune) (rs : list rune) (args : list gval) (out : bytes),
  args <> [] -> forallb scalar (c :: rs) = true -> memr c (quote_runes d) = false ->
  sprintf d (string_of_runes (c :: rs)) args = Ok out ->
  quote_state d None (c :: rs) = None.
Proof. exact sprintf_unclosed. Qed.
Print Assumptions sprintf_rejects_unclosed.
Example sprintf_rejects_unclosed_ex :
  forallb scalar (rn "SELECT 'abc $1") = true /\
  memr (R "S") (quote_runes DPostgres) = false /\
  quote_state DPostgres None (rn "SELECT 'abc $1") = Some (R "'").
Proof. repeat split; vm_compute; reflexivity. Qed.

(** C07: outside sqlite Sprintf never panics ... *)
Theorem sprintf_never_panics : forall (d : dialect) (query : bytes) (args : list gval),
  d <> DSQLite -> (forall v, In v args -> has_nil_valuer v = false) ->
  sprintf d query args <> Panic.
Proof. exact sprintf_safe_pf. Qed.
Print Assumptions sprintf_never_panics.

(** ... and in any dialect only if there are more '?' than arguments. *)
Theorem sprintf_safe_with_enough_args : forall (d : dialect) (query : bytes) (args : list gval),
  (forall v, In v args -> has_nil_valuer v = false) ->
  count_occ N.eq_dec (runes_of query) (R "?") <= length args ->
  sprintf d query args <> Panic.
Proof. exact sprintf_safe_enough_args_pf. Qed.
Print Assumptions sprintf_safe_with_enough_args.
Example sprintf_safe_with_enough_args_ex :
  (forall v, In v [GInt 1; GString (B "?")] -> has_nil_valuer v = false) /\
  count_occ N.eq_dec (runes_of (B "SELECT ?, '?'")) (R "?") <= 2.
Proof.
  split; [intros v [<-|[<-|[]]]; reflexivity|].
  replace (count_occ N.eq_dec (runes_of (B "SELECT ?, '?'")) (R "?")) with 2 by (vm_compute; reflexivity).
  apply le_n.
Qed.

(** C07, finding: on sqlite it does panic there. *)
Theorem sprintf_sqlite_panics_refuted : sprintf DSQLite (B "SELECT ?, ?") [GInt 1] = Panic.
Proof. vm_compute; reflexivity. Qed.
Print Assumptions sprintf_sqlite_panics_refuted.
