(** * Properties of EscapeQuote and QuoteIdentifier: C01, C02, C03 *)
From Verif Require Import GoBase QuoteModel SpecLex SpecIdent QuoteFacts QuotePf.

(** C01: between quotes, escaped text is one complete literal which ends at
    the closing quote, whatever follows. *)
Theorem escape_quote_contained : forall (q : ascii) (s rest : bytes),
  not_starting_with q rest ->
  exists v, lex_quoted q (escape_quote s q ++ [q] ++ rest) = Some (v, rest).
Proof. exact escape_quote_contained_pf. Qed.
Print Assumptions escape_quote_contained.
Example escape_quote_contained_ex :
  not_starting_with "'" (B " OR 1=1") /\
  lex_quoted "'" (escape_quote (B "x' OR ''='") "'" ++ ["'"%char] ++ B " OR 1=1")
  = Some (B "x' OR '='", B " OR 1=1").
Proof. split; [vm_compute; discriminate|vm_compute; reflexivity]. Qed.

(** C02: what that literal denotes. *)
Theorem escape_quote_denotes : forall (q : ascii) (s rest : bytes),
  not_starting_with q rest ->
  lex_quoted q (escape_quote s q ++ [q] ++ rest) = Some (collapse q s, rest).
Proof. exact escape_quote_denotes_pf. Qed.
Print Assumptions escape_quote_denotes.
Example escape_quote_denotes_ex :
  collapse "'" (B "a''''b''") = B "a''b''" /\ collapse "'" (B "it's") = B "it's".
Proof. split; vm_compute; reflexivity. Qed.

(** C02: the round trip holds exactly for the strings without an inner pair. *)
Theorem escape_quote_round_trip : forall (q : ascii) (s rest : bytes),
  not_starting_with q rest ->
  (lex_quoted q (escape_quote s q ++ [q] ++ rest) = Some (s, rest) <-> ~ has_inner_pair q s).
Proof. exact escape_quote_round_trip_pf. Qed.
Print Assumptions escape_quote_round_trip.
Example escape_quote_round_trip_ex : ~ has_inner_pair "'" (B "O'Brien").
Proof.
  intros [a [x [b H]]]. revert H.
  do 8 (destruct a as [|? a]; [cbn; intro; discriminate|]). cbn. intro; discriminate.
Qed.

Theorem escape_quote_injective_thm : forall (q : ascii) (s t : bytes),
  ~ has_inner_pair q s -> ~ has_inner_pair q t ->
  escape_quote s q = escape_quote t q -> s = t.
Proof. exact escape_quote_injective. Qed.
Print Assumptions escape_quote_injective_thm.

(** C02, finding: the unrestricted round trip is false, and two different
    strings get the same literal. *)
Theorem escape_quote_round_trip_refuted :
  exists s t, s <> t /\ escape_quote s "'" = escape_quote t "'" /\
    lex_quoted "'" (escape_quote s "'" ++ ["'"%char]) <> Some (s, []).
Proof. exact escape_quote_round_trip_refuted_pf. Qed.
Print Assumptions escape_quote_round_trip_refuted.

(** Finding: where the server gives backslash an escaping role (MySQL's
    default), escaped text can terminate its literal early. *)
Theorem escape_quote_backslash_refuted :
  exists s v r, lex_quoted_backslash "'" (escape_quote s "'" ++ B "'") = Some (v, r) /\ r <> [].
Proof. exact escape_quote_backslash_refuted_pf. Qed.
Print Assumptions escape_quote_backslash_refuted.

(** C03: a quoted identifier is one identifier token. *)
Theorem quote_identifier_token : forall (d : dialect) (s rest : bytes),
  may_follow d rest ->
  exists name, read_identifier d (quote_identifier d s ++ rest) = Some (name, rest).
Proof. exact quote_identifier_token_pf. Qed.
Print Assumptions quote_identifier_token.

(** C03: naming the given identifier, unless it contains two adjacent closing
    quotes followed by further text. *)
Theorem quote_identifier_names : forall (d : dialect) (s rest : bytes),
  ~ has_inner_pair (snd (identifier_quotes d)) s -> may_follow d rest ->
  read_identifier d (quote_identifier d s ++ rest) = Some (s, rest).
Proof. exact quote_identifier_names_pf. Qed.
Print Assumptions quote_identifier_names.
Example quote_identifier_names_ex :
  ~ has_inner_pair (snd (identifier_quotes DSQLServer)) (B "a]; DROP") /\
  may_follow DSQLServer (B ".x") /\
  quote_identifier DSQLServer (B "a]; DROP") = B "[a]]; DROP]".
Proof.
  split; [|split; [split; [reflexivity|vm_compute; discriminate]|vm_compute; reflexivity]].
  intros [a [x [b H]]]. revert H.
  do 9 (destruct a as [|? a]; [cbn; intro; discriminate|]). cbn. intro; discriminate.
Qed.

(** C03: it is left bare exactly if it matches [a-z_][a-z0-9_]*. *)
Theorem quote_identifier_bare : forall (d : dialect) (s : bytes),
  (quote_identifier d s = s <-> is_bare s = true).
Proof. exact quote_identifier_bare_pf. Qed.
Print Assumptions quote_identifier_bare.

Theorem quote_identifier_injective_thm : forall (d : dialect) (s t : bytes),
  ~ has_inner_pair (snd (identifier_quotes d)) s ->
  ~ has_inner_pair (snd (identifier_quotes d)) t ->
  quote_identifier d s = quote_identifier d t -> s = t.
Proof. exact quote_identifier_injective_pf. Qed.
Print Assumptions quote_identifier_injective_thm.

(** C03, finding: reserved words are left bare. *)
Theorem quote_identifier_reserved_refuted : forall (d : dialect) (w : bytes),
  In w reserved_words -> quote_identifier d w = w.
Proof. exact quote_identifier_reserved_pf. Qed.
Print Assumptions quote_identifier_reserved_refuted.

(** The list literals spliced into the introspection queries (printList) are
    lists of complete string literals, one per element, in order. *)
Theorem print_list_literals : forall strs : list bytes,
  lex_string_list (print_list strs) (map (collapse "'") strs).
Proof. exact print_list_lex. Qed.
Print Assumptions print_list_literals.
Example print_list_literals_ex : print_list [B "public"; B "o'b"] = B "'public', 'o''b'".
Proof. vm_compute; reflexivity. Qed.
