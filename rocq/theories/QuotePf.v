(** * QuotePf: proofs of the statements in PropertiesQuote *)
From Verif Require Import GoBase GoBaseFacts QuoteModel SpecLex SpecIdent QuoteFacts.
From Coq Require Import Lia.

Lemma escape_quote_denotes_pf : forall (q : ascii) (s rest : bytes),
  not_starting_with q rest ->
  lex_quoted q (escape_quote s q ++ [q] ++ rest) = Some (collapse q s, rest).
Proof. intros. now apply lex_quoted_escape. Qed.

Lemma escape_quote_contained_pf : forall (q : ascii) (s rest : bytes),
  not_starting_with q rest ->
  exists v, lex_quoted q (escape_quote s q ++ [q] ++ rest) = Some (v, rest).
Proof. intros. eexists. now apply escape_quote_denotes_pf. Qed.

Lemma escape_quote_round_trip_pf : forall (q : ascii) (s rest : bytes),
  not_starting_with q rest ->
  (lex_quoted q (escape_quote s q ++ [q] ++ rest) = Some (s, rest) <-> ~ has_inner_pair q s).
Proof.
  intros q s rest H. rewrite escape_quote_denotes_pf by assumption. rewrite <- collapse_id_iff.
  split; [intro E; now injection E|now intros ->].
Qed.

Lemma escape_quote_round_trip_refuted_pf :
  exists s t, s <> t /\ escape_quote s "'" = escape_quote t "'" /\
    lex_quoted "'" (escape_quote s "'" ++ ["'"%char]) <> Some (s, []).
Proof.
  exists (B "a''b"), (B "a'b"). split; [discriminate|]. split; vm_compute; [reflexivity|discriminate].
Qed.

Lemma escape_quote_backslash_refuted_pf :
  exists s v r, lex_quoted_backslash "'" (escape_quote s "'" ++ B "'") = Some (v, r) /\ r <> [].
Proof.
  exists (B "\' OR 1=1 -- "), (B "'"), (B " OR 1=1 -- '"). split; [vm_compute; reflexivity|discriminate].
Qed.

Lemma read_identifier_eq d s : read_identifier d s = lex_ident (ident_open d) (ident_close d) s.
Proof. now destruct d. Qed.
Lemma close_eq d : snd (identifier_quotes d) = ident_close d.
Proof. now destruct d. Qed.

Lemma quote_identifier_token_pf : forall (d : dialect) (s rest : bytes),
  may_follow d rest ->
  exists name, read_identifier d (quote_identifier d s ++ rest) = Some (name, rest).
Proof.
  intros d s rest [H1 H2]. rewrite close_eq in H2. rewrite read_identifier_eq.
  eexists. apply quote_identifier_lex. now split.
Qed.

Lemma quote_identifier_names_pf : forall (d : dialect) (s rest : bytes),
  ~ has_inner_pair (snd (identifier_quotes d)) s -> may_follow d rest ->
  read_identifier d (quote_identifier d s ++ rest) = Some (s, rest).
Proof.
  intros d s rest Hp [H1 H2]. rewrite close_eq in *. rewrite read_identifier_eq.
  apply quote_identifier_lex_exact; [assumption|now split].
Qed.

Lemma quote_identifier_bare_pf : forall (d : dialect) (s : bytes),
  (quote_identifier d s = s <-> is_bare s = true).
Proof.
  intros d s. unfold quote_identifier. rewrite needs_quoting_is_bare.
  destruct (is_bare s) eqn:E; cbn [negb]; [tauto|].
  split; [|discriminate]. intro H. exfalso.
  apply (f_equal (@length ascii)) in H. rewrite !app_length in H. cbn in H.
  pose proof (escape_quote_length (ident_close d) s). lia.
Qed.

Lemma quote_identifier_injective_pf : forall (d : dialect) (s t : bytes),
  ~ has_inner_pair (snd (identifier_quotes d)) s ->
  ~ has_inner_pair (snd (identifier_quotes d)) t ->
  quote_identifier d s = quote_identifier d t -> s = t.
Proof. intros d s t. rewrite close_eq. apply quote_identifier_injective. Qed.

Lemma quote_identifier_reserved_pf : forall (d : dialect) (w : bytes),
  In w reserved_words -> quote_identifier d w = w.
Proof.
  intros d w H. cbn [reserved_words In] in H.
  repeat (destruct H as [<-|H]; [apply quote_identifier_bare_pf; vm_compute; reflexivity|]).
  contradiction.
Qed.
