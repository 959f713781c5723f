(** * Facts about Sprint *)
From Verif Require Import GoBase GoBaseFacts SpecLex QuoteModel QuoteFacts SprintModel SpecSprint.
From Coq Require Import Lia ZifyBool ZifyNat ZifyN.

Lemma digit_word c : in_range 48 57 (ord c) = true -> word_char c = true.
Proof. unfold word_char. intro H. rewrite H. repeat rewrite orb_true_r. reflexivity. Qed.

Lemma format_uint_word n : forallb word_char (format_uint n) = true.
Proof.
  pose proof (format_uint_digits n) as H. induction H as [|c l Hc Hl IH]; [reflexivity|].
  cbn [forallb]. now rewrite digit_word.
Qed.

Lemma lex_literal_str pg s rest : after_literal rest ->
  lex_literal pg (quote_str s ++ rest) = Some (LStr (collapse "'" s), rest).
Proof.
  intros [Hw [Hq Hb]]. unfold quote_str.
  change (B "'" ++ escape_quote s "'" ++ B "'") with ("'"%char :: (escape_quote s "'" ++ ["'"%char])).
  cbn [app lex_literal]. rewrite Ascii.eqb_refl. rewrite <- app_assoc. cbn [app].
  rewrite lex_quoted_escape by assumption.
  unfold strip_prefix. rewrite Hb. destruct pg; reflexivity.
Qed.

Lemma collapse_noquote q t : ~ In q t -> collapse q t = t.
Proof.
  intro H. apply collapse_id_iff. intros [a [x [b E]]]. subst. apply H.
  apply in_or_app. right. now left.
Qed.

Lemma escape_quote_noquote q t : ~ In q t -> escape_quote t q = t.
Proof. intro H. rewrite escape_quote_unfold. now apply escape_noquote. Qed.

Lemma lex_literal_time pg t rest : ~ In "'"%char t -> after_literal rest ->
  lex_literal pg ((B "'" ++ t ++ B "'") ++ rest) = Some (LStr t, rest).
Proof.
  intros Ht Hr. pose proof (lex_literal_str pg t rest Hr) as H.
  unfold quote_str in H. rewrite escape_quote_noquote, collapse_noquote in H by assumption.
  exact H.
Qed.

Lemma lex_literal_bool pg b rest : after_literal rest ->
  lex_literal pg (show_bool b ++ rest) = Some (LBool b, rest).
Proof.
  intros [Hw [Hq Hb]].
  assert (T : take_word (show_bool b ++ rest) = (show_bool b, rest))
    by (apply take_word_app; [destruct b; reflexivity|assumption]).
  destruct b; cbn [show_bool B list_ascii_of_string app] in *; unfold lex_literal;
    cbn [Ascii.eqb Bool.eqb]; rewrite T, ?andb_false_r; reflexivity.
Qed.

Lemma lex_literal_null pg rest : after_literal rest ->
  lex_literal pg (B "NULL" ++ rest) = Some (LNull, rest).
Proof.
  intros [Hw [Hq Hb]].
  assert (T : take_word (B "NULL" ++ rest) = (B "NULL", rest))
    by (apply take_word_app; [reflexivity|assumption]).
  cbn [B list_ascii_of_string app] in *. unfold lex_literal. cbn [Ascii.eqb Bool.eqb].
  rewrite T, ?andb_false_r. reflexivity.
Qed.

Lemma digit_first_neq c x : in_range 48 57 (ord c) = true -> in_range 48 57 (ord x) = false ->
  Ascii.eqb c x = false.
Proof.
  intros A C. destruct (Ascii.eqb_spec c x); [subst; congruence|reflexivity].
Qed.

Lemma lex_literal_uint pg n rest : after_literal rest ->
  lex_literal pg (format_uint n ++ rest) = Some (LInt (Z.of_N n), rest).
Proof.
  intros [Hw [Hq Hb]].
  assert (T : take_word (format_uint n ++ rest) = (format_uint n, rest))
    by (apply take_word_app; [apply format_uint_word|assumption]).
  pose proof (decimal_value_format n) as V.
  pose proof (format_uint_digits n) as HD.
  pose proof (format_uint_nonempty n) as HN.
  destruct (format_uint n) as [|c w]; [contradiction|].
  inversion HD as [|? ? Hc Hd]; subst. cbn [app] in *. unfold lex_literal.
  rewrite (digit_first_neq c "'"), (digit_first_neq c "x"), (digit_first_neq c "-") by (assumption || reflexivity).
  rewrite andb_false_r. cbn [andb]. rewrite T.
  assert (W : forall k, in_range 48 57 (ord (hd "000"%char k)) = false -> beqb (c :: w) k = false).
  { intros k Hk. apply beqb_neq. intro E. subst k. cbn [hd] in Hk. congruence. }
  rewrite !W by reflexivity. now rewrite V.
Qed.

Lemma lex_literal_int pg z rest : after_literal rest ->
  lex_literal pg (format_int z ++ rest) = Some (LInt z, rest).
Proof.
  intro H. destruct z as [|p|p]; cbn [format_int].
  - exact (lex_literal_uint pg 0 rest H).
  - exact (lex_literal_uint pg (Npos p) rest H).
  - destruct H as [Hw [Hq Hb]]. cbn [app]. unfold lex_literal. cbn [Ascii.eqb Bool.eqb].
    rewrite andb_false_r. cbn [andb].
    rewrite take_word_app by (apply format_uint_word || assumption).
    rewrite decimal_value_format. reflexivity.
Qed.

Lemma lex_quoted_plain q s rest : ~ In q s -> not_starting_with q rest ->
  lex_quoted q (s ++ q :: rest) = Some (s, rest).
Proof.
  intros H Hr. pose proof (lex_quoted_escape q s rest Hr) as X.
  now rewrite escape_quote_noquote, collapse_noquote in X.
Qed.

Lemma strip_prefix_app p s : strip_prefix p (p ++ s) = Some s.
Proof.
  unfold strip_prefix.
  assert (has_prefix p (p ++ s) = true) as -> by
    (induction p as [|x p IH]; [reflexivity|]; cbn; now rewrite Ascii.eqb_refl, IH).
  f_equal. induction p; [reflexivity|assumption].
Qed.

Lemma lex_literal_blob_pg bs rest : after_literal rest ->
  lex_literal true ((B "'\x" ++ hex_encode bs ++ B "'::BYTEA") ++ rest) = Some (LBlob bs, rest).
Proof.
  intros _.
  replace ((B "'\x" ++ hex_encode bs ++ B "'::BYTEA") ++ rest)
    with ("'"%char :: ((B "\x" ++ hex_encode bs) ++ "'"%char :: (B "::BYTEA" ++ rest)))
    by (cbn [B list_ascii_of_string app]; rewrite <- app_assoc; reflexivity).
  cbn [lex_literal]. rewrite Ascii.eqb_refl.
  rewrite lex_quoted_plain.
  - rewrite strip_prefix_app. rewrite strip_prefix_app. now rewrite hex_decode_encode.
  - cbn [B list_ascii_of_string app]. intros [X|[X|X]]; try discriminate. now apply hex_encode_no_quote in X.
  - cbn. discriminate.
Qed.

Lemma lex_literal_blob bs rest : after_literal rest ->
  lex_literal false ((B "x'" ++ hex_encode bs ++ B "'") ++ rest) = Some (LBlob bs, rest).
Proof.
  intros [_ [Hq _]].
  replace ((B "x'" ++ hex_encode bs ++ B "'") ++ rest)
    with ("x"%char :: "'"%char :: (hex_encode bs ++ "'"%char :: rest))
    by (cbn [B list_ascii_of_string app]; rewrite <- app_assoc; reflexivity).
  unfold lex_literal. cbn [Ascii.eqb Bool.eqb negb andb skipn].
  rewrite lex_quoted_plain by (apply hex_encode_no_quote || assumption).
  now rewrite hex_decode_encode.
Qed.

Lemma is_postgres_true d : is_postgres d = true -> d = DPostgres.
Proof. destruct d; (reflexivity || discriminate). Qed.

Lemma denotes_deref d v l : denotes d v l -> pointable v = true ->
  sprint_at true d v = sprint_at false d v.
Proof.
  intros H P. destruct H; try reflexivity; try discriminate.
  cbn [sprint_at].
  destruct (valuer_of v) as [r|] eqn:Ev; [|reflexivity].
  destruct v; try discriminate; injection Ev as <-; try reflexivity;
    destruct valid; try reflexivity; discriminate.
Qed.

Lemma sprint_literal_pf d v l : denotes d v l -> forall rest, after_literal rest ->
  exists t, sprint d v = Ok t /\ lex_literal (is_postgres d) (t ++ rest) = Some (l, rest).
Proof.
  unfold sprint.
  induction 1; intros rest Hr; cbn [sprint_at sprint_valuer sprint_driver_value].
  all: try (eexists; split; [reflexivity|];
    first [ now apply lex_literal_null | now apply lex_literal_bool
          | now apply lex_literal_int | now apply lex_literal_uint
          | now apply lex_literal_time
          | rewrite lex_literal_str by assumption;
            match goal with H : ~ has_inner_pair _ _ |- _ =>
              apply collapse_id_iff in H; rewrite H end; reflexivity ]).
  - destruct (is_postgres d) eqn:E.
    + eexists; split; [reflexivity|]. now apply lex_literal_blob_pg.
    + eexists; split; [reflexivity|]. now apply lex_literal_blob.
  - now apply IHdenotes.
  - eexists; split; [reflexivity|].
    assert (is_postgres d = false) as -> by (destruct d; (reflexivity || contradiction)).
    now apply lex_literal_blob.
  - destruct (IHdenotes rest Hr) as [t [E1 E2]]. exists t. split; [|assumption].
    destruct (valuer_of v) as [r|] eqn:Ev.
    + rewrite <- E1.
      destruct v; try discriminate; injection Ev as <-; cbn [sprint_at sprint_valuer];
        try reflexivity; destruct valid; try reflexivity; discriminate.
    + now rewrite (denotes_deref d v l).
Qed.

(** Every string, whatever it contains, is one string literal. *)
Lemma sprint_string_contained_pf d s rest : after_literal rest ->
  exists t w, sprint d (GString s) = Ok t /\ lex_literal (is_postgres d) (t ++ rest) = Some (LStr w, rest).
Proof.
  intro H. exists (quote_str s), (collapse "'" s). split; [reflexivity|]. now apply lex_literal_str.
Qed.

(** Which values make Sprint panic: only nil pointers of a Valuer type. *)
Lemma sprint_panic_pf d v : sprint d v = Panic -> has_nil_valuer v = true.
Proof.
  unfold sprint. generalize false as b.
  induction v; intros b0; cbn [sprint_at has_nil_valuer]; intro H; try discriminate;
    try (destruct b0; discriminate); try (destruct valid; discriminate).
  - destruct (is_postgres d); discriminate.
  - eauto.
  - unfold sprint_valuer in H. destruct r as [g|]; [|discriminate].
    destruct g; discriminate.
  - destruct (valuer_of v) as [r|] eqn:Ev.
    + destruct b0; [eauto|]. unfold sprint_valuer in H. destruct r as [g|]; [|discriminate].
      destruct g; discriminate.
    + eauto.
  - destruct valuer; [reflexivity|]. cbn in H. discriminate.
Qed.
