(** * Tokens: C35, C36, C37.  See SpecToken. *)
From Verif Require Import GoBase GoBaseFacts SpecSprintf TokenModel SpecToken TokenFacts.

(** ** C35: brace-quoted tokens *)
(** [cut_value] models both cutValue (package sq) and popBraceToken (package
    ddl), whose bodies are the same. *)
Theorem braced_token_survives : forall (b t rest : bytes), blanks b -> balanced t ->
  cut_value (b ++ B "{" ++ t ++ B "}" ++ rest) = Ok (t, rest).
Proof. intros. rewrite cut_blanks by assumption. apply cut_quoted_pf. assumption. Qed.
Print Assumptions braced_token_survives.
Theorem word_token_survives : forall (b t rest : bytes), blanks b -> word t -> t <> [] -> ~ starts_with "{" t ->
  after_word rest -> cut_value (b ++ t ++ rest) = Ok (t, rest).
Proof. intros. rewrite cut_blanks by assumption. apply cut_unquoted; assumption. Qed.
Print Assumptions word_token_survives.
(** A text that starts with a brace either is a braced token followed by the
    rest, or an error; there is no other reading. *)
Theorem braced_token_only : forall (s t rest : bytes),
  cut_value (B "{" ++ s) = Ok (t, rest) <-> balanced t /\ s = t ++ B "}" ++ rest.
Proof.
  intros. split; [apply cut_quoted_conv|]. intros [H ->]. apply cut_quoted_pf. assumption.
Qed.
Print Assumptions braced_token_only.
Theorem unbalanced_is_error : forall s : bytes,
  (forall t rest, s = t ++ B "}" ++ rest -> ~ balanced t) -> exists e, cut_value (B "{" ++ s) = Err e.
Proof.
  intros s H. destruct (cut_value (B "{" ++ s)) as [[t rest]|e|] eqn:E; [|eauto|].
  - apply cut_quoted_conv in E. destruct E as [Hb Hs]. exfalso. exact (H _ _ Hs Hb).
  - exfalso. exact (cut_no_panic _ E).
Qed.
Print Assumptions unbalanced_is_error.
(** Whatever the input: the value is balanced, nothing but leading bytes (and the
    braces) is removed, and there is no panic. *)
Theorem token_is_balanced : forall s t rest : bytes, cut_value s = Ok (t, rest) ->
  balanced t /\ exists pre, s = pre ++ t ++ rest \/ s = pre ++ B "{" ++ t ++ B "}" ++ rest.
Proof. intros. split; [eapply cut_value_balanced; eauto|apply cut_value_splits; assumption]. Qed.
Print Assumptions token_is_balanced.
Theorem token_never_panics : forall s : bytes, cut_value s <> Panic.
Proof. exact cut_no_panic. Qed.
Print Assumptions token_never_panics.
Lemma word_bytes s : forallb (fun c => (ord c <? 128)%N && negb (is_space (ord c)) && negb (Ascii.eqb c "{") && negb (Ascii.eqb c "}")) s = true -> word s.
Proof.
  induction s as [|c s IH]; cbn; [constructor|]. intros H. apply andb_prop in H. destruct H as [H H1].
  apply andb_prop in H. destruct H as [H H2]. apply andb_prop in H. destruct H as [H H3]. apply andb_prop in H. destruct H as [H H4].
  assert (E : c :: s = encode_rune (ord c) ++ s).
  { change (c :: s) with ([c] ++ s). f_equal. symmetry. apply Utf8Facts.encode_ascii. exact H. }
  rewrite E. constructor.
  - unfold scalar, in_range. apply N.ltb_lt in H. apply andb_true_iff. split; [apply N.ltb_lt|apply negb_true_iff, andb_false_iff; left; apply N.leb_gt].
    + eapply N.lt_trans; [exact H|now vm_compute].
    + eapply N.lt_trans; [exact H|now vm_compute].
  - now apply negb_true_iff.
  - intros X. apply ord_inj in X. subst. discriminate.
  - intros X. apply ord_inj in X. subst. discriminate.
  - auto.
Qed.
Lemma balanced_bytes s : forallb (fun c => negb (Ascii.eqb c "{") && negb (Ascii.eqb c "}")) s = true -> balanced s.
Proof.
  induction s as [|c s IH]; cbn; [constructor|]. intros H. apply andb_prop in H. destruct H as [H H1].
  apply andb_prop in H. destruct H as [H H2]. constructor; auto; intros ->; discriminate.
Qed.
Lemma one_space : blanks (B " ").
Proof. exists [32%N]. split; [reflexivity|]. constructor; [right; left; reflexivity|constructor]. Qed.
Example token_example :
  balanced (B "a {b c} d") /\
  cut_value (B " {a {b c} d} e") = Ok (B "a {b c} d", B " e") /\
  cut_value (B "x={a b}y z") = Ok (B "x={a b}y", B " z") /\
  cut_value (B "{a {b}") = Err (B "unclosed brace") /\ cut_value (B "a}") = Err (B "too many closing braces").
Proof.
  repeat split; try reflexivity.
  change (B "a {b c} d") with (B "a " ++ B "{" ++ B "b c" ++ B "}" ++ B " d").
  cbn. repeat (apply b_char; [discriminate|discriminate|]).
  apply (b_group (B "b c") (B " d")); apply balanced_bytes; reflexivity.
Qed.

(** ** C37: modifiers *)
Theorem modifiers_decode : forall (ms : list modifier) (s : bytes) (fuel : nat), mods_text ms s -> length s <= fuel ->
  lex_modifiers fuel s [] = LOk (map mod_pair ms) /\ tokenize_modifiers fuel s [] = LOk (map mod_pair ms).
Proof.
  intros ms s fuel H Hf. split; [rewrite (lex_modifiers_pf _ _ H) by assumption|rewrite (tokenize_modifiers_pf _ _ H) by assumption]; reflexivity.
Qed.
Print Assumptions modifiers_decode.
(** A value followed by modifiers: first a braced value, then a plain one. *)
Theorem value_and_modifiers_decode : forall (v : bytes) (ms : list modifier) (s : bytes) (fuel : nat),
  mods_text ms s -> length s <= fuel ->
  (balanced v -> lex_value fuel (B "{" ++ v ++ B "}" ++ s) = LOk (v, map mod_pair ms) /\
                 tokenize_value fuel (B "{" ++ v ++ B "}" ++ s) = LOk (v, map mod_pair ms)) /\
  (word v -> v <> [] -> ~ starts_with "{" v ->
     lex_value fuel (v ++ s) = LOk (v, map mod_pair ms) /\ tokenize_value fuel (v ++ s) = LOk (v, map mod_pair ms)).
Proof.
  intros v ms s fuel H Hf. destruct (modifiers_decode _ _ _ H Hf) as [E1 E2]. split.
  - intros Hb. unfold lex_value, tokenize_value. change (B "{" ++ v ++ B "}" ++ s) with ("{"%char :: v ++ "}"%char :: s).
    rewrite cut_quoted_pf by assumption. rewrite E1, E2. auto.
  - intros Hw Hn Hs. unfold lex_value, tokenize_value.
    rewrite cut_unquoted by (auto; eapply mods_after; eauto). rewrite E1, E2. auto.
Qed.
Print Assumptions value_and_modifiers_decode.
Definition ex_mods : list modifier := [MKey (B "notnull"); MVal (B "type") (B "TEXT"); MBraced (B "default") (B "'a b'")].
Example modifiers_example :
  mods_text ex_mods (B " notnull type=TEXT default={'a b'}") /\
  tokenize_modifiers 40 (B " notnull type=TEXT default={'a b'}") []
    = LOk [(B "notnull", []); (B "type", B "TEXT"); (B "default", B "'a b'")].
Proof.
  split; [|reflexivity].
  assert (K : forall k, forallb (fun c => (ord c <? 128)%N && negb (is_space (ord c)) && negb (Ascii.eqb c "{") && negb (Ascii.eqb c "}")) k = true ->
    k <> [] -> index_byte "=" k = None -> key_ok k).
  { intros k H1 H2 H3. split; [now apply word_bytes|]. split; [exact H2|]. split.
    - intros (t & ->). discriminate.
    - now apply index_byte_none. }
  apply (mt_cons (B " ") (MKey (B "notnull")) [MVal (B "type") (B "TEXT"); MBraced (B "default") (B "'a b'")] (B " type=TEXT default={'a b'}"));
    [apply one_space|discriminate|apply K; [reflexivity|discriminate|reflexivity]|].
  apply (mt_cons (B " ") (MVal (B "type") (B "TEXT")) [MBraced (B "default") (B "'a b'")] (B " default={'a b'}"));
    [apply one_space|discriminate| |].
  - split; [apply K; [reflexivity|discriminate|reflexivity]|]. split; [apply word_bytes; reflexivity|]. split; [discriminate|].
    intros (t & E). discriminate.
  - apply (mt_cons (B " ") (MBraced (B "default") (B "'a b'")) [] []);
      [apply one_space|discriminate| |constructor].
    split; [apply K; [reflexivity|discriminate|reflexivity]|]. apply balanced_bytes. reflexivity.
Qed.
(** Finding: "key=" panics (index out of range), in both packages. *)
Theorem empty_value_panics_refuted : forall k : bytes, key_ok k ->
  lex_modifiers (length k + 2) (k ++ B "=") [] = LPanic /\ tokenize_modifiers (length k + 2) (k ++ B "=") [] = LPanic.
Proof.
  intros k (Hw & Hn & Hs & Hq).
  assert (C : cut_value (k ++ B "=") = Ok (k ++ B "=", [])).
  { rewrite <- (app_nil_r (k ++ B "=")) at 1. apply cut_unquoted.
    - apply word_app; [exact Hw|]. apply word_eq. constructor.
    - destruct k; discriminate.
    - intros (t & E). destruct k as [|c k]; [congruence|]. inversion E; subst. apply Hs. now exists k.
    - left. reflexivity. }
  assert (S : split_modifier (k ++ B "=") = Panic).
  { unfold split_modifier. change (B "=") with ["="%char]. rewrite (index_byte_app _ _ []) by assumption.
    replace (skipn (S (length k)) (k ++ ["="%char])) with (@nil ascii); [reflexivity|].
    symmetry. apply skipn_all2. rewrite app_length. cbn. now rewrite Nat.add_1_r. }
  destruct k as [|c k]; [congruence|]. cbn [length plus]. split.
  - cbn [lex_modifiers app]. change (c :: k ++ B "=") with ((c :: k) ++ B "="). rewrite C, S. reflexivity.
  - cbn [tokenize_modifiers app]. change (c :: k ++ B "=") with ((c :: k) ++ B "="). rewrite C, S. reflexivity.
Qed.
Print Assumptions empty_value_panics_refuted.
(** Finding: white space that is not in the trimmed set, such as U+2003, makes
    both loops run forever: after any number of steps they have not ended.
    (In package sq the list of modifiers grows without bound.) *)
Theorem wide_space_diverges_refuted : forall (s : bytes) (fuel : nat),
  let text := encode_rune 8195%N ++ s in
  lex_modifiers fuel text [] = LDiverge /\ tokenize_modifiers fuel text [] = LDiverge.
Proof.
  intros s fuel text.
  assert (C : cut_value text = Ok ([], text)).
  { unfold cut_value, text. rewrite trim_encode by reflexivity. change (trimmable 8195%N) with false. cbv iota.
    change (encode_rune 8195%N) with [chr 226%N; chr 128%N; chr 131%N]. cbn [app].
    change (Ascii.eqb (chr 226%N) "{") with false.
    change (chr 226%N :: chr 128%N :: chr 131%N :: s) with (encode_rune 8195%N ++ s).
    unfold range_string. rewrite cut_after_word; [reflexivity| |reflexivity].
    right. exists 8195%N, s. repeat split; reflexivity. }
  assert (L : forall f acc, lex_modifiers f text acc = LDiverge).
  { induction f as [|f IH]; intros acc; [reflexivity|].
    assert (D : lex_modifiers (S f) text acc = match cut_value text with
      | Err _ => LErr | Panic => LPanic
      | Ok (value, rest') => match split_modifier value with Err _ => LErr | Panic => LPanic | Ok m => lex_modifiers f rest' (acc ++ [m]) end end) by reflexivity.
    rewrite D, C. cbn [split_modifier index_byte]. apply IH. }
  assert (T : forall f acc, tokenize_modifiers f text acc = LDiverge).
  { induction f as [|f IH]; intros acc; [reflexivity|].
    assert (D : tokenize_modifiers (S f) text acc = match cut_value text with
      | Err _ => LErr | Panic => LPanic
      | Ok (token, rest') => match token with [] => tokenize_modifiers f rest' acc
         | _ => match split_modifier token with Err _ => LErr | Panic => LPanic | Ok m => tokenize_modifiers f rest' (acc ++ [m]) end end end) by reflexivity.
    rewrite D, C. apply IH. }
  split; [apply L|apply T].
Qed.
Print Assumptions wide_space_diverges_refuted.
(** Finding: a trailing blank gives package sq an additional, empty modifier. *)
Theorem trailing_blank_refuted :
  lex_modifiers 20 (B "name=a ") [] = LOk [(B "name", B "a"); ([], [])] /\
  tokenize_modifiers 20 (B "name=a ") [] = LOk [(B "name", B "a")].
Proof. split; reflexivity. Qed.
Print Assumptions trailing_blank_refuted.

(** ** C36: argument lists *)
(** The complete description: the pieces joined by commas are the input; all but
    the last are arguments without a comma outside strings and brackets; and
    the last has no such comma either (but may be unterminated). *)
Theorem split_args_exact : forall (s : bytes) (l : list bytes),
  split_args s = l <->
  l <> [] /\ join_commas l = s /\ Forall arg (removelast l) /\ (forall a b, last l [] = a ++ B "," ++ b -> ~ arg a).
Proof. exact split_args_iff. Qed.
Print Assumptions split_args_exact.
Theorem split_args_loses_nothing : forall s : bytes, join_commas (split_args s) = s.
Proof. exact split_join_pf. Qed.
Print Assumptions split_args_loses_nothing.
Theorem split_args_of_joined : forall l : list bytes, l <> [] -> Forall arg l -> split_args (join_commas l) = l.
Proof.
  intros l Hn Hl. apply split_args_iff. split; [exact Hn|]. split; [reflexivity|].
  pose proof (app_removelast_last (A := bytes) [] Hn) as E. rewrite E in Hl. apply Forall_app in Hl. destruct Hl as [H1 H2].
  split; [exact H1|]. apply bsplit_none. inversion H2; subst.
  pose proof (bsplit_arg _ H3 []) as X. rewrite app_nil_r in X. rewrite X; [reflexivity|]. intros (t & Et). discriminate.
Qed.
Print Assumptions split_args_of_joined.
Example split_args_example :
  arg (B "f(a, b)") /\ arg (B " 'x, ''y'") /\
  split_args (B "f(a, b), 'x, ''y',ARRAY[1,2],z") = [B "f(a, b)"; B " 'x, ''y'"; B "ARRAY[1,2]"; B "z"].
Proof.
  split; [|split; [|reflexivity]].
  - cbn. apply arg_char; [cbn; intuition; discriminate|].
    apply (arg_paren (B "a, b") []); [|constructor].
    cbn. repeat (apply n_char; [discriminate|discriminate|]). constructor.
  - cbn. apply arg_char; [cbn; intuition; discriminate|].
    apply (arg_string (B "x, ''y") []); [|intros (t & E); discriminate|constructor].
    cbn. repeat (apply sb_char; [discriminate|]). apply sb_quote. apply sb_char; [discriminate|]. constructor.
Qed.
(** Finding: strings inside brackets are not recognised.  A bracket in such a
    string ends (or prolongs) the expression, so that arguments are glued
    together or torn apart. *)
Theorem bracket_in_string_refuted :
  split_args (B "f(')', 1), x") = [B "f(')', 1), x"] /\
  split_args (B "f('(', 1), x, y") = [B "f('(', 1), x, y"] /\
  split_args (B "f(')', 'a,b')") = [B "f(')', 'a"; B "b')"].
Proof. repeat split. Qed.
Print Assumptions bracket_in_string_refuted.
