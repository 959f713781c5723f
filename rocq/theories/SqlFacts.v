(** * SqlFacts: lemmas about SpecSql *)
From Coq Require Import Lia.
From Verif Require Import GoBase GoBaseFacts QuoteModel SpecLex SpecIdent SpecSql EffectModel SpecText QuoteFacts QuotePf.

(** ** Lexing *)
Lemma lex_quoted_shorter : forall q n s v r, length s <= n -> lex_quoted q s = Some (v, r) -> length r < length s.
Proof.
  intros q. induction n as [|n IH]; intros s v r L H.
  - destruct s; [discriminate|cbn in L; lia].
  - destruct s as [|c s]; [discriminate|]. cbn [lex_quoted] in H. cbn [length] in *. destruct (Ascii.eqb c q).
    + destruct s as [|c2 s2].
      * assert (r = []) by congruence. subst. cbn. lia.
      * destruct (Ascii.eqb c2 q).
        -- destruct (lex_quoted q s2) as [[v' r']|] eqn:E; [|discriminate]. assert (r' = r) by congruence. subst r'.
           cbn [length] in *. apply IH in E; lia.
        -- assert (r = c2 :: s2) by congruence. subst r. lia.
    + destruct (lex_quoted q s) as [[v' r']|] eqn:E; [|discriminate]. assert (r' = r) by congruence. subst r'.
      apply IH in E; lia.
Qed.
Lemma take_word_shorter : forall s w r, take_word s = (w, r) -> length r <= length s.
Proof.
  induction s as [|c s IH]; intros w r H; cbn [take_word] in H.
  - assert (r = []) by congruence. subst. lia.
  - destruct (word_char c).
    + destruct (take_word s) as [w' r'] eqn:E. assert (r' = r) by congruence. subst r'. specialize (IH _ _ eq_refl). cbn [length]. lia.
    + assert (r = c :: s) by congruence. subst. lia.
Qed.
Lemma lex_enough : forall d n s f1 f2, length s <= n -> length s <= f1 -> length s <= f2 -> lex d f1 s = lex d f2 s.
Proof.
  intros d. induction n as [|n IH]; intros s f1 f2 L L1 L2.
  - destruct s; [|cbn in L; lia]. destruct f1, f2; reflexivity.
  - destruct s as [|c s]; [destruct f1, f2; reflexivity|]. cbn [length] in *.
    destruct f1 as [|f1]; [lia|]. destruct f2 as [|f2]; [lia|]. cbn [lex].
    destruct (blank c); [apply IH; lia|].
    destruct (Ascii.eqb c (fst (identifier_quotes d))).
    { destruct (lex_quoted (snd (identifier_quotes d)) s) as [[v r]|] eqn:E; [|reflexivity].
      apply lex_quoted_shorter with (n := length s) in E; [|lia]. f_equal. apply IH; lia. }
    destruct (string_quote d c).
    { destruct (lex_quoted c s) as [[v r]|] eqn:E; [|reflexivity].
      apply lex_quoted_shorter with (n := length s) in E; [|lia]. f_equal. apply IH; lia. }
    destruct (comment_start c s); [reflexivity|].
    destruct (word_char c) eqn:W.
    { cbn [take_word]. rewrite W. destruct (take_word s) as [w r] eqn:E. apply take_word_shorter in E. f_equal. apply IH; lia. }
    f_equal. apply IH; lia.
Qed.
Lemma tokens_cons : forall d c s, tokens d (c :: s) =
  if blank c then tokens d s
  else if Ascii.eqb c (fst (identifier_quotes d)) then
    match lex_quoted (snd (identifier_quotes d)) s with
    | Some (n, r) => cons_tok (TName n) (tokens d r)
    | None => None
    end
  else if string_quote d c then
    match lex_quoted c s with
    | Some (v, r) => cons_tok (TStr v) (tokens d r)
    | None => None
    end
  else if comment_start c s then None
  else if word_char c then let (w, r) := take_word (c :: s) in cons_tok (TWord w) (tokens d r)
  else cons_tok (TSym c) (tokens d s).
Proof.
  intros d c s. unfold tokens. cbn [length lex].
  destruct (blank c); [reflexivity|].
  destruct (Ascii.eqb c (fst (identifier_quotes d))).
  { destruct (lex_quoted (snd (identifier_quotes d)) s) as [[v r]|] eqn:E; [|reflexivity].
    apply lex_quoted_shorter with (n := length s) in E; [|lia]. f_equal. apply (lex_enough d (length r)); lia. }
  destruct (string_quote d c).
  { destruct (lex_quoted c s) as [[v r]|] eqn:E; [|reflexivity].
    apply lex_quoted_shorter with (n := length s) in E; [|lia]. f_equal. apply (lex_enough d (length r)); lia. }
  destruct (comment_start c s); [reflexivity|].
  destruct (word_char c) eqn:W; [|reflexivity].
  cbn [take_word]. rewrite W. destruct (take_word s) as [w r] eqn:E. apply take_word_shorter in E. f_equal. apply (lex_enough d (length r)); lia.
Qed.

(** Characters at which a token before them ends. *)
Definition separator (c : ascii) : bool :=
  blank c || Ascii.eqb c "(" || Ascii.eqb c ")" || Ascii.eqb c "," || Ascii.eqb c ".".
Definition sep_start (s : bytes) : Prop := match s with [] => True | c :: _ => separator c = true end.
Lemma separator_cases : forall (P : ascii -> Prop), P " "%char -> P (chr 9) -> P (chr 10) -> P (chr 13) ->
  P "("%char -> P ")"%char -> P ","%char -> P "."%char -> forall c, separator c = true -> P c.
Proof.
  intros P H1 H2 H3 H4 H5 H6 H7 H8 c H.
  destruct c as [b0 b1 b2 b3 b4 b5 b6 b7]; destruct b0, b1, b2, b3, b4, b5, b6, b7; try discriminate H; assumption.
Qed.
Lemma sep_not_word : forall c, separator c = true -> word_char c = false.
Proof. apply separator_cases; reflexivity. Qed.
Lemma sep_not_close : forall d c, separator c = true -> Ascii.eqb c (snd (identifier_quotes d)) = false.
Proof. intros d. destruct d; apply separator_cases; reflexivity. Qed.
Lemma sep_not_open : forall d c, separator c = true -> Ascii.eqb c (fst (identifier_quotes d)) = false.
Proof. intros d. destruct d; apply separator_cases; reflexivity. Qed.
Lemma sep_not_quote : forall d c, separator c = true -> string_quote d c = false.
Proof. intros d. destruct d; apply separator_cases; reflexivity. Qed.
Lemma sep_not_comment : forall c s, separator c = true -> comment_start c s = false.
Proof. intros c s H. unfold comment_start. revert c H. apply separator_cases; reflexivity. Qed.
Lemma sep_not_dash : forall c, separator c = true -> Ascii.eqb c "-" = false /\ Ascii.eqb c "*" = false.
Proof. apply separator_cases; split; reflexivity. Qed.

Lemma lex_quoted_app : forall q n s v r b, length s <= n -> lex_quoted q s = Some (v, r) ->
  match b with [] => True | c :: _ => Ascii.eqb c q = false end -> lex_quoted q (s ++ b) = Some (v, r ++ b).
Proof.
  intros q. induction n as [|n IH]; intros s v r b L H N.
  - destruct s; [discriminate|cbn in L; lia].
  - destruct s as [|c s]; [discriminate|]. cbn [lex_quoted app] in *. cbn [length] in L. destruct (Ascii.eqb c q).
    + destruct s as [|c2 s2]; cbn [app].
      * assert (r = [] /\ v = []) as [-> ->] by (split; congruence). destruct b as [|c2 b]; [reflexivity|]. now rewrite N.
      * destruct (Ascii.eqb c2 q).
        -- destruct (lex_quoted q s2) as [[v' r']|] eqn:E; [|discriminate]. cbn [length] in L. rewrite (IH s2 v' r' b ltac:(lia) E N).
           assert (v = q :: v' /\ r = r') as [-> ->] by (split; congruence). reflexivity.
        -- assert (r = c2 :: s2 /\ v = []) as [-> ->] by (split; congruence). reflexivity.
    + destruct (lex_quoted q s) as [[v' r']|] eqn:E; [|discriminate]. rewrite (IH s v' r' b ltac:(lia) E N).
      assert (v = c :: v' /\ r = r') as [-> ->] by (split; congruence). reflexivity.
Qed.
Lemma take_word_sep : forall s w r b, take_word s = (w, r) -> sep_start b -> take_word (s ++ b) = (w, r ++ b).
Proof.
  induction s as [|c s IH]; intros w r b H N; cbn [take_word app] in *.
  - assert (r = [] /\ w = []) as [-> ->] by (split; congruence). destruct b as [|c b]; [reflexivity|]. cbn [take_word app].
    cbn [sep_start] in N. now rewrite (sep_not_word _ N).
  - destruct (word_char c).
    + destruct (take_word s) as [w' r'] eqn:E. assert (r' = r /\ w = c :: w') as [-> ->] by (split; congruence).
      now rewrite (IH _ _ b eq_refl N).
    + assert (r = c :: s /\ w = []) as [-> ->] by (split; congruence). reflexivity.
Qed.
Lemma option_map_cons_app : forall t (ta : list tok) o,
  cons_tok t (option_map (app ta) o) = option_map (app (t :: ta)) o.
Proof. intros t ta [l|]; reflexivity. Qed.
Lemma cons_tok_some : forall t o l, cons_tok t o = Some l -> exists l', o = Some l' /\ l = t :: l'.
Proof. intros t [l'|] l H; [|discriminate]. exists l'. split; [reflexivity|]. unfold cons_tok in H. cbn in H. congruence. Qed.
Lemma tokens_app : forall d a ta b, tokens d a = Some ta -> sep_start b -> tokens d (a ++ b) = option_map (app ta) (tokens d b).
Proof.
  intros d a ta b H N. revert ta H. remember (length a) as n eqn:Ln. assert (L : length a <= n) by lia. clear Ln. revert a L.
  induction n as [|n IH]; intros a L ta H.
  - destruct a; [|cbn in L; lia]. assert (ta = []) by (unfold tokens in H; cbn in H; congruence). subst. destruct (tokens d ([] ++ b)) eqn:E; cbn [app] in *; now rewrite E.
  - destruct a as [|c a].
    { assert (ta = []) by (unfold tokens in H; cbn in H; congruence). subst. cbn [app]. destruct (tokens d b); reflexivity. }
    cbn [length] in L. cbn [app]. rewrite tokens_cons in H |- *. destruct (blank c); [apply IH; [lia|exact H]|].
    destruct (Ascii.eqb c (fst (identifier_quotes d))).
    { destruct (lex_quoted (snd (identifier_quotes d)) a) as [[v r]|] eqn:E; [|discriminate].
      rewrite (lex_quoted_app _ (length a) _ _ _ b (le_n _) E).
      2:{ destruct b; [exact I|now apply sep_not_close]. }
      apply lex_quoted_shorter with (n := length a) in E; [|lia]. apply cons_tok_some in H. destruct H as (l' & H & ->).
      rewrite (IH r ltac:(lia) _ H). apply option_map_cons_app. }
    destruct (string_quote d c) eqn:SQ.
    { destruct (lex_quoted c a) as [[v r]|] eqn:E; [|discriminate].
      rewrite (lex_quoted_app _ (length a) _ _ _ b (le_n _) E).
      2:{ destruct b as [|c2 b]; [exact I|]. cbn [sep_start] in N. apply (sep_not_quote d) in N.
          destruct (Ascii.eqb_spec c2 c) as [->|]; [congruence|reflexivity]. }
      apply lex_quoted_shorter with (n := length a) in E; [|lia]. apply cons_tok_some in H. destruct H as (l' & H & ->).
      rewrite (IH r ltac:(lia) _ H). apply option_map_cons_app. }
    destruct (comment_start c a) eqn:CS; [discriminate|].
    assert (CS' : comment_start c (a ++ b) = false).
    { destruct a as [|c2 a]; [|exact CS]. cbn [app]. destruct b as [|c2 b]; [exact CS|]. cbn [sep_start] in N. unfold comment_start, starts_with.
      destruct (sep_not_dash _ N) as [-> ->]. now rewrite !andb_false_r. }
    rewrite CS'. destruct (word_char c) eqn:W.
    { change (c :: a ++ b) with ((c :: a) ++ b). destruct (take_word (c :: a)) as [w r] eqn:E.
      rewrite (take_word_sep _ _ _ b E N). cbn [take_word] in E. rewrite W in E. destruct (take_word a) as [w' r'] eqn:E'.
      assert (r' = r) by congruence. subst r'. apply take_word_shorter in E'.
      apply cons_tok_some in H. destruct H as (l' & H & ->).
      rewrite (IH r ltac:(lia) _ H). apply option_map_cons_app. }
    apply cons_tok_some in H. destruct H as (l' & H & ->). rewrite (IH a ltac:(lia) _ H). apply option_map_cons_app.
Qed.
Lemma toks_app : forall d a ta b tb, tokens d a = Some ta -> tokens d b = Some tb -> sep_start b -> tokens d (a ++ b) = Some (ta ++ tb).
Proof. intros d a ta b tb Ha Hb N. now rewrite (tokens_app _ _ _ _ Ha N), Hb. Qed.
Lemma sep_start_app : forall a b, sep_start a -> sep_start b -> sep_start (a ++ b).
Proof. intros [|c a] b Ha Hb; [exact Hb|exact Ha]. Qed.
(** A separator before anything. *)
Lemma toks_blank : forall d c s, blank c = true -> tokens d (c :: s) = tokens d s.
Proof. intros d c s H. now rewrite tokens_cons, H. Qed.
Lemma toks_sym : forall d c s ts, In c ["("; ")"; ","; "."]%char -> tokens d s = Some ts -> tokens d (c :: s) = Some (TSym c :: ts).
Proof.
  intros d c s ts H E. rewrite tokens_cons. repeat (destruct H as [<-|H]; [destruct d; cbn; now rewrite E|]). destruct H.
Qed.

(** A quoted name is one token. *)
Definition name_tok (d : dialect) (n : bytes) : tok := if needs_quoting n then TName n else TWord n.
Lemma name_tok_name : forall d n, name_of (name_tok d n) = Some n.
Proof. intros d n. unfold name_tok. now destruct (needs_quoting n). Qed.

Lemma collapse_good : forall d n, good_name d n -> collapse (ident_close d) n = n.
Proof. intros d n H. apply collapse_id_iff. unfold good_name in H. now rewrite close_eq in H. Qed.
Lemma toks_name : forall d n, good_name d n -> tokens d (quote_identifier d n) = Some [name_tok d n].
Proof.
  intros d n G. unfold quote_identifier, name_tok. destruct (needs_quoting n) eqn:NQ.
  - cbn [app]. rewrite tokens_cons.
    assert (B0 : blank (ident_open d) = false) by (destruct d; reflexivity).
    assert (B1 : fst (identifier_quotes d) = ident_open d) by (destruct d; reflexivity).
    rewrite B0, B1, Ascii.eqb_refl, close_eq. change (escape_quote n (ident_close d) ++ [ident_close d]) with (escape_quote n (ident_close d) ++ ident_close d :: []).
    rewrite lex_quoted_escape by exact I. now rewrite (collapse_good d n G).
  - rewrite needs_quoting_is_bare in NQ. apply negb_false_iff in NQ. pose proof (is_bare_word _ NQ) as W.
    destruct n as [|c n]; [discriminate|]. cbn [is_bare] in NQ. apply andb_true_iff in NQ. destruct NQ as [E1 E2].
    rewrite tokens_cons.
    assert (X : blank c = false /\ Ascii.eqb c (fst (identifier_quotes d)) = false /\ string_quote d c = false /\ comment_start c n = false).
    { clear - E1. destruct c as [b0 b1 b2 b3 b4 b5 b6 b7]; destruct b0, b1, b2, b3, b4, b5, b6, b7; try discriminate E1; destruct d; repeat split. }
    destruct X as (-> & -> & -> & ->). rewrite (word_start_char _ (bare_start_word _ E1)).
    pose proof (take_word_app (c :: n) []) as T. rewrite app_nil_r in T. rewrite T; [reflexivity|exact W|exact I].
Qed.
