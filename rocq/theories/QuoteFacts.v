(** * Facts about EscapeQuote and QuoteIdentifier *)
From Verif Require Import GoBase GoBaseFacts SpecLex QuoteModel.
From Coq Require Import Lia ZifyBool ZifyNat ZifyN.

(** The loop, byte by byte. *)
Fixpoint escape (q : ascii) (s : bytes) : bytes :=
  match s with
  | [] => []
  | c :: s' =>
    if Ascii.eqb c q then
      q :: q :: match s' with
                | c2 :: ((_ :: _) as s2) => if Ascii.eqb c2 q then escape q s2 else escape q s'
                | _ => escape q s'
                end
    else c :: escape q s'
  end.

Lemma escape_app_noquote q s t : ~ In q s -> escape q (s ++ t) = s ++ escape q t.
Proof.
  induction s as [|x s IH]; intro H; [reflexivity|]. cbn [escape app].
  destruct (Ascii.eqb_spec x q) as [E|E]; [exfalso; apply H; now left|].
  rewrite IH; [reflexivity|]. intro; apply H; now right.
Qed.

Lemma escape_noquote q s : ~ In q s -> escape q s = s.
Proof.
  intro H. rewrite <- (app_nil_r s) at 1. rewrite escape_app_noquote by assumption.
  cbn. apply app_nil_r.
Qed.

Lemma escape_loop_escape fuel q buf str :
  length str <= fuel -> escape_loop fuel q buf str = buf ++ escape q str.
Proof.
  revert buf str; induction fuel as [|f IH]; intros buf str Hl.
  - destruct str; [|simpl in Hl; lia]. reflexivity.
  - cbn [escape_loop].
    destruct (index_byte q str) as [i|] eqn:Ei.
    + apply index_byte_some in Ei. destruct Ei as [Hs [Hn Hi]].
      set (pre := firstn i str) in *. set (post := skipn (S i) str) in *.
      assert (Hlen : length post < length str) by (unfold post; rewrite skipn_length; lia).
      assert (Htail : skipn i str = q :: post).
      { rewrite Hs. replace i with (length pre) at 1
          by (unfold pre; rewrite firstn_length; lia).
        rewrite skipn_app, skipn_all, Nat.sub_diag. reflexivity. }
      rewrite Htail.
      assert (Hesc : escape q str = pre ++ escape q (q :: post)).
      { rewrite Hs at 1. now apply escape_app_noquote. }
      rewrite Hesc. cbn [escape]. rewrite Ascii.eqb_refl.
      cbn [length firstn skipn beqb]. rewrite Ascii.eqb_refl.
      destruct post as [|c2 [|c3 post']] eqn:Epost.
      * cbn [length Nat.ltb Nat.leb andb firstn beqb].
        rewrite IH by (simpl; lia). rewrite <- !app_assoc. reflexivity.
      * cbn [length Nat.ltb Nat.leb andb firstn beqb].
        rewrite IH by (simpl in *; lia). rewrite <- !app_assoc. reflexivity.
      * cbn [length firstn beqb skipn tl].
        change (Nat.ltb 2 (S (S (S (length post'))))) with true.
        cbn [andb]. rewrite andb_true_r.
        destruct (Ascii.eqb c2 q) eqn:E2; cbn [andb].
        -- rewrite IH by (simpl in *; lia). rewrite <- !app_assoc. reflexivity.
        -- rewrite IH by (simpl in *; lia). rewrite <- !app_assoc. reflexivity.
    + apply index_byte_none in Ei. now rewrite escape_noquote.
Qed.

Lemma escape_quote_unfold q s : escape_quote s q = escape q s.
Proof. unfold escape_quote. now rewrite escape_loop_escape. Qed.

Lemma lex_quoted_escape_aux q n : forall s rest, length s <= n ->
  not_starting_with q rest ->
  lex_quoted q (escape q s ++ q :: rest) = Some (collapse q s, rest).
Proof.
  induction n as [|n IH]; intros s rest Hl Hr.
  - destruct s; [|simpl in Hl; lia]. cbn. rewrite Ascii.eqb_refl.
    destruct rest as [|c r]; [reflexivity|]. simpl in Hr.
    destruct (Ascii.eqb_spec c q); [contradiction|reflexivity].
  - destruct s as [|c s].
    + apply (IH []); [simpl; lia|assumption].
    + cbn [escape collapse]. destruct (Ascii.eqb c q) eqn:Ec.
      * cbn [app lex_quoted]. rewrite Ascii.eqb_refl.
        assert (A : forall t, length t <= n ->
           match lex_quoted q (escape q t ++ q :: rest) with
           | Some (v, r) => Some (q :: v, r) | None => None end
           = Some (q :: collapse q t, rest)).
        { intros t Ht. now rewrite IH. }
        destruct s as [|c2 [|c3 s']]; try (apply A; simpl in *; lia).
        destruct (Ascii.eqb c2 q); apply A; simpl in *; lia.
      * cbn [app lex_quoted]. rewrite Ec. rewrite IH; [reflexivity|simpl in *; lia|assumption].
Qed.

Lemma lex_quoted_escape q s rest :
  not_starting_with q rest ->
  lex_quoted q (escape_quote s q ++ q :: rest) = Some (collapse q s, rest).
Proof. intro H. rewrite escape_quote_unfold. now apply lex_quoted_escape_aux with (n := length s). Qed.

Lemma collapse_length q s : length (collapse q s) <= length s.
Proof.
  remember (length s) as n eqn:E. revert s E.
  induction n as [n IH] using lt_wf_ind. intros s ->.
  destruct s as [|c s]; [simpl; lia|]. cbn [collapse].
  destruct (Ascii.eqb c q).
  - destruct s as [|c2 [|c3 s']]; [simpl; lia| |].
    + pose proof (IH 1 ltac:(simpl; lia) [c2] eq_refl). cbn [length] in *. lia.
    + destruct (Ascii.eqb c2 q).
      * pose proof (IH (length (c3::s')) ltac:(simpl; lia) (c3::s') eq_refl).
        cbn [length tl] in *. lia.
      * pose proof (IH (length (c2::c3::s')) ltac:(simpl; lia) (c2::c3::s') eq_refl).
        cbn [length tl] in *. lia.
  - pose proof (IH (length s) ltac:(simpl; lia) s eq_refl). cbn [length]. lia.
Qed.

Lemma collapse_id_iff q s : collapse q s = s <-> ~ has_inner_pair q s.
Proof.
  remember (length s) as n eqn:E. revert s E.
  induction n as [n IH] using lt_wf_ind. intros s ->.
  destruct s as [|c s].
  - split; [|reflexivity]. intros _ [a [x [b H]]]. destruct a; discriminate.
  - assert (Htl : forall t, s = t -> ~ (c = q /\ exists c3 r, t = q :: c3 :: r) ->
        (has_inner_pair q (c :: s) <-> has_inner_pair q s)).
    { intros t <- Hno. split; intros [a [x [b H]]].
      - destruct a as [|a0 a]; simpl in H; injection H as -> ->.
        + exfalso. apply Hno. split; [reflexivity|]. eauto.
        + exists a, x, b. reflexivity.
      - exists (c :: a), x, b. simpl. now rewrite H. }
    cbn [collapse]. destruct (Ascii.eqb_spec c q) as [Ec|Ec].
    + destruct s as [|c2 [|c3 s']].
      * subst c. split; [|reflexivity]. intros _ [a [x [b H]]].
        destruct a as [|? [|]]; discriminate.
      * subst c. cbn [collapse].
        split.
        -- intros _ [a [x [b H]]]. destruct a as [|? [|? [|]]]; discriminate.
        -- intros _. destruct (Ascii.eqb_spec c2 q); [subst|]; reflexivity.
      * cbn [tl]. destruct (Ascii.eqb_spec c2 q) as [E2|E2].
        -- split.
           ++ intro H. apply (f_equal (@length _)) in H. cbn [length] in H.
              pose proof (collapse_length q (c3::s')). cbn [length] in *. lia.
           ++ intro H. exfalso. apply H. exists [], c3, s'. now subst.
        -- rewrite (Htl _ eq_refl).
           2:{ intros [_ [? [? Hx]]]. injection Hx as Hx _. contradiction. }
           rewrite <- (IH (length (c2::c3::s')) ltac:(simpl; lia) _ eq_refl).
           subst c. split; [intro H; now injection H|intro H; now rewrite H].
    + rewrite (Htl _ eq_refl) by tauto.
      rewrite <- (IH (length s) ltac:(simpl; lia) _ eq_refl).
      split; [intro H; now injection H|intro H; now rewrite H].
Qed.

(** ** QuoteIdentifier *)
Lemma decode_rune_ascii c s : (ord c <? 128)%N = true -> decode_rune (c :: s) = (ord c, 1).
Proof. intro H. unfold decode_rune. now rewrite H. Qed.

Lemma decode_rune_nonascii_ge c s : (ord c <? 128)%N = false ->
  (128 <= fst (decode_rune (c :: s)))%N.
Proof.
  intro H. unfold decode_rune, in_range. rewrite H.
  repeat match goal with
  | |- context [if ?b then _ else _] => let E := fresh "E" in destruct b eqn:E
  | |- context [match ?s with [] => _ | _ :: _ => _ end] => destruct s
  end; cbn [fst]; unfold rune_error; try lia.
Qed.

Lemma needs_quoting_scan_bare i s : i > 0 ->
  needs_quoting_scan (range_from i 0 s) = negb (forallb bare_char s).
Proof.
  revert i; induction s as [|c s IH]; intros i Hi; [reflexivity|].
  cbn [range_from].
  destruct (ord c <? 128)%N eqn:E.
  - rewrite decode_rune_ascii by assumption. cbn [needs_quoting_scan].
    destruct i; [lia|]. cbn [Nat.eqb andb forallb].
    change (1 - 1) with 0. unfold bare_char at 1.
    destruct ((ord c =? 95)%N || in_range 48 57 (ord c) || in_range 97 122 (ord c)) eqn:F.
    + cbn [andb]. apply IH. lia.
    + reflexivity.
  - pose proof (decode_rune_nonascii_ge c s E) as G.
    destruct (decode_rune (c :: s)) as [r w]. cbn [fst] in G. cbn [needs_quoting_scan].
    destruct i; [lia|]. cbn [Nat.eqb andb forallb].
    unfold bare_char at 1, in_range.
    destruct ((r =? 95) || ((48 <=? r) && (r <=? 57)) || ((97 <=? r) && (r <=? 122)))%N eqn:F; [lia|].
    destruct ((ord c =? 95) || ((48 <=? ord c) && (ord c <=? 57)) || ((97 <=? ord c) && (ord c <=? 122)))%N eqn:F2; [lia|].
    reflexivity.
Qed.

Lemma needs_quoting_is_bare s : needs_quoting s = negb (is_bare s).
Proof.
  unfold needs_quoting, range_string. destruct s as [|c s]; [reflexivity|].
  cbn [is_empty orb is_bare range_from].
  destruct (ord c <? 128)%N eqn:E.
  - rewrite decode_rune_ascii by assumption. cbn [needs_quoting_scan Nat.eqb andb].
    change (1 - 1) with 0. rewrite needs_quoting_scan_bare by lia.
    unfold bare_start, in_range.
    destruct (forallb bare_char s);
      destruct ((48 <=? ord c) && (ord c <=? 57))%N eqn:F1;
      destruct (ord c =? 95)%N eqn:F2;
      destruct ((97 <=? ord c) && (ord c <=? 122))%N eqn:F3; try reflexivity; lia.
  - pose proof (decode_rune_nonascii_ge c s E) as G.
    destruct (decode_rune (c :: s)) as [r w]. cbn [fst] in G. cbn [needs_quoting_scan].
    cbn [Nat.eqb andb]. unfold bare_start, in_range.
    destruct ((48 <=? r) && (r <=? 57))%N eqn:F0; [lia|].
    destruct ((r =? 95) || false || ((97 <=? r) && (r <=? 122)))%N eqn:F; [lia|].
    destruct ((ord c =? 95) || ((97 <=? ord c) && (ord c <=? 122)))%N eqn:F2; [lia|].
    reflexivity.
Qed.

Lemma bare_char_word c : bare_char c = true -> word_char c = true.
Proof.
  unfold bare_char, word_char, in_range. intro H.
  repeat rewrite orb_true_iff in *. tauto.
Qed.
Lemma bare_start_word c : bare_start c = true -> word_start c = true.
Proof.
  unfold bare_start, word_start, in_range. intro H.
  repeat rewrite orb_true_iff in *. tauto.
Qed.
Lemma word_start_char c : word_start c = true -> word_char c = true.
Proof.
  unfold word_start, word_char. intro H. repeat rewrite orb_true_iff in *. tauto.
Qed.

Lemma take_word_app w rest :
  forallb word_char w = true -> ends_word rest -> take_word (w ++ rest) = (w, rest).
Proof.
  induction w as [|c w IH]; cbn [forallb app]; intros H Hr.
  - destruct rest as [|c r]; [reflexivity|]. cbn in Hr |- *. now rewrite Hr.
  - apply andb_true_iff in H. destruct H as [H1 H2]. cbn [take_word].
    rewrite H1, IH by assumption. reflexivity.
Qed.

Lemma is_bare_word s : is_bare s = true -> forallb word_char s = true.
Proof.
  destruct s as [|c s]; [discriminate|]. cbn [is_bare forallb]. intro H.
  apply andb_true_iff in H. destruct H as [H1 H2].
  rewrite (word_start_char c) by now apply bare_start_word. cbn [andb].
  rewrite forallb_forall in *. intros x Hx. apply bare_char_word. auto.
Qed.

(** May follow an identifier token of dialect [d]. *)
Definition after_ident (d : dialect) (rest : bytes) : Prop :=
  ends_word rest /\ not_starting_with (ident_close d) rest.

Lemma quote_identifier_lex d s rest :
  after_ident d rest ->
  lex_ident (ident_open d) (ident_close d) (quote_identifier d s ++ rest)
  = Some ((if is_bare s then s else collapse (ident_close d) s), rest).
Proof.
  intros [Hw Hq]. unfold quote_identifier. rewrite needs_quoting_is_bare.
  destruct (is_bare s) eqn:Eb; cbn [negb].
  - destruct s as [|c s]; [discriminate|].
    pose proof (is_bare_word _ Eb) as Hword.
    cbn [is_bare] in Eb. apply andb_true_iff in Eb. destruct Eb as [E1 E2].
    unfold lex_ident. cbn [app].
    destruct (Ascii.eqb_spec c (ident_open d)) as [E|E].
    + exfalso. subst c. destruct d; discriminate.
    + rewrite (bare_start_word _ E1).
      change (c :: s ++ rest) with ((c :: s) ++ rest).
      rewrite take_word_app by assumption. reflexivity.
  - unfold lex_ident. cbn [app]. rewrite Ascii.eqb_refl.
    rewrite <- app_assoc. now apply lex_quoted_escape.
Qed.

Lemma is_bare_no_inner_pair d s : is_bare s = true -> ~ has_inner_pair (ident_close d) s.
Proof.
  intros Hb [a [x [b H]]]. subst s.
  apply is_bare_word in Hb. rewrite forallb_forall in Hb.
  specialize (Hb (ident_close d)).
  assert (word_char (ident_close d) = true) as W
    by (apply Hb; apply in_or_app; right; now left).
  destruct d; discriminate.
Qed.

Lemma quote_identifier_lex_exact d s rest :
  ~ has_inner_pair (ident_close d) s -> after_ident d rest ->
  lex_ident (ident_open d) (ident_close d) (quote_identifier d s ++ rest) = Some (s, rest).
Proof.
  intros Hp Hr. rewrite quote_identifier_lex by assumption.
  apply collapse_id_iff in Hp. rewrite Hp. now destruct (is_bare s).
Qed.

Lemma quote_identifier_injective d s t :
  ~ has_inner_pair (ident_close d) s -> ~ has_inner_pair (ident_close d) t ->
  quote_identifier d s = quote_identifier d t -> s = t.
Proof.
  intros Hs Ht E.
  pose proof (quote_identifier_lex_exact d s [] Hs (conj I I)) as A.
  pose proof (quote_identifier_lex_exact d t [] Ht (conj I I)) as C.
  rewrite E, C in A. now injection A.
Qed.

Lemma escape_quote_injective q s t :
  ~ has_inner_pair q s -> ~ has_inner_pair q t ->
  escape_quote s q = escape_quote t q -> s = t.
Proof.
  intros Hs Ht E. apply collapse_id_iff in Hs, Ht.
  pose proof (lex_quoted_escape q s [] I) as A.
  pose proof (lex_quoted_escape q t [] I) as C.
  rewrite E, C in A. injection A as A. congruence.
Qed.

(** printList *)
Fixpoint print_tail (strs : list bytes) : bytes :=
  match strs with
  | [] => []
  | s :: rest => B ", '" ++ escape_quote s "'" ++ B "'" ++ print_tail rest
  end.
Lemma print_list_from_S i strs : print_list_from (S i) strs = print_tail strs.
Proof.
  revert i; induction strs as [|s l IH]; intro i; [reflexivity|].
  cbn [print_list_from print_tail]. rewrite IH. reflexivity.
Qed.

Lemma print_list_lex strs :
  lex_string_list (print_list strs) (map (collapse "'") strs).
Proof.
  unfold print_list. destruct strs as [|s l]; [constructor|].
  cbn [print_list_from map Nat.ltb Nat.leb app]. rewrite print_list_from_S.
  revert s; induction l as [|t l IH]; intro s.
  - cbn [print_tail map app B list_ascii_of_string]. apply lsl_one. rewrite lex_quoted_escape; [reflexivity|exact I].
  - cbn [print_tail map].
    change (B "'" ++ escape_quote s "'" ++ B "'" ++ B ", '" ++ escape_quote t "'" ++ B "'" ++ print_tail l)
      with ("'"%char :: (escape_quote s "'" ++ "'"%char :: (B ", " ++ (B "'" ++ escape_quote t "'" ++ B "'" ++ print_tail l)))).
    eapply lsl_cons.
    + rewrite lex_quoted_escape; [reflexivity|]. cbn. discriminate.
    + cbn. discriminate.
    + apply IH.
Qed.

Lemma escape_quote_length q s : length s <= length (escape_quote s q).
Proof.
  rewrite escape_quote_unfold. remember (length s) as n eqn:E. revert s E.
  induction n as [n IH] using lt_wf_ind. intros s ->.
  destruct s as [|c s]; [cbn; lia|]. cbn [escape].
  destruct (Ascii.eqb c q).
  - destruct s as [|c2 [|c3 s2]].
    + cbn. lia.
    + cbn [length]. pose proof (IH 1 ltac:(cbn; lia) [c2] eq_refl). cbn [length] in *. lia.
    + destruct (Ascii.eqb c2 q); cbn [length].
      * pose proof (IH (S (length s2)) ltac:(cbn; lia) (c3 :: s2) eq_refl). lia.
      * pose proof (IH (S (S (length s2))) ltac:(cbn; lia) (c2 :: c3 :: s2) eq_refl). lia.
  - cbn [length]. pose proof (IH (length s) ltac:(cbn; lia) s eq_refl). lia.
Qed.
