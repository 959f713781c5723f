(** * TokenFacts: runes, braces, tokens *)
From Verif Require Import GoBase GoBaseFacts SpecSprintf Utf8Facts TokenModel SpecToken.
From Coq Require Import Lia ZifyBool ZifyNat ZifyN.
Ltac Zify.zify_post_hook ::= idtac.

Definition ascii_byte (c : ascii) : Prop := (ord c < 128)%N.
Definition high (c : ascii) : Prop := (128 <= ord c)%N.

(** What decode_rune does to a nonempty string. *)
Lemma decode_cases c s : let (r, w) := decode_rune (c :: s) in
  (ascii_byte c /\ r = ord c /\ w = 1) \/
  (high c /\ (128 <= r)%N /\ 1 <= w <= length (c :: s) /\ Forall high (firstn w (c :: s))).
Proof.
  unfold decode_rune, ascii_byte, high. destruct (ord c <? 128)%N eqn:E0.
  { apply N.ltb_lt in E0. left. auto. }
  apply N.ltb_ge in E0.
  assert (D : forall r, r = rune_error ->
    (128 <= ord c)%N /\ (128 <= r)%N /\ 1 <= 1 <= length (c :: s) /\ Forall (fun c => (128 <= ord c)%N) (firstn 1 (c :: s))).
  { intros r ->. unfold rune_error. cbn [length firstn]. repeat split; try lia. repeat constructor. lia. }
  unfold in_range.
  destruct ((194 <=? ord c)%N && (ord c <=? 223)%N) eqn:E1.
  { destruct s as [|c1 s]; [right; auto|].
    destruct ((128 <=? ord c1)%N && (ord c1 <=? 191)%N) eqn:E2; [|right; auto].
    right. cbn [length firstn]. repeat split; try lia. repeat constructor; lia. }
  destruct ((224 <=? ord c)%N && (ord c <=? 239)%N) eqn:E2.
  { destruct s as [|c1 [|c2 s]]; [right; auto|right; auto|].
    match goal with |- context[if ?b && ?d then _ else _] => destruct b eqn:E3; [destruct d eqn:E4|]; cbn [andb] end; [|right; auto..].
    right. cbn [length firstn]. destruct (ord c =? 224)%N eqn:E5; destruct (ord c =? 237)%N eqn:E6;
    repeat split; try lia; repeat constructor; lia. }
  destruct ((240 <=? ord c)%N && (ord c <=? 244)%N) eqn:E3; [|right; auto].
  destruct s as [|c1 [|c2 [|c3 s]]]; [right; auto..|].
  match goal with |- context[if ?b then _ else _] => lazymatch b with context[c3] => destruct b eqn:E4 end end; [|right; auto].
  right. cbn [length firstn]. destruct (ord c =? 240)%N eqn:E5; destruct (ord c =? 244)%N eqn:E6;
  repeat split; try lia; repeat constructor; lia.
Qed.

(** Reading a string rune by rune. *)
Inductive rune_at (s : bytes) : rune -> bytes -> bytes -> Prop :=
| ra_ascii c rest : s = c :: rest -> ascii_byte c -> decode_rune s = (ord c, 1) -> rune_at s (ord c) [c] rest
| ra_high r c chunk rest : s = c :: chunk ++ rest -> Forall high (c :: chunk) -> (128 <= r)%N ->
    decode_rune s = (r, length (c :: chunk)) -> rune_at s r (c :: chunk) rest.

Lemma rune_at_exists c s : exists r chunk rest, rune_at (c :: s) r chunk rest.
Proof.
  pose proof (decode_cases c s) as H. destruct (decode_rune (c :: s)) as [r w] eqn:E.
  destruct H as [(H1 & -> & ->)|(H1 & H2 & [H3 H3'] & H4)].
  - exists (ord c), [c], s. now apply ra_ascii.
  - destruct w as [|w]; [lia|]. cbn [firstn] in H4.
    exists r, (c :: firstn w s), (skipn w s). apply ra_high; auto.
    + f_equal. symmetry. apply firstn_skipn.
    + rewrite E. f_equal. cbn [length] in *. rewrite firstn_length. lia.
Qed.
Lemma rune_at_split s r chunk rest : rune_at s r chunk rest -> s = chunk ++ rest /\ chunk <> [] /\
  decode_rune s = (r, length chunk).
Proof. intros [c rest' E A D|r' c chunk' rest' E A H D]; subst; repeat split; auto; discriminate. Qed.

Lemma range_rune s r chunk rest i : rune_at s r chunk rest ->
  range_from i 0 s = (i, r, s) :: range_from (i + length chunk) 0 rest.
Proof.
  intros H. destruct (rune_at_split _ _ _ _ H) as (-> & Hn & D).
  destruct chunk as [|c chunk]; [congruence|]. cbn [app] in *. cbn [range_from]. rewrite D. f_equal.
  cbn [length]. replace (S (length chunk) - 1) with (length chunk) by lia.
  rewrite range_from_skip by reflexivity. f_equal. lia.
Qed.

Lemma rune_ind (P : bytes -> Prop) : P [] ->
  (forall s r chunk rest, rune_at s r chunk rest -> P rest -> P s) -> forall s, P s.
Proof.
  intros H0 HS s. remember (length s) as n eqn:E. revert s E.
  induction n as [n IH] using lt_wf_ind. intros [|c s] E; [exact H0|].
  destruct (rune_at_exists c s) as (r & chunk & rest & H). eapply HS; [exact H|].
  destruct (rune_at_split _ _ _ _ H) as (E' & Hn & _).
  eapply IH; [|reflexivity]. rewrite E, E', app_length. destruct chunk; [congruence|cbn; lia].
Qed.

(** ** Braces, byte by byte *)
(** The brace level after [s], from level [n]; None: it would get negative. *)
Fixpoint lv (n : nat) (s : bytes) : option nat :=
  match s with
  | [] => Some n
  | c :: s =>
    if Ascii.eqb c "{" then lv (S n) s
    else if Ascii.eqb c "}" then match n with 0 => None | S m => lv m s end
    else lv n s
  end.
Lemma lv_app a b : forall n, lv n (a ++ b) = match lv n a with Some m => lv m b | None => None end.
Proof.
  induction a as [|c a IH]; intros n; cbn; [reflexivity|].
  destruct (Ascii.eqb c "{"); [apply IH|]. destruct (Ascii.eqb c "}"); [destruct n; auto|apply IH].
Qed.
Lemma lv_balanced s : balanced s -> forall n, lv n s = Some n.
Proof.
  induction 1 as [|c s H1 H2 H IH|s t Hs IHs Ht IHt]; intros n; cbn; auto.
  - destruct (Ascii.eqb_spec c "{"); [congruence|]. destruct (Ascii.eqb_spec c "}"); [congruence|]. auto.
  - rewrite lv_app, IHs. cbn. auto.
Qed.
(** [s] closes [n] groups and is balanced after each. *)
Fixpoint closes (n : nat) (s : bytes) : Prop :=
  match n with
  | 0 => balanced s
  | S n => exists a b, s = a ++ "}"%char :: b /\ balanced a /\ closes n b
  end.
Lemma lv_closes s : forall n, lv n s = Some 0 -> closes n s.
Proof.
  induction s as [|c s IH]; intros n; cbn.
  - intros E. inversion E. constructor.
  - destruct (Ascii.eqb_spec c "{") as [->|N1].
    { intros E. apply IH in E. destruct E as (a & b & -> & Ha & Hb). destruct n as [|n]; cbn in *.
      - now apply b_group.
      - destruct Hb as (a' & b' & -> & Ha' & Hb'). exists ("{"%char :: a ++ "}"%char :: a'), b'.
        repeat split; auto. { cbn. rewrite <- app_assoc. reflexivity. } now apply b_group. }
    destruct (Ascii.eqb_spec c "}") as [->|N2].
    { destruct n as [|n]; [discriminate|]. intros E. apply IH in E. exists [], s. repeat split; auto. constructor. }
    intros E. apply IH in E. destruct n as [|n]; cbn in *; [now constructor|].
    destruct E as (a & b & -> & Ha & Hb). exists (c :: a), b. repeat split; auto. now constructor.
Qed.
Lemma balanced_lv s : balanced s <-> lv 0 s = Some 0.
Proof. split; [intros H; now apply lv_balanced|apply lv_closes]. Qed.

Lemma high_not_brace c : high c -> Ascii.eqb c "{" = false /\ Ascii.eqb c "}" = false.
Proof.
  intros H. unfold high in H. split; apply Ascii.eqb_neq; intros ->; revert H; vm_compute; intros H; apply H; reflexivity.
Qed.
Lemma lv_high chunk s n : Forall high chunk -> lv n (chunk ++ s) = lv n s.
Proof.
  induction 1 as [|c chunk Hc _ IH]; cbn; auto. destruct (high_not_brace c Hc) as [-> ->]. exact IH.
Qed.

(** The length of the text up to the brace that closes group [n] (from 1). *)
Fixpoint bclose (n : nat) (s : bytes) : option nat :=
  match s with
  | [] => None
  | c :: s =>
    if Ascii.eqb c "{" then option_map S (bclose (S n) s)
    else if Ascii.eqb c "}" then match n with 0 | 1 => Some 0 | S m => option_map S (bclose m s) end
    else option_map S (bclose n s)
  end.
Lemma bclose_some s : forall n k, bclose (S n) s = Some k ->
  exists t rest, s = t ++ "}"%char :: rest /\ length t = k /\ lv n t = Some 0.
Proof.
  induction s as [|c s IH]; intros n k; cbn; [discriminate|].
  destruct (Ascii.eqb_spec c "{") as [->|N1].
  { destruct (bclose (S (S n)) s) as [k'|] eqn:E; cbn; [|discriminate]. intros H. inversion H; subst.
    destruct (IH _ _ E) as (t & rest & -> & <- & Hl). exists ("{"%char :: t), rest. auto. }
  destruct (Ascii.eqb_spec c "}") as [->|N2].
  { destruct n as [|n].
    - intros H. inversion H; subst. exists [], s. auto.
    - destruct (bclose (S n) s) as [k'|] eqn:E; cbn; [|discriminate]. intros H. inversion H; subst.
      destruct (IH _ _ E) as (t & rest & -> & <- & Hl). exists ("}"%char :: t), rest. auto. }
  destruct (bclose (S n) s) as [k'|] eqn:E; cbn; [|discriminate]. intros H. inversion H; subst.
  destruct (IH _ _ E) as (t & rest & -> & <- & Hl). exists (c :: t), rest. repeat split; auto. cbn.
  apply Ascii.eqb_neq in N1, N2. now rewrite N1, N2.
Qed.
Lemma bclose_at t rest : forall n, lv n t = Some 0 -> bclose (S n) (t ++ "}"%char :: rest) = Some (length t).
Proof.
  induction t as [|c t IH]; intros n; cbn.
  - intros E. inversion E. reflexivity.
  - destruct (Ascii.eqb c "{"); [intros E; now rewrite (IH _ E)|].
    destruct (Ascii.eqb c "}"); [|intros E; now rewrite (IH _ E)].
    destruct n as [|n]; [discriminate|]. intros E. now rewrite (IH _ E).
Qed.
Lemma bclose_high chunk s n : Forall high chunk -> bclose n (chunk ++ s) = option_map (plus (length chunk)) (bclose n s).
Proof.
  induction 1 as [|c chunk Hc _ IH]; cbn; [destruct (bclose n s); reflexivity|].
  destruct (high_not_brace c Hc) as [-> ->]. rewrite IH. destruct (bclose n s); reflexivity.
Qed.

Lemma ord_eqb c d : (ord c =? R d)%N = Ascii.eqb c d.
Proof.
  unfold R. destruct (Ascii.eqb_spec c d) as [->|N]; [apply N.eqb_refl|].
  apply N.eqb_neq. intros E. apply N, ord_inj, E.
Qed.
Lemma high_eqb r d : (128 <= r)%N -> (ord d < 128)%N -> (r =? R d)%N = false.
Proof. intros H1 H2. unfold R. apply N.eqb_neq. lia. Qed.

Lemma cut_quoted s : forall i n split,
  cut_loop true (Z.of_nat (S n)) split (range_from i 0 s) =
  match bclose (S n) s with
  | Some k => Some (0%Z, i + k + 1)
  | None => Some (match lv (S n) s with Some m => Z.of_nat m | None => 0%Z end, match s with [] => split | _ => i + length s end)
  end.
Proof.
  induction s as [|s r chunk rest H IH] using rune_ind; intros i n split.
  - reflexivity.
  - rewrite (range_rune _ _ _ _ _ H). inversion H as [c rest' E Ha D|r' c chunk' rest' E Ha Hr D]; subst.
    + cbn [cut_loop]. rewrite D. cbn [snd]. rewrite !ord_eqb. cbn [bclose lv].
      destruct (Ascii.eqb c "{") eqn:E1.
      { replace (Z.of_nat (S n) + 1)%Z with (Z.of_nat (S (S n))) by lia.
        replace (Z.of_nat (S (S n)) <? 0)%Z with false by lia.
        replace (Z.of_nat (S (S n)) =? 0)%Z with false by lia. cbn [andb].
        rewrite IH. destruct (bclose (S (S n)) rest) as [k|]; cbn [option_map].
        - do 2 f_equal. cbn [length]. lia.
        - f_equal. f_equal. destruct rest; cbn [length]; lia. }
      destruct (Ascii.eqb c "}") eqn:E2.
      { replace (Z.of_nat (S n) - 1)%Z with (Z.of_nat n) by lia.
        replace (Z.of_nat n <? 0)%Z with false by lia.
        destruct n as [|n].
        - cbn. do 2 f_equal. cbn [length]. lia.
        - replace (Z.of_nat (S n) =? 0)%Z with false by lia. cbn [andb].
          rewrite IH. destruct (bclose (S n) rest) as [k|]; cbn [option_map].
          + do 2 f_equal. cbn [length]. lia.
          + f_equal. f_equal. destruct rest; cbn [length]; lia. }
      replace (Z.of_nat (S n) <? 0)%Z with false by lia.
      replace (Z.of_nat (S n) =? 0)%Z with false by lia. cbn [andb].
      rewrite IH. destruct (bclose (S n) rest) as [k|]; cbn [option_map].
      * do 2 f_equal. cbn [length]. lia.
      * f_equal. f_equal. destruct rest; cbn [length]; lia.
    + cbn [cut_loop]. rewrite D. cbn [snd]. rewrite !high_eqb by (auto; reflexivity).
      replace (Z.of_nat (S n) <? 0)%Z with false by lia.
      replace (Z.of_nat (S n) =? 0)%Z with false by lia. cbn [andb].
      rewrite IH. change (c :: chunk' ++ rest) with ((c :: chunk') ++ rest).
      rewrite bclose_high, lv_high by assumption.
      destruct (bclose (S n) rest) as [k|]; cbn [option_map].
      * do 2 f_equal. cbn [length]. lia.
      * f_equal. f_equal. cbn [app length]. rewrite app_length. destruct rest; cbn [length]; lia.
Qed.
Lemma bclose_none s : forall n, bclose (S n) s = None -> exists m, lv (S n) s = Some (S m).
Proof.
  induction s as [|c s IH]; intros n; cbn; [eauto|].
  destruct (Ascii.eqb c "{").
  { destruct (bclose (S (S n)) s) eqn:E; [discriminate|]. intros _. now apply IH. }
  destruct (Ascii.eqb c "}").
  { destruct n as [|n]; [discriminate|]. destruct (bclose (S n) s) eqn:E; [discriminate|]. intros _. now apply IH. }
  destruct (bclose (S n) s) eqn:E; [discriminate|]. intros _. now apply IH.
Qed.

(** cutValue on a text that begins with a brace. *)
Lemma cut_braced s : cut_value ("{"%char :: s) =
  match bclose 1 s with
  | Some k => Ok (firstn k s, skipn (S k) s)
  | None => Err (B "unclosed brace")
  end.
Proof.
  unfold cut_value.
  assert (T : trim_left ("{"%char :: s) = "{"%char :: s) by reflexivity.
  rewrite T. cbn [Ascii.eqb Bool.eqb].
  change (range_string ("{"%char :: s)) with ((0, R "{", "{"%char :: s) :: range_from 1 0 s).
  assert (C : cut_loop true 0 0 ((0, R "{", "{"%char :: s) :: range_from 1 0 s) = cut_loop true (Z.of_nat 1) 1 (range_from 1 0 s)) by reflexivity.
  change (Ascii.eqb "{" "{") with true. rewrite C, cut_quoted. destruct (bclose 1 s) as [k|] eqn:E.
  - change (0 <? 0)%Z with false. cbv iota.
    destruct (bclose_some _ _ _ E) as (t & rest & -> & <- & Hl).
    replace (1 + length t + 1) with (S (S (length t))) by lia. rewrite firstn_cons, !skipn_cons.
    assert (F : firstn (S (length t)) (t ++ "}"%char :: rest) = t ++ ["}"%char]).
    { rewrite firstn_app, firstn_all2 by lia. f_equal. replace (S (length t) - length t) with 1 by lia. reflexivity. }
    rewrite F. cbn [length]. rewrite app_length. cbn [length].
    replace (Nat.ltb (S (length t + 1)) 2) with false by (symmetry; apply Nat.ltb_ge; lia).
    replace (S (length t + 1) - 2) with (length t) by lia.
    f_equal. f_equal. change (skipn 0 (t ++ ["}"%char])) with (t ++ ["}"%char]). rewrite !firstn_app, Nat.sub_diag. reflexivity.
  - destruct (bclose_none _ _ E) as (m & ->).
    replace (0 <? Z.of_nat (S m))%Z with true by lia. reflexivity.
Qed.

(** ** Blanks *)
Lemma trim_from s : forall i, trim_ranged (range_from i 0 s) = trim_left s.
Proof.
  unfold trim_left, range_string.
  induction s as [|s r chunk rest H IH] using rune_ind; intros i; [reflexivity|].
  rewrite !(range_rune _ _ _ _ _ H). cbn [trim_ranged]. destruct (trimmable r); [|reflexivity].
  rewrite IH. symmetry. apply IH.
Qed.
Lemma trim_rune s r chunk rest : rune_at s r chunk rest ->
  trim_left s = if trimmable r then trim_left rest else s.
Proof.
  intros H. unfold trim_left at 1, range_string. rewrite (range_rune _ _ _ _ _ H). cbn [trim_ranged].
  destruct (trimmable r); [apply trim_from|reflexivity].
Qed.
Lemma trim_idem s : trim_left (trim_left s) = trim_left s.
Proof.
  induction s as [|s r chunk rest H IH] using rune_ind; [reflexivity|].
  rewrite (trim_rune _ _ _ _ H). destruct (trimmable r) eqn:E; [exact IH|].
  rewrite (trim_rune _ _ _ _ H), E. reflexivity.
Qed.
Lemma trim_suffix s : exists pre, s = pre ++ trim_left s.
Proof.
  induction s as [|s r chunk rest H IH] using rune_ind; [exists []; reflexivity|].
  rewrite (trim_rune _ _ _ _ H). destruct (trimmable r); [|exists []; reflexivity].
  destruct IH as (pre & IH). destruct (rune_at_split _ _ _ _ H) as (-> & _). exists (chunk ++ pre).
  rewrite <- app_assoc, <- IH. reflexivity.
Qed.
Lemma range_encode r s i : scalar r = true ->
  range_from i 0 (encode_rune r ++ s) = (i, r, encode_rune r ++ s) :: range_from (i + length (encode_rune r)) 0 s.
Proof.
  intros H. pose proof (decode_encode r s H) as D. pose proof (encode_rune_nonempty r) as N.
  destruct (encode_rune r) as [|c e]; [congruence|]. cbn [app] in *. cbn [range_from]. rewrite D. f_equal.
  cbn [length]. replace (S (length e) - 1) with (length e) by lia. rewrite range_from_skip by reflexivity. f_equal. lia.
Qed.
Lemma trim_encode r s : scalar r = true -> trim_left (encode_rune r ++ s) = if trimmable r then trim_left s else encode_rune r ++ s.
Proof.
  intros H. unfold trim_left at 1, range_string. rewrite range_encode by assumption. cbn [trim_ranged].
  destruct (trimmable r); [apply trim_from|reflexivity].
Qed.
Lemma blank_scalar r : blank r -> scalar r = true /\ trimmable r = true /\ is_space r = true.
Proof.
  unfold blank, scalar, trimmable, is_space, in_range. intros H. repeat split; lia.
Qed.
Lemma trim_blanks b s : blanks b -> trim_left (b ++ s) = trim_left s.
Proof.
  intros (rs & -> & H). induction H as [|r rs Hr _ IH]; [reflexivity|].
  rewrite string_of_runes_cons, <- app_assoc. destruct (blank_scalar _ Hr) as (H1 & H2 & _).
  rewrite trim_encode, H2 by assumption. exact IH.
Qed.
Lemma cut_trim s : cut_value (trim_left s) = cut_value s.
Proof. unfold cut_value. rewrite trim_idem. reflexivity. Qed.
Lemma cut_blanks b s : blanks b -> cut_value (b ++ s) = cut_value s.
Proof. intros H. unfold cut_value. rewrite trim_blanks by assumption. reflexivity. Qed.

(** ** Tokens without braces around them *)
Lemma trimmable_space r : is_space r = false -> trimmable r = false.
Proof. unfold trimmable, is_space, in_range. lia. Qed.
Lemma brace_not_space : is_space (R "{") = false /\ is_space (R "}") = false.
Proof. split; reflexivity. Qed.

Lemma skipn_plus {T} (a b : list T) k : skipn (length a + k) (a ++ b) = skipn k b.
Proof. induction a; cbn; auto. Qed.
Lemma cut_inside s : forall i n k split, bclose (S n) s = Some k ->
  cut_loop false (Z.of_nat (S n)) split (range_from i 0 s) =
  cut_loop false 0 (i + k + 1) (range_from (i + k + 1) 0 (skipn (S k) s)).
Proof.
  induction s as [|s r chunk rest H IH] using rune_ind; intros i n k split; [discriminate|].
  rewrite (range_rune _ _ _ _ _ H). inversion H as [c rest' E Ha D|r' c chunk' rest' E Ha Hr D]; subst.
  - cbn [cut_loop]. rewrite D. cbn [snd]. rewrite !ord_eqb. cbn [bclose]. rewrite skipn_cons.
    destruct (Ascii.eqb c "{") eqn:E1.
    { replace (Z.of_nat (S n) + 1)%Z with (Z.of_nat (S (S n))) by lia.
      replace (Z.of_nat (S (S n)) <? 0)%Z with false by lia.
      replace (Z.of_nat (S (S n)) =? 0)%Z with false by lia. cbn [andb].
      destruct (bclose (S (S n)) rest) as [k'|] eqn:Eb; [|discriminate]. cbn [option_map]. intros X. inversion X; subst.
      rewrite (IH _ _ _ _ Eb). replace (i + length [c] + k' + 1) with (i + S k' + 1) by (cbn; lia). reflexivity. }
    destruct (Ascii.eqb c "}") eqn:E2.
    { replace (Z.of_nat (S n) - 1)%Z with (Z.of_nat n) by lia.
      replace (Z.of_nat n <? 0)%Z with false by lia. rewrite andb_false_r.
      apply Ascii.eqb_eq in E2. subst c. change (is_space (ord "}")) with false. rewrite andb_false_r.
      destruct n as [|n].
      - intros X. inversion X; subst. cbn [skipn length]. replace (i + 0 + 1) with (i + 1) by lia. reflexivity.
      - destruct (bclose (S n) rest) as [k'|] eqn:Eb; [|discriminate]. cbn [option_map]. intros X. inversion X; subst.
        rewrite (IH _ _ _ _ Eb). replace (i + length ["}"%char] + k' + 1) with (i + S k' + 1) by (cbn; lia). reflexivity. }
    replace (Z.of_nat (S n) <? 0)%Z with false by lia.
    replace (Z.of_nat (S n) =? 0)%Z with false by lia. cbn [andb].
    destruct (bclose (S n) rest) as [k'|] eqn:Eb; [|discriminate]. cbn [option_map]. intros X. inversion X; subst.
    rewrite (IH _ _ _ _ Eb). replace (i + length [c] + k' + 1) with (i + S k' + 1) by (cbn; lia). reflexivity.
  - cbn [cut_loop]. rewrite D. cbn [snd]. rewrite !high_eqb by (auto; reflexivity).
    replace (Z.of_nat (S n) <? 0)%Z with false by lia.
    replace (Z.of_nat (S n) =? 0)%Z with false by lia. cbn [andb].
    change (c :: chunk' ++ rest) with ((c :: chunk') ++ rest).
    rewrite bclose_high by assumption.
    destruct (bclose (S n) rest) as [k'|] eqn:Eb; [|discriminate]. cbn [option_map]. intros X. assert (k = length (c :: chunk') + k') by congruence. subst k. clear X.
    rewrite (IH _ _ _ _ Eb). replace (i + (length (c :: chunk') + k') + 1) with (i + length (c :: chunk') + k' + 1) by lia.
    replace (S (length (c :: chunk') + k')) with (length (c :: chunk') + S k') by lia.
    rewrite skipn_plus. reflexivity.
Qed.

Lemma cut_word t : word t -> forall rest i split, t <> [] ->
  cut_loop false 0 split (range_from i 0 (t ++ rest)) =
  cut_loop false 0 (i + length t) (range_from (i + length t) 0 rest).
Proof.
  assert (G : forall t : bytes, t = [] \/ t <> []) by (intros [|c0 t0]; [left; reflexivity|right; discriminate]).
  induction 1 as [|r s Hs Hsp N1 N2 Hw IH|s t Hb Hw IH]; intros rest i split Hn; [congruence|..].
  - rewrite <- app_assoc, range_encode by assumption. cbn [cut_loop].
    apply N.eqb_neq in N1, N2. rewrite N1, N2. cbn [Z.ltb Z.compare Z.eqb andb].
    rewrite Hsp, decode_encode by assumption. cbn [snd]. rewrite app_length.
    destruct (G s) as [->|Hs']; [cbn [app length]; rewrite Nat.add_0_r; reflexivity|].
    rewrite IH by assumption. rewrite Nat.add_assoc. reflexivity.
  - change (("{"%char :: s ++ "}"%char :: t) ++ rest) with ("{"%char :: (s ++ "}"%char :: t) ++ rest).
    rewrite <- app_assoc. cbn [app].
    change (range_from i 0 ("{"%char :: s ++ "}"%char :: t ++ rest)) with
      ((i, R "{", "{"%char :: s ++ "}"%char :: t ++ rest) :: range_from (S i) 0 (s ++ "}"%char :: t ++ rest)).
    change (cut_loop false 0 split ((i, R "{", "{"%char :: s ++ "}"%char :: t ++ rest) :: range_from (S i) 0 (s ++ "}"%char :: t ++ rest)))
      with (cut_loop false (Z.of_nat 1) (i + 1) (range_from (S i) 0 (s ++ "}"%char :: t ++ rest))).
    rewrite (cut_inside _ _ _ (length s)) by (apply bclose_at; now apply lv_balanced).
    replace (skipn (S (length s)) (s ++ "}"%char :: t ++ rest)) with (t ++ rest).
    2:{ rewrite skipn_app, skipn_all2 by lia. replace (S (length s) - length s) with 1 by lia. reflexivity. }
    cbn [length]. rewrite app_length. cbn [length].
    destruct (G t) as [->|Ht].
    + cbn [app length]. replace (i + S (length s + 1)) with (S i + length s + 1) by lia. reflexivity.
    + rewrite IH by assumption. replace (S i + length s + 1 + length t) with (i + S (length s + S (length t))) by lia. reflexivity.
Qed.
Lemma word_first t rest : word t -> t <> [] -> trim_left (t ++ rest) = t ++ rest.
Proof.
  intros H Hn. destruct H as [|r s Hs Hsp N1 N2 Hw|s t Hb Hw]; [congruence|..].
  - rewrite <- app_assoc, trim_encode, (trimmable_space _ Hsp) by assumption. reflexivity.
  - reflexivity.
Qed.
Lemma cut_after_word rest i split : after_word rest -> split = i ->
  cut_loop false 0 split (range_from i 0 rest) = Some (0%Z, i).
Proof.
  intros [->|(r & t & -> & Hs & Hsp)] ->; [reflexivity|].
  rewrite range_encode by assumption. cbn [cut_loop].
  assert ((r =? R "{")%N = false /\ (r =? R "}")%N = false) as [-> ->].
  { split; apply N.eqb_neq; intros ->; discriminate. }
  cbn [Z.ltb Z.compare Z.eqb andb]. rewrite Hsp. reflexivity.
Qed.
Lemma cut_unquoted t rest : word t -> t <> [] -> ~ starts_with "{" t -> after_word rest ->
  cut_value (t ++ rest) = Ok (t, rest).
Proof.
  intros Hw Hn Hb Ha. unfold cut_value. rewrite word_first by assumption.
  destruct t as [|c t'] eqn:Et; [congruence|]. cbn [app].
  destruct (Ascii.eqb_spec c "{") as [->|Nc]; [exfalso; apply Hb; eexists; reflexivity|].
  change (c :: t' ++ rest) with ((c :: t') ++ rest). rewrite <- Et in *. clear Et.
  unfold range_string. rewrite cut_word by assumption. rewrite cut_after_word by auto.
  cbn [Z.ltb Z.compare plus]. rewrite firstn_app, skipn_app, Nat.sub_diag.
  rewrite firstn_all, skipn_all. cbn [firstn skipn app]. rewrite app_nil_r. reflexivity.
Qed.
Lemma cut_quoted_pf t rest : balanced t -> cut_value ("{"%char :: t ++ "}"%char :: rest) = Ok (t, rest).
Proof.
  intros H. rewrite cut_braced, (bclose_at t rest 0) by now apply lv_balanced.
  f_equal. f_equal.
  - rewrite firstn_app, Nat.sub_diag, firstn_all. cbn [firstn]. apply app_nil_r.
  - rewrite skipn_app, skipn_all2 by lia. replace (S (length t) - length t) with 1 by lia. reflexivity.
Qed.
Lemma cut_quoted_conv s t rest : cut_value ("{"%char :: s) = Ok (t, rest) -> balanced t /\ s = t ++ "}"%char :: rest.
Proof.
  rewrite cut_braced. destruct (bclose 1 s) as [k|] eqn:E; [|discriminate].
  destruct (bclose_some _ _ _ E) as (t' & rest' & -> & <- & Hl).
  rewrite firstn_app, Nat.sub_diag, firstn_all. cbn [firstn]. rewrite app_nil_r.
  rewrite skipn_app, skipn_all2 by lia. replace (S (length t') - length t') with 1 by lia. cbn [skipn app].
  intros X. inversion X; subst. split; [now apply balanced_lv|reflexivity].
Qed.
Lemma cut_no_panic s : cut_value s <> Panic.
Proof.
  rewrite <- cut_trim. destruct (trim_left s) as [|c s'] eqn:Et; [discriminate|].
  destruct (Ascii.eqb_spec c "{") as [->|N].
  - rewrite cut_braced. destruct (bclose 1 s'); discriminate.
  - apply Ascii.eqb_neq in N. unfold cut_value. rewrite <- Et, trim_idem, Et, N.
    destruct (cut_loop _ _ _ _) as [[l k]|]; [|discriminate]. destruct (0 <? l)%Z; discriminate.
Qed.

(** Every value that is cut off is balanced. *)
Lemma cut_loop_balanced s : forall i n split l k, cut_loop false (Z.of_nat n) split (range_from i 0 s) = Some (l, k) ->
  (l <= 0)%Z -> (s = [] -> split = i) -> exists j, k = i + j /\ lv n (firstn j s) = Some 0.
Proof.
  induction s as [|s r chunk rest H IH] using rune_ind; intros i n split l k E Hl Hsp.
  - cbn in E. inversion E; subst. exists 0. rewrite Hsp by reflexivity. split; [lia|]. cbn. f_equal. lia.
  - rewrite (range_rune _ _ _ _ _ H) in E. clear Hsp.
    inversion H as [c rest' Ec Ha D|r' c chunk' rest' Ec Ha Hr D]; subst.
    + cbn [cut_loop] in E. rewrite D in E. cbn [snd] in E. rewrite !ord_eqb in E.
      destruct (Ascii.eqb c "{") eqn:E1.
      { replace (Z.of_nat n + 1)%Z with (Z.of_nat (S n)) in E by lia.
        replace (Z.of_nat (S n) <? 0)%Z with false in E by lia.
        replace (Z.of_nat (S n) =? 0)%Z with false in E by lia. cbn [andb] in E.
        destruct (IH _ _ _ _ _ E Hl) as (j & -> & Hj); [reflexivity|].
        exists (S j). split; [cbn; lia|]. cbn [firstn lv]. rewrite E1. exact Hj. }
      destruct (Ascii.eqb c "}") eqn:E2.
      { destruct n as [|n]; [discriminate|].
        replace (Z.of_nat (S n) - 1)%Z with (Z.of_nat n) in E by lia.
        replace (Z.of_nat n <? 0)%Z with false in E by lia.
        pose proof E2 as E2'. apply Ascii.eqb_eq in E2'. subst c. change (is_space (ord "}")) with false in E.
        rewrite !andb_false_r in E.
        destruct (IH _ _ _ _ _ E Hl) as (j & -> & Hj); [reflexivity|].
        exists (S j). split; [cbn; lia|]. exact Hj. }
      replace (Z.of_nat n <? 0)%Z with false in E by lia. rewrite andb_false_r in E.
      destruct ((Z.of_nat n =? 0)%Z && is_space (ord c)) eqn:E3.
      { inversion E; subst. exists 0. split; [lia|]. cbn. apply andb_prop in E3. destruct E3 as [E3 _]. f_equal. lia. }
      destruct (IH _ _ _ _ _ E Hl) as (j & -> & Hj); [reflexivity|].
      exists (S j). split; [cbn; lia|]. cbn [firstn lv]. rewrite E1, E2. exact Hj.
    + cbn [cut_loop] in E. rewrite D in E. cbn [snd] in E. rewrite !high_eqb in E by (auto; reflexivity).
      replace (Z.of_nat n <? 0)%Z with false in E by lia. rewrite andb_false_r in E.
      destruct ((Z.of_nat n =? 0)%Z && is_space r) eqn:E3.
      { inversion E; subst. exists 0. split; [lia|]. cbn. apply andb_prop in E3. destruct E3 as [E3 _]. f_equal. lia. }
      destruct (IH _ _ _ _ _ E Hl) as (j & -> & Hj); [reflexivity|].
      exists (length (c :: chunk') + j). split; [lia|].
      change (c :: chunk' ++ rest) with ((c :: chunk') ++ rest).
      replace (firstn (length (c :: chunk') + j) ((c :: chunk') ++ rest)) with ((c :: chunk') ++ firstn j rest).
      * rewrite lv_high by assumption. exact Hj.
      * symmetry. apply firstn_app_2.
Qed.
Lemma cut_value_balanced s t rest : cut_value s = Ok (t, rest) -> balanced t.
Proof.
  rewrite <- cut_trim. destruct (trim_left s) as [|c s'] eqn:Et.
  { intros E. inversion E. constructor. }
  destruct (Ascii.eqb_spec c "{") as [->|N]; [intros E; now apply cut_quoted_conv in E|].
  apply Ascii.eqb_neq in N. unfold cut_value. rewrite <- Et, trim_idem, Et, N.
  destruct (cut_loop _ _ _ _) as [[l k]|] eqn:El; [|discriminate].
  destruct (0 <? l)%Z eqn:E0; [discriminate|]. intros E. inversion E; subst.
  unfold range_string in El. change 0%Z with (Z.of_nat 0) in El.
  destruct (cut_loop_balanced _ _ _ _ _ _ El) as (j & -> & Hj); [lia|discriminate|].
  apply balanced_lv. exact Hj.
Qed.
(** Nothing is lost: blanks, the value (with its braces) and the rest. *)
Lemma cut_value_splits s t rest : cut_value s = Ok (t, rest) ->
  exists pre, s = pre ++ t ++ rest \/ s = pre ++ "{"%char :: t ++ "}"%char :: rest.
Proof.
  destruct (trim_suffix s) as (pre & Hs). rewrite <- cut_trim. destruct (trim_left s) as [|c s'] eqn:Et.
  { intros E. inversion E; subst. exists pre. left. reflexivity. }
  destruct (Ascii.eqb_spec c "{") as [->|N].
  { intros E. apply cut_quoted_conv in E. destruct E as [_ ->]. exists pre. right. exact Hs. }
  apply Ascii.eqb_neq in N. unfold cut_value. rewrite <- Et, trim_idem, Et, N.
  destruct (cut_loop _ _ _ _) as [[l k]|] eqn:El; [|discriminate].
  destruct (0 <? l)%Z eqn:E0; [discriminate|]. intros E. inversion E. exists pre. left.
  rewrite firstn_skipn. exact Hs.
Qed.

(** ** Modifiers *)
Lemma word_app a b : word a -> word b -> word (a ++ b).
Proof.
  induction 1 as [|r s H1 H2 H3 H4 Hw IH|s t Hb Hw IH]; intros Hb'; auto.
  - rewrite <- app_assoc. constructor; auto.
  - cbn. rewrite <- app_assoc. cbn. constructor; auto.
Qed.
Lemma word_eq s : word s -> word ("="%char :: s).
Proof. intros H. apply (w_rune (R "=")); auto; try reflexivity; intros X; discriminate. Qed.
Lemma mod_text_word m : mod_ok m -> word (mod_text m) /\ mod_text m <> [] /\ ~ starts_with "{" (mod_text m).
Proof.
  assert (P : forall k rest, key_ok k -> k ++ rest <> [] /\ ~ starts_with "{" (k ++ rest)).
  { intros k rest (H1 & H2 & H3 & _). destruct k as [|c k]; [congruence|]. split; [discriminate|].
    intros (t & E). inversion E; subst. apply H3. now exists k. }
  destruct m as [k|k v|k v]; cbn [mod_ok mod_text].
  - intros H. destruct (P k [] H) as [H1 H2]. rewrite app_nil_r in *. repeat split; auto. now destruct H.
  - intros (H & H1 & H2 & H3). destruct (P k (B "=" ++ v) H). repeat split; auto.
    apply word_app; [now destruct H|]. now apply word_eq.
  - intros (H & H1). destruct (P k (B "={" ++ v ++ B "}") H). repeat split; auto.
    apply word_app; [now destruct H|]. apply word_eq. change (word ("{"%char :: v ++ "}"%char :: [])). constructor; [exact H1|constructor].
Qed.
Lemma split_modifier_pf m : mod_ok m -> split_modifier (mod_text m) = Ok (mod_pair m).
Proof.
  assert (S1 : forall k v : bytes, skipn (S (length k)) (k ++ "="%char :: v) = v).
  { intros k v. replace (S (length k)) with (length k + 1) by lia. rewrite skipn_plus. reflexivity. }
  assert (F1 : forall k v : bytes, firstn (length k) (k ++ v) = k).
  { intros k v. rewrite firstn_app, Nat.sub_diag, firstn_all. apply app_nil_r. }
  destruct m as [k|k v|k v]; cbn [mod_ok mod_text mod_pair]; unfold split_modifier.
  - intros (_ & _ & _ & H). apply index_byte_none in H. rewrite H. reflexivity.
  - intros ((_ & _ & _ & H) & _ & H2 & H3). change (B "=" ++ v) with ("="%char :: v).
    rewrite index_byte_app by assumption. rewrite S1, F1.
    destruct v as [|c v]; [congruence|]. destruct (Ascii.eqb_spec c "{") as [->|N]; [|reflexivity].
    exfalso. apply H3. now exists v.
  - intros ((_ & _ & _ & H) & H1). change (B "={" ++ v ++ B "}") with ("="%char :: "{"%char :: v ++ ["}"%char]).
    rewrite index_byte_app by assumption. rewrite S1, F1. change (Ascii.eqb "{" "{") with true. cbv iota.
    cbn [length]. rewrite app_length. cbn [length].
    replace (Nat.ltb (S (length v + 1)) 2) with false by (symmetry; apply Nat.ltb_ge; lia).
    replace (S (length v + 1) - 2) with (length v) by lia.
    change (skipn 1 ("{"%char :: v ++ ["}"%char])) with (v ++ ["}"%char]). rewrite F1. reflexivity.
Qed.
Lemma mods_after ms s : mods_text ms s -> after_word s.
Proof.
  intros [|b m ms' s' (rs & -> & Hb) Hn Hm Ht]; [now left|].
  right. destruct rs as [|r rs]; [exfalso; apply Hn; reflexivity|]. inversion Hb as [|r0 rs0 Hr Hrs]; subst. destruct (blank_scalar r) as (S1 & _ & S2); auto.
  exists r, (string_of_runes rs ++ mod_text m ++ s'). repeat split; auto.
  rewrite string_of_runes_cons, <- app_assoc. reflexivity.
Qed.
Lemma lex_modifiers_pf ms s : mods_text ms s -> forall fuel acc, length s <= fuel ->
  lex_modifiers fuel s acc = LOk (acc ++ map mod_pair ms).
Proof.
  induction 1 as [|b m ms s Hb Hn Hm Ht IH]; intros fuel acc Hf.
  - destruct fuel; cbn; now rewrite app_nil_r.
  - destruct (mod_text_word m Hm) as (W1 & W2 & W3).
    destruct b as [|c b]; [congruence|]. destruct fuel as [|fuel]; [cbn in Hf; lia|].
    cbn [app lex_modifiers]. change (c :: b ++ mod_text m ++ s) with ((c :: b) ++ mod_text m ++ s).
    rewrite cut_blanks by assumption. rewrite cut_unquoted by (auto; eapply mods_after; eauto).
    rewrite split_modifier_pf by assumption. rewrite IH.
    + rewrite <- app_assoc. reflexivity.
    + cbn [app length] in Hf. rewrite !app_length in Hf. lia.
Qed.
Lemma tokenize_modifiers_pf ms s : mods_text ms s -> forall fuel acc, length s <= fuel ->
  tokenize_modifiers fuel s acc = LOk (acc ++ map mod_pair ms).
Proof.
  induction 1 as [|b m ms s Hb Hn Hm Ht IH]; intros fuel acc Hf.
  - destruct fuel; cbn; now rewrite app_nil_r.
  - destruct (mod_text_word m Hm) as (W1 & W2 & W3).
    destruct b as [|c b]; [congruence|]. destruct fuel as [|fuel]; [cbn in Hf; lia|].
    cbn [app tokenize_modifiers]. change (c :: b ++ mod_text m ++ s) with ((c :: b) ++ mod_text m ++ s).
    rewrite cut_blanks by assumption. rewrite cut_unquoted by (auto; eapply mods_after; eauto).
    rewrite split_modifier_pf by assumption. destruct (mod_text m) as [|c0 t0] eqn:Em; [congruence|]. rewrite IH.
    + rewrite <- app_assoc. reflexivity.
    + cbn [app length] in Hf. rewrite !app_length in Hf. cbn [length] in Hf. rewrite ?app_length in Hf. lia.
Qed.

(** ** splitArgs *)
Inductive bst := BTop | BArr (n : nat) | BPar (n : nat) | BStr | BEsc.
(** The position of the first comma outside everything, byte by byte. *)
Fixpoint bsplit (st : bst) (s : bytes) : option nat :=
  match s with
  | [] => None
  | c :: s =>
    match st with
    | BTop =>
      if Ascii.eqb c "[" then option_map S (bsplit (BArr 0) s)
      else if Ascii.eqb c "(" then option_map S (bsplit (BPar 0) s)
      else if Ascii.eqb c "'" then option_map S (bsplit BStr s)
      else if Ascii.eqb c "," then Some 0
      else option_map S (bsplit BTop s)
    | BArr n =>
      if Ascii.eqb c "]" then option_map S (bsplit (match n with 0 => BTop | S m => BArr m end) s)
      else if Ascii.eqb c "[" then option_map S (bsplit (BArr (S n)) s)
      else option_map S (bsplit (BArr n) s)
    | BPar n =>
      if Ascii.eqb c ")" then option_map S (bsplit (match n with 0 => BTop | S m => BPar m end) s)
      else if Ascii.eqb c "(" then option_map S (bsplit (BPar (S n)) s)
      else option_map S (bsplit (BPar n) s)
    | BStr =>
      if Ascii.eqb c "'" then
        option_map S (bsplit (match s with c' :: _ => if Ascii.eqb c' "'" then BEsc else BTop | [] => BTop end) s)
      else option_map S (bsplit BStr s)
    | BEsc => option_map S (bsplit BStr s)
    end
  end.
(** The model's locals for a state, before reading position [i]. *)
Definition repr (st : bst) (i : nat) (x : split_st) : Prop :=
  match st with
  | BTop => sp_array x = 0 /\ sp_bracket x = 0 /\ sp_string x = false /\ (sp_skip x < Z.of_nat i)%Z
  | BArr n => sp_array x = S n /\ sp_bracket x = 0 /\ sp_string x = false /\ (sp_skip x < Z.of_nat i)%Z
  | BPar n => sp_array x = 0 /\ sp_bracket x = S n /\ sp_string x = false /\ (sp_skip x < Z.of_nat i)%Z
  | BStr => sp_array x = 0 /\ sp_bracket x = 0 /\ sp_string x = true /\ (sp_skip x < Z.of_nat i)%Z
  | BEsc => sp_array x = 0 /\ sp_bracket x = 0 /\ sp_string x = true /\ (sp_skip x = Z.of_nat i)%Z
  end.
Lemma high_neq c d : high c -> (ord d < 128)%N -> Ascii.eqb c d = false.
Proof. intros H1 H2. apply Ascii.eqb_neq. intros ->. unfold high in H1. lia. Qed.
Lemma bsplit_high st chunk s : Forall high chunk -> st <> BEsc ->
  bsplit st (chunk ++ s) = option_map (plus (length chunk)) (bsplit st s).
Proof.
  intros H Hst. induction H as [|c chunk Hc _ IH]; cbn [app length]; [destruct (bsplit st s); reflexivity|].
  cbn [bsplit]. rewrite !(high_neq c) by (auto; reflexivity).
  destruct st; try congruence; rewrite IH; destruct (bsplit _ s); reflexivity.
Qed.
Lemma split_sim s : forall st i x, repr st i x -> (st = BEsc -> exists s', s = "'"%char :: s') ->
  split_at x (range_from i 0 s) = option_map (plus i) (bsplit st s).
Proof.
  pattern s; revert s; apply rune_ind; [|intros s r chunk rest H IH]; intros st i x Hr He; [reflexivity|].
  rewrite (range_rune _ _ _ _ _ H). cbn [split_at].
  inversion H as [c rest' Ec Ha D|r' c chunk' rest' Ec Ha Hr' D]; subst.
  - assert (G : forall st' x', split_step x (i, ord c, c :: rest) = Some x' -> repr st' (i + 1) x' ->
      (st' = BEsc -> exists s', rest = "'"%char :: s') ->
      bsplit st (c :: rest) = option_map S (bsplit st' rest) ->
      match split_step x (i, ord c, c :: rest) with
      | Some st'0 => split_at st'0 (range_from (i + length [c]) 0 rest)
      | None => Some i end = option_map (plus i) (bsplit st (c :: rest))).
    { intros st' x' -> Hx He' ->. cbn [length]. rewrite (IH st') by assumption.
      destruct (bsplit st' rest); cbn [option_map]; [f_equal; lia|reflexivity]. }
    change (fst (fst (i, ord c, c :: rest))) with i.
    destruct x as [skip arr brk str]. destruct st as [|n|n| |]; cbn [repr sp_array sp_bracket sp_string sp_skip] in Hr.
    + destruct Hr as (-> & -> & -> & Hs).
      unfold split_step in *. cbn [sp_array sp_bracket sp_string sp_skip Nat.ltb Nat.leb] in *. rewrite !ord_eqb in *. cbn [bsplit] in *.
      replace (skip =? Z.of_nat i)%Z with false in * by lia. cbv iota in *.
      destruct (Ascii.eqb c "[") eqn:E1; [eapply (G (BArr 0)); [reflexivity|cbn; repeat split; lia|discriminate|reflexivity]|].
      destruct (Ascii.eqb c "(") eqn:E2; [eapply (G (BPar 0)); [reflexivity|cbn; repeat split; lia|discriminate|reflexivity]|].
      destruct (Ascii.eqb c "'") eqn:E3; [eapply (G BStr); [reflexivity|cbn; repeat split; lia|discriminate|reflexivity]|].
      destruct (Ascii.eqb c ",") eqn:E4; [cbn; f_equal; lia|].
      eapply (G BTop); [reflexivity|cbn; repeat split; lia|discriminate|reflexivity].
    + destruct Hr as (-> & -> & -> & Hs).
      unfold split_step in *. cbn [sp_array sp_bracket sp_string sp_skip Nat.ltb Nat.leb] in *. rewrite !ord_eqb in *. cbn [bsplit] in *.
      replace (skip =? Z.of_nat i)%Z with false in * by lia. cbv iota in *.
      destruct (Ascii.eqb c "]") eqn:E1.
      { eapply (G (match n with 0 => BTop | S m => BArr m end)); [reflexivity| |destruct n; discriminate|reflexivity]. destruct n; cbn; repeat split; lia. }
      destruct (Ascii.eqb c "[") eqn:E2; [eapply (G (BArr (S n))); [reflexivity|cbn; repeat split; lia|discriminate|reflexivity]|].
      eapply (G (BArr n)); [reflexivity|cbn; repeat split; lia|discriminate|reflexivity].
    + destruct Hr as (-> & -> & -> & Hs).
      unfold split_step in *. cbn [sp_array sp_bracket sp_string sp_skip Nat.ltb Nat.leb] in *. rewrite !ord_eqb in *. cbn [bsplit] in *.
      replace (skip =? Z.of_nat i)%Z with false in * by lia. cbv iota in *.
      destruct (Ascii.eqb c ")") eqn:E1.
      { eapply (G (match n with 0 => BTop | S m => BPar m end)); [reflexivity| |destruct n; discriminate|reflexivity]. destruct n; cbn; repeat split; lia. }
      destruct (Ascii.eqb c "(") eqn:E2; [eapply (G (BPar (S n))); [reflexivity|cbn; repeat split; lia|discriminate|reflexivity]|].
      eapply (G (BPar n)); [reflexivity|cbn; repeat split; lia|discriminate|reflexivity].
    + destruct Hr as (-> & -> & -> & Hs).
      unfold split_step in *. cbn [sp_array sp_bracket sp_string sp_skip Nat.ltb Nat.leb] in *. rewrite !ord_eqb in *. cbn [bsplit] in *.
      replace (skip =? Z.of_nat i)%Z with false in * by lia. cbv iota in *.
      destruct (Ascii.eqb c "'") eqn:E1; [|eapply (G BStr); [reflexivity|cbn; repeat split; lia|discriminate|reflexivity]].
      cbn [nth_error] in *. destruct rest as [|c' rest].
      { eapply (G BTop); [reflexivity|cbn; repeat split; lia|discriminate|reflexivity]. }
      destruct (Ascii.eqb_spec c' "'") as [->|N].
      * eapply (G BEsc); [reflexivity|cbn; repeat split; lia|intros _; now exists rest|reflexivity].
      * eapply (G BTop); [reflexivity|cbn; repeat split; lia|discriminate|reflexivity].
    + destruct Hr as (-> & -> & -> & Hs). destruct (He eq_refl) as (s' & E'). assert (c = "'"%char) by congruence. subst c. clear E'.
      unfold split_step in *. cbn [sp_array sp_bracket sp_string sp_skip Nat.ltb Nat.leb] in *. cbn [bsplit] in *.
      replace (skip =? Z.of_nat i)%Z with true in * by lia. cbv iota in *.
      eapply (G BStr); [reflexivity|cbn; repeat split; lia|discriminate|reflexivity].
  - assert (Hst : st <> BEsc).
    { intros ->. destruct (He eq_refl) as (s' & E'). inversion E'; subst c. inversion Ha as [|? ? Hh]; subst. revert Hh. unfold high. vm_compute. intros Hh. now apply Hh. }
    change (c :: chunk' ++ rest) with ((c :: chunk') ++ rest) in *. rewrite bsplit_high by assumption.
    assert (E : split_step x (i, r, (c :: chunk') ++ rest) = Some x).
    { destruct x as [skip arr brk str]. destruct st as [|n|n| |]; try congruence;
        cbn [repr sp_array sp_bracket sp_string sp_skip] in Hr; destruct Hr as (-> & -> & -> & Hs);
        unfold split_step; cbn [sp_array sp_bracket sp_string sp_skip Nat.ltb Nat.leb];
        rewrite !high_eqb by (auto; reflexivity); replace (skip =? Z.of_nat i)%Z with false by lia; reflexivity. }
    match goal with |- match ?a with _ => _ end = _ => replace a with (Some x) by (symmetry; exact E) end.
    rewrite (IH st).
    + destruct (bsplit st rest); cbn [option_map]; [f_equal; lia|reflexivity].
    + destruct st; cbn [repr] in *; intuition; lia.
    + intros X. congruence.
Qed.
Lemma split_at_top s : split_at split_init (range_string s) = bsplit BTop s.
Proof.
  unfold range_string. rewrite (split_sim s BTop 0); [destruct (bsplit BTop s); reflexivity| |discriminate].
  cbn. repeat split; lia.
Qed.

(** What splitArgs computes. *)
Lemma bsplit_comma s : forall st i, bsplit st s = Some i -> exists b, s = firstn i s ++ ","%char :: b /\ b = skipn (S i) s /\ i < length s.
Proof.
  induction s as [|c s IH]; intros st i; [discriminate|].
  assert (G : forall o, option_map S o = Some i -> (forall j, o = Some j -> exists b, s = firstn j s ++ ","%char :: b /\ b = skipn (S j) s /\ j < length s) ->
    exists b, c :: s = firstn i (c :: s) ++ ","%char :: b /\ b = skipn (S i) (c :: s) /\ i < length (c :: s)).
  { intros [j|] E H; [|discriminate]. inversion E; subst. destruct (H j eq_refl) as (b & H1 & H2 & H3).
    exists b. rewrite firstn_cons, skipn_cons. cbn [app length]. repeat split; auto; [now f_equal|lia]. }
  cbn [bsplit].
  repeat match goal with
  | |- context[match ?st with BTop => _ | BArr _ => _ | BPar _ => _ | BStr => _ | BEsc => _ end] => destruct st
  | |- context[if Ascii.eqb ?a ?b then _ else _] => destruct (Ascii.eqb_spec a b)
  end; intros E; try (eapply G; [exact E|intros j Hj; eapply IH; exact Hj]).
  inversion E; subst. exists s. repeat split; cbn; lia.
Qed.
Lemma split_args_fuel f : forall g s, length s <= f -> length s <= g -> split_args_loop f s = split_args_loop g s.
Proof.
  induction f as [|f IH]; intros g s Hf Hg.
  - destruct s; [|cbn in Hf; lia]. destruct g; reflexivity.
  - destruct g as [|g].
    + destruct s; [|cbn in Hg; lia]. reflexivity.
    + cbn [split_args_loop]. rewrite split_at_top. destruct (bsplit BTop s) as [i|] eqn:E; [|reflexivity].
      f_equal. destruct (bsplit_comma _ _ _ E) as (b & H1 & H2 & H3). rewrite <- H2.
      assert (length b < length s) by (rewrite H1, app_length; cbn; lia).
      apply IH; lia.
Qed.
Lemma split_args_eq s : split_args s =
  match bsplit BTop s with None => [s] | Some i => firstn i s :: split_args (skipn (S i) s) end.
Proof.
  unfold split_args. destruct s as [|c s].
  - reflexivity.
  - change (length (c :: s)) with (S (length s)). cbn [split_args_loop]. rewrite split_at_top.
    destruct (bsplit BTop (c :: s)) as [i|] eqn:E; [|reflexivity].
    f_equal. destruct (bsplit_comma _ _ _ E) as (b & H1 & H2 & H3). rewrite <- H2.
    assert (length b < length (c :: s)) by (rewrite H1, app_length; cbn; lia). cbn in H.
    apply split_args_fuel; lia.
Qed.
Lemma split_args_ind (P : bytes -> list bytes -> Prop) :
  (forall s, bsplit BTop s = None -> P s [s]) ->
  (forall a b, bsplit BTop (a ++ ","%char :: b) = Some (length a) -> P b (split_args b) -> P (a ++ ","%char :: b) (a :: split_args b)) ->
  forall s, P s (split_args s).
Proof.
  intros H1 H2 s. remember (length s) as n eqn:E. revert s E. induction n as [n IH] using lt_wf_ind. intros s E.
  rewrite split_args_eq. destruct (bsplit BTop s) as [i|] eqn:Eb; [|now apply H1].
  destruct (bsplit_comma _ _ _ Eb) as (b & Hs & Hb & Hi). rewrite <- Hb.
  assert (L : length (firstn i s) = i) by (rewrite firstn_length; lia).
  set (a := firstn i s) in *. rewrite Hs. apply H2; [rewrite <- Hs, L; exact Eb|].
  eapply IH; [|reflexivity]. rewrite E, Hs, app_length. cbn. lia.
Qed.
Lemma split_args_nonempty s : split_args s <> [].
Proof. rewrite split_args_eq. destruct (bsplit BTop s); discriminate. Qed.
Lemma split_join_pf s : join_commas (split_args s) = s.
Proof.
  apply (split_args_ind (fun s l => join_commas l = s)); [reflexivity|].
  intros a b _ IH. pose proof (split_args_nonempty b) as N. destruct (split_args b) as [|x l] eqn:E; [congruence|].
  change (join_commas (a :: x :: l)) with (a ++ ","%char :: join_commas (x :: l)). rewrite IH. reflexivity.
Qed.

(** *** One argument is passed over *)

(** *** One argument is passed over *)
Lemma omap_plus a o : option_map (plus (S a)) o = option_map S (option_map (plus a) o).
Proof. destruct o; reflexivity. Qed.
Lemma omap_comp a b o : option_map (plus a) (option_map (plus b) o) = option_map (plus (a + b)) o.
Proof. destruct o; cbn; [f_equal; lia|reflexivity]. Qed.
Lemma bsplit_arr b : nested "[" "]" b -> forall n s, bsplit (BArr n) (b ++ s) = option_map (plus (length b)) (bsplit (BArr n) s).
Proof.
  induction 1 as [|x b H1 H2 H IH|b t Hb IHb Ht IHt]; intros n s.
  - cbn. destruct (bsplit _ s); reflexivity.
  - cbn [app bsplit length]. apply Ascii.eqb_neq in H1, H2. rewrite H1, H2, IH. symmetry. apply omap_plus.
  - cbn [app bsplit length]. change (Ascii.eqb "[" "]") with false. change (Ascii.eqb "[" "[") with true. cbv iota.
    rewrite <- app_assoc, IHb. cbn [app bsplit]. change (Ascii.eqb "]" "]") with true. cbv iota. rewrite IHt.
    rewrite app_length. cbn [length]. destruct (bsplit (BArr n) s); cbn; [f_equal; lia|reflexivity].
Qed.
Lemma bsplit_par b : nested "(" ")" b -> forall n s, bsplit (BPar n) (b ++ s) = option_map (plus (length b)) (bsplit (BPar n) s).
Proof.
  induction 1 as [|x b H1 H2 H IH|b t Hb IHb Ht IHt]; intros n s.
  - cbn. destruct (bsplit _ s); reflexivity.
  - cbn [app bsplit length]. apply Ascii.eqb_neq in H1, H2. rewrite H1, H2, IH. symmetry. apply omap_plus.
  - cbn [app bsplit length]. change (Ascii.eqb "(" ")") with false. change (Ascii.eqb "(" "(") with true. cbv iota.
    rewrite <- app_assoc, IHb. cbn [app bsplit]. change (Ascii.eqb ")" ")") with true. cbv iota. rewrite IHt.
    rewrite app_length. cbn [length]. destruct (bsplit (BPar n) s); cbn; [f_equal; lia|reflexivity].
Qed.
Lemma bsplit_str b : string_body b -> forall s, bsplit BStr (b ++ s) = option_map (plus (length b)) (bsplit BStr s).
Proof.
  induction 1 as [|c b H1 H IH|b H IH]; intros s.
  - cbn. destruct (bsplit _ s); reflexivity.
  - cbn [app bsplit length]. apply Ascii.eqb_neq in H1. rewrite H1, IH. symmetry. apply omap_plus.
  - cbn [app bsplit length]. change (Ascii.eqb "'" "'") with true. cbv iota. rewrite IH.
    destruct (bsplit BStr s); reflexivity.
Qed.
Lemma bsplit_arg a : arg a -> forall s, ~ starts_with "'" s -> bsplit BTop (a ++ s) = option_map (plus (length a)) (bsplit BTop s).
Proof.
  induction 1 as [|c a Hc H IH|b a Hb Hq H IH|b a Hb H IH|b a Hb H IH]; intros s Hs.
  - cbn. destruct (bsplit _ s); reflexivity.
  - cbn [app bsplit length].
    assert (Ascii.eqb c "[" = false /\ Ascii.eqb c "(" = false /\ Ascii.eqb c "'" = false /\ Ascii.eqb c "," = false) as (-> & -> & -> & ->).
    { repeat split; apply Ascii.eqb_neq; intros ->; apply Hc; cbn; auto. }
    rewrite IH by assumption. symmetry. apply omap_plus.
  - cbn [app bsplit length]. change (Ascii.eqb "'" "[") with false. change (Ascii.eqb "'" "(") with false.
    change (Ascii.eqb "'" "'") with true. cbv iota. rewrite <- app_assoc, bsplit_str by assumption.
    cbn [app bsplit]. change (Ascii.eqb "'" "'") with true. cbv iota.
    assert (E : match a ++ s with [] => BTop | c' :: _ => if Ascii.eqb c' "'" then BEsc else BTop end = BTop).
    { destruct a as [|c a]; cbn [app].
      - destruct s as [|c s]; [reflexivity|]. destruct (Ascii.eqb_spec c "'") as [->|]; [|reflexivity]. exfalso. apply Hs. now exists s.
      - destruct (Ascii.eqb_spec c "'") as [->|]; [|reflexivity]. exfalso. apply Hq. now exists a. }
    rewrite E, IH by assumption. rewrite app_length. cbn [length]. destruct (bsplit BTop s); cbn; [f_equal; lia|reflexivity].
  - cbn [app bsplit length]. change (Ascii.eqb "(" "[") with false. change (Ascii.eqb "(" "(") with true. cbv iota.
    rewrite <- app_assoc, bsplit_par by assumption. cbn [app bsplit]. change (Ascii.eqb ")" ")") with true. cbv iota.
    rewrite IH by assumption. rewrite app_length. cbn [length]. destruct (bsplit BTop s); cbn; [f_equal; lia|reflexivity].
  - cbn [app bsplit length]. change (Ascii.eqb "[" "[") with true. cbv iota.
    rewrite <- app_assoc, bsplit_arr by assumption. cbn [app bsplit]. change (Ascii.eqb "]" "]") with true. cbv iota.
    rewrite IH by assumption. rewrite app_length. cbn [length]. destruct (bsplit BTop s); cbn; [f_equal; lia|reflexivity].
Qed.
Lemma comma_not_quote b : ~ starts_with "'" (","%char :: b).
Proof. intros (t & E). discriminate. Qed.
Lemma bsplit_at_comma a b : arg a -> bsplit BTop (a ++ ","%char :: b) = Some (length a).
Proof.
  intros H. rewrite bsplit_arg by (auto using comma_not_quote). cbn. f_equal. lia.
Qed.

(** *** ... and nothing else is *)
Fixpoint cl (o c : ascii) (n : nat) (a : bytes) : Prop :=
  match n with
  | 0 => arg a
  | S n => exists x y, a = x ++ c :: y /\ nested o c x /\ cl o c n y
  end.
Lemma cl_char o c n a x : x <> o -> x <> c -> cl o c (S n) a -> cl o c (S n) (x :: a).
Proof.
  intros H1 H2 (b & y & -> & Hb & Hy). exists (x :: b), y. repeat split; auto. now constructor.
Qed.
Lemma cl_open o c n a : cl o c (S (S n)) a -> cl o c (S n) (o :: a).
Proof.
  intros (b & y & -> & Hb & b' & y' & -> & Hb' & Hy). exists (o :: b ++ c :: b'), y'.
  repeat split; auto; [cbn; rewrite <- app_assoc; reflexivity|]. now constructor.
Qed.
Lemma cl_close o c n a : cl o c n a -> cl o c (S n) (c :: a).
Proof. intros H. exists [], a. repeat split; auto. constructor. Qed.
Definition str_rest (a : bytes) : Prop :=
  exists b t, a = b ++ "'"%char :: t /\ string_body b /\ arg t /\ ~ starts_with "'" t.
Definition inv (st : bst) (a : bytes) : Prop :=
  match st with
  | BTop => arg a
  | BArr n => cl "[" "]" (S n) a
  | BPar n => cl "(" ")" (S n) a
  | BStr => str_rest a
  | BEsc => exists a', a = "'"%char :: a' /\ str_rest a'
  end.
Lemma bsplit_inv s : forall st i, bsplit st s = Some i -> (st = BEsc -> starts_with "'" s) -> inv st (firstn i s).
Proof.
  induction s as [|c s IH]; intros st i E He; [discriminate|]. cbn [bsplit] in E.
  assert (G : forall st', option_map S (bsplit st' s) = Some i -> (st' = BEsc -> starts_with "'" s) ->
    exists j, i = S j /\ bsplit st' s = Some j /\ firstn i (c :: s) = c :: firstn j s /\ inv st' (firstn j s)).
  { intros st' E' He'. destruct (bsplit st' s) as [j|] eqn:Ej; [|discriminate]. inversion E'; subst.
    exists j. repeat split; auto. }
  destruct st as [|n|n| |].
  - destruct (Ascii.eqb_spec c "[") as [->|N1].
    { destruct (G _ E) as (j & -> & _ & -> & (x & y & Ex & Hx & Hy)); [discriminate|]. rewrite Ex. now apply arg_array. }
    destruct (Ascii.eqb_spec c "(") as [->|N2].
    { destruct (G _ E) as (j & -> & _ & -> & (x & y & Ex & Hx & Hy)); [discriminate|]. rewrite Ex. now apply arg_paren. }
    destruct (Ascii.eqb_spec c "'") as [->|N3].
    { destruct (G _ E) as (j & -> & _ & -> & (x & y & Ex & Hx & Hy & Hq)); [discriminate|]. rewrite Ex. now apply arg_string. }
    destruct (Ascii.eqb_spec c ",") as [->|N4].
    { inversion E; subst. constructor. }
    destruct (G _ E) as (j & -> & _ & -> & H); [discriminate|]. apply arg_char; auto.
    cbn. intros [H1|[H1|[H1|[H1|[]]]]]; congruence.
  - destruct (Ascii.eqb_spec c "]") as [->|N1].
    { destruct (G _ E) as (j & -> & _ & -> & H); [destruct n; discriminate|]. apply cl_close. destruct n; exact H. }
    destruct (Ascii.eqb_spec c "[") as [->|N2].
    { destruct (G _ E) as (j & -> & _ & -> & H); [discriminate|]. apply cl_open. exact H. }
    destruct (G _ E) as (j & -> & _ & -> & H); [discriminate|]. now apply cl_char.
  - destruct (Ascii.eqb_spec c ")") as [->|N1].
    { destruct (G _ E) as (j & -> & _ & -> & H); [destruct n; discriminate|]. apply cl_close. destruct n; exact H. }
    destruct (Ascii.eqb_spec c "(") as [->|N2].
    { destruct (G _ E) as (j & -> & _ & -> & H); [discriminate|]. apply cl_open. exact H. }
    destruct (G _ E) as (j & -> & _ & -> & H); [discriminate|]. now apply cl_char.
  - destruct (Ascii.eqb_spec c "'") as [->|N1].
    2:{ destruct (G _ E) as (j & -> & _ & -> & (b & t & Eb & Hb & Ht)); [discriminate|]. exists (c :: b), t.
        rewrite Eb. repeat split; try tauto. now constructor. }
    destruct s as [|c' s]; [discriminate|]. destruct (Ascii.eqb_spec c' "'") as [->|N2].
    + destruct (G _ E) as (j & -> & _ & -> & (a' & Ea & b & t & Eb & Hb & Ht)); [intros _; now exists s|].
      exists ("'"%char :: "'"%char :: b), t. rewrite Ea, Eb. repeat split; try tauto. now constructor.
    + destruct (G _ E) as (j & -> & Ej & -> & H); [discriminate|]. exists [], (firstn j (c' :: s)).
      repeat split; auto; [constructor|]. intros (t & Et). destruct j; [discriminate|]. inversion Et. congruence.
  - destruct (He eq_refl) as (s' & Es). inversion Es; subst c s'. 
    destruct (G _ E) as (j & -> & _ & -> & H); [discriminate|]. exists (firstn j s). auto.
Qed.
Lemma bsplit_none s : bsplit BTop s = None <-> (forall a b, s = a ++ ","%char :: b -> ~ arg a).
Proof.
  split.
  - intros E a b -> H. rewrite (bsplit_at_comma a b H) in E. discriminate.
  - intros H. destruct (bsplit BTop s) as [i|] eqn:E; [|reflexivity]. exfalso.
    destruct (bsplit_comma _ _ _ E) as (b & Hs & _). eapply H; [exact Hs|].
    apply (bsplit_inv _ BTop _ E). discriminate.
Qed.
Lemma split_args_iff s l : split_args s = l <->
  l <> [] /\ join_commas l = s /\ Forall arg (removelast l) /\ (forall a b, last l [] = a ++ B "," ++ b -> ~ arg a).
Proof.
  split.
  - intros <-. split; [apply split_args_nonempty|]. split; [apply split_join_pf|].
    apply (split_args_ind (fun s l => Forall arg (removelast l) /\ (forall a b, last l [] = a ++ B "," ++ b -> ~ arg a))).
    + intros s0 H. split; [constructor|]. cbn [last]. now apply bsplit_none.
    + intros a b E [IH1 IH2]. pose proof (split_args_nonempty b) as N. destruct (split_args b) as [|x l'] eqn:El; [congruence|].
      split; [|exact IH2]. change (removelast (a :: x :: l')) with (a :: removelast (x :: l')). constructor; [|exact IH1].
      pose proof (bsplit_inv _ BTop _ E ltac:(discriminate)) as H. cbn [inv] in H.
      rewrite firstn_app, Nat.sub_diag, firstn_all in H. cbn [firstn] in H. rewrite app_nil_r in H. exact H.
  - revert s. induction l as [|x l IH]; intros s (N & J & F & L); [congruence|].
    destruct l as [|y l].
    + cbn in J. subst x. rewrite split_args_eq. cbn [last] in L. apply bsplit_none in L. rewrite L. reflexivity.
    + change (removelast (x :: y :: l)) with (x :: removelast (y :: l)) in F. inversion F as [|? ? Fx Fl]; subst.
      change (join_commas (x :: y :: l)) with (x ++ ","%char :: join_commas (y :: l)).
      rewrite split_args_eq, (bsplit_at_comma _ _ Fx).
      f_equal.
      * rewrite firstn_app, Nat.sub_diag, firstn_all. apply app_nil_r.
      * replace (S (length x)) with (length x + 1) by lia. rewrite skipn_plus. cbn [skipn]. apply IH.
        split; [discriminate|]. split; [reflexivity|]. split; [exact Fl|exact L].
Qed.
