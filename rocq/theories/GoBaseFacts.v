(** * Facts about GoBase *)
From Verif Require Import GoBase SpecLex.
From Coq Require Import Lia ZifyBool ZifyNat ZifyN DecimalN DecimalFacts DecimalPos.

Lemma beqb_refl a : beqb a a = true.
Proof. induction a; simpl; [reflexivity|]. now rewrite Ascii.eqb_refl. Qed.

Lemma beqb_eq a b : beqb a b = true <-> a = b.
Proof.
  revert b; induction a as [|x a IH]; intros [|y b]; simpl; split; intro H;
    try discriminate; try reflexivity.
  - apply andb_true_iff in H. destruct H as [H1 H2].
    apply Ascii.eqb_eq in H1. apply IH in H2. congruence.
  - injection H as -> ->. now rewrite Ascii.eqb_refl, beqb_refl.
Qed.

Lemma beqb_neq a b : beqb a b = false <-> a <> b.
Proof.
  split.
  - intros H E. subst. rewrite beqb_refl in H. discriminate.
  - intro H. destruct (beqb a b) eqn:E; [|reflexivity]. apply beqb_eq in E. contradiction.
Qed.

Lemma beqb_sym a b : beqb a b = beqb b a.
Proof.
  destruct (beqb a b) eqn:E.
  - apply beqb_eq in E. subst. now rewrite beqb_refl.
  - symmetry. apply beqb_neq. apply beqb_neq in E. congruence.
Qed.

Lemma beqb_spec a b : reflect (a = b) (beqb a b).
Proof. apply iff_reflect. symmetry. apply beqb_eq. Qed.

Lemma bytes_eq_dec (a b : bytes) : {a = b} + {a <> b}.
Proof. destruct (beqb_spec a b); [left|right]; assumption. Qed.

Lemma ord_chr n : (n < 256)%N -> ord (chr n) = n.
Proof. intro H. unfold ord, chr. now apply N_ascii_embedding. Qed.
Lemma chr_ord c : chr (ord c) = c.
Proof. unfold ord, chr. apply ascii_N_embedding. Qed.
Lemma ord_lt c : (ord c < 256)%N.
Proof. unfold ord. apply N_ascii_bounded. Qed.
Lemma ord_inj a b : ord a = ord b -> a = b.
Proof. intro H. rewrite <- (chr_ord a), <- (chr_ord b). now rewrite H. Qed.

(** index_byte *)
Lemma index_byte_none c s : index_byte c s = None <-> ~ In c s.
Proof.
  induction s as [|x s IH]; simpl.
  - split; [intros _ []|reflexivity].
  - destruct (Ascii.eqb_spec x c) as [E|E].
    + split; [discriminate|]. intro H. exfalso. apply H. now left.
    + destruct (index_byte c s); simpl.
      * split; [discriminate|]. intro H. exfalso.
        assert (Some n = None) as X by (apply IH; intro; apply H; now right). discriminate.
      * split; [|reflexivity]. intros _ [H|H]; [contradiction|]. now apply IH in H.
Qed.

Lemma index_byte_some c s i :
  index_byte c s = Some i ->
  s = firstn i s ++ c :: skipn (S i) s /\ ~ In c (firstn i s) /\ i < length s.
Proof.
  revert i; induction s as [|x s IH]; simpl; intros i H; [discriminate|].
  destruct (Ascii.eqb_spec x c) as [E|E].
  - injection H as <-. subst. simpl. repeat split; [tauto|lia].
  - destruct (index_byte c s) as [j|] eqn:Ej; [|discriminate].
    injection H as <-. destruct (IH j eq_refl) as [H1 [H2 H3]].
    simpl. repeat split; [now f_equal| |lia].
    intros [X|X]; [contradiction|]. contradiction.
Qed.

Lemma index_byte_app c s t :
  ~ In c s -> index_byte c (s ++ c :: t) = Some (length s).
Proof.
  induction s as [|x s IH]; simpl; intro H.
  - now rewrite Ascii.eqb_refl.
  - destruct (Ascii.eqb_spec x c) as [E|E]; [exfalso; apply H; now left|].
    rewrite IH; [reflexivity|]. intro; apply H; now right.
Qed.

(** Decimal numerals *)
Fixpoint value_uint (acc : N) (d : Decimal.uint) : N :=
  match d with
  | Decimal.Nil => acc
  | Decimal.D0 d => value_uint (10 * acc + 0)%N d
  | Decimal.D1 d => value_uint (10 * acc + 1)%N d
  | Decimal.D2 d => value_uint (10 * acc + 2)%N d
  | Decimal.D3 d => value_uint (10 * acc + 3)%N d
  | Decimal.D4 d => value_uint (10 * acc + 4)%N d
  | Decimal.D5 d => value_uint (10 * acc + 5)%N d
  | Decimal.D6 d => value_uint (10 * acc + 6)%N d
  | Decimal.D7 d => value_uint (10 * acc + 7)%N d
  | Decimal.D8 d => value_uint (10 * acc + 8)%N d
  | Decimal.D9 d => value_uint (10 * acc + 9)%N d
  end.

Lemma digits_value_uint d acc : digits_value acc (bytes_of_uint d) = Some (value_uint acc d).
Proof. revert acc; induction d; intro acc; [reflexivity|..]; cbn [bytes_of_uint digits_value value_uint]; apply IHd. Qed.

Lemma parse_digits_uint d acc : parse_digits acc (bytes_of_uint d) = Some (value_uint acc d).
Proof.
  revert acc; induction d; intro acc; [reflexivity|..];
    cbn [bytes_of_uint parse_digits digit_val value_uint];
    (change (digit_val _) with (Some 0%N) || change (digit_val _) with (Some 1%N)
     || change (digit_val _) with (Some 2%N) || change (digit_val _) with (Some 3%N)
     || change (digit_val _) with (Some 4%N) || change (digit_val _) with (Some 5%N)
     || change (digit_val _) with (Some 6%N) || change (digit_val _) with (Some 7%N)
     || change (digit_val _) with (Some 8%N) || change (digit_val _) with (Some 9%N));
    cbn match; rewrite IHd; f_equal; f_equal; lia.
Qed.

Lemma value_uint_acc d p :
  value_uint (Npos p) d = Npos (Pos.of_uint_acc d p).
Proof.
  revert p; induction d; intro p; cbn [value_uint Pos.of_uint_acc]; [reflexivity|..];
    match goal with |- value_uint ?x d = N.pos (Pos.of_uint_acc d ?y) =>
      replace x with (Npos y) by lia end; apply IHd.
Qed.

Lemma value_uint_of_uint d : value_uint 0 d = N.of_uint d.
Proof.
  induction d; cbn [value_uint]; try reflexivity;
    try (match goal with |- value_uint ?x d = _ =>
      let y := eval cbv in x in change x with y end;
      first [ rewrite value_uint_acc; reflexivity | rewrite IHd; reflexivity ]).
Qed.

Lemma value_to_uint n : value_uint 0 (N.to_uint n) = n.
Proof. rewrite value_uint_of_uint. apply DecimalN.Unsigned.of_to. Qed.

Lemma digits_value_format n : digits_value 0 (format_uint n) = Some n.
Proof. unfold format_uint. now rewrite digits_value_uint, value_to_uint. Qed.

Lemma format_uint_nonempty n : format_uint n <> [].
Proof.
  intro H. assert (digits_value 0 (format_uint n) = Some n) as E by apply digits_value_format.
  unfold format_uint in *.
  destruct (N.to_uint n) eqn:U; try discriminate.
  assert (n = 0%N) as Z0 by (rewrite <- (value_to_uint n), U; reflexivity).
  subst. discriminate.
Qed.

Lemma decimal_value_format n : decimal_value (format_uint n) = Some n.
Proof.
  unfold decimal_value. pose proof (format_uint_nonempty n). pose proof (digits_value_format n).
  destruct (format_uint n); [contradiction|assumption].
Qed.

Lemma format_uint_inj a b : format_uint a = format_uint b -> a = b.
Proof.
  intro H. pose proof (digits_value_format a) as X. rewrite H, digits_value_format in X.
  now injection X.
Qed.

Lemma itoa_inj a b : itoa a = itoa b -> a = b.
Proof. intro H. apply format_uint_inj in H. lia. Qed.

Lemma bytes_of_uint_digits d : Forall (fun c => in_range 48 57 (ord c) = true) (bytes_of_uint d).
Proof. induction d; constructor; auto. Qed.

Lemma format_uint_digits n : Forall (fun c => in_range 48 57 (ord c) = true) (format_uint n).
Proof. apply bytes_of_uint_digits. Qed.

Lemma parse_digits_format n : parse_digits 0 (format_uint n) = Some n.
Proof. unfold format_uint. now rewrite parse_digits_uint, value_to_uint. Qed.

Lemma atoi_itoa n : (Z.of_nat n <= max_int64)%Z -> atoi (itoa n) = Some (Z.of_nat n).
Proof.
  intro Hle. unfold itoa, atoi.
  pose proof (format_uint_digits (N.of_nat n)) as HD.
  pose proof (parse_digits_format (N.of_nat n)) as HP.
  pose proof (format_uint_nonempty (N.of_nat n)) as HN.
  destruct (format_uint (N.of_nat n)) as [|c d]; [contradiction|].
  inversion HD as [|? ? Hc Hd]; subst.
  destruct (Ascii.eqb_spec c "-"); [subst; discriminate|].
  destruct (Ascii.eqb_spec c "+"); [subst; discriminate|].
  rewrite HP. replace (Z.of_N (N.of_nat n)) with (Z.of_nat n) by lia.
  destruct (Z.of_nat n <=? max_int64)%Z eqn:E1; [|lia].
  destruct (- max_int64 - 1 <=? Z.of_nat n)%Z eqn:E2; [reflexivity|].
  unfold max_int64 in *. lia.
Qed.

(** Hexadecimal *)
Lemma unhex_hex_digit n : (n < 16)%N -> unhex (hex_digit n) = Some n.
Proof.
  intro H. unfold hex_digit, unhex.
  destruct (n <? 10)%N eqn:E; rewrite ord_chr by lia; unfold in_range.
  - destruct ((48 <=? 48 + n) && (48 + n <=? 57))%N eqn:A; [f_equal; lia|lia].
  - destruct ((48 <=? 87 + n) && (87 + n <=? 57))%N eqn:A; [lia|].
    destruct ((97 <=? 87 + n) && (87 + n <=? 102))%N eqn:A2; [f_equal; lia|lia].
Qed.

Lemma hex_decode_encode s : hex_decode (hex_encode s) = Some s.
Proof.
  induction s as [|c s IH]; [reflexivity|].
  cbn [hex_encode hex_decode]. pose proof (ord_lt c) as L.
  rewrite !unhex_hex_digit, IH.
  - rewrite <- (N.div_mod (ord c) 16) by lia. now rewrite chr_ord.
  - apply N.mod_lt. lia.
  - apply N.div_lt_upper_bound; lia.
Qed.

Lemma hex_digit_not_quote n : (n < 16)%N -> hex_digit n <> "'"%char.
Proof.
  intros H E. apply (f_equal ord) in E. unfold hex_digit in E.
  destruct (n <? 10)%N eqn:F; rewrite ord_chr in E by lia;
    change (ord "'") with 39%N in E; lia.
Qed.

Lemma hex_encode_no_quote s : ~ In "'"%char (hex_encode s).
Proof.
  induction s as [|c s IH]; cbn [hex_encode]; [intros []|].
  pose proof (ord_lt c). intros [H0|[H0|H0]]; [..|contradiction].
  - revert H0. apply hex_digit_not_quote. apply N.div_lt_upper_bound; lia.
  - revert H0. apply hex_digit_not_quote. apply N.mod_lt; lia.
Qed.

(** Maps *)
Section Map.
  Context {V : Type}.
  Lemma mget_mset_same k (v : V) m : mget k (mset k v m) = Some v.
  Proof. simpl. now rewrite beqb_refl. Qed.
  Lemma mget_mset_other k k' (v : V) m : k <> k' -> mget k (mset k' v m) = mget k m.
  Proof. intro H. simpl. apply beqb_neq in H. now rewrite H. Qed.
  Lemma mget_mset k k' (v : V) m : mget k (mset k' v m) = if beqb k k' then Some v else mget k m.
  Proof. reflexivity. Qed.
  Lemma mget_mdel k k' (m : list (bytes * V)) : mget k (mdel k' m) = if beqb k k' then None else mget k m.
  Proof.
    induction m as [|[a v] m IH]; simpl.
    - now destruct (beqb k k').
    - destruct (beqb_spec k' a) as [E|E]; simpl.
      + subst a. rewrite IH. destruct (beqb_spec k k'); reflexivity.
      + rewrite IH. destruct (beqb_spec k a) as [F|F]; [|reflexivity].
        subst a. destruct (beqb_spec k k'); [congruence|reflexivity].
  Qed.
End Map.

Lemma list_set_length {A} (l : list A) i v : length (list_set l i v) = length l.
Proof. revert i; induction l as [|x l IH]; intros [|i]; simpl; auto. Qed.
Lemma list_set_nth_same {A} (l : list A) i v : i < length l -> nth_error (list_set l i v) i = Some v.
Proof. revert i; induction l as [|x l IH]; intros [|i]; simpl; intro H; try lia; auto. apply IH; lia. Qed.
Lemma list_set_nth_other {A} (l : list A) i j v : i <> j -> nth_error (list_set l i v) j = nth_error l j.
Proof. revert i j; induction l as [|x l IH]; intros [|i] [|j]; simpl; intro H; try congruence; auto. Qed.
Lemma list_set_nth_eq {A} (l : list A) i v : nth_error l i = Some v -> list_set l i v = l.
Proof. revert i; induction l as [|x l IH]; intros [|i]; simpl; intro H; try congruence; auto. f_equal; auto. Qed.
Lemma list_set_map {A C} (f : A -> C) (l : list A) i v : list_set (map f l) i (f v) = map f (list_set l i v).
Proof. revert i; induction l as [|x l IH]; intros [|i]; simpl; auto. now f_equal. Qed.
