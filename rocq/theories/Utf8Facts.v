(** * Facts about UTF-8 decoding *)
From Verif Require Import GoBase GoBaseFacts SpecSprintf.
From Coq Require Import Lia ZifyBool ZifyNat ZifyN.
Ltac Zify.zify_post_hook ::= Z.div_mod_to_equations.

Lemma decode_encode r rest : scalar r = true ->
  decode_rune (encode_rune r ++ rest) = (r, length (encode_rune r)).
Proof.
  intro H. unfold scalar, in_range in H. apply andb_true_iff in H. destruct H as [H1 H2].
  apply N.ltb_lt in H1.
  unfold encode_rune.
  destruct (r <? 128)%N eqn:E1.
  { cbn [app length]. unfold decode_rune. rewrite ord_chr by lia. rewrite E1. reflexivity. }
  destruct (r <? 2048)%N eqn:E2.
  { cbn [app length]. unfold decode_rune, in_range. rewrite !ord_chr by lia.
    destruct (192 + r / 64 <? 128)%N eqn:A1; [lia|].
    destruct ((194 <=? 192 + r / 64) && (192 + r / 64 <=? 223))%N eqn:A2; [|lia].
    destruct ((128 <=? 128 + r mod 64) && (128 + r mod 64 <=? 191))%N eqn:A3; [|lia].
    f_equal. lia. }
  destruct (in_range 55296 57343 r || (1114111 <? r)%N) eqn:E3.
  { unfold in_range in E3. lia. }
  destruct (r <? 65536)%N eqn:E4.
  { cbn [app length]. unfold decode_rune, in_range. rewrite !ord_chr by lia.
    destruct (224 + r / 4096 <? 128)%N eqn:A1; [lia|].
    destruct ((194 <=? 224 + r / 4096) && (224 + r / 4096 <=? 223))%N eqn:A2; [lia|].
    destruct ((224 <=? 224 + r / 4096) && (224 + r / 4096 <=? 239))%N eqn:A3; [|lia].
    destruct (224 + r / 4096 =? 224)%N eqn:A4;
    destruct (224 + r / 4096 =? 237)%N eqn:A5; [lia|..];
    match goal with |- context [if ?b then _ else _] => destruct b eqn:A6 end;
    try (f_equal; lia); unfold in_range in *; lia. }
  { cbn [app length]. unfold decode_rune, in_range. rewrite !ord_chr by lia.
    destruct (240 + r / 262144 <? 128)%N eqn:A1; [lia|].
    destruct ((194 <=? 240 + r / 262144) && (240 + r / 262144 <=? 223))%N eqn:A2; [lia|].
    destruct ((224 <=? 240 + r / 262144) && (240 + r / 262144 <=? 239))%N eqn:A3; [lia|].
    destruct ((240 <=? 240 + r / 262144) && (240 + r / 262144 <=? 244))%N eqn:A4; [|lia].
    destruct (240 + r / 262144 =? 240)%N eqn:A5;
    destruct (240 + r / 262144 =? 244)%N eqn:A6; [lia|..];
    match goal with |- context [if ?b then _ else _] => destruct b eqn:A7 end;
    try (f_equal; lia); unfold in_range in *; lia. }
Qed.

Lemma encode_rune_nonempty r : encode_rune r <> [].
Proof. unfold encode_rune. repeat (destruct (_ : bool)); discriminate. Qed.

Lemma encode_rune_length r : 1 <= length (encode_rune r) <= 4.
Proof. unfold encode_rune. repeat (destruct (_ : bool)); cbn [length]; lia. Qed.

Lemma range_from_skip i k a s :
  length a = k -> range_from i k (a ++ s) = range_from (i + k) 0 s.
Proof.
  revert i a; induction k as [|k IH]; intros i a H.
  - destruct a; [|discriminate]. simpl. now rewrite Nat.add_0_r.
  - destruct a as [|x a]; [discriminate|]. cbn [app range_from].
    rewrite IH by (simpl in H; lia). f_equal. lia.
Qed.

(** Enumeration of a rune list as [range] sees it. *)
Fixpoint ranged (i : nat) (rs : list rune) (tail : bytes) : list (nat * rune * bytes) :=
  match rs with
  | [] => range_from i 0 tail
  | r :: rs' => (i, r, string_of_runes rs ++ tail)
                :: ranged (i + length (encode_rune r)) rs' tail
  end.

Lemma string_of_runes_app a b : string_of_runes (a ++ b) = string_of_runes a ++ string_of_runes b.
Proof. unfold string_of_runes. apply flat_map_app. Qed.
Lemma string_of_runes_cons r b : string_of_runes (r :: b) = encode_rune r ++ string_of_runes b.
Proof. reflexivity. Qed.

Lemma range_from_ranged rs : forall i tail, forallb scalar rs = true ->
  range_from i 0 (string_of_runes rs ++ tail) = ranged i rs tail.
Proof.
  induction rs as [|r rs IH]; intros i tail H; [reflexivity|].
  cbn [forallb] in H. apply andb_true_iff in H. destruct H as [H1 H2].
  cbn [ranged]. rewrite string_of_runes_cons, <- app_assoc.
  pose proof (decode_encode r (string_of_runes rs ++ tail) H1) as D.
  pose proof (encode_rune_length r) as L.
  destruct (encode_rune r) as [|c e] eqn:E; [simpl in L; lia|].
  cbn [app range_from]. cbn [app] in D. rewrite D. f_equal.
  cbn [length]. rewrite Nat.sub_succ, Nat.sub_0_r.
  rewrite range_from_skip by reflexivity. rewrite IH by assumption.
  f_equal. lia.
Qed.

Lemma encode_ascii c : (ord c <? 128)%N = true -> encode_rune (R c) = [c].
Proof. intro H. unfold encode_rune, R. rewrite H. now rewrite chr_ord. Qed.

Lemma string_of_ascii_runes s :
  forallb (fun c => ord c <? 128)%N s = true -> string_of_runes (map R s) = s.
Proof.
  induction s as [|c s IH]; [reflexivity|]. cbn [forallb map]. intro H.
  apply andb_true_iff in H. destruct H as [H1 H2].
  rewrite string_of_runes_cons, encode_ascii, IH by assumption. reflexivity.
Qed.

Lemma runes_of_string rs : forallb scalar rs = true -> runes_of (string_of_runes rs) = rs.
Proof.
  intro H. unfold runes_of, range_string. rewrite <- (app_nil_r (string_of_runes rs)).
  rewrite range_from_ranged by assumption. generalize 0.
  clear H. induction rs as [|r rs IH]; intro n; [reflexivity|]. cbn [ranged map fst snd]. now rewrite IH.
Qed.

Lemma cons_eq_hd {A} (x y : A) a b : x :: a = y :: b -> y = x.
Proof. intro H. now inversion H. Qed.

(** The first byte of an encoded rune is that rune exactly if it is ASCII. *)
Lemma encode_first_byte r c e x : encode_rune r = c :: e -> scalar r = true -> (x <? 128)%N = true ->
  (ord c =? x)%N = (r =? x)%N.
Proof.
  intros H Sc X. unfold encode_rune in H. unfold scalar in Sc.
  apply andb_true_iff in Sc. destruct Sc as [Sc _]. apply N.ltb_lt in Sc, X.
  destruct (r <? 128)%N eqn:E1.
  { apply cons_eq_hd in H; rewrite H. rewrite ord_chr by lia. reflexivity. }
  destruct (r <? 2048)%N eqn:E2.
  { apply cons_eq_hd in H; rewrite H. rewrite ord_chr by lia.
    destruct (_ =? x)%N eqn:A; destruct (r =? x)%N eqn:A2; lia. }
  destruct (in_range 55296 57343 r || (1114111 <? r)%N) eqn:E3.
  { apply cons_eq_hd in H; rewrite H. change (ord (chr 239)) with 239%N.
    destruct (_ =? x)%N eqn:A; destruct (r =? x)%N eqn:A2; lia. }
  destruct (r <? 65536)%N eqn:E4; apply cons_eq_hd in H; rewrite H; rewrite ord_chr by lia;
    destruct (_ =? x)%N eqn:A; destruct (r =? x)%N eqn:A2; lia.
Qed.
