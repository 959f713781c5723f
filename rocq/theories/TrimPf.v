(** * TrimPf: strings.TrimSpace *)
From Verif Require Import GoBase GoBaseFacts SpecSprintf Utf8Facts TokenFacts MigrateModel.
From Coq Require Import Lia ZifyBool ZifyNat ZifyN.
Ltac Zify.zify_post_hook ::= idtac.

Definition cont (c : ascii) : Prop := (128 <= ord c < 192)%N.
Lemma ord_chr n : (n < 256)%N -> ord (chr n) = n.
Proof. intros H. unfold ord, chr. now apply N_ascii_embedding. Qed.
Lemma encode_shape r : scalar r = true -> exists c e, encode_rune r = c :: e /\ ~ cont c /\ Forall cont e.
Proof.
  unfold scalar, encode_rune. intros S.
  destruct (r <? 128)%N eqn:E1.
  { exists (chr r), []. split; [reflexivity|]. split; [|constructor]. unfold cont. rewrite ord_chr; lia. }
  assert (M : forall x, (128 <= ord (chr (128 + x mod 64)) < 192)%N).
  { intros x. pose proof (N.mod_upper_bound x 64 ltac:(lia)). rewrite ord_chr; lia. }
  destruct (r <? 2048)%N eqn:E2.
  { eexists _, _. split; [reflexivity|]. assert (r / 64 < 32)%N by (apply N.div_lt_upper_bound; lia). split; [|repeat constructor; apply M].
    unfold cont. rewrite ord_chr by lia. lia. }
  destruct (in_range 55296 57343 r || (1114111 <? r)%N) eqn:E3.
  { eexists _, _. split; [reflexivity|]. unfold cont. split; [vm_compute; intros [_ H]; discriminate|]. repeat constructor; vm_compute; congruence. }
  destruct (r <? 65536)%N eqn:E4.
  { eexists _, _. split; [reflexivity|]. assert (r / 4096 < 16)%N by (apply N.div_lt_upper_bound; lia). split; [|repeat constructor; apply M].
    unfold cont. rewrite ord_chr by lia. lia. }
  eexists _, _. split; [reflexivity|]. assert (r / 262144 < 8)%N.
  { apply N.div_lt_upper_bound; [lia|]. unfold in_range in E3. lia. }
  split; [|repeat constructor; apply M]. unfold cont. rewrite ord_chr by lia. lia.
Qed.

(** A decoded rune of which the text is exactly the encoding. *)
Lemma decode_shape c s r w : decode_rune (c :: s) = (r, w) -> is_space r = true -> ~ cont c /\ Forall cont (firstn (w - 1) s).
Proof.
  unfold decode_rune, cont. intros D S.
  assert (Er : is_space rune_error = true -> False) by (vm_compute; discriminate).
  destruct (ord c <? 128)%N eqn:E0.
  { injection D as <- <-. cbn [Nat.sub firstn]. split; [lia|constructor]. }
  destruct (in_range 194 223 (ord c)) eqn:E1; unfold in_range in E1.
  { destruct s as [|c1 s]; [injection D as <- <-; now destruct Er|].
    destruct (in_range 128 191 (ord c1)) eqn:E2; injection D as <- <-; [|now destruct Er]. cbn [Nat.sub firstn].
    unfold in_range in E2. split; [lia|]. repeat constructor; lia. }
  destruct (in_range 224 239 (ord c)) eqn:E2; unfold in_range in E2.
  { destruct s as [|c1 [|c2 s]]; [injection D as <- <-; now destruct Er..|].
    match type of D with (if ?b then _ else _) = _ => destruct b eqn:E3 end; injection D as <- <-; [|now destruct Er]. cbn [Nat.sub firstn].
    unfold in_range in E3. split; [lia|]. destruct (ord c =? 224)%N; destruct (ord c =? 237)%N; repeat constructor; lia. }
  destruct (in_range 240 244 (ord c)) eqn:E3; unfold in_range in E3; [|injection D as <- <-; now destruct Er].
  destruct s as [|c1 [|c2 [|c3 s]]]; [injection D as <- <-; now destruct Er..|].
  match type of D with (if ?b then _ else _) = _ => destruct b eqn:E4 end; injection D as <- <-; [|now destruct Er]. cbn [Nat.sub firstn].
  unfold in_range in E4. split; [lia|]. destruct (ord c =? 240)%N; destruct (ord c =? 244)%N; repeat constructor; lia.
Qed.

(** Two suffixes, each a lead byte and continuation bytes, are the same. *)
Lemma suffix_lead (x y : bytes) c e c' e' : x ++ c :: e = y ++ c' :: e' -> ~ cont c -> Forall cont e -> ~ cont c' -> Forall cont e' ->
  c :: e = c' :: e'.
Proof.
  revert y. induction x as [|a x IH]; intros [|b y] E N F N' F'; cbn [app] in E.
  - exact E.
  - injection E as -> E. exfalso. rewrite Forall_forall in F. apply N'. apply F. rewrite E. apply in_or_app. right. now left.
  - injection E as -> E. exfalso. rewrite Forall_forall in F'. apply N. apply F'. rewrite <- E. apply in_or_app. right. now left.
  - injection E as -> E. eapply IH; eauto.
Qed.

Lemma ends_spec w x r : scalar r = true -> 1 <= w ->
  ends_in_space w (x ++ encode_rune r) = Nat.eqb w (length (encode_rune r)) && is_space r.
Proof.
  intros S W. unfold ends_in_space. destruct (encode_shape r S) as (c & e & E & N & F).
  pose proof (decode_encode r [] S) as D. rewrite app_nil_r in D.
  destruct (Nat.eqb_spec w (length (encode_rune r))) as [->|Nw]; cbn [andb].
  - rewrite app_length. replace (length (encode_rune r) <=? length x + length (encode_rune r)) with true by (symmetry; apply Nat.leb_le; lia).
    replace (length x + length (encode_rune r) - length (encode_rune r)) with (length x) by lia.
    rewrite skipn_app, skipn_all, Nat.sub_diag. cbn [skipn app andb]. rewrite D, Nat.eqb_refl. reflexivity.
  - destruct (Nat.leb_spec w (length (x ++ encode_rune r))) as [L|L]; [|reflexivity]. cbn [andb].
    set (s := x ++ encode_rune r) in *. destruct (decode_rune (skipn (length s - w) s)) as [r' w'] eqn:D'.
    destruct (Nat.eqb_spec w' w) as [->|]; [|reflexivity]. cbn [andb]. destruct (is_space r') eqn:S'; [|reflexivity]. exfalso.
    assert (Lk : length (skipn (length s - w) s) = w) by (rewrite skipn_length; lia).
    destruct (skipn (length s - w) s) as [|c' e'] eqn:K; [cbn in Lk; lia|].
    destruct (decode_shape _ _ _ _ D' S') as (N' & F'). cbn [length] in Lk. replace (w - 1) with (length e') in F' by lia. rewrite firstn_all in F'.
    pose proof (firstn_skipn (length s - w) s) as J. rewrite K in J. assert (Es : s = x ++ c :: e) by (unfold s; now rewrite E). rewrite Es in J at 3.
    pose proof (suffix_lead _ _ _ _ _ _ J N' F' N F) as X. apply (f_equal (@length ascii)) in X. rewrite <- E in X. cbn [length] in X. lia.
Qed.

Lemma space_short r : is_space r = true -> scalar r = true -> length (encode_rune r) <= 3.
Proof.
  unfold is_space, scalar, encode_rune, in_range. intros S C. destruct (r <? 128)%N eqn:E1; [cbn; lia|]. destruct (r <? 2048)%N eqn:E2; [cbn; lia|].
  match goal with |- context [if ?b then _ else _] => destruct b eqn:E3 end; [cbn; lia|]. destruct (r <? 65536)%N eqn:E4; [cbn; lia|].
  exfalso. lia.
Qed.

Lemma trim_right_stop f x r : scalar r = true -> is_space r = false -> trim_right f (x ++ encode_rune r) = x ++ encode_rune r.
Proof.
  intros S N. destruct f as [|f]; [reflexivity|]. cbn [trim_right]. rewrite !ends_spec by (auto; lia). rewrite N, !andb_false_r. reflexivity.
Qed.
Lemma trim_right_step f x r : scalar r = true -> is_space r = true -> trim_right (S f) (x ++ encode_rune r) = trim_right f x.
Proof.
  intros S Y. cbn [trim_right]. rewrite !ends_spec by (auto; lia). rewrite Y, !andb_true_r.
  pose proof (space_short r Y S) as L. pose proof (encode_rune_length r) as L1.
  assert (F : firstn (length (x ++ encode_rune r) - length (encode_rune r)) (x ++ encode_rune r) = x).
  { rewrite app_length. replace (length x + length (encode_rune r) - length (encode_rune r)) with (length x) by lia.
    rewrite firstn_app, firstn_all, Nat.sub_diag. cbn [firstn]. apply app_nil_r. }
  destruct (Nat.eqb_spec 1 (length (encode_rune r))) as [E|]; [rewrite E, F; reflexivity|].
  destruct (Nat.eqb_spec 2 (length (encode_rune r))) as [E2|]; [rewrite E2, F; reflexivity|].
  destruct (Nat.eqb_spec 3 (length (encode_rune r))) as [E3|]; [rewrite E3, F; reflexivity|]. lia.
Qed.
Lemma trim_right_spaces b : forall f x, forallb scalar b = true -> forallb is_space b = true -> length b <= f ->
  trim_right f (x ++ string_of_runes b) = trim_right (f - length b) x.
Proof.
  induction b as [|r b IH] using rev_ind; intros f x C S L.
  - cbn [string_of_runes flat_map length]. rewrite app_nil_r. f_equal. lia.
  - rewrite forallb_app in C, S. cbn [forallb] in C, S. rewrite andb_true_r in C, S. apply andb_true_iff in C, S. destruct C as (C1 & C2), S as (S1 & S2).
    rewrite app_length in *. cbn [length] in *. destruct f as [|f]; [lia|].
    rewrite string_of_runes_app. replace (string_of_runes [r]) with (encode_rune r) by (cbn; now rewrite app_nil_r).
    rewrite app_assoc, trim_right_step by assumption. rewrite IH by (auto; lia). f_equal. lia.
Qed.
Lemma trim_left_spaces a : forall f x, forallb scalar a = true -> forallb is_space a = true -> length a <= f ->
  MigrateModel.trim_left f (string_of_runes a ++ x) = MigrateModel.trim_left (f - length a) x.
Proof.
  induction a as [|r a IH]; intros f x C S L.
  - cbn. f_equal. lia.
  - cbn [forallb length] in *. apply andb_true_iff in C, S. destruct C as (C1 & C2), S as (S1 & S2). destruct f as [|f]; [lia|].
    rewrite string_of_runes_cons, <- app_assoc. cbn [MigrateModel.trim_left].
    pose proof (encode_rune_nonempty r) as N. destruct (encode_rune r ++ string_of_runes a ++ x) as [|c s] eqn:E; [destruct (encode_rune r); [congruence|discriminate]|].
    rewrite <- E. rewrite decode_encode by assumption. rewrite S1, skipn_app, skipn_all, Nat.sub_diag. cbn [skipn app]. rewrite IH by (auto; lia). reflexivity.
Qed.
Lemma runes_length rs : length rs <= length (string_of_runes rs).
Proof. induction rs as [|r rs IH]; [cbn; lia|]. rewrite string_of_runes_cons, app_length. pose proof (encode_rune_length r). cbn [length]. lia. Qed.

(** White space at both ends goes, the rest stays. *)
Lemma trim_space_spec a core b : forallb scalar (a ++ core ++ b) = true -> forallb is_space a = true -> forallb is_space b = true ->
  (forall r, hd_error core = Some r -> is_space r = false) -> (forall r, hd_error (rev core) = Some r -> is_space r = false) ->
  trim_space (string_of_runes (a ++ core ++ b)) = string_of_runes core.
Proof.
  intros C A B0 H1 H2. rewrite !forallb_app in C. apply andb_true_iff in C. destruct C as (C1 & C). apply andb_true_iff in C. destruct C as (C2 & C3).
  unfold trim_space. rewrite string_of_runes_app.
  pose proof (runes_length a) as La. pose proof (runes_length (core ++ b)) as Lc. pose proof (runes_length b) as Lb.
  rewrite trim_left_spaces by (auto; rewrite app_length; lia).
  destruct core as [|r core] using rev_ind; [|clear IHcore].
  - cbn [app] in *. assert (E : forall f, length b <= f -> MigrateModel.trim_left f (string_of_runes b) = []).
    { intros f Lf. rewrite <- (app_nil_r (string_of_runes b)). rewrite trim_left_spaces by auto. now destruct (f - length b). }
    rewrite E; [reflexivity|]. rewrite app_length. lia.
  - assert (E : forall f, MigrateModel.trim_left f (string_of_runes ((core ++ [r]) ++ b)) = string_of_runes ((core ++ [r]) ++ b)).
    { intros [|f]; [reflexivity|]. destruct (core ++ [r]) as [|r0 rs] eqn:Q; [destruct core; discriminate|]. cbn [app]. rewrite string_of_runes_cons.
      cbn [MigrateModel.trim_left]. cbn [forallb] in C2. apply andb_true_iff in C2. destruct C2 as (C2 & _).
      pose proof (encode_rune_nonempty r0) as N. destruct (encode_rune r0 ++ string_of_runes (rs ++ b)) as [|c s] eqn:E; [destruct (encode_rune r0); [congruence|discriminate]|].
      rewrite <- E, decode_encode by assumption. rewrite (H1 r0) by reflexivity. reflexivity. }
    rewrite E. rewrite string_of_runes_app, trim_right_spaces; [|auto..|rewrite app_length; lia].
    rewrite forallb_app in C2. cbn [forallb] in C2. rewrite andb_true_r in C2. apply andb_true_iff in C2. destruct C2 as (_ & C2).
    rewrite string_of_runes_app. replace (string_of_runes [r]) with (encode_rune r) by (cbn; now rewrite app_nil_r).
    apply trim_right_stop; [exact C2|]. apply H2. rewrite rev_app_distr. reflexivity.
Qed.
