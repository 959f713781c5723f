(** * Facts about Sprintf *)
From Verif Require Import GoBase GoBaseFacts SpecLex QuoteModel SprintModel SpecSprintf SpecSprint
  Utf8Facts SprintFacts.
From Coq Require Import Lia ZifyBool ZifyNat ZifyN.
Ltac Zify.zify_post_hook ::= idtac.

Lemma memr_true r l : memr r l = true <-> In r l.
Proof.
  unfold memr. rewrite existsb_exists. split.
  - intros [x [H1 H2]]. apply N.eqb_eq in H2. now subst.
  - intro H. exists r. split; [assumption|apply N.eqb_refl].
Qed.

Lemma quote_runes_opens d r : memr r (quote_runes d) = opens_quote d r.
Proof.
  unfold memr, opens_quote. destruct d; cbn [quote_runes existsb is_mysql is_sqlserver];
    rewrite ?andb_true_r, ?andb_false_r, ?orb_false_r, ?orb_assoc; reflexivity.
Qed.

Lemma terminators_eq r : memr r terminators = name_terminating r.
Proof.
  reflexivity.
Qed.

Lemma params_eq d r : memr r (param_runes d)
  = starts_param d r || ((r =? R "?")%N && negb (is_postgres d)).
Proof.
  unfold memr, starts_param. destruct d; cbn [param_runes existsb is_sqlite is_postgres is_sqlserver negb orb];
    rewrite ?andb_true_r, ?andb_false_r, ?orb_false_r, ?orb_assoc; reflexivity.
Qed.

Lemma plain_facts d r : plain d r = true ->
  opens_quote d r = false /\ starts_param d r = false /\
  ((r =? R "?")%N && negb (is_postgres d) = false) /\ scalar r = true.
Proof.
  unfold plain. rewrite quote_runes_opens, params_eq. intro H.
  apply andb_true_iff in H. destruct H as [H H3]. apply andb_true_iff in H. destruct H as [H1 H2].
  apply negb_true_iff in H2, H3. apply orb_false_iff in H3. tauto.
Qed.

Lemma terminator_not_quote d r : name_terminating r = true -> opens_quote d r = false.
Proof.
  rewrite <- terminators_eq, memr_true. unfold terminators. cbn [In].
  intro H. repeat (destruct H as [<-|H]; [destruct d; reflexivity|]). destruct H.
Qed.

Definition clean (st : scan) (i : nat) : Prop :=
  sc_must st < i /\ sc_inside st = false /\ sc_pname st = [].

  Lemma with_buf_clean st b i j : clean st i -> i <= j -> clean (with_buf st b) j.
  Proof. intros [A [C D]] L. unfold clean, with_buf; cbn. repeat split; try assumption; lia. Qed.

  Lemma with_buf_app st a b : with_buf (with_buf st a) b = with_buf st (a ++ b).
  Proof. unfold with_buf; cbn. now rewrite app_assoc. Qed.

Section Scan.
  Context (d : dialect) (args : list gval) (named : list (bytes * nat)).
  Let step := scan_step d args named.
  Let loop := scan_loop d args named.

  Lemma step_plain st i r suf : clean st i -> plain d r = true ->
    step st (i, r, suf) = Ok (with_buf st (encode_rune r)).
  Proof.
    intros [Hm [Hi Hp]] H. apply plain_facts in H. destruct H as [H1 [H2 [H3 H4]]].
    unfold step, scan_step. destruct (Nat.eqb_spec (sc_must st) i); [lia|].
    rewrite Hi, H1, Hp. cbn [nullb negb]. now rewrite H2, H3.
  Qed.

  Lemma loop_text rs : forall i st rest tl, clean st i -> forallb (plain d) rs = true ->
    loop st (ranged i (rs ++ rest) tl)
    = loop (with_buf st (string_of_runes rs)) (ranged (i + length (string_of_runes rs)) rest tl).
  Proof.
    induction rs as [|r rs IH]; intros i st rest tl Hc H.
    - cbn [app string_of_runes flat_map length]. rewrite Nat.add_0_r.
      unfold with_buf. rewrite app_nil_r. destruct st; reflexivity.
    - cbn [forallb] in H. apply andb_true_iff in H. destruct H as [H1 H2].
      cbn [app ranged]. unfold loop at 1. cbn [scan_loop]. fold loop step.
      rewrite step_plain by assumption.
      rewrite IH; [|apply with_buf_clean with (i := i); [assumption|lia]|assumption].
      rewrite with_buf_app, string_of_runes_cons, app_length, Nat.add_assoc. reflexivity.
  Qed.

  (** Inside a quoted token. *)
  Definition inq (st : scan) (i : nat) (q : rune) (b : bytes) : scan :=
    mk_scan (sc_buf st ++ b) (sc_running st) true q i (sc_pname st).

  Lemma nth1_next c rest tl :
    (c <? 128)%N = true ->
    nth_error (string_of_runes (c :: rest) ++ tl) 1 = nth_error (string_of_runes rest ++ tl) 0.
  Proof.
    intro H. rewrite string_of_runes_cons. unfold encode_rune at 1. rewrite H. reflexivity.
  Qed.

  Lemma next_is rest tl x : (x <? 128)%N = true -> forallb scalar rest = true -> tl = [] ->
    match nth_error (string_of_runes rest ++ tl) 0 with
    | Some b => (ord b =? x)%N | None => false end
    = match rest with r :: _ => (r =? x)%N | [] => false end.
  Proof.
    intros Hx Hs ->. rewrite app_nil_r. destruct rest as [|r rest]; [reflexivity|].
    cbn [forallb] in Hs. apply andb_true_iff in Hs. destruct Hs as [Hr _].
    rewrite string_of_runes_cons. pose proof (encode_rune_nonempty r) as Hn.
    destruct (encode_rune r) as [|c e] eqn:E; [contradiction|]. cbn [app nth_error].
    now apply encode_first_byte with (e := e).
  Qed.

  Lemma loop_quoted q body : forall i st m rest,
    m < i -> (closer q <? 128)%N = true -> sc_inside st = true -> sc_quote st = q -> sc_must st = m ->
    forallb scalar body = true -> forallb scalar rest = true ->
    match rest with [] => true | r :: _ => negb (r =? closer q)%N end = true ->
    exists m', m' < i + length (string_of_runes (double (closer q) body ++ [closer q])) /\
    loop st (ranged i (double (closer q) body ++ [closer q] ++ rest) [])
    = loop (mk_scan (sc_buf st ++ string_of_runes (double (closer q) body ++ [closer q]))
              (sc_running st) false q m' (sc_pname st))
        (ranged (i + length (string_of_runes (double (closer q) body ++ [closer q]))) rest []).
  Proof.
    set (cl := closer q).
    assert (Hcs : (cl <? 128)%N = true -> scalar cl = true).
    { intro H. unfold scalar, in_range. lia. }
    induction body as [|x body IH]; intros i st m rest Hm Hcl Hin Hq Hmust Hb Hr Hn.
    - exists m. cbn [double app]. cbn [string_of_runes flat_map]. rewrite app_nil_r.
      assert (El : length (encode_rune cl) = 1) by (unfold encode_rune; rewrite Hcl; reflexivity).
      rewrite El. split; [lia|].
      cbn [ranged]. unfold loop at 1. cbn [scan_loop]. fold loop.
      unfold scan_step. rewrite Hmust. destruct (Nat.eqb_spec m i); [lia|].
      rewrite Hin, Hq. fold cl. rewrite N.eqb_refl.
      rewrite nth1_next by assumption.
      pose proof (next_is rest [] cl Hcl Hr eq_refl) as NX.
      rewrite El.
      destruct (nth_error (string_of_runes rest ++ []) 0) as [b|].
      + assert ((ord b =? cl)%N = false) as ->
          by (rewrite NX; destruct rest; [reflexivity|]; now apply negb_true_iff in Hn).
        unfold with_inside, with_buf; cbn. now rewrite Hq, Hmust.
      + unfold with_inside, with_buf; cbn. now rewrite Hq, Hmust.
    - cbn [forallb] in Hb. apply andb_true_iff in Hb. destruct Hb as [Hx Hb].
      cbn [double]. destruct (x =? cl)%N eqn:Ex.
      + apply N.eqb_eq in Ex. subst x.
        assert (El : length (encode_rune cl) = 1) by (unfold encode_rune; rewrite Hcl; reflexivity).
        cbn [app ranged]. unfold loop at 1. cbn [scan_loop]. fold loop.
        unfold scan_step at 1. rewrite Hmust. destruct (Nat.eqb_spec m i); [lia|].
        rewrite Hin, Hq. fold cl. rewrite N.eqb_refl.
        rewrite nth1_next by assumption.
        assert (Hs2 : forallb scalar ((cl :: double cl body) ++ cl :: rest) = true).
        { cbn [app forallb]. rewrite Hcs by assumption. cbn [andb].
          rewrite forallb_app. cbn [forallb]. rewrite Hcs, Hr by assumption.
          rewrite andb_true_r. clear -Hb Hcs Hcl. induction body as [|y body IH]; [reflexivity|].
          cbn [forallb] in Hb. apply andb_true_iff in Hb. destruct Hb as [H1 H2].
          cbn [double]. destruct (y =? cl)%N; cbn [forallb]; rewrite H1, IH by assumption; reflexivity. }
        pose proof (next_is ((cl :: double cl body) ++ cl :: rest) [] cl Hcl Hs2 eq_refl) as NX.
        cbn [app] in NX. rewrite N.eqb_refl in NX.
        change (cl :: double cl body ++ cl :: rest) with ((cl :: double cl body) ++ cl :: rest) in *.
        destruct (nth_error (string_of_runes ((cl :: double cl body) ++ cl :: rest) ++ []) 0) as [b|]; [|discriminate].
        rewrite NX.
        unfold scan_step at 1. cbn [with_must with_buf sc_must].
        rewrite El. destruct (Nat.eqb_spec (i + 1) (i + 1)); [|lia].
        match goal with |- context [loop ?s (ranged (i + 1 + 1) _ _)] => set (st2 := s) end.
        destruct (IH (i + 1 + 1) st2 (i + 1) rest) as [m' [Hm' E']]; try assumption; try reflexivity; try lia.
        exists m'. cbn [app] in E'. rewrite E'.
        rewrite !string_of_runes_cons, !app_length, El in *.
        split; [lia|]. f_equal.
        * unfold st2, with_must, with_buf; cbn. rewrite <- !app_assoc. reflexivity.
        * f_equal. lia.
      + cbn [app ranged]. unfold loop at 1. cbn [scan_loop]. fold loop.
        unfold scan_step at 1. rewrite Hmust. destruct (Nat.eqb_spec m i); [lia|].
        rewrite Hin, Hq. fold cl. rewrite Ex.
        match goal with |- context [loop ?s (ranged (i + length _) _ _)] => set (st2 := s) end.
        destruct (IH (i + length (encode_rune x)) st2 m rest) as [m' [Hm' E']]; try assumption; try reflexivity; try lia.
        exists m'. cbn [app] in E'. rewrite E'.
        rewrite !string_of_runes_cons, !app_length in *.
        split; [lia|]. f_equal.
        * unfold st2, with_must, with_buf; cbn. rewrite <- !app_assoc. reflexivity.
        * f_equal. lia.
  Qed.

  (** Accumulating a parameter name. *)
  Lemma loop_name name : forall i st rest tl,
    sc_must st < i -> sc_inside st = false -> sc_pname st <> [] ->
    forallb (name_rune d) name = true ->
    loop st (ranged i (name ++ rest) tl)
    = loop (mk_scan (sc_buf st) (sc_running st) false (sc_quote st) (sc_must st) (sc_pname st ++ name))
        (ranged (i + length (string_of_runes name)) rest tl).
  Proof.
    induction name as [|r name IH]; intros i st rest tl Hm Hi Hp H.
    - cbn [app string_of_runes flat_map length]. rewrite Nat.add_0_r, app_nil_r, <- Hi.
      destruct st; reflexivity.
    - cbn [forallb] in H. apply andb_true_iff in H. destruct H as [H1 H2].
      unfold name_rune in H1. rewrite quote_runes_opens, terminators_eq in H1.
      apply andb_true_iff in H1. destruct H1 as [H1 H4]. apply andb_true_iff in H1. destruct H1 as [H1 H3].
      apply negb_true_iff in H3, H4.
      cbn [app ranged]. unfold loop at 1. cbn [scan_loop]. fold loop.
      unfold scan_step. destruct (Nat.eqb_spec (sc_must st) i); [lia|].
      rewrite Hi, H3. destruct (sc_pname st) as [|p0 p] eqn:Ep; [contradiction|].
      cbn [nullb negb]. rewrite H4.
      rewrite IH; cbn [sc_must sc_inside sc_pname sc_buf sc_running sc_quote]; try assumption; try reflexivity; try lia.
      2:{ destruct p; discriminate. }
      rewrite string_of_runes_cons, app_length, Nat.add_assoc.
      rewrite <- app_assoc. reflexivity.
  Qed.

  (** A terminator after a pending parameter behaves like plain text after the
      parameter's value. *)
  Lemma step_terminator st i r suf v :
    sc_must st < i -> sc_inside st = false -> sc_pname st <> [] ->
    plain d r = true -> name_terminating r = true ->
    lookup_param d args (sc_pname st) named (sc_running st) = Ok v ->
    step st (i, r, suf)
    = step (mk_scan (sc_buf st ++ v)
              (match sc_pname st with [p] => if (p =? R "?")%N then S (sc_running st) else sc_running st
                                    | _ => sc_running st end)
              false (sc_quote st) (sc_must st) []) (i, r, suf).
  Proof.
    intros Hm Hi Hp Hpl Ht Hl.
    rewrite (step_plain (mk_scan _ _ _ _ _ _)) by (unfold clean; cbn; auto || assumption).
    unfold step, scan_step. destruct (Nat.eqb_spec (sc_must st) i); [lia|].
    rewrite Hi. apply plain_facts in Hpl. destruct Hpl as [H1 _]. rewrite H1.
    destruct (sc_pname st) as [|p0 p] eqn:Ep; [contradiction|]. cbn [nullb negb].
    rewrite Ht, Hl. unfold with_buf; cbn. rewrite app_assoc. reflexivity.
  Qed.
End Scan.

(** ** Named arguments *)
Lemma named_from_app i a x m :
  named_args_lookup_from i (a ++ [x]) m
  = match x with
    | GNamedArg n _ => mset n (i + length a) (named_args_lookup_from i a m)
    | _ => named_args_lookup_from i a m
    end.
Proof.
  revert i m; induction a as [|y a IH]; intros i m.
  - cbn [app named_args_lookup_from length]. rewrite Nat.add_0_r. destruct x; reflexivity.
  - cbn [app named_args_lookup_from length].
    destruct y; rewrite IH; destruct x; try reflexivity; now rewrite Nat.add_succ_r.
Qed.

Lemma named_lookup_find name args :
  match mget name (named_args_lookup args) with
  | Some k => nth_error args k
  | None => None
  end = find_named name args.
Proof.
  unfold named_args_lookup, find_named.
  assert (B : forall k, mget name (named_args_lookup_from 0 args []) = Some k -> k < length args).
  { induction args as [|x a IH] using rev_ind; intros k; [discriminate|].
    rewrite named_from_app, app_length. cbn [length].
    destruct x; try (intro H; apply IH in H; lia).
    rewrite mget_mset. destruct (beqb name name0); [intro H; injection H as <-; lia|].
    intro H; apply IH in H; lia. }
  induction args as [|x a IH] using rev_ind; [reflexivity|].
  assert (Ba : forall k, mget name (named_args_lookup_from 0 a []) = Some k -> k < length a).
  { clear. induction a as [|x a IH] using rev_ind; intros k; [discriminate|].
    rewrite named_from_app, app_length. cbn [length].
    destruct x; try (intro H; apply IH in H; lia).
    rewrite mget_mset. destruct (beqb name name0); [intro H; injection H as <-; lia|].
    intro H; apply IH in H; lia. }
  specialize (IH Ba). rewrite rev_app_distr. cbn [rev app find].
  rewrite named_from_app.
  assert (Old : match mget name (named_args_lookup_from 0 a []) with
                | Some k => nth_error (a ++ [x]) k | None => None end
              = match mget name (named_args_lookup_from 0 a []) with
                | Some k => nth_error a k | None => None end).
  { destruct (mget name (named_args_lookup_from 0 a [])) as [k|] eqn:E; [|reflexivity].
    specialize (Ba k eq_refl). now rewrite nth_error_app1. }
  destruct x; try (rewrite Old; exact IH).
  rewrite mget_mset. rewrite beqb_sym. destruct (beqb name0 name).
  - rewrite nth_error_app2 by lia. cbn [Nat.add]. rewrite Nat.sub_diag. reflexivity.
  - rewrite Old. exact IH.
Qed.

(** ** Looking up the designated argument *)
Lemma itoa_ascii n : forallb (fun c => ord c <? 128)%N (itoa n) = true.
Proof.
  pose proof (format_uint_digits (N.of_nat n)) as H. unfold itoa.
  induction H as [|c l Hc Hl IH]; [reflexivity|]. cbn [forallb]. rewrite IH, andb_true_r.
  unfold in_range in Hc. lia.
Qed.

Lemma itoa_nonempty n : itoa n <> [].
Proof. apply format_uint_nonempty. Qed.

Lemma digit_name_rune d c : in_range 48 57 (ord c) = true -> name_rune d (R c) = true.
Proof.
  intro H. unfold name_rune. rewrite quote_runes_opens, terminators_eq.
  assert (scalar (R c) = true) as -> by (unfold scalar, in_range, R in *; lia).
  assert (opens_quote d (R c) = false) as ->.
  { unfold opens_quote, in_range, R in *. repeat match goal with |- context [ord (Ascii ?a ?b ?c ?d ?e ?f ?g ?h)] => let x := eval compute in (ord (Ascii a b c d e f g h)) in change (ord (Ascii a b c d e f g h)) with x end. lia. }
  assert (name_terminating (R c) = false) as ->.
  { unfold name_terminating, in_range, R in *. cbn [existsb]. repeat match goal with |- context [ord (Ascii ?a ?b ?c ?d ?e ?f ?g ?h)] => let x := eval compute in (ord (Ascii a b c d e f g h)) in change (ord (Ascii a b c d e f g h)) with x end. lia. }
  reflexivity.
Qed.

Lemma itoa_name_runes d n : forallb (name_rune d) (map R (itoa n)) = true.
Proof.
  pose proof (format_uint_digits (N.of_nat n)) as H. unfold itoa.
  induction H as [|c l Hc Hl IH]; [reflexivity|]. cbn [map forallb]. rewrite IH, andb_true_r.
  now apply digit_name_rune.
Qed.

Lemma lookup_ordinal d args named k n :
  (is_postgres d || is_sqlite d || is_sqlserver d) = true ->
  (Z.of_nat (S n) <=? max_int64)%Z = true ->
  forall v, nth_error args n = Some v ->
  lookup_param d args (seg_src d (Ordinal n)) named k = sprint d v.
Proof.
  intros Hd Hn v Hv. cbn [seg_src].
  assert (A : atoi (itoa (S n)) = Some (Z.of_nat (S n))) by (apply atoi_itoa; lia).
  pose proof (itoa_nonempty (S n)) as Hne.
  assert (Str : string_of_runes (map R (itoa (S n))) = itoa (S n))
    by (apply string_of_ascii_runes, itoa_ascii).
  assert (Hlt : n < length args) by (apply nth_error_Some; congruence).
  assert (Core : forall (e : bytes) , e = itoa (S n) ->
     (if is_empty e then (if negb (R "$" =? R "?")%N then Err (B "parameter name missing")
       else match nth_error args k with None => Panic | Some v => sprint d v end)
      else match atoi e with
           | Some num => let num := (num - 1)%Z in
              if (num <? 0)%Z || (Z.of_nat (length args) <=? num)%Z
              then Err (B "args index out of bounds")
              else match nth_error args (Z.to_nat num) with
                   | Some v => sprint d v | None => Panic end
           | None => Panic
           end) = sprint d v).
  { intros e ->. rewrite A. destruct (itoa (S n)); [contradiction|]. cbn [is_empty].
    cbv zeta. destruct ((Z.of_nat (S n) - 1 <? 0)%Z) eqn:E1; [lia|].
    destruct ((Z.of_nat (length args) <=? Z.of_nat (S n) - 1)%Z) eqn:E2; [lia|]. cbn [orb].
    replace (Z.to_nat (Z.of_nat (S n) - 1)) with n by lia. now rewrite Hv. }
  destruct (is_sqlserver d) eqn:Es.
  - cbn [app]. unfold lookup_param. rewrite Es.
    change ((R "@" =? R "@")%N && true && ((R "p" =? R "p")%N || (R "p" =? R "P")%N)) with true.
    cbv iota. rewrite Str. clear Core. destruct (itoa (S n)) eqn:Ei; [contradiction|]. cbn [is_empty].
    rewrite A. destruct ((Z.of_nat (S n) - 1 <? 0)%Z) eqn:E1; [lia|].
    destruct ((Z.of_nat (length args) <=? Z.of_nat (S n) - 1)%Z) eqn:E2; [lia|]. cbn [orb].
    replace (Z.to_nat (Z.of_nat (S n) - 1)) with n by lia. now rewrite Hv.
  - cbn [app]. unfold lookup_param. rewrite Es.
    change (R "$" =? R "@")%N with false. cbn [andb].
    destruct (map R (itoa (S n))) as [|p1 pr] eqn:Em.
    { destruct (itoa (S n)); [contradiction|discriminate]. }
    rewrite Str. clear Core. destruct (itoa (S n)) eqn:Ei; [contradiction|]. cbn [is_empty].
    rewrite A. destruct ((Z.of_nat (S n) - 1 <? 0)%Z) eqn:E1; [lia|].
    destruct ((Z.of_nat (length args) <=? Z.of_nat (S n) - 1)%Z) eqn:E2; [lia|]. cbn [orb].
    replace (Z.to_nat (Z.of_nat (S n) - 1)) with n by lia. now rewrite Hv.
Qed.

Lemma string_of_runes_nonempty rs : rs <> [] -> is_empty (string_of_runes rs) = false.
Proof.
  destruct rs as [|r rs]; [contradiction|]. intros _. rewrite string_of_runes_cons.
  pose proof (encode_rune_nonempty r). now destruct (encode_rune r).
Qed.

Lemma lookup_named d args k sigil name v :
  wf_seg d (NamedP sigil name) = true ->
  find_named (string_of_runes name) args = Some v ->
  lookup_param d args (sigil :: name) (named_args_lookup args) k = sprint d v.
Proof.
  cbn [wf_seg]. intros H Hf.
  apply andb_true_iff in H. destruct H as [H H5]. apply andb_true_iff in H. destruct H as [H H4].
  apply andb_true_iff in H. destruct H as [H H3]. apply andb_true_iff in H. destruct H as [H1 H2].
  destruct name as [|p rest]; [discriminate|].
  pose proof (named_lookup_find (string_of_runes (p :: rest)) args) as NL. rewrite Hf in NL.
  unfold lookup_param. cbv beta iota zeta.
  match goal with |- context [is_empty ?x] => set (mn := x) end.
  assert (Hm : is_empty mn = false /\ atoi mn = None).
  { unfold mn. destruct (is_sqlserver d) eqn:Es.
    - destruct ((p =? R "p")%N || (p =? R "P")%N) eqn:Ep; cbn [andb] in *.
      + rewrite andb_true_r. destruct (sigil =? R "@")%N eqn:Esg; cbn [andb].
        * apply andb_true_iff in H5. destruct H5 as [H5 H6].
          split; [apply string_of_runes_nonempty; now destruct rest|].
          now destruct (atoi (string_of_runes rest)).
        * split; [now apply string_of_runes_nonempty|]. now destruct (atoi (string_of_runes (p :: rest))).
      + rewrite andb_false_r. split; [now apply string_of_runes_nonempty|].
        now destruct (atoi (string_of_runes (p :: rest))).
    - rewrite andb_false_r. cbn [andb]. split; [now apply string_of_runes_nonempty|].
      now destruct (atoi (string_of_runes (p :: rest))). }
  destruct Hm as [-> ->].
  assert (is_postgres d || is_mysql d = false) as ->.
  { destruct d; try reflexivity; cbn in H1; discriminate. }
  destruct (mget (string_of_runes (p :: rest)) (named_args_lookup args)) as [num|]; [|discriminate].
  now rewrite NL.
Qed.

Lemma lookup_anon d args named k v : nth_error args k = Some v ->
  lookup_param d args [R "?"] named k = sprint d v.
Proof. intro H. unfold lookup_param. cbn [is_empty]. change (negb (R "?" =? R "?")%N) with false. cbv iota. now rewrite H. Qed.

(** ** The main simulation *)
Lemma src_scalar d segs : wf_segs d segs = true -> forallb scalar (src d segs) = true.
Proof.
  assert (PS : forall l, forallb (plain d) l = true -> forallb scalar l = true).
  { intros l H. rewrite forallb_forall in *. intros x Hx. apply H in Hx.
    now apply plain_facts in Hx. }
  assert (NS : forall l, forallb (name_rune d) l = true -> forallb scalar l = true).
  { intros l H. rewrite forallb_forall in *. intros x Hx. apply H in Hx.
    unfold name_rune in Hx. now destruct (scalar x). }
  assert (QS : forall q, memr q (quote_runes d) = true -> scalar q = true /\ scalar (close_of q) = true).
  { intros q H. apply memr_true in H. destruct d; cbn [quote_runes In] in H;
      repeat (destruct H as [<-|H]; [split; reflexivity|]); destruct H. }
  induction segs as [|s segs IH]; [reflexivity|]. cbn [wf_segs src flat_map].
  intro H. apply andb_true_iff in H. destruct H as [H H3]. apply andb_true_iff in H. destruct H as [H1 H2].
  rewrite forallb_app. change (flat_map (seg_src d) segs) with (src d segs).
  rewrite IH by assumption. rewrite andb_true_r.
  destruct s as [rs|q body|n|sg name|]; cbn [seg_src wf_seg] in *.
  - auto.
  - apply andb_true_iff in H1. destruct H1 as [Hq Hb]. apply QS in Hq. destruct Hq as [Q1 Q2].
    cbn [forallb]. rewrite Q1, forallb_app. cbn [forallb]. rewrite Q2.
    rewrite !andb_true_r. cbn [andb].
    revert Hb. clear -Q2. induction body as [|y body IH]; [reflexivity|].
    cbn [forallb]. intro Hb. apply andb_true_iff in Hb. destruct Hb as [A C].
    cbn [double]. destruct (y =? close_of q)%N; cbn [forallb]; rewrite A, IH by assumption; reflexivity.
  - rewrite forallb_app. rewrite (NS _ (itoa_name_runes d (S n))), andb_true_r.
    destruct (is_sqlserver d); reflexivity.
  - apply andb_true_iff in H1. destruct H1 as [H _]. apply andb_true_iff in H. destruct H as [H _].
    apply andb_true_iff in H. destruct H as [H A]. apply andb_true_iff in H. destruct H as [H _].
    cbn [forallb]. rewrite (NS _ A), andb_true_r.
    apply orb_true_iff in H. destruct H as [H|H].
    + apply andb_true_iff in H. destruct H as [_ H]. apply memr_true in H. cbn [In] in H.
      repeat (destruct H as [<-|H]; [reflexivity|]); destruct H.
    + apply andb_true_iff in H. destruct H as [_ H]. apply N.eqb_eq in H. subst. reflexivity.
  - reflexivity.
Qed.

Definition finish d args named (o : outcome scan) : outcome bytes :=
  match o with
  | Ok st => scan_finish d args named st
  | Err e => Err e
  | Panic => Panic
  end.

Lemma close_of_closer q : close_of q = closer q.
Proof. reflexivity. Qed.

Lemma quote_not_start d q : memr q (quote_runes d) = true ->
  opens_quote d q = true /\ (closer q <? 128)%N = true /\ length (encode_rune q) = 1.
Proof.
  intro H. split; [now rewrite <- quote_runes_opens|].
  apply memr_true in H. destruct d; cbn [quote_runes In] in H;
    repeat (destruct H as [<-|H]; [split; reflexivity|]); destruct H.
Qed.

(** What happens after the name of a placeholder has been read. *)
Lemma finish_param d args named st i v rest :
  sc_must st < i -> sc_inside st = false -> sc_pname st <> [] ->
  lookup_param d args (sc_pname st) named (sc_running st) = Ok v ->
  match rest with
  | [] => true
  | Text (r :: _) :: _ => memr r terminators
  | _ => false
  end = true ->
  wf_segs d rest = true ->
  finish d args named (scan_loop d args named st (ranged i (src d rest) []))
  = finish d args named
      (scan_loop d args named
         (mk_scan (sc_buf st ++ v)
            (match sc_pname st with [p] => if (p =? R "?")%N then S (sc_running st) else sc_running st
                                  | _ => sc_running st end)
            false (sc_quote st) (sc_must st) [])
         (ranged i (src d rest) [])).
Proof.
  intros Hm Hi Hp Hl Hr Hw.
  destruct rest as [|s rest].
  - cbn [src flat_map ranged range_from scan_loop finish]. unfold scan_finish.
    cbn [sc_pname sc_inside sc_buf nullb negb]. rewrite Hi, Hl.
    destruct (sc_pname st); [contradiction|]. reflexivity.
  - destruct s as [[|r rs]|q body|n|sg name|]; try discriminate.
    cbn [wf_segs wf_seg] in Hw. apply andb_true_iff in Hw. destruct Hw as [Hw _].
    apply andb_true_iff in Hw. destruct Hw as [Hw _].
    cbn [forallb] in Hw. apply andb_true_iff in Hw. destruct Hw as [Hpl _].
    rewrite terminators_eq in Hr.
    cbn [src flat_map seg_src app ranged scan_loop].
    rewrite (step_terminator d args named st i r _ v) by assumption. reflexivity.
Qed.

Lemma scan_segs d args : forall segs i st out,
  clean st i -> wf_segs d segs = true ->
  expected d args (sc_running st) segs = Some out ->
  finish d args (named_args_lookup args)
    (scan_loop d args (named_args_lookup args) st (ranged i (src d segs) []))
  = Ok (sc_buf st ++ out).
Proof.
  set (named := named_args_lookup args).
  induction segs as [|s segs IH]; intros i st out Hc Hw He.
  - cbn [expected] in He. injection He as <-. destruct Hc as [Hm [Hi Hp]].
    cbn [src flat_map ranged range_from scan_loop finish]. unfold scan_finish.
    rewrite Hp, Hi. cbn [nullb negb]. now rewrite app_nil_r.
  - cbn [wf_segs] in Hw. apply andb_true_iff in Hw. destruct Hw as [Hw Hws].
    apply andb_true_iff in Hw. destruct Hw as [Hwf Hsep].
    destruct s as [rs|q body|n|sg name|]; cbn [expected] in He.
    + (* plain text *)
      cbn [seg_src wf_seg] in *.
      destruct (expected d args (sc_running st) segs) as [out'|] eqn:Ee; [|discriminate].
      injection He as <-.
      cbn [src flat_map seg_src]. rewrite loop_text by assumption.
      change (flat_map (seg_src d) segs) with (src d segs).
      rewrite IH with (out := out').
      * unfold with_buf; cbn [sc_buf]. now rewrite app_assoc.
      * apply with_buf_clean with (i := i); [assumption|lia].
      * assumption.
      * assumption.
    + (* quoted token *)
      cbn [wf_seg separated] in *.
      destruct (expected d args (sc_running st) segs) as [out'|] eqn:Ee; [|discriminate].
      injection He as <-. apply andb_true_iff in Hwf. destruct Hwf as [Hq Hb].
      destruct (quote_not_start d q Hq) as [Q1 [Q2 Q3]].
      cbn [src flat_map seg_src app].
      change (flat_map (seg_src d) segs) with (src d segs).
      cbn [ranged scan_loop]. destruct Hc as [Hm [Hi Hp]].
      unfold scan_step at 1. destruct (Nat.eqb_spec (sc_must st) i); [lia|].
      rewrite Hi, Q1. rewrite Q3. rewrite close_of_closer.
      match goal with |- context [scan_loop d args named ?s (ranged (i + 1) _ _)] => set (st2 := s) end.
      destruct (loop_quoted d args named q body (i + 1) st2 (sc_must st) (src d segs)) as [m' [Hm' E']];
        try assumption; try reflexivity; try lia.
      { now apply src_scalar. }
      { rewrite <- app_assoc. rewrite E'. rewrite IH with (out := out').
        - unfold st2; cbn [sc_buf seg_src]. now rewrite !app_assoc.
        - unfold clean. cbn [sc_must sc_inside sc_pname]. unfold st2; cbn [sc_pname]. auto.
        - assumption.
        - unfold st2; cbn [sc_running]. assumption. }
    + (* ordinal *)
      cbn [wf_seg separated needs_terminator designated] in *.
      destruct (nth_error args n) as [v|] eqn:En; [|discriminate].
      destruct (sprint d v) as [t| |] eqn:Et; try discriminate.
      destruct (expected d args (sc_running st) segs) as [out'|] eqn:Ee; [|discriminate].
      injection He as <-. apply andb_true_iff in Hwf. destruct Hwf as [Hd Hn].
      pose proof (lookup_ordinal d args named (sc_running st) n Hd Hn v En) as HL. rewrite Et in HL.
      destruct Hc as [Hm [Hi Hp]].
      assert (Step : exists p0 ptl, seg_src d (Ordinal n) = p0 :: ptl /\ ptl <> [] /\
        forallb (name_rune d) ptl = true /\ starts_param d p0 = true /\ opens_quote d p0 = false).
      { cbn [seg_src]. pose proof (itoa_name_runes d (S n)) as IN. pose proof (itoa_nonempty (S n)) as NE.
        destruct (is_sqlserver d) eqn:Es.
        - exists (R "@"), (R "p" :: map R (itoa (S n))). split; [reflexivity|]. split; [discriminate|].
          cbn [forallb]. rewrite IN. destruct d; try discriminate. repeat split; reflexivity.
        - exists (R "$"), (map R (itoa (S n))). split; [reflexivity|].
          split; [destruct (itoa (S n)); [contradiction|discriminate]|].
          split; [assumption|]. destruct d; try discriminate; split; reflexivity. }
      destruct Step as [p0 [ptl [Esrc [Hne [Hnr [Hst Hoq]]]]]].
      cbn [src flat_map]. change (flat_map (seg_src d) segs) with (src d segs).
      rewrite Esrc in *. cbn [app ranged scan_loop].
      unfold scan_step at 1. destruct (Nat.eqb_spec (sc_must st) i); [lia|].
      rewrite Hi, Hoq, Hp. cbn [nullb negb]. rewrite Hst.
      rewrite loop_name by (cbn [sc_must sc_inside sc_pname sc_buf sc_running sc_quote app]; first [assumption | discriminate | reflexivity | lia]).
      cbn [sc_must sc_inside sc_pname sc_buf sc_running sc_quote app].
      rewrite finish_param with (v := t) by (cbn [sc_must sc_inside sc_pname sc_buf sc_running sc_quote app]; first [assumption | discriminate | reflexivity | lia]).
      cbn [sc_must sc_inside sc_pname sc_buf sc_running sc_quote app].
      destruct ptl as [|p1 ptl]; [contradiction|].
      rewrite IH with (out := out'); [cbn [sc_buf sc_running]| |assumption|assumption].
      * now rewrite app_assoc.
      * unfold clean. cbn [sc_must sc_inside sc_pname]. repeat split; try reflexivity. lia.
    + (* named *)
      pose proof Hwf as Hwf0.
      cbn [separated needs_terminator designated] in *.
      destruct (find_named (string_of_runes name) args) as [v|] eqn:En; [|discriminate].
      destruct (sprint d v) as [t| |] eqn:Et; try discriminate.
      destruct (expected d args (sc_running st) segs) as [out'|] eqn:Ee; [|discriminate].
      injection He as <-.
      pose proof (lookup_named d args (sc_running st) sg name v Hwf0 En) as HL. rewrite Et in HL.
      cbn [wf_seg] in Hwf.
      apply andb_true_iff in Hwf. destruct Hwf as [H H5]. apply andb_true_iff in H. destruct H as [H H4].
      apply andb_true_iff in H. destruct H as [H H3]. apply andb_true_iff in H. destruct H as [H1 H2].
      assert (Hne : name <> []) by now destruct name.
      destruct Hc as [Hm [Hi Hp]].
      assert (Hstart : opens_quote d sg = false /\
         (starts_param d sg = true \/ starts_param d sg = false /\ sg = R "?" /\ d = DSQLite)).
      { apply orb_true_iff in H1. destruct H1 as [H1|H1]; apply andb_true_iff in H1; destruct H1 as [D1 D2].
        - destruct d; try discriminate. apply memr_true in D2. cbn [In] in D2.
          destruct D2 as [<-|[<-|[<-|[<-|[]]]]]; split; try reflexivity; auto.
        - destruct d; try discriminate. apply N.eqb_eq in D2. subst. split; [reflexivity|now left]. }
      destruct Hstart as [Hoq Hst].
      cbn [src flat_map seg_src]. change (flat_map (seg_src d) segs) with (src d segs).
      cbn [app ranged scan_loop].
      assert (Step : scan_step d args named st
                (i, sg, string_of_runes (sg :: name ++ src d segs) ++ [])
              = Ok (mk_scan (sc_buf st) (sc_running st) (sc_inside st) (sc_quote st) (sc_must st) [sg])).
      { unfold scan_step. destruct (Nat.eqb_spec (sc_must st) i); [lia|].
        rewrite Hi, Hoq, Hp. cbn [nullb negb].
        destruct Hst as [->|[-> [-> ->]]]; reflexivity. }
      rewrite Step.
      rewrite loop_name by (cbn [sc_must sc_inside sc_pname sc_buf sc_running sc_quote app]; first [assumption | discriminate | reflexivity | lia]).
      cbn [sc_must sc_inside sc_pname sc_buf sc_running sc_quote app].
      rewrite finish_param with (v := t) by (cbn [sc_must sc_inside sc_pname sc_buf sc_running sc_quote app]; first [assumption | discriminate | reflexivity | lia]).
      cbn [sc_must sc_inside sc_pname sc_buf sc_running sc_quote app].
      destruct name as [|p1 ptl]; [contradiction|].
      rewrite IH with (out := out'); [cbn [sc_buf sc_running]| |assumption|assumption].
      * now rewrite app_assoc.
      * unfold clean. cbn [sc_must sc_inside sc_pname]. repeat split; try reflexivity. lia.
    + (* anonymous *)
      cbn [wf_seg separated needs_terminator designated] in *.
      destruct (nth_error args (sc_running st)) as [v|] eqn:En; [|discriminate].
      destruct (sprint d v) as [t| |] eqn:Et; try discriminate.
      destruct (expected d args (S (sc_running st)) segs) as [out'|] eqn:Ee; [|discriminate].
      injection He as <-. destruct Hc as [Hm [Hi Hp]].
      cbn [src flat_map seg_src]. change (flat_map (seg_src d) segs) with (src d segs).
      cbn [app ranged scan_loop]. change (length (encode_rune (R "?"))) with 1.
      assert (Hoq : opens_quote d (R "?") = false) by (destruct d; reflexivity).
      assert (Hsp : starts_param d (R "?") = false) by (destruct d; reflexivity).
      unfold scan_step at 1. destruct (Nat.eqb_spec (sc_must st) i); [lia|].
      rewrite Hi, Hoq, Hp, Hsp, Hwf. cbn [nullb negb]. change (R "?" =? R "?")%N with true. cbn [andb].
      destruct (is_sqlite d) eqn:Eq.
      * pose proof (lookup_anon d args named (sc_running st) v En) as HL. rewrite Et in HL.
        rewrite finish_param with (v := t) by (cbn [sc_must sc_inside sc_pname sc_buf sc_running sc_quote app]; first [assumption | discriminate | reflexivity | lia]).
      cbn [sc_must sc_inside sc_pname sc_buf sc_running sc_quote app].
        change (R "?" =? R "?")%N with true. cbv iota.
        rewrite IH with (out := out'); [cbn [sc_buf sc_running]| |assumption|assumption].
        -- now rewrite app_assoc.
        -- unfold clean. cbn [sc_must sc_inside sc_pname]. repeat split; try reflexivity. lia.
      * rewrite En, Et. rewrite IH with (out := out'); [cbn [sc_buf sc_running]| |assumption|assumption].
        -- now rewrite app_assoc.
        -- unfold clean. cbn [sc_must sc_inside sc_pname]. repeat split; try reflexivity. lia.
Qed.

Lemma sprintf_expected d segs args out :
  args <> [] -> starts_with_text segs = true -> wf_segs d segs = true ->
  expected d args 0 segs = Some out ->
  sprintf d (string_of_runes (src d segs)) args = Ok out.
Proof.
  intros Ha Hs Hw He. unfold sprintf.
  destruct args as [|a0 args0] eqn:Eargs; [contradiction|]. rewrite <- Eargs in *.
  fold (finish d args (named_args_lookup args)
    (scan_loop d args (named_args_lookup args) scan_init (range_string (string_of_runes (src d segs))))).
  unfold range_string. rewrite <- (app_nil_r (string_of_runes (src d segs))).
  rewrite range_from_ranged by now apply src_scalar.
  destruct segs as [|[[|r rs]| | | |] segs]; try discriminate.
  (* the first rune is written unconditionally, as plain text *)
  cbn [src flat_map seg_src app ranged scan_loop].
  change (scan_step d args (named_args_lookup args) scan_init
            (0, r, string_of_runes (r :: rs ++ flat_map (seg_src d) segs) ++ []))
    with (@Ok scan (with_buf scan_init (encode_rune r))).
  cbn [wf_segs wf_seg forallb] in Hw.
  apply andb_true_iff in Hw. destruct Hw as [Hw Hws]. apply andb_true_iff in Hw. destruct Hw as [Hw _].
  apply andb_true_iff in Hw. destruct Hw as [Hr Hrs].
  cbn [expected seg_src] in He.
  destruct (expected d args 0 segs) as [out'|] eqn:Ee; [|discriminate]. injection He as <-.
  change (rs ++ flat_map (seg_src d) segs) with (src d (Text rs :: segs)).
  rewrite scan_segs with (out := string_of_runes rs ++ out').
  - unfold with_buf, scan_init; cbn [sc_buf app]. rewrite <- app_assoc. reflexivity.
  - unfold clean, with_buf, scan_init; cbn [sc_must sc_inside sc_pname].
    pose proof (encode_rune_length r). repeat split; try reflexivity. lia.
  - cbn [wf_segs wf_seg separated needs_terminator]. now rewrite Hrs, Hws.
  - cbn [expected seg_src]. unfold with_buf, scan_init; cbn [sc_running]. now rewrite Ee.
Qed.
