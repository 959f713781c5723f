(** * SprintfFail: if a placeholder designates nothing, or a value that has no
    literal, Sprintf returns no text. *)
From Verif Require Import GoBase GoBaseFacts SpecLex QuoteModel SprintModel SpecSprintf SpecSprint
  Utf8Facts SprintFacts SprintfFacts.
From Coq Require Import Lia ZifyBool ZifyNat ZifyN.
Ltac Zify.zify_post_hook ::= idtac.

Definition bad {A} (o : outcome A) : Prop := forall a, o <> Ok a.
Lemma bad_err {A} e : bad (@Err A e). Proof. intros a; discriminate. Qed.
Lemma bad_panic {A} : bad (@Panic A). Proof. intros a; discriminate. Qed.
#[local] Hint Resolve bad_err bad_panic : core.

Lemma lookup_ordinal_none d args named k n :
  (is_postgres d || is_sqlite d || is_sqlserver d) = true -> (Z.of_nat (S n) <=? max_int64)%Z = true ->
  nth_error args n = None -> bad (lookup_param d args (seg_src d (Ordinal n)) named k).
Proof.
  intros Hd Hn Hv. cbn [seg_src].
  assert (A : atoi (itoa (S n)) = Some (Z.of_nat (S n))) by (apply atoi_itoa; lia).
  pose proof (itoa_nonempty (S n)) as Hne.
  assert (Str : string_of_runes (map R (itoa (S n))) = itoa (S n))
    by (apply string_of_ascii_runes, itoa_ascii).
  assert (Hlt : length args <= n) by now apply nth_error_None.
  destruct (is_sqlserver d) eqn:Es.
  - cbn [app]. unfold lookup_param. rewrite Es.
    change ((R "@" =? R "@")%N && true && ((R "p" =? R "p")%N || (R "p" =? R "P")%N)) with true.
    cbv iota. rewrite Str. destruct (itoa (S n)) eqn:Ei; [contradiction|]. cbn [is_empty].
    rewrite A. cbv zeta. destruct ((Z.of_nat (length args) <=? Z.of_nat (S n) - 1)%Z) eqn:E2; [|lia].
    rewrite orb_true_r. auto.
  - cbn [app]. unfold lookup_param. rewrite Es.
    change (R "$" =? R "@")%N with false. cbn [andb].
    destruct (map R (itoa (S n))) as [|p1 pr] eqn:Em.
    { destruct (itoa (S n)); [contradiction|discriminate]. }
    rewrite Str. destruct (itoa (S n)) eqn:Ei; [contradiction|]. cbn [is_empty].
    rewrite A. cbv zeta. destruct ((Z.of_nat (length args) <=? Z.of_nat (S n) - 1)%Z) eqn:E2; [|lia].
    rewrite orb_true_r. auto.
Qed.

Lemma lookup_named_none d args k sigil name :
  wf_seg d (NamedP sigil name) = true ->
  find_named (string_of_runes name) args = None ->
  bad (lookup_param d args (sigil :: name) (named_args_lookup args) k).
Proof.
  cbn [wf_seg]. intros H Hf.
  apply andb_true_iff in H. destruct H as [H H5]. apply andb_true_iff in H. destruct H as [H H4].
  apply andb_true_iff in H. destruct H as [H H3]. apply andb_true_iff in H. destruct H as [H1 H2].
  destruct name as [|p rest]; [discriminate|].
  pose proof (named_lookup_find (string_of_runes (p :: rest)) args) as NL. rewrite Hf in NL.
  unfold lookup_param. cbv beta iota zeta.
  match goal with |- context [is_empty ?x] => set (mn := x) end.
  assert (Hm : is_empty mn = false /\ atoi mn = None).
  { unfold mn. destruct (is_sqlserver d) eqn:Es.
    - destruct ((p =? R "p")%N || (p =? R "P")%N) eqn:Ep; cbn [andb] in *.
      + rewrite andb_true_r. destruct (sigil =? R "@")%N eqn:Esg; cbn [andb].
        * apply andb_true_iff in H5. destruct H5 as [H5 H6].
          split; [apply string_of_runes_nonempty; now destruct rest|].
          now destruct (atoi (string_of_runes rest)).
        * split; [now apply string_of_runes_nonempty|]. now destruct (atoi (string_of_runes (p :: rest))).
      + rewrite andb_false_r. split; [now apply string_of_runes_nonempty|].
        now destruct (atoi (string_of_runes (p :: rest))).
    - rewrite andb_false_r. cbn [andb]. split; [now apply string_of_runes_nonempty|].
      now destruct (atoi (string_of_runes (p :: rest))). }
  destruct Hm as [-> ->].
  destruct (is_postgres d || is_mysql d); auto.
  destruct (mget (string_of_runes (p :: rest)) (named_args_lookup args)) as [num|]; auto.
  rewrite NL. auto.
Qed.

Lemma lookup_anon_none d args named k : nth_error args k = None -> bad (lookup_param d args [R "?"] named k).
Proof. intro H. unfold lookup_param. cbn [is_empty]. change (negb (R "?" =? R "?")%N) with false. cbv iota. rewrite H. auto. Qed.

Lemma loop_bad d args named st x rs : bad (scan_step d args named st x) ->
  bad (finish d args named (scan_loop d args named st (x :: rs))).
Proof. cbn [scan_loop]. destruct (scan_step d args named st x) as [a| |]; cbn; auto. intros H. destruct (H a); auto. Qed.

Lemma finish_param_bad d args named st i rest :
  sc_must st < i -> sc_inside st = false -> sc_pname st <> [] ->
  bad (lookup_param d args (sc_pname st) named (sc_running st)) ->
  match rest with
  | [] => true
  | Text (r :: _) :: _ => memr r terminators
  | _ => false
  end = true ->
  wf_segs d rest = true ->
  bad (finish d args named (scan_loop d args named st (ranged i (src d rest) []))).
Proof.
  intros Hm Hi Hp Hl Hr Hw.
  destruct rest as [|s rest].
  - cbn [src flat_map ranged range_from scan_loop finish]. unfold scan_finish.
    destruct (sc_pname st) eqn:E; [contradiction|]. cbn [nullb negb].
    destruct (lookup_param _ _ _ _ _) as [a| |]; auto. destruct (Hl a); auto.
  - destruct s as [[|r rs]|q body|n|sg name|]; try discriminate.
    cbn [wf_segs wf_seg] in Hw. apply andb_true_iff in Hw. destruct Hw as [Hw _].
    apply andb_true_iff in Hw. destruct Hw as [Hw _].
    cbn [forallb] in Hw. apply andb_true_iff in Hw. destruct Hw as [Hpl _].
    rewrite terminators_eq in Hr.
    cbn [src flat_map seg_src app ranged]. apply loop_bad.
    unfold scan_step. destruct (Nat.eqb_spec (sc_must st) i); [lia|].
    rewrite Hi. apply plain_facts in Hpl. destruct Hpl as [H1 _]. rewrite H1.
    destruct (sc_pname st) as [|p0 p] eqn:Ep; [contradiction|]. cbn [nullb negb]. rewrite Hr.
    destruct (lookup_param _ _ _ _ _) as [a| |]; auto. destruct (Hl a); auto.
Qed.

Ltac fields := cbn [sc_must sc_inside sc_pname sc_buf sc_running sc_quote app].
Ltac side := fields; first [assumption | discriminate | reflexivity | lia].

Lemma scan_segs_none d args : forall segs i st,
  clean st i -> wf_segs d segs = true ->
  expected d args (sc_running st) segs = None ->
  bad (finish d args (named_args_lookup args)
    (scan_loop d args (named_args_lookup args) st (ranged i (src d segs) []))).
Proof.
  set (named := named_args_lookup args).
  induction segs as [|s segs IH]; intros i st Hc Hw He; [discriminate|].
  cbn [wf_segs] in Hw. apply andb_true_iff in Hw. destruct Hw as [Hw Hws].
  apply andb_true_iff in Hw. destruct Hw as [Hwf Hsep].
  destruct s as [rs|q body|n|sg name|]; cbn [expected] in He.
  + cbn [seg_src wf_seg] in *.
    destruct (expected d args (sc_running st) segs) as [out'|] eqn:Ee; [discriminate|].
    cbn [src flat_map seg_src]. rewrite loop_text by assumption.
    change (flat_map (seg_src d) segs) with (src d segs).
    apply IH; auto. apply with_buf_clean with (i := i); [assumption|lia].
  + cbn [wf_seg separated] in *.
    destruct (expected d args (sc_running st) segs) as [out'|] eqn:Ee; [discriminate|].
    apply andb_true_iff in Hwf. destruct Hwf as [Hq Hb].
    destruct (quote_not_start d q Hq) as [Q1 [Q2 Q3]].
    cbn [src flat_map seg_src app].
    change (flat_map (seg_src d) segs) with (src d segs).
    cbn [ranged scan_loop]. destruct Hc as [Hm [Hi Hp]].
    unfold scan_step at 1. destruct (Nat.eqb_spec (sc_must st) i); [lia|].
    rewrite Hi, Q1. rewrite Q3. rewrite close_of_closer.
    match goal with |- context [scan_loop d args named ?s (ranged (i + 1) _ _)] => set (st2 := s) end.
    destruct (loop_quoted d args named q body (i + 1) st2 (sc_must st) (src d segs)) as [m' [Hm' E']];
      try assumption; try reflexivity; try lia.
    { now apply src_scalar. }
    { rewrite <- app_assoc. rewrite E'. apply IH; auto.
      unfold clean. cbn [sc_must sc_inside sc_pname]. unfold st2; cbn [sc_pname]. auto. }
  + cbn [wf_seg separated needs_terminator designated] in *.
    apply andb_true_iff in Hwf. destruct Hwf as [Hd Hn].
    destruct Hc as [Hm [Hi Hp]].
    assert (HL : match nth_error args n with
                 | Some v => lookup_param d args (seg_src d (Ordinal n)) named (sc_running st) = sprint d v
                 | None => bad (lookup_param d args (seg_src d (Ordinal n)) named (sc_running st)) end).
    { destruct (nth_error args n) eqn:En; [now apply lookup_ordinal|now apply lookup_ordinal_none]. }
    assert (Step : exists p0 ptl, seg_src d (Ordinal n) = p0 :: ptl /\ ptl <> [] /\
      forallb (name_rune d) ptl = true /\ starts_param d p0 = true /\ opens_quote d p0 = false).
    { cbn [seg_src]. pose proof (itoa_name_runes d (S n)) as IN. pose proof (itoa_nonempty (S n)) as NE.
      destruct (is_sqlserver d) eqn:Es.
      - exists (R "@"), (R "p" :: map R (itoa (S n))). split; [reflexivity|]. split; [discriminate|].
        cbn [forallb]. rewrite IN. destruct d; try discriminate. repeat split; reflexivity.
      - exists (R "$"), (map R (itoa (S n))). split; [reflexivity|].
        split; [destruct (itoa (S n)); [contradiction|discriminate]|].
        split; [assumption|]. destruct d; try discriminate; split; reflexivity. }
    destruct Step as [p0 [ptl [Esrc [Hne [Hnr [Hst Hoq]]]]]].
    cbn [src flat_map]. change (flat_map (seg_src d) segs) with (src d segs).
    rewrite Esrc in *. cbn [app ranged scan_loop].
    unfold scan_step at 1. destruct (Nat.eqb_spec (sc_must st) i); [lia|].
    rewrite Hi, Hoq, Hp. cbn [nullb negb]. rewrite Hst.
    rewrite loop_name by side. fields.
    destruct (nth_error args n) as [v|] eqn:En.
    2:{ apply finish_param_bad; fields; auto; try discriminate; lia. }
    destruct (sprint d v) as [t| |] eqn:Et.
    2,3: (apply finish_param_bad; fields; auto; try discriminate; try lia; rewrite HL; auto).
    rewrite finish_param with (v := t) by side. fields.
    destruct ptl as [|p1 ptl]; [contradiction|].
    destruct (expected d args (sc_running st) segs) as [out'|] eqn:Ee; [discriminate|].
    apply IH; auto.
    unfold clean. cbn [sc_must sc_inside sc_pname]. repeat split; try reflexivity. lia.
  + pose proof Hwf as Hwf0.
    cbn [separated needs_terminator designated] in *.
    assert (HL : match find_named (string_of_runes name) args with
                 | Some v => lookup_param d args (sg :: name) named (sc_running st) = sprint d v
                 | None => bad (lookup_param d args (sg :: name) named (sc_running st)) end).
    { destruct (find_named _ _) eqn:En; [now apply lookup_named|now apply lookup_named_none]. }
    cbn [wf_seg] in Hwf.
    apply andb_true_iff in Hwf. destruct Hwf as [H H5]. apply andb_true_iff in H. destruct H as [H H4].
    apply andb_true_iff in H. destruct H as [H H3]. apply andb_true_iff in H. destruct H as [H1 H2].
    assert (Hne : name <> []) by now destruct name.
    destruct Hc as [Hm [Hi Hp]].
    assert (Hstart : opens_quote d sg = false /\
       (starts_param d sg = true \/ starts_param d sg = false /\ sg = R "?" /\ d = DSQLite)).
    { apply orb_true_iff in H1. destruct H1 as [H1|H1]; apply andb_true_iff in H1; destruct H1 as [D1 D2].
      - destruct d; try discriminate. apply memr_true in D2. cbn [In] in D2.
        destruct D2 as [<-|[<-|[<-|[<-|[]]]]]; split; try reflexivity; auto.
      - destruct d; try discriminate. apply N.eqb_eq in D2. subst. split; [reflexivity|now left]. }
    destruct Hstart as [Hoq Hst].
    cbn [src flat_map seg_src]. change (flat_map (seg_src d) segs) with (src d segs).
    cbn [app ranged scan_loop].
    assert (Step : scan_step d args named st
              (i, sg, string_of_runes (sg :: name ++ src d segs) ++ [])
            = Ok (mk_scan (sc_buf st) (sc_running st) (sc_inside st) (sc_quote st) (sc_must st) [sg])).
    { unfold scan_step. destruct (Nat.eqb_spec (sc_must st) i); [lia|].
      rewrite Hi, Hoq, Hp. cbn [nullb negb].
      destruct Hst as [->|[-> [-> ->]]]; reflexivity. }
    rewrite Step.
    rewrite loop_name by side. fields.
    destruct (find_named (string_of_runes name) args) as [v|] eqn:En.
    2:{ apply finish_param_bad; fields; auto; try discriminate; lia. }
    destruct (sprint d v) as [t| |] eqn:Et.
    2,3: (apply finish_param_bad; fields; auto; try discriminate; try lia; rewrite HL; auto).
    rewrite finish_param with (v := t) by side. fields.
    destruct name as [|p1 ptl]; [contradiction|].
    destruct (expected d args (sc_running st) segs) as [out'|] eqn:Ee; [discriminate|].
    apply IH; auto.
    unfold clean. cbn [sc_must sc_inside sc_pname]. repeat split; try reflexivity. lia.
  + cbn [wf_seg separated needs_terminator designated] in *.
    destruct Hc as [Hm [Hi Hp]].
    cbn [src flat_map seg_src]. change (flat_map (seg_src d) segs) with (src d segs).
    cbn [app ranged scan_loop]. change (length (encode_rune (R "?"))) with 1.
    assert (Hoq : opens_quote d (R "?") = false) by (destruct d; reflexivity).
    assert (Hsp : starts_param d (R "?") = false) by (destruct d; reflexivity).
    unfold scan_step at 1. destruct (Nat.eqb_spec (sc_must st) i); [lia|].
    rewrite Hi, Hoq, Hp, Hsp, Hwf. cbn [nullb negb]. change (R "?" =? R "?")%N with true. cbn [andb].
    destruct (is_sqlite d) eqn:Eq.
    * destruct (nth_error args (sc_running st)) as [v|] eqn:En.
      2:{ apply finish_param_bad; fields; auto; try discriminate; try lia. now apply lookup_anon_none. }
      destruct (sprint d v) as [t| |] eqn:Et.
      2,3: (apply finish_param_bad; fields; auto; try discriminate; try lia; rewrite (lookup_anon d args named (sc_running st) v En), Et; auto).
      pose proof (lookup_anon d args named (sc_running st) v En) as HL. rewrite Et in HL.
      rewrite finish_param with (v := t) by side. fields.
      change (R "?" =? R "?")%N with true. cbv iota.
      destruct (expected d args (S (sc_running st)) segs) as [out'|] eqn:Ee; [discriminate|].
      apply IH; auto.
      unfold clean. cbn [sc_must sc_inside sc_pname]. repeat split; try reflexivity. lia.
    * destruct (nth_error args (sc_running st)) as [v|] eqn:En; [|cbn; auto].
      destruct (sprint d v) as [t| |] eqn:Et; [|cbn; auto|cbn; auto].
      destruct (expected d args (S (sc_running st)) segs) as [out'|] eqn:Ee; [discriminate|].
      apply IH; auto.
      unfold clean. cbn [sc_must sc_inside sc_pname]. repeat split; try reflexivity. lia.
Qed.

Lemma sprintf_expected_none d segs args :
  args <> [] -> starts_with_text segs = true -> wf_segs d segs = true ->
  expected d args 0 segs = None ->
  bad (sprintf d (string_of_runes (src d segs)) args).
Proof.
  intros Ha Hs Hw He. unfold sprintf.
  destruct args as [|a0 args0] eqn:Eargs; [contradiction|]. rewrite <- Eargs in *.
  fold (finish d args (named_args_lookup args)
    (scan_loop d args (named_args_lookup args) scan_init (range_string (string_of_runes (src d segs))))).
  unfold range_string. rewrite <- (app_nil_r (string_of_runes (src d segs))).
  rewrite range_from_ranged by now apply src_scalar.
  destruct segs as [|[[|r rs]| | | |] segs]; try discriminate.
  cbn [src flat_map seg_src app ranged scan_loop].
  change (scan_step d args (named_args_lookup args) scan_init
            (0, r, string_of_runes (r :: rs ++ flat_map (seg_src d) segs) ++ []))
    with (@Ok scan (with_buf scan_init (encode_rune r))).
  cbn [wf_segs wf_seg forallb] in Hw.
  apply andb_true_iff in Hw. destruct Hw as [Hw Hws]. apply andb_true_iff in Hw. destruct Hw as [Hw _].
  apply andb_true_iff in Hw. destruct Hw as [Hr Hrs].
  cbn [expected seg_src] in He.
  destruct (expected d args 0 segs) as [out'|] eqn:Ee; [discriminate|].
  change (rs ++ flat_map (seg_src d) segs) with (src d (Text rs :: segs)).
  apply scan_segs_none.
  - unfold clean, with_buf, scan_init; cbn [sc_must sc_inside sc_pname].
    pose proof (encode_rune_length r). repeat split; try reflexivity. lia.
  - cbn [wf_segs wf_seg separated needs_terminator]. now rewrite Hrs, Hws.
  - cbn [expected seg_src]. unfold with_buf, scan_init; cbn [sc_running]. now rewrite Ee.
Qed.
