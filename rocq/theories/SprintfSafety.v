(** * Sprintf: unclosed quotes are rejected; when it can panic *)
From Verif Require Import GoBase GoBaseFacts SpecLex QuoteModel SprintModel SpecSprintf SpecSprint
  Utf8Facts SprintFacts SprintfFacts.
From Coq Require Import Lia ZifyBool ZifyNat ZifyN.
Ltac Zify.zify_post_hook ::= idtac.

(** ** Unclosed quotes *)
Lemma opens_quote_facts d c : opens_quote d c = true -> (closer c <? 128)%N = true.
Proof.
  rewrite <- quote_runes_opens. intro H. now destruct (quote_not_start d c H) as [_ [X _]].
Qed.

Lemma scan_quote_state d args named : forall n rs i st st',
  length rs <= n -> forallb scalar rs = true -> sc_must st < i ->
  (sc_inside st = true -> (closer (sc_quote st) <? 128)%N = true) ->
  scan_loop d args named st (ranged i rs []) = Ok st' ->
  sc_inside st' = match quote_state d (if sc_inside st then Some (sc_quote st) else None) rs with
                  | Some _ => true | None => false end.
Proof.
  induction n as [|n IH]; intros rs i st st' Hl Hs Hm Hq H.
  - destruct rs; [|simpl in Hl; lia]. cbn in H. injection H as <-.
    cbn [quote_state]. destruct (sc_inside st); reflexivity.
  - destruct rs as [|c rs].
    { cbn in H. injection H as <-. cbn [quote_state]. destruct (sc_inside st); reflexivity. }
    cbn [forallb] in Hs. apply andb_true_iff in Hs. destruct Hs as [Hc Hs].
    cbn [length] in Hl.
    pose proof (encode_rune_length c) as Lc.
    cbn [ranged scan_loop] in H.
    destruct (scan_step d args named st (i, c, string_of_runes (c :: rs) ++ [])) as [st1| |] eqn:Es; try discriminate.
    unfold scan_step in Es. destruct (Nat.eqb_spec (sc_must st) i); [lia|].
    destruct (sc_inside st) eqn:Ei.
    + specialize (Hq eq_refl). cbn [quote_state].
      change (close_of (sc_quote st)) with (closer (sc_quote st)).
      set (cl := closer (sc_quote st)) in *.
      destruct (c =? cl)%N eqn:Ec.
      * apply N.eqb_eq in Ec. subst c.
        rewrite nth1_next in Es by assumption.
        pose proof (next_is rs [] cl Hq Hs eq_refl) as NX.
        destruct (nth_error (string_of_runes rs ++ []) 0) as [b|].
        -- rewrite NX in Es. destruct rs as [|c2 rs].
           { injection Es as <-. cbn in H. injection H as <-. reflexivity. }
           destruct (c2 =? cl)%N eqn:E2.
           ++ apply N.eqb_eq in E2. subst c2. injection Es as <-.
              cbn [ranged scan_loop] in H. unfold scan_step at 1 in H.
              assert (El : length (encode_rune cl) = 1) by (unfold encode_rune; rewrite Hq; reflexivity).
              rewrite El in H. cbn [with_must with_buf sc_must] in H.
              destruct (Nat.eqb_spec (i + 1) (i + 1)); [|lia].
              cbn [forallb] in Hs. apply andb_true_iff in Hs. destruct Hs as [_ Hs].
              cbn [length] in Hl.
              eapply IH in H; try eassumption; try lia; cbn; try rewrite Ei; auto; try lia.
              rewrite H. cbn. rewrite Ei. reflexivity.
           ++ injection Es as <-. eapply IH in H; try eassumption; try lia; cbn; auto; try lia; try discriminate.
        -- destruct rs as [|c2 rs].
           { injection Es as <-. cbn in H. injection H as <-. reflexivity. }
           rewrite <- NX. injection Es as <-.
           eapply IH in H; try eassumption; try lia; cbn; auto; try lia; try discriminate.
      * injection Es as <-. eapply IH in H; try eassumption; try lia; cbn; auto; try lia.
        rewrite H. cbn. rewrite Ei. reflexivity.
    + cbn [quote_state]. rewrite quote_runes_opens.
      destruct (opens_quote d c) eqn:Eo.
      * injection Es as <-. eapply IH in H; try eassumption; try lia; cbn; auto; try lia.
        intros _. now apply opens_quote_facts with (d := d).
      * assert (K : sc_must st1 = sc_must st /\ sc_inside st1 = false).
        { destruct (negb (nullb (sc_pname st))).
          - destruct (name_terminating c).
            + destruct (lookup_param d args (sc_pname st) named (sc_running st)); try discriminate.
              injection Es as <-. cbn. auto.
            + injection Es as <-. cbn. auto.
          - destruct (starts_param d c); [injection Es as <-; cbn; auto|].
            destruct ((c =? R "?")%N && negb (is_postgres d)); [|injection Es as <-; cbn; auto].
            destruct (is_sqlite d); [injection Es as <-; cbn; auto|].
            destruct (nth_error args (sc_running st)); [|discriminate].
            destruct (sprint d g); try discriminate. injection Es as <-; cbn; auto. }
        destruct K as [K1 K2].
        eapply IH in H; try eassumption; try lia.
        -- rewrite H, K2. reflexivity.
        -- rewrite K2. discriminate.
Qed.

Lemma sprintf_unclosed d c rs args t :
  args <> [] -> forallb scalar (c :: rs) = true -> memr c (quote_runes d) = false ->
  sprintf d (string_of_runes (c :: rs)) args = Ok t ->
  quote_state d None (c :: rs) = None.
Proof.
  intros Ha Hs Hc H. cbn [quote_state]. rewrite Hc.
  unfold sprintf in H. destruct args as [|a0 args0] eqn:Ea; [contradiction|]. rewrite <- Ea in *.
  unfold range_string in H. rewrite <- (app_nil_r (string_of_runes (c :: rs))) in H.
  rewrite range_from_ranged in H by assumption.
  cbn [forallb] in Hs. apply andb_true_iff in Hs. destruct Hs as [Hc1 Hs].
  cbn [ranged scan_loop] in H.
  change (scan_step d args (named_args_lookup args) scan_init
            (0, c, string_of_runes (c :: rs) ++ []))
    with (@Ok scan (with_buf scan_init (encode_rune c))) in H.
  destruct (scan_loop d args (named_args_lookup args) (with_buf scan_init (encode_rune c))
     (ranged (0 + length (encode_rune c)) rs [])) as [st'| |] eqn:El; try discriminate.
  pose proof (encode_rune_length c) as Lc.
  apply scan_quote_state with (n := length rs) in El; try assumption; try lia.
  2:{ cbn. lia. }
  2:{ cbn. discriminate. }
  cbn [with_buf scan_init sc_inside] in El.
  unfold scan_finish in H.
  destruct (quote_state d None rs); [|reflexivity].
  rewrite El in H.
  destruct (negb (nullb (sc_pname st'))); [|discriminate].
  destruct (lookup_param d args (sc_pname st') (named_args_lookup args) (sc_running st')); discriminate.
Qed.

(** ** Panics *)
Section Panic.
  Context (d : dialect) (args : list gval) (named : list (bytes * nat)).
  Hypothesis Hargs : forall v, In v args -> sprint d v <> Panic.

  Lemma sprint_nth n v : nth_error args n = Some v -> sprint d v <> Panic.
  Proof. intro H. apply Hargs. eapply nth_error_In. eassumption. Qed.

  (** Anonymous placeholders still to come do not exceed the arguments left. *)
  Definition quota (st : scan) (rs : list (nat * rune * bytes)) : Prop :=
    (sc_running st
     + (match sc_pname st with p :: _ => if (p =? R "?")%N then 1 else 0 | [] => 0 end)
     + count_occ N.eq_dec (map (fun x => snd (fst x)) rs) (R "?") <= length args)%nat.

  Lemma lookup_param_panic pname running :
    pname <> [] ->
    (hd_error pname = Some (R "?") -> running < length args) ->
    lookup_param d args pname named running <> Panic.
  Proof.
    intros Hne Hq. destruct pname as [|p0 prest]; [contradiction|]. unfold lookup_param.
    match goal with |- context [is_empty ?x] => set (mn := x) end.
    destruct (is_empty mn).
    - destruct (p0 =? R "?")%N eqn:E; cbn [negb]; [|discriminate].
      apply N.eqb_eq in E. subst p0. specialize (Hq eq_refl).
      destruct (nth_error args running) as [v|] eqn:En.
      + now apply sprint_nth with (n := running).
      + apply nth_error_None in En. lia.
    - destruct (atoi mn) as [num|].
      + cbv zeta. destruct ((num - 1 <? 0)%Z || (Z.of_nat (length args) <=? num - 1)%Z) eqn:E; [discriminate|].
        destruct (nth_error args (Z.to_nat (num - 1))) as [v|] eqn:En.
        * now apply sprint_nth with (n := Z.to_nat (num - 1)).
        * apply nth_error_None in En. lia.
      + destruct (is_postgres d || is_mysql d); [discriminate|].
        destruct (mget (string_of_runes prest) named) as [num|]; [|discriminate].
        destruct (nth_error args num) as [v|] eqn:En; [|discriminate].
        now apply sprint_nth with (n := num).
  Qed.

  Lemma count_cons x rs :
    count_occ N.eq_dec (map (fun x : nat * rune * bytes => snd (fst x)) (x :: rs)) (R "?")
    = ((if (snd (fst x) =? R "?")%N then 1 else 0)
       + count_occ N.eq_dec (map (fun x => snd (fst x)) rs) (R "?"))%nat.
  Proof.
    cbn [map count_occ]. destruct (N.eq_dec (snd (fst x)) (R "?")) as [E|E].
    - rewrite E, N.eqb_refl. lia.
    - apply N.eqb_neq in E. rewrite E. lia.
  Qed.

  Lemma Ok_eq {A} (x y : A) : Ok x = Ok y -> y = x.
  Proof. congruence. Qed.

  Lemma scan_step_panic st x rs :
    quota st (x :: rs) ->
    scan_step d args named st x <> Panic /\
    (forall st', scan_step d args named st x = Ok st' -> quota st' rs).
  Proof.
    unfold quota. rewrite count_cons. destruct x as [[i c] suf]. cbn [fst snd].
    intro Q. unfold scan_step.
    destruct (Nat.eqb (sc_must st) i).
    { split; [discriminate|]. intros st' H. apply Ok_eq in H. subst st'. cbn [sc_running sc_pname with_buf with_must with_inside]. lia. }
    destruct (sc_inside st).
    { split.
      - repeat match goal with |- context [if ?b then _ else _] => destruct b
               | |- context [match nth_error ?a ?b with _ => _ end] => destruct (nth_error a b) end; discriminate.
      - intros st' H.
        assert (E : sc_running st' = sc_running st /\ sc_pname st' = sc_pname st).
        { destruct (c =? closer (sc_quote st))%N; [destruct (nth_error suf 1) as [b|];
            [destruct (ord b =? closer (sc_quote st))%N|]|];
          injection H as <-; split; reflexivity. }
        destruct E as [-> ->]. clear H. lia. }
    destruct (opens_quote d c).
    { split; [discriminate|]. intros st' H. apply Ok_eq in H. subst st'. cbn [sc_running sc_pname with_buf with_must with_inside]. lia. }
    destruct (sc_pname st) as [|p0 prest] eqn:Ep; cbn [nullb negb].
    - destruct (starts_param d c) eqn:Esp.
      { split; [discriminate|]. intros st' H. apply Ok_eq in H. subst st'. cbn [sc_running sc_pname with_buf with_must with_inside].
        destruct (c =? R "?")%N; lia. }
      destruct ((c =? R "?")%N && negb (is_postgres d)) eqn:Eq.
      2:{ split; [discriminate|]. intros st' H. apply Ok_eq in H. subst st'. cbn [sc_running sc_pname with_buf with_must with_inside]. rewrite Ep. lia. }
      apply andb_true_iff in Eq. destruct Eq as [Eq _]. rewrite Eq in Q.
      destruct (is_sqlite d).
      { split; [discriminate|]. intros st' H. apply Ok_eq in H. subst st'. cbn [sc_running sc_pname with_buf with_must with_inside]. rewrite Eq. lia. }
      destruct (nth_error args (sc_running st)) as [v|] eqn:En; [|split; discriminate].
      pose proof (sprint_nth _ _ En) as NP.
      destruct (sprint d v) as [t| |]; [|split; discriminate|contradiction].
      split; [discriminate|]. intros st' H. apply Ok_eq in H. subst st'. cbn [sc_running sc_pname with_buf with_must with_inside]. lia.
    - destruct (name_terminating c).
      + assert (NP : lookup_param d args (p0 :: prest) named (sc_running st) <> Panic).
        { apply lookup_param_panic; [discriminate|]. cbn [hd_error]. intro E. injection E as ->.
          rewrite N.eqb_refl in Q. lia. }
        destruct (lookup_param d args (p0 :: prest) named (sc_running st)) as [v| |]; [|split; discriminate|contradiction].
        split; [discriminate|]. intros st' H. apply Ok_eq in H. subst st'. cbn [sc_running sc_pname with_buf with_must with_inside].
        destruct prest; destruct (p0 =? R "?")%N; destruct (c =? R "?")%N; lia.
      + split; [discriminate|]. intros st' H. apply Ok_eq in H. subst st'. cbn [sc_running sc_pname with_buf with_must with_inside app].
        destruct (p0 =? R "?")%N; destruct (c =? R "?")%N; lia.
  Qed.

  Lemma scan_loop_panic rs : forall st, quota st rs ->
    scan_loop d args named st rs <> Panic /\
    (forall st', scan_loop d args named st rs = Ok st' -> quota st' []).
  Proof.
    induction rs as [|x rs IH]; intros st Q; cbn [scan_loop].
    - split; [discriminate|]. intros st' H. injection H as <-. assumption.
    - destruct (scan_step_panic st x rs Q) as [A C].
      destruct (scan_step d args named st x) as [st1| |]; [|split; discriminate|contradiction].
      apply IH. now apply C.
  Qed.
End Panic.

Lemma sprintf_no_panic_quota d query args :
  (forall v, In v args -> sprint d v <> Panic) ->
  count_occ N.eq_dec (runes_of query) (R "?") <= length args ->
  sprintf d query args <> Panic.
Proof.
  intros Ha Hc. unfold sprintf. destruct args as [|a0 args0] eqn:Ea; [discriminate|].
  rewrite <- Ea in *. clear Ea.
  destruct (scan_loop_panic d args (named_args_lookup args) Ha (range_string query) scan_init) as [A C].
  { unfold quota. cbn. exact Hc. }
  destruct (scan_loop d args (named_args_lookup args) scan_init (range_string query)) as [st| |];
    [|discriminate|contradiction].
  specialize (C st eq_refl). unfold scan_finish.
  destruct (sc_pname st) as [|p0 prest] eqn:Ep; cbn [nullb negb].
  - destruct (sc_inside st); discriminate.
  - assert (NP : lookup_param d args (p0 :: prest) (named_args_lookup args) (sc_running st) <> Panic).
    { apply lookup_param_panic; [assumption|discriminate|]. cbn [hd_error]. intro E. injection E as ->.
      unfold quota in C. rewrite Ep in C. cbn in C. lia. }
    destruct (lookup_param d args (p0 :: prest) (named_args_lookup args) (sc_running st));
      [destruct (sc_inside st); discriminate|discriminate|contradiction].
Qed.

(** Outside sqlite a parameter name never starts with '?'. *)
Section NonSqlite.
  Context (d : dialect) (args : list gval) (named : list (bytes * nat)).
  Hypothesis Hargs : forall v, In v args -> sprint d v <> Panic.
  Hypothesis Hd : d <> DSQLite.

  Definition pname_ok (st : scan) : Prop := hd_error (sc_pname st) <> Some (R "?").

  Lemma lookup_param_panic2 pname running :
    pname <> [] -> hd_error pname <> Some (R "?") ->
    lookup_param d args pname named running <> Panic.
  Proof. intros A C. apply lookup_param_panic; [assumption|assumption|]. intro. contradiction. Qed.

  Lemma not_sqlite : is_sqlite d = false.
  Proof. destruct d; (reflexivity || contradiction). Qed.

  Lemma starts_param_not_mark c : starts_param d c = true -> c <> R "?".
  Proof. intros H ->. destruct d; discriminate. Qed.

  Lemma scan_loop_panic2 rs : forall st, pname_ok st ->
    scan_loop d args named st rs <> Panic /\
    (forall st', scan_loop d args named st rs = Ok st' -> pname_ok st').
  Proof.
    induction rs as [|[[i c] suf] rs IH]; intros st Q; cbn [scan_loop].
    - split; [discriminate|]. intros st' H. injection H as <-. assumption.
    - assert (K : scan_step d args named st (i, c, suf) <> Panic /\
        (forall st', scan_step d args named st (i, c, suf) = Ok st' -> pname_ok st')).
      { unfold scan_step, pname_ok in *. rewrite not_sqlite.
        destruct (Nat.eqb (sc_must st) i).
        { split; [discriminate|]. intros st' H. injection H as <-. exact Q. }
        destruct (sc_inside st).
        { split.
          - repeat match goal with |- context [if ?b then _ else _] => destruct b
               | |- context [match nth_error ?a ?b with _ => _ end] => destruct (nth_error a b) end; discriminate.
          - intros st'.
            repeat match goal with |- context [if ?b then Ok _ else _] => destruct b
               | |- context [match nth_error ?a ?b with _ => _ end] => destruct (nth_error a b) end;
            intro H; injection H as <-; exact Q. }
        destruct (opens_quote d c).
        { split; [discriminate|]. intros st' H. injection H as <-. exact Q. }
        destruct (sc_pname st) as [|p0 prest] eqn:Ep; cbn [nullb negb].
        - destruct (starts_param d c) eqn:Esp.
          { split; [discriminate|]. intros st' H. injection H as <-. cbn.
            intro X. injection X as X. now apply starts_param_not_mark in Esp. }
          destruct ((c =? R "?")%N && negb (is_postgres d)) eqn:Eq.
          2:{ split; [discriminate|]. intros st' H. injection H as <-. cbn. now rewrite Ep. }
          destruct (nth_error args (sc_running st)) as [v|] eqn:En; [|split; discriminate].
          pose proof (sprint_nth d args Hargs _ _ En) as NP.
          destruct (sprint d v) as [t| |]; [|split; discriminate|contradiction].
          split; [discriminate|]. intros st' H. injection H as <-. discriminate.
        - destruct (name_terminating c).
          + pose proof (lookup_param_panic2 (p0 :: prest) (sc_running st) ltac:(discriminate) Q) as NP.
            destruct (lookup_param d args (p0 :: prest) named (sc_running st)) as [v| |]; [|split; discriminate|contradiction].
            split; [discriminate|]. intros st' H. injection H as <-. discriminate.
          + split; [discriminate|]. intros st' H. injection H as <-. exact Q. }
      destruct K as [A C].
      destruct (scan_step d args named st (i, c, suf)) as [st1| |]; [|split; discriminate|contradiction].
      apply IH. now apply C.
  Qed.
End NonSqlite.

Lemma sprintf_no_panic_nonsqlite d query args :
  d <> DSQLite -> (forall v, In v args -> sprint d v <> Panic) -> sprintf d query args <> Panic.
Proof.
  intros Hd Ha. unfold sprintf. destruct args as [|a0 args0] eqn:Ea; [discriminate|].
  rewrite <- Ea in *. clear Ea.
  destruct (scan_loop_panic2 d args (named_args_lookup args) Ha Hd (range_string query) scan_init) as [A C].
  { unfold pname_ok. cbn. discriminate. }
  destruct (scan_loop d args (named_args_lookup args) scan_init (range_string query)) as [st| |];
    [|discriminate|contradiction].
  specialize (C st eq_refl). unfold scan_finish.
  destruct (sc_pname st) as [|p0 prest] eqn:Ep; cbn [nullb negb].
  - destruct (sc_inside st); discriminate.
  - unfold pname_ok in C. rewrite Ep in C.
    pose proof (lookup_param_panic2 d args (named_args_lookup args) Ha (p0 :: prest) (sc_running st)
      ltac:(discriminate) C) as NP.
    destruct (lookup_param d args (p0 :: prest) (named_args_lookup args) (sc_running st));
      [destruct (sc_inside st); discriminate|discriminate|contradiction].
Qed.
