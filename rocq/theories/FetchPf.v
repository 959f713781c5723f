(** * FetchPf: proofs about Fetch, FetchExists and Exec *)
From Verif Require Import GoBase QuoteModel SprintModel TokenModel EffectModel RenderModel BuildModel FetchModel SpecFetch.
From Coq Require Import Lia.

Section Run.
  Context {A : Type}.
  Implicit Types (p : prog A) (h : list A) (r : row).

  (** In the active phase the columns and destinations do not change. *)
  Lemma run_active p : forall r h x r' h', r_active r = true -> run p r h = (x, r', h') ->
    r_active r' = true /\ r_cols r' = r_cols r /\ r_dest r' = r_dest r.
  Proof.
    induction p as [e|a k IH|ty f k IH|k IH|k IH|w fn IHfn k IH|e|]; intros r h x r' h' Ha E; cbn in E.
    - inversion E; subst; auto.
    - eapply IH; eauto.
    - rewrite Ha in E. cbn in E.
      destruct (nth_error (r_cols r) (r_index r)) as [[ty' g]|]; [|inversion E; subst; auto].
      destruct (nth_error (r_dest r) (r_index r)) as [v|]; [|inversion E; subst; auto].
      destruct (kind_eqb ty ty').
      + apply IH in E; cbn in *; auto.
      + destruct ty; inversion E; subst; auto.
    - eapply IH; eauto.
    - apply IH in E; cbn in *; auto.
    - destruct (negb (r_active r) || r_processed r).
      + eapply IH; eauto.
      + destruct (run fn r h) as [[x1 r1] h1] eqn:E1.
        destruct (IHfn _ _ _ _ _ Ha E1) as (H1 & H2 & H3).
        destruct x1; [|inversion E; subst; auto..].
        apply IH in E; cbn in *; auto. destruct E as (? & ? & ?). repeat split; congruence.
    - inversion E; subst; auto.
    - inversion E; subst; auto.
  Qed.

  (** In the passive phase nothing is processed: no error is recorded. *)
  Lemma run_passive p : forall r h x r' h', r_active r = false -> run p r h = (x, r', h') ->
    r_active r' = false /\ r_err r' = r_err r.
  Proof.
    induction p as [e|a k IH|ty f k IH|k IH|k IH|w fn IHfn k IH|e|]; intros r h x r' h' Ha E; cbn in E.
    - inversion E; subst; auto.
    - eapply IH; eauto.
    - rewrite Ha in E. cbn in E. apply IH in E; cbn in *; auto.
    - eapply IH; eauto.
    - apply IH in E; cbn in *; auto.
    - rewrite Ha in E. cbn in E. eapply IH; eauto.
    - inversion E; subst; auto.
    - inversion E; subst; auto.
  Qed.

  Definition flat (o : outcome) : option gerr * bool :=
    match o with Failed e => (Some e, false) | Panicked => (None, true) | _ => (None, false) end.

  Lemma explains_iff dl f : explains dl f = true <-> can_show dl f.
  Proof.
    unfold explains, can_show. destruct (snd (append_sql dl f None [] st0)).
    - destruct (sprintf _ _ _); split; try discriminate; try (intros _; split; [discriminate|intros _; discriminate]);
        try reflexivity. intros [_ H]. now destruct (H eq_refl).
    - split; [intros _; split; discriminate|reflexivity].
    - split; [discriminate|]. intros [H _]. congruence.
  Qed.
  Lemma explains_all dl cols : forallb (fun c : kind * node => explains dl (snd c)) cols = true <-> (forall c, In c cols -> can_show dl (snd c)).
  Proof.
    rewrite forallb_forall. split; intros H c I; specialize (H c I); now apply explains_iff.
  Qed.

  Lemma fetch_rows_visits dl mapper cols rows : forall r h n0,
    r_active r = true -> r_cols r = cols -> r_err r = None -> r_closed r = false ->
    exists n o h', visits dl mapper cols rows h n o h' /\
      fetch_rows dl mapper rows r h n0 = (n0 + n, fst (flat o), snd (flat o), h').
  Proof.
    induction rows as [|d rest IH]; intros r h n0 Ha Hc He Hcl; cbn [fetch_rows].
    - exists 0, Finished, h. rewrite Nat.add_0_r. split; [constructor|reflexivity].
    - rewrite Hc, Ha, He, Hcl. destruct (scan d cols) as [e|vs] eqn:Es.
      + unfold decorated. destruct (forallb (fun c => explains dl (snd c)) cols) eqn:Ex.
        * exists 1, (Failed e), h. rewrite Nat.add_1_r. split; [|reflexivity]. eapply V_scan; eauto. now apply explains_all.
        * exists 1, (Failed ERuntime), h. rewrite Nat.add_1_r. split; [|reflexivity]. eapply V_lost; eauto.
          intros C. apply explains_all in C. congruence.
      + fold (fresh_row cols vs).
        destruct (run (mapper h) (fresh_row cols vs) h) as [[x r1] h1] eqn:Er.
        destruct x as [x|e|].
        * destruct (r_err r1) as [e|] eqn:Ee.
          { exists 1, (Failed e), h1. rewrite Nat.add_1_r. split; [eapply V_fail; eauto|reflexivity]. }
          destruct (r_closed r1) eqn:Ec.
          { exists 1, Closed, h1. rewrite Nat.add_1_r. split; [eapply V_close; eauto|reflexivity]. }
          destruct (run_active _ _ _ _ _ _ (eq_refl : r_active (fresh_row cols vs) = true) Er) as (H1 & H2 & H3).
          destruct (IH r1 h1 (S n0) H1 H2 Ee Ec) as (n & o & h' & Hv & Hf).
          exists (S n), o, h'. split; [eapply V_next; eauto|]. rewrite Hf. f_equal. f_equal. f_equal. lia.
        * exists 1, (Failed e), h1. rewrite Nat.add_1_r. split; [eapply V_err; eauto|reflexivity].
        * exists 1, Panicked, h1. rewrite Nat.add_1_r. split; [eapply V_panic; eauto|reflexivity].
  Qed.

  Lemma visits_fun dl mapper cols rows h n o h' : visits dl mapper cols rows h n o h' ->
    forall n2 o2 h2, visits dl mapper cols rows h n2 o2 h2 -> n2 = n /\ o2 = o /\ h2 = h'.
  Proof.
    induction 1; intros n2 o2 h2' H'; inversion H'; subst; try (repeat split; congruence);
      try (exfalso; congruence).
    assert (vs0 = vs) by congruence. subst vs0.
    match goal with E1 : run _ _ _ = (XDone x, r, _), E2 : run _ _ _ = (XDone x0, r0, _) |- _ =>
      rewrite E1 in E2; inversion E2; subst end.
    match goal with V : visits _ _ _ rest _ n0 o2 _ |- _ => destruct (IHvisits _ _ _ V) as (-> & -> & ->) end. auto.
  Qed.

  Lemma visits_bound dl mapper cols rows h n o h' : visits dl mapper cols rows h n o h' ->
    n <= length rows /\ (o = Finished -> n = length rows).
  Proof.
    induction 1; cbn; split; try lia; try discriminate; try (intros; destruct IHvisits; auto; lia).
  Qed.
End Run.

(** ** Fetch *)
Section FetchPf.
  Context {A : Type}.
  Implicit Types (h : list A).

  (** The query is sent exactly if it renders. *)
  Lemma fetch_visits_pf ctx db q (mapper : list A -> prog A) h x r h1 q1 :
    run (mapper h) row_new h = (XDone x, r, h1) -> r_closed r = false -> r_cols r <> [] ->
    set_fetchable q (map snd (r_cols r)) = Some q1 ->
    let out := to_sql (get_dialect q) q1 in BuildModel.r_status out = SOk ->
    forall rows close iter, db (ctx, r_query out, r_args out) = QRows rows close iter ->
    exists n o h2, visits (dialect_of (get_dialect q)) mapper (r_cols r) rows h1 n o h2 /\
      fetch ctx (Some db) (Some q) (Some mapper) h =
        mk_fetched n (reported o close iter) (match o with Panicked => true | _ => false end) h2
          (Some (ctx, r_query out, r_args out)).
  Proof.
    intros E Hc Hn Hs out Ho rows close iter Hd.
    unfold fetch. rewrite E, Hs. fold out. rewrite Ho, Hd.
    destruct (run_passive _ _ _ _ _ _ (eq_refl : r_active row_new = false) E) as (_ & He).
    destruct (fetch_rows_visits (dialect_of (get_dialect q)) mapper (r_cols r) rows
      (mk_row true (r_index r) (r_cols r) (r_dest r) (r_err r) (r_processed r) (r_closed r)) h1 0
      eq_refl eq_refl He Hc) as (n & o & h2 & Hv & Hf).
    exists n, o, h2. split; [exact Hv|].
    destruct (r_cols r) as [|c0 cols0]; [congruence|].
    rewrite Hf, Nat.add_0_l. destruct o, close, iter; reflexivity.
  Qed.

  (** *** Ordinary mappers *)
  Lemma run_acts (l : list A) k : forall r h, run (acts l k) r h = run k r (h ++ l).
  Proof.
    induction l as [|a l IH]; intros r h; cbn.
    - rewrite app_nil_r. reflexivity.
    - rewrite IH, <- app_assoc. reflexivity.
  Qed.
  Lemma run_ask_passive cols : forall got k r h, r_active r = false ->
    run (ask (A := A) cols got k) r h =
    run (k (got ++ map (fun c => zero_of (fst c)) cols))
      (mk_row false (r_index r) (r_cols r ++ cols) (r_dest r ++ map (fun c => zero_of (fst c)) cols) (r_err r) (r_processed r) (r_closed r)) h.
  Proof.
    induction cols as [|[ty f] cols IH]; intros got k r h Ha; cbn.
    - rewrite !app_nil_r. destruct r; cbn in *. subst. reflexivity.
    - rewrite Ha. cbn. rewrite IH by reflexivity. cbn. rewrite <- !app_assoc. reflexivity.
  Qed.
  Lemma kind_eqb_refl k : kind_eqb k k = true.
  Proof. destruct k; cbn; auto. apply Nat.eqb_refl. Qed.
  Lemma nth_error_mid {T} (pre : list T) x post : nth_error (pre ++ x :: post) (length pre) = Some x.
  Proof. rewrite nth_error_app2 by lia. rewrite Nat.sub_diag. reflexivity. Qed.
  Lemma run_ask_active cols : forall got k pre vs h, length vs = length cols -> length got = length pre ->
    run (ask (A := A) cols got k) (mk_row true (length pre) (pre ++ cols) (got ++ vs) None false false) h =
    run (k (got ++ vs)) (mk_row true (length pre + length cols) (pre ++ cols) (got ++ vs) None false false) h.
  Proof.
    induction cols as [|[ty f] cols IH]; intros got k pre [|v vs] h Hl Hg; try discriminate; cbn.
    - rewrite !app_nil_r, Nat.add_0_r. reflexivity.
    - rewrite nth_error_mid, <- Hg, nth_error_mid, kind_eqb_refl, Hg.
      change (pre ++ (ty, f) :: cols) with (pre ++ [(ty, f)] ++ cols).
      change (got ++ v :: vs) with (got ++ [v] ++ vs). rewrite !app_assoc.
      replace (S (length pre)) with (length (pre ++ [(ty, f)])) by (rewrite app_length; cbn; lia).
      rewrite IH.
      + rewrite !app_length. cbn. replace (length pre + 1 + length cols) with (length pre + S (length cols)) by lia. reflexivity.
      + cbn in Hl. lia.
      + rewrite !app_length. cbn. lia.
  Qed.
  Lemma scan_length d cols vs : scan d cols = inr vs -> length vs = length cols.
  Proof.
    unfold scan. destruct (d (map fst cols)) as [e|l]; [discriminate|].
    destruct (Nat.eqb (length l) (length cols)) eqn:E; [|discriminate].
    intros H. inversion H; subst. now apply Nat.eqb_eq.
  Qed.
  Lemma run_mapping (m : mapping A) h0 h vs : length vs = length (m_cols m) ->
    run (mapper_of m h0) (fresh_row (m_cols m) vs) h =
    (XDone None,
     mk_row true (length (m_cols m)) (m_cols m) vs
       (match snd (m_body m h0 vs) with Fail e => Some e | _ => None end) true
       (match snd (m_body m h0 vs) with Stop => true | _ => false end),
     h ++ fst (m_body m h0 vs)).
  Proof.
    intros Hl. unfold mapper_of.
    pose proof (run_ask_active (m_cols m) [] (fun vs => PProcess true (body_prog (m_body m h0 vs)) (fun _ => PEnd None)) [] vs h Hl eq_refl) as E.
    cbn [app length] in E. unfold fresh_row. rewrite E. cbn -[body_prog].
    unfold body_prog. rewrite run_acts. destruct (snd (m_body m h0 vs)); reflexivity.
  Qed.
  Lemma run_mapping_passive (m : mapping A) h0 h :
    exists r, run (mapper_of m h0) row_new h = (XDone None, r, h) /\
      r_cols r = m_cols m /\ r_closed r = false.
  Proof.
    unfold mapper_of. rewrite run_ask_passive by reflexivity. cbn. eexists. repeat split.
  Qed.

  Lemma visits_prefix dl (m : mapping A) : forall pre vals h,
    scans (m_cols m) pre vals -> all_continue m h vals ->
    forall rest n o h2, visits dl (mapper_of m) (m_cols m) rest (after m h vals) n o h2 ->
    visits dl (mapper_of m) (m_cols m) (pre ++ rest) h (length pre + n) o h2.
  Proof.
    induction pre as [|d pre IH]; intros vals h Hs Hc rest n o h2 Hv; inversion Hs; subst; cbn in *; auto.
    destruct Hc as [Hc1 Hc2].
    eapply V_next; eauto.
    - apply run_mapping. eapply scan_length; eauto.
    - cbn. rewrite Hc1. reflexivity.
    - cbn. rewrite Hc1. reflexivity.
  Qed.

  (** Fetch with an ordinary mapper, when the query is accepted. *)
  Lemma fetch_ordinary ctx db q (m : mapping A) h q1 :
    m_cols m <> [] -> set_fetchable q (map snd (m_cols m)) = Some q1 ->
    let out := to_sql (get_dialect q) q1 in BuildModel.r_status out = SOk ->
    forall rows close iter, db (ctx, r_query out, r_args out) = QRows rows close iter ->
    forall n o h2, visits (dialect_of (get_dialect q)) (mapper_of m) (m_cols m) rows h n o h2 ->
      fetch ctx (Some db) (Some q) (Some (mapper_of m)) h =
        mk_fetched n (reported o close iter) (match o with Panicked => true | _ => false end) h2
          (Some (ctx, r_query out, r_args out)).
  Proof.
    intros Hn Hs out Ho rows close iter Hd n o h2 Hv.
    destruct (run_mapping_passive m h h) as (r & Er & Hc & Hcl).
    rewrite <- Hc in Hn, Hs, Hv.
    destruct (fetch_visits_pf ctx db q (mapper_of m) h _ r h q1 Er Hcl Hn Hs Ho rows close iter Hd)
      as (n' & o' & h' & Hv' & Hf).
    destruct (visits_fun _ _ _ _ _ _ _ _ Hv _ _ _ Hv') as (-> & -> & ->). exact Hf.
  Qed.

  Section Ordinary.
    Context (ctx : nat) (db : database) (q q1 : node) (m : mapping A) (h : list A).
    Let out := to_sql (get_dialect q) q1.
    Context (Hn : m_cols m <> []) (Hs : set_fetchable q (map snd (m_cols m)) = Some q1)
      (Ho : BuildModel.r_status out = SOk).
    Let sent := (ctx, r_query out, r_args out).

    Lemma fetch_all_pf rows vals close iter : db sent = QRows rows close iter ->
      scans (m_cols m) rows vals -> all_continue m h vals ->
      fetch ctx (Some db) (Some q) (Some (mapper_of m)) h =
        mk_fetched (length rows) (reported Finished close iter) false (after m h vals) (Some sent).
    Proof.
      intros Hd Hsc Hc.
      refine (eq_trans (fetch_ordinary ctx db q m h q1 Hn Hs Ho _ _ _ Hd (length rows) Finished (after m h vals) _) eq_refl).
      rewrite <- (app_nil_r rows) at 1. rewrite <- (Nat.add_0_r (length rows)).
      eapply visits_prefix; eauto. constructor.
    Qed.
    Lemma fetch_stop_pf pre vals d vs rest close iter : db sent = QRows (pre ++ d :: rest) close iter ->
      scans (m_cols m) pre vals -> all_continue m h vals ->
      scan d (m_cols m) = inr vs -> snd (m_body m (after m h vals) vs) = Stop ->
      fetch ctx (Some db) (Some q) (Some (mapper_of m)) h =
        mk_fetched (length pre + 1) (reported Finished close iter) false
          (after m h vals ++ fst (m_body m (after m h vals) vs)) (Some sent).
    Proof.
      intros Hd Hsc Hc Hsd Hst.
      refine (eq_trans (fetch_ordinary ctx db q m h q1 Hn Hs Ho _ _ _ Hd (length pre + 1) Closed
        (after m h vals ++ fst (m_body m (after m h vals) vs)) _) eq_refl).
      eapply visits_prefix; eauto. eapply V_close; eauto.
      - apply run_mapping. eapply scan_length; eauto.
      - cbn. rewrite Hst. reflexivity.
      - cbn. rewrite Hst. reflexivity.
    Qed.
    Lemma fetch_fail_pf pre vals d vs e rest close iter : db sent = QRows (pre ++ d :: rest) close iter ->
      scans (m_cols m) pre vals -> all_continue m h vals ->
      scan d (m_cols m) = inr vs -> snd (m_body m (after m h vals) vs) = Fail e ->
      fetch ctx (Some db) (Some q) (Some (mapper_of m)) h =
        mk_fetched (length pre + 1) (Some e) false
          (after m h vals ++ fst (m_body m (after m h vals) vs)) (Some sent).
    Proof.
      intros Hd Hsc Hc Hsd Hst.
      refine (eq_trans (fetch_ordinary ctx db q m h q1 Hn Hs Ho _ _ _ Hd (length pre + 1) (Failed e)
        (after m h vals ++ fst (m_body m (after m h vals) vs)) _) eq_refl).
      eapply visits_prefix; eauto. eapply V_fail; eauto.
      - apply run_mapping. eapply scan_length; eauto.
      - cbn. rewrite Hst. reflexivity.
    Qed.
    Lemma fetch_scan_pf pre vals d e rest close iter : db sent = QRows (pre ++ d :: rest) close iter ->
      scans (m_cols m) pre vals -> all_continue m h vals -> scan d (m_cols m) = inl e ->
      (forall c, In c (m_cols m) -> can_show (dialect_of (get_dialect q)) (snd c)) ->
      fetch ctx (Some db) (Some q) (Some (mapper_of m)) h =
        mk_fetched (length pre + 1) (Some e) false (after m h vals) (Some sent).
    Proof.
      intros Hd Hsc Hc Hsd Hx.
      refine (eq_trans (fetch_ordinary ctx db q m h q1 Hn Hs Ho _ _ _ Hd (length pre + 1) (Failed e) (after m h vals) _) eq_refl).
      eapply visits_prefix; eauto. eapply V_scan; eauto.
    Qed.
  End Ordinary.
End FetchPf.

(** ** Setting the fields *)
From Verif Require Import GoBaseFacts SpecQuery QueryPf.
Lemma set_fetchable_produces q fs q1 : set_fetchable q fs = Some q1 -> produces q1 fs.
Proof.
  assert (R : forall d, returning_dialect d = true -> In d [B "postgres"; B "sqlite"]).
  { unfold returning_dialect. intros d H. apply orb_prop in H. destruct H as [H|H]; apply beqb_eq in H; subst; cbn; auto. }
  destruct q; cbn [set_fetchable]; try discriminate.
  - intros E. inversion E; subst.
    match goal with |- produces (NSelect ?x) ?y => change y with (sq_fields x) end. constructor.
  - destruct (returning_dialect _) eqn:D; [|discriminate]. intros E. inversion E; subst.
    match goal with |- produces (NInsert ?x) ?y => change y with (iq_returning x) end. constructor. now apply R.
  - destruct (returning_dialect _) eqn:D; [|discriminate]. intros E. inversion E; subst.
    match goal with |- produces (NUpdate ?x) ?y => change y with (uq_returning x) end. constructor. now apply R.
  - destruct (returning_dialect _) eqn:D; [|discriminate]. intros E. inversion E; subst.
    match goal with |- produces (NDelete ?x) ?y => change y with (dq_returning x) end. constructor. now apply R.
Qed.
Lemma set_fetchable_back q fs q1 fs0 : set_fetchable q fs = Some q1 -> produces q fs0 -> set_fetchable q1 fs0 = Some q.
Proof.
  destruct q; cbn [set_fetchable]; try discriminate.
  - intros E P. inversion E; subst. inversion P; subst. match goal with x : select_ _ |- _ => destruct x end. reflexivity.
  - destruct (returning_dialect _) eqn:D; [|discriminate]. intros E P. inversion E; subst. inversion P; subst.
    match goal with x : insert_ _ |- _ => destruct x end. cbn in *. rewrite D. reflexivity.
  - destruct (returning_dialect _) eqn:D; [|discriminate]. intros E P. inversion E; subst. inversion P; subst.
    match goal with x : update_ _ |- _ => destruct x end. cbn in *. rewrite D. reflexivity.
  - destruct (returning_dialect _) eqn:D; [|discriminate]. intros E P. inversion E; subst. inversion P; subst.
    match goal with x : delete_ _ |- _ => destruct x end. cbn in *. rewrite D. reflexivity.
Qed.
Definition is_setop (q : node) : bool := match q with NVQuery _ _ _ => true | _ => false end.
Lemma returning_dialect_iff d : returning_dialect d = true <-> In d [B "postgres"; B "sqlite"].
Proof.
  unfold returning_dialect. rewrite orb_true_iff, !beqb_eq. cbn. split.
  - intros [->| ->]; auto.
  - intros [<-|[<-|[]]]; auto.
Qed.
Lemma set_fetchable_some q fs fs0 : produces q fs0 -> is_setop q = false -> exists q1, set_fetchable q fs = Some q1.
Proof.
  intros P. inversion P; subst; cbn; try discriminate; intros _; eauto.
  all: match goal with H : In _ _ |- _ => apply returning_dialect_iff in H; rewrite H; eauto end.
Qed.
Lemma set_fetchable_none q fs : (forall fs0, ~ produces q fs0) \/ is_setop q = true -> set_fetchable q fs = None.
Proof.
  intros [H|H].
  - destruct (set_fetchable q fs) as [q1|] eqn:E; [|reflexivity]. exfalso.
    destruct q; cbn [set_fetchable] in E; try discriminate.
    + eapply H; constructor.
    + destruct (returning_dialect _) eqn:D; [|discriminate]. apply returning_dialect_iff in D. eapply H. constructor. exact D.
    + destruct (returning_dialect _) eqn:D; [|discriminate]. apply returning_dialect_iff in D. eapply H. constructor. exact D.
    + destruct (returning_dialect _) eqn:D; [|discriminate]. apply returning_dialect_iff in D. eapply H. constructor. exact D.
  - destruct q; try discriminate. reflexivity.
Qed.

(** ** What is sent *)
Lemma fetch_nothing_sent {A} ctx db q (mapper : list A -> prog A) h req :
  f_sent (fetch ctx (Some db) (Some q) (Some mapper) h) = Some req ->
  exists x r h1 q1, run (mapper h) row_new h = (XDone x, r, h1) /\
    set_fetchable q (map snd (r_cols r)) = Some q1 /\
    BuildModel.r_status (to_sql (get_dialect q) q1) = SOk /\
    req = (ctx, r_query (to_sql (get_dialect q) q1), r_args (to_sql (get_dialect q) q1)).
Proof.
  unfold fetch. destruct (run (mapper h) row_new h) as [[x r] h1]. destruct x as [x|e|]; try discriminate.
  destruct (set_fetchable q (map snd (r_cols r))) as [q1|] eqn:Es; try discriminate.
  set (out := to_sql (get_dialect q) q1).
  destruct (BuildModel.r_status out) eqn:Eo; try discriminate.
  intros E. exists x, r, h1, q1. repeat split; auto.
  destruct (db (ctx, r_query out, r_args out)) as [e|rows close iter].
  - inversion E; auto.
  - destruct (r_cols r).
    + inversion E; auto.
    + destruct (fetch_rows _ _ _ _ _) as [[[n [e|]] pn] h2]; [|destruct pn]; inversion E; auto.
Qed.

Lemma exec_sends_pf ctx db q aff last : let out := to_sql (get_dialect q) q in
  BuildModel.r_status out = SOk -> db (ctx, r_query out, r_args out) = XResult (inr aff) (inr last) ->
  exec_query ctx (Some db) (Some q) =
    mk_exec aff (if beqb (get_dialect q) (B "sqlite") || beqb (get_dialect q) (B "mysql") then last else 0%Z) None false
      (Some (ctx, r_query out, r_args out)).
Proof.
  intros out Ho Hd. unfold exec_query. fold out. rewrite Ho, Hd.
  destruct (beqb (get_dialect q) (B "sqlite") || beqb (get_dialect q) (B "mysql")); reflexivity.
Qed.
Lemma exec_not_sent ctx db q : BuildModel.r_status (to_sql (get_dialect q) q) <> SOk ->
  x_sent (exec_query ctx (Some db) (Some q)) = None.
Proof. unfold exec_query. destruct (BuildModel.r_status _); [congruence|reflexivity..]. Qed.

Lemma exists_pf ctx db q q1 fs : produces q fs ->
  (fs <> [] -> q1 = q) -> (fs = [] -> set_fetchable q [NLiteral (B "1") []] = Some q1) ->
  let out := to_sql (get_dialect q) q1 in BuildModel.r_status out = SOk ->
  forall r rows b, db (ctx, B "SELECT EXISTS (" ++ r_query out ++ B ")", r_args out) = QRows (r :: rows) None None ->
  scan r [(KBool, NRaw GNil)] = inr [GBool b] ->
  fetch_exists ctx (Some db) (Some q) =
    mk_exists b None false (Some (ctx, B "SELECT EXISTS (" ++ r_query out ++ B ")", r_args out)).
Proof.
  intros P H1 H2 out Ho r rows b Hd Hs. unfold fetch_exists. rewrite (produces_fetchable _ _ P).
  assert (E : match fs with [] => set_fetchable q [NLiteral (B "1") []] | _ :: _ => Some q end = Some q1).
  { destruct fs; [auto|rewrite H1; [reflexivity|discriminate]]. }
  rewrite E. fold out. rewrite Ho, Hd. unfold scan_bool. rewrite Hs. reflexivity.
Qed.
