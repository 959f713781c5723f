(** * InlinePf: proofs for C81 *)
From Verif Require Import GoBase GoBaseFacts QuoteModel SprintModel SpecLex SpecSprintf SpecSprint Utf8Facts SprintFacts SprintfFacts SprintfFail
  TokenModel EffectModel RenderModel BuildModel ExecFacts SpecNames BindPf PropertiesBind InlineModel SpecInline.
From Coq Require Import Lia.

Lemma laid_text d places segs : laid_out d places segs -> out_text d places = string_of_runes (src d segs).
Proof.
  assert (A : forall a b, out_text d (a ++ b) = out_text d a ++ out_text d b) by (intros; apply flat_map_app).
  assert (SA : forall a b, src d (a ++ b) = src d a ++ src d b) by (intros; apply flat_map_app).
  induction 1 as [|ts ss places segs T P E L IH|k s places segs P L IH]; auto.
  - now rewrite A, SA, string_of_runes_app, E, IH.
  - change (k :: places) with ([k] ++ places). change (s :: segs) with ([s] ++ segs). rewrite A, SA, string_of_runes_app, IH. f_equal.
    unfold out_text, src. cbn [flat_map]. rewrite !app_nil_r.
    destruct k as [b|i v|v|name v], s as [rs|q body|n|sg name'|]; cbn in P; try contradiction; cbn [chunk_text seg_src].
    + subst n. rewrite Nat.add_1_r, string_of_runes_app, (string_of_ascii_runes (itoa (S i))) by apply itoa_ascii.
      now destruct (is_sqlserver d).
    + reflexivity.
    + destruct P as [-> <-]. rewrite string_of_runes_cons. now destruct (is_sqlserver d), (is_sqlite d).
Qed.

Lemma expected_texts d args k ss segs : forallb no_placeholder ss = true ->
  expected d args k (ss ++ segs) = option_map (app (string_of_runes (src d ss))) (expected d args k segs).
Proof.
  induction ss as [|s ss IH]; intros P; cbn [app].
  - now destruct (expected d args k segs).
  - cbn [forallb] in P. apply andb_true_iff in P. destruct P as [P1 P2].
    unfold src in *. cbn [flat_map]. rewrite string_of_runes_app.
    destruct s; try discriminate; cbn [expected]; rewrite (IH P2); destruct (expected d args k segs); cbn [option_map]; auto; now rewrite app_assoc.
Qed.
Lemma with_values_texts d ts places : forallb is_text ts = true ->
  with_values d (ts ++ places) = option_map (app (out_text d ts)) (with_values d places).
Proof.
  induction ts as [|k ts IH]; intros P; cbn [app].
  - now destruct (with_values d places).
  - cbn [forallb] in P. apply andb_true_iff in P. destruct P as [P1 P2]. destruct k; try discriminate.
    cbn [with_values]. rewrite (IH P2). unfold out_text. cbn [flat_map chunk_text].
    destruct (with_values d places); cbn [option_map]; auto. now rewrite app_assoc.
Qed.
Lemma marks_texts ts : forallb is_text ts = true -> marks ts = [].
Proof. induction ts as [|[] ts IH]; cbn; auto; discriminate. Qed.

Lemma find_named_one name v args : one_value_per_name args -> In (GNamedArg name v) args ->
  find_named name args = Some (GNamedArg name v).
Proof.
  intros O I. unfold find_named. set (f := fun _ => _).
  destruct (find f (rev args)) as [w|] eqn:E.
  - apply find_some in E. destruct E as [J F]. apply in_rev in J. unfold f in F. destruct w; try discriminate.
    apply beqb_eq in F. subst. f_equal. f_equal. eapply O; eauto.
  - apply in_rev in I. apply (find_none _ _ E) in I. unfold f in I. now rewrite beqb_refl in I.
Qed.

(** What a placeholder designates among the arguments is its own value. *)
Definition own_values (args : list gval) (k : nat) (places : list chunk) : Prop :=
  (forall i v, In (KOrd i v) places -> nth_error args i = Some v) /\
  (forall name v, In (KNamed name v) places -> In (GNamedArg name v) args) /\
  (forall j v, nth_error (marks places) j = Some v -> nth_error args (k + j) = Some v).

Lemma expected_values d args : one_value_per_name args -> forall places segs, laid_out d places segs -> forall k,
  own_values args k places -> expected d args k segs = with_values d places.
Proof.
  intros O. induction 1 as [|ts ss places segs T P E L IH|c s places segs P L IH]; intros k (V1 & V2 & V3); auto.
  - rewrite (expected_texts d args k ss segs P), (with_values_texts d ts places T), E, (IH k); auto.
    repeat split.
    + intros i v I. apply V1. apply in_or_app. auto.
    + intros i v I. apply V2. apply in_or_app. auto.
    + intros j v I. apply V3. now rewrite marks_app, (marks_texts ts T).
  - assert (Rest : forall k', (forall j v, nth_error (marks places) j = Some v -> nth_error args (k' + j) = Some v) ->
                     expected d args k' segs = with_values d places).
    { intros k' V. apply IH. repeat split; auto.
      - intros i v I. apply V1. now right.
      - intros i v I. apply V2. now right. }
    destruct c as [b|i v|v|name v], s as [rs|q body|n|sg name'|]; cbn in P; try contradiction; cbn [expected with_values designated].
    + subst n. rewrite (V1 i v) by now left. rewrite Rest by auto. reflexivity.
    + specialize (V3 0 v eq_refl) as V0. rewrite Nat.add_0_r in V0. rewrite V0. rewrite Rest; [reflexivity|].
      intros j w J. replace (S k + j) with (k + S j) by lia. now apply V3.
    + destruct P as [_ ->]. rewrite (find_named_one name v args O) by (apply V2; now left). rewrite Rest by auto. reflexivity.
Qed.

Lemma own_rendered d val n x : d = DMySQL \/ (d = DPostgres \/ d = DSQLite \/ d = DSQLServer) /\ well_named val n ->
  let s := fst (append_sql d n None x st0) in own_values (st_args s) 0 (st_out s).
Proof.
  intros [->|[D W]]; cbv zeta.
  - destruct (mysql_marks_are_args n None x st0) as (ks & E & F & A). cbn [st0 st_out st_args app] in E, A.
    rewrite E, A. rewrite Forall_forall in F. repeat split; auto; intros i v I; now apply F in I.
  - destruct (placeholders_bound d val n None x D W) as (B1 & B2 & B3). repeat split; auto.
    + intros name v I. apply B3 in I. destruct I as (i & I). now apply nth_error_In in I.
    + intros j v J. exfalso. apply nth_error_In in J. revert J B2. generalize (st_out (fst (append_sql d n None x st0))).
      intros l J B2. assert (I : In (KMark v) l).
      { clear B2. revert J. induction l as [|k l IH]; cbn; [tauto|]. destruct k; cbn; intuition congruence. }
      now apply (B2 v).
Qed.

(** Without arguments there is no placeholder. *)
Lemma own_none k places : own_values [] k places -> forallb is_text places = true.
Proof.
  intros (V1 & V2 & V3). apply forallb_forall. intros c I. destruct c as [b|i v|v|name v]; auto.
  - apply V1 in I. now destruct i.
  - exfalso. assert (J : In v (marks places)).
    { clear V1 V2 V3. induction places as [|c places IH]; [destruct I|]. destruct I as [->|I]; [now left|]. destruct c; cbn; auto. }
    apply In_nth_error in J. destruct J as [j J]. apply V3 in J. now destruct (k + j).
  - apply V2 in I. contradiction.
Qed.
Lemma with_values_plain d places : forallb is_text places = true -> with_values d places = Some (out_text d places).
Proof. intros T. rewrite <- (app_nil_r places) at 1. rewrite (with_values_texts d places [] T). cbn. now rewrite app_nil_r. Qed.

Lemma interpolated_pf d args places segs t :
  own_values args 0 places -> one_value_per_name args ->
  laid_out d places segs -> starts_with_text segs = true -> wf_segs d segs = true ->
  (match args with [] => Ok (out_text d places) | _ => sprintf d (out_text d places) args end = Ok t
   <-> with_values d places = Some t).
Proof.
  intros OV O L T W. destruct args as [|a args].
  - rewrite (with_values_plain d places (own_none 0 places OV)). split; intros H; injection H as ->; reflexivity.
  - set (l := a :: args) in *. assert (NE : l <> []) by discriminate. rewrite (laid_text d places segs L).
    rewrite <- (expected_values d l O places segs L 0 OV). split; intros H.
    + destruct (expected d l 0 segs) as [t'|] eqn:E.
      * rewrite (sprintf_expected d segs l t' NE T W E) in H. now injection H as ->.
      * now destruct (sprintf_expected_none d segs l NE T W E t).
    + now apply sprintf_expected.
Qed.
