(** * ReadToks: the tokens of the clauses of a statement *)
From Coq Require Import Lia.
From Verif Require Import GoBase GoBaseFacts QuoteModel SpecLex SpecIdent SpecSql SprintModel TokenModel EffectModel RenderModel
  SqlFacts ExecFacts SpecClauses SpecReadSql ClauseFacts DdlToks DdlRead.
Local Open Scope m_scope.

Lemma text_after_out : forall d s m ks, st_out (exec d s (fst m)) = st_out s ++ ks -> text_after d s m = out_text d ks.
Proof. intros d s m ks H. unfold text_after. now rewrite H, skipn_app, skipn_all, Nat.sub_diag. Qed.
Lemma text_after_seq : forall d s m k, snd m = SOk -> text_after d s (m ;; k) = text_after d s m ++ text_after d (exec d s (fst m)) k.
Proof.
  intros d s m k O. destruct (exec_out d (fst m) s) as [k1 E1]. destruct (exec_out d (fst k) (exec d s (fst m))) as [k2 E2].
  rewrite (text_after_out d s m k1 E1), (text_after_out d (exec d s (fst m)) k k2 E2).
  rewrite <- out_text_app. apply text_after_out. unfold seq. rewrite O. cbn [fst]. now rewrite exec_app, E2, E1, app_assoc.
Qed.
Lemma text_after_emit : forall d s b, text_after d s (emit b) = b.
Proof.
  intros d s b. rewrite (text_after_out d s (emit b) [KText b] eq_refl). cbn. apply app_nil_r.
Qed.
Lemma text_after_ret : forall d s, text_after d s ret = [].
Proof. intros d s. rewrite (text_after_out d s ret []); [reflexivity|]. cbn. now rewrite app_nil_r. Qed.
Lemma text_after_del : forall d s ns, text_after d s (act (CDel ns)) = [].
Proof. intros d s ns. rewrite (text_after_out d s (act (CDel ns)) []); [reflexivity|]. cbn. now rewrite app_nil_r. Qed.

(** [wr]: the component writes tokens with property [P]; [wrs]: and begins with
    a separator; [wro]: and anything can follow. *)
Definition wr (d : dialect) (m : M) (P : list tok -> Prop) : Prop :=
  snd m = SOk -> forall s, exists ts, tokens d (text_after d s m) = Some ts /\ P ts.
Definition wrs (d : dialect) (m : M) (P : list tok -> Prop) : Prop :=
  snd m = SOk -> forall s, exists ts, tokens d (text_after d s m) = Some ts /\ sep_start (text_after d s m) /\ P ts.
Definition wro (d : dialect) (m : M) (P : list tok -> Prop) : Prop :=
  snd m = SOk -> forall s, exists ts, pre d (text_after d s m) ts /\ P ts.
(** Two properties one after the other. *)
Definition cat (P Q : list tok -> Prop) (ts : list tok) : Prop := exists a b, ts = a ++ b /\ P a /\ Q b.
Definition is (l : list tok) (ts : list tok) : Prop := ts = l.

Section Rules.
  Context (d : dialect).
  Notation wr := (wr d). Notation wrs := (wrs d). Notation wro := (wro d).
  Lemma wr_imp : forall m (P Q : list tok -> Prop), wr m P -> (forall ts, P ts -> Q ts) -> wr m Q.
  Proof. intros m P Q H I O s. destruct (H O s) as (ts & T & p). exists ts. auto. Qed.
  Lemma wrs_imp : forall m (P Q : list tok -> Prop), wrs m P -> (forall ts, P ts -> Q ts) -> wrs m Q.
  Proof. intros m P Q H I O s. destruct (H O s) as (ts & T & Z & p). exists ts. auto. Qed.
  Lemma wro_imp : forall m (P Q : list tok -> Prop), wro m P -> (forall ts, P ts -> Q ts) -> wro m Q.
  Proof. intros m P Q H I O s. destruct (H O s) as (ts & T & p). exists ts. auto. Qed.
  Lemma wrs_wr : forall m P, wrs m P -> wr m P.
  Proof. intros m P H O s. destruct (H O s) as (ts & T & Z & p). exists ts. auto. Qed.
  Lemma wro_wr : forall m P, wro m P -> wr m P.
  Proof. intros m P H O s. destruct (H O s) as (ts & T & p). exists ts. split; [now apply pre_of|exact p]. Qed.
  Lemma wr_seq : forall m k P Q, wr m P -> wrs k Q -> wr (m ;; k) (cat P Q).
  Proof.
    intros m k P Q H1 H2 O s. apply seq_ok in O. destruct O as [O1 O2]. rewrite text_after_seq by exact O1.
    destruct (H1 O1 s) as (a & A & p). destruct (H2 O2 (exec d s (fst m))) as (b & B0 & Z & q). exists (a ++ b).
    split; [now apply toks_app|now exists a, b].
  Qed.
  Lemma wrs_seq : forall m k P Q, wrs m P -> wrs k Q -> wrs (m ;; k) (cat P Q).
  Proof.
    intros m k P Q H1 H2 O s. apply seq_ok in O. destruct O as [O1 O2]. rewrite text_after_seq by exact O1.
    destruct (H1 O1 s) as (a & A & Z1 & p). destruct (H2 O2 (exec d s (fst m))) as (b & B0 & Z & q). exists (a ++ b).
    split; [now apply toks_app|]. split; [now apply sep_start_app|now exists a, b].
  Qed.
  Lemma wro_seq : forall m k P Q, wro m P -> wr k Q -> wr (m ;; k) (cat P Q).
  Proof.
    intros m k P Q H1 H2 O s. apply seq_ok in O. destruct O as [O1 O2]. rewrite text_after_seq by exact O1.
    destruct (H1 O1 s) as (a & A & p). destruct (H2 O2 (exec d s (fst m))) as (b & B0 & q). exists (a ++ b).
    split; [now apply pre_toks|now exists a, b].
  Qed.
  Lemma wro_wro : forall m k P Q, wro m P -> wro k Q -> wro (m ;; k) (cat P Q).
  Proof.
    intros m k P Q H1 H2 O s. apply seq_ok in O. destruct O as [O1 O2]. rewrite text_after_seq by exact O1.
    destruct (H1 O1 s) as (a & A & p). destruct (H2 O2 (exec d s (fst m))) as (b & B0 & q). exists (a ++ b).
    split; [now apply pre_app|now exists a, b].
  Qed.
  (** A literal that begins with a separator, and what follows it. *)
  Lemma wro_emit : forall b t, pre d b t -> wro (emit b) (is t).
  Proof. intros b t H O s. exists t. rewrite text_after_emit. split; [exact H|reflexivity]. Qed.
  Lemma wr_emit : forall b t, tokens d b = Some t -> wr (emit b) (is t).
  Proof. intros b t H O s. exists t. rewrite text_after_emit. split; [exact H|reflexivity]. Qed.
  Lemma wrs_emit : forall b t, tokens d b = Some t -> sep_start b -> wrs (emit b) (is t).
  Proof. intros b t H Z O s. exists t. rewrite text_after_emit. split; [exact H|]. split; [exact Z|reflexivity]. Qed.
  Lemma wrs_lit : forall c b t k Q, separator c = true -> pre d (c :: b) t -> wr k Q -> wrs (emit (c :: b) ;; k) (cat (is t) Q).
  Proof.
    intros c b t k Q C H1 H2 O s. assert (O' := O). apply seq_ok in O'. destruct O' as [_ O2].
    destruct (wro_seq _ _ _ _ (wro_emit _ _ H1) H2 O s) as (ts & T & p). exists ts. split; [exact T|]. split; [|exact p].
    rewrite text_after_seq by reflexivity. rewrite text_after_emit. exact C.
  Qed.
  Lemma wr_wro : forall m c b t P, wr m P -> separator c = true -> pre d (c :: b) t -> wro (m ;; emit (c :: b)) (cat P (is t)).
  Proof.
    intros m c b t P H1 C H2 O s. apply seq_ok in O. destruct O as [O1 O2]. rewrite text_after_seq by exact O1.
    destruct (H1 O1 s) as (a & A & p). rewrite text_after_emit. exists (a ++ t). split; [|now exists a, t].
    apply toks_pre; auto. discriminate.
  Qed.
  Lemma wrs_ret : wrs ret (is []).
  Proof. intros O s. exists []. rewrite text_after_ret. repeat split. Qed.
  Lemma wro_ret : wro ret (is []).
  Proof. intros O s. exists []. rewrite text_after_ret. split; [apply pre_nil|reflexivity]. Qed.
  Lemma wrs_when : forall (b : bool) m (P : list tok -> Prop), (b = true -> wrs m P) -> (b = false -> P []) -> wrs (when b m) P.
  Proof.
    intros [|] m P H Z; [now apply H|]. apply (wrs_imp _ _ _ wrs_ret). intros ts ->. now apply Z.
  Qed.
  Lemma wro_when : forall (b : bool) m (P : list tok -> Prop), (b = true -> wro m P) -> (b = false -> P []) -> wro (when b m) P.
  Proof.
    intros [|] m P H Z; [now apply H|]. apply (wro_imp _ _ _ wro_ret). intros ts ->. now apply Z.
  Qed.
  (** A program followed by effects without text. *)
  Lemma wr_quiet : forall m k P, wr m P -> (forall s, text_after d s k = []) -> wr (m ;; k) P.
  Proof.
    intros m k P H Q O s. apply seq_ok in O. destruct O as [O1 O2]. rewrite text_after_seq by exact O1. rewrite Q, app_nil_r.
    now apply H.
  Qed.

  (** Lists *)
  Lemma wrs_seps : forall A (f : A -> M) (R : A -> list tok -> Prop) c b t (l : list A), separator c = true -> pre d (c :: b) t ->
    Forall (fun a => wr (f a) (R a)) l ->
    wrs (seqs (map (seq (emit (c :: b))) (map f l))) (fun ts => exists es, Forall2 R l es /\ ts = flat_map (app t) es).
  Proof.
    intros A f R c b t l C Pb. induction 1 as [|a l H HH IH]; cbn [map seqs].
    - apply (wrs_imp _ _ _ wrs_ret). intros ts ->. now exists [].
    - apply (wrs_imp _ (cat (cat (is t) (R a)) (fun ts => exists es, Forall2 R l es /\ ts = flat_map (app t) es))).
      + apply wrs_seq; [|exact IH]. now apply wrs_lit.
      + intros ts (x & y & -> & (x1 & x2 & -> & -> & p) & es & F & ->). exists (x2 :: es). split; [now constructor|].
        cbn [flat_map]. now rewrite <- !app_assoc.
  Qed.
  Lemma wr_sep_by : forall A (f : A -> M) (R : A -> list tok -> Prop) c b t (l : list A), separator c = true -> pre d (c :: b) t ->
    Forall (fun a => wr (f a) (R a)) l ->
    wr (sep_by (c :: b) (map f l)) (fun ts => exists es, Forall2 R l es /\
      ts = match es with [] => [] | e :: r => e ++ flat_map (app t) r end).
  Proof.
    intros A f R c b t l C Pb H. destruct H as [|m ms H HH]; cbn [map sep_by].
    - apply (wr_imp _ _ _ (wrs_wr _ _ wrs_ret)). intros ts ->. now exists [].
    - apply (wr_imp _ (cat (R m) (fun ts => exists es, Forall2 R ms es /\ ts = flat_map (app t) es))).
      + apply wr_seq; [exact H|now apply wrs_seps].
      + intros ts (x & y & -> & p & es & F & ->). exists (x :: es). split; [now constructor|reflexivity].
  Qed.
  Lemma pre_comma : pre d (B ", ") [comma].
  Proof.
    change (B ", ") with ([","%char] ++ [" "%char]). change [comma] with ([comma] ++ []).
    apply pre_app; [apply pre_sym; cbn; tauto|now apply pre_blank].
  Qed.
  Lemma wr_commas : forall A (f : A -> M) (R : A -> list tok -> Prop) (l : list A),
    Forall (fun a => wr (f a) (R a)) l ->
    wr (sep_by (B ", ") (map f l)) (fun ts => exists es, Forall2 R l es /\ ts = commas es).
  Proof.
    intros A f R l H. refine (wr_imp _ _ _ (wr_sep_by A f R "," [" "%char] [comma] l eq_refl pre_comma H) _).
    intros ts (es & F & ->). now exists es.
  Qed.
End Rules.
