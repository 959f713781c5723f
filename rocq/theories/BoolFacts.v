(** * BoolFacts: rendered predicates parse back to their meaning *)
From Coq Require Import Lia.
From Verif Require Import GoBase GoBaseFacts QuoteModel SprintModel TokenModel EffectModel RenderModel BuildModel
  SpecBool BoolModel NodeInd RenderRel.
Local Open Scope m_scope.

(** ** The parser *)
Lemma parse_mono f : forall l ts r, parse f l ts = Some r -> parse (S f) l ts = Some r.
Proof.
  induction f as [|f IH]; intros l ts r; [discriminate|].
  intros H. cbn [parse] in H. remember (S f) as g eqn:Eg.
  destruct l; cbn [parse].
  - destruct (parse f LAnd ts) as [[a rest]|] eqn:E; [|discriminate].
    rewrite (IH _ _ _ E). destruct rest as [|[] rest]; auto.
    destruct (parse f LOr rest) as [[b rest']|] eqn:E2; [|discriminate].
    rewrite (IH _ _ _ E2). auto.
  - destruct (parse f LNot ts) as [[a rest]|] eqn:E; [|discriminate].
    rewrite (IH _ _ _ E). destruct rest as [|[] rest]; auto.
    destruct (parse f LAnd rest) as [[b rest']|] eqn:E2; [|discriminate].
    rewrite (IH _ _ _ E2). auto.
  - destruct ts as [|[] rest]; try discriminate; auto.
    + destruct (parse f LNot rest) as [[b rest']|] eqn:E2; [|discriminate].
      rewrite (IH _ _ _ E2). auto.
    + destruct (parse f LOr rest) as [[b rest']|] eqn:E2; [|discriminate].
      rewrite (IH _ _ _ E2). auto.
Qed.
Lemma parse_mono_le f g l ts r : f <= g -> parse f l ts = Some r -> parse g l ts = Some r.
Proof. induction 1; auto. intros H'. apply parse_mono. auto. Qed.

Definition parses l ts b rest := exists f, parse f l ts = Some (b, rest).
Lemma reads_as_unique ts a b : reads_as ts a -> reads_as ts b -> a = b.
Proof.
  intros [f F] [g G]. apply (parse_mono_le f (f + g)) in F; [|lia].
  apply (parse_mono_le g (f + g)) in G; [|lia]. congruence.
Qed.

(** What may follow: at the end, or before ")" - and, for [LAnd], OR; for [LNot] anything. *)
Definition ends_or (rest : list btok) := match rest with [] => True | KRp :: _ => True | _ => False end.
Definition ends_and (rest : list btok) := match rest with KAnd :: _ => False | _ => True end.

Lemma parses_not_and ts a rest : parses LNot ts a rest -> ends_and rest -> parses LAnd ts a rest.
Proof.
  intros [f F] H. exists (S f). cbn [parse]. rewrite F. destruct rest as [|[] rest]; cbn in H; tauto.
Qed.
Lemma parses_and_or ts a rest : parses LAnd ts a rest -> (forall r, rest <> KOr :: r) -> parses LOr ts a rest.
Proof.
  intros [f F] H. exists (S f). cbn [parse]. rewrite F. destruct rest as [|[] rest]; auto.
  now destruct (H rest).
Qed.
Lemma ends_or_facts rest : ends_or rest -> ends_and rest /\ (forall r, rest <> KOr :: r).
Proof. destruct rest as [|[] r]; cbn; try tauto; intros _; split; auto; discriminate. Qed.
Lemma parses_not_or ts a rest : parses LNot ts a rest -> ends_or rest -> parses LOr ts a rest.
Proof.
  intros H E. destruct (ends_or_facts rest E). apply parses_and_or; auto. now apply parses_not_and.
Qed.
Lemma parses_and_cons ts a rest b rest' :
  parses LNot ts a (KAnd :: rest) -> parses LAnd rest b rest' -> parses LAnd ts (BAnd a b) rest'.
Proof.
  intros [f F] [g G]. exists (S (f + g)). cbn [parse].
  rewrite (parse_mono_le f (f + g) _ _ _ ltac:(lia) F), (parse_mono_le g (f + g) _ _ _ ltac:(lia) G). auto.
Qed.
Lemma parses_or_cons ts a rest b rest' :
  parses LAnd ts a (KOr :: rest) -> parses LOr rest b rest' -> parses LOr ts (BOr a b) rest'.
Proof.
  intros [f F] [g G]. exists (S (f + g)). cbn [parse].
  rewrite (parse_mono_le f (f + g) _ _ _ ltac:(lia) F), (parse_mono_le g (f + g) _ _ _ ltac:(lia) G). auto.
Qed.
Lemma parses_not ts a rest : parses LNot ts a rest -> parses LNot (KNot :: ts) (BNot a) rest.
Proof. intros [f F]. exists (S f). cbn [parse]. now rewrite F. Qed.
Lemma parses_atom i rest : parses LNot (KAtom i :: rest) (BAtom i) rest.
Proof. now exists 1. Qed.
Lemma parses_paren ts a rest : parses LOr ts a (KRp :: rest) -> parses LNot (KLp :: ts) a rest.
Proof. intros [f F]. exists (S f). cbn [parse]. now rewrite F. Qed.

(** ** Predicates as the library represents them *)
Inductive ptree := PA (neg : bool) (i : nat) | PL (neg or : bool) (l : list ptree).
Fixpoint psize (t : ptree) : nat :=
  match t with PA _ _ => 1 | PL _ _ l => S (fold_right (fun t n => psize t + n) 0 l) end.
Definition pneg (t : ptree) : ptree :=
  match t with PA n i => PA (negb n) i | PL n o l => PL (negb n) o l end.
Fixpoint norm (c : cond) : ptree :=
  match c with
  | CAtom i => PA false i
  | CNot c => pneg (norm c)
  | CAnd cs => PL false false (map norm cs)
  | COr cs => PL false true (map norm cs)
  end.
Definition set_neg (n : node) (neg : bool) : node :=
  match n with
  | NPred a f vs _ => NPred a f vs neg
  | NField k _ fi vs => NField k neg fi vs
  | n => n
  end.
Fixpoint pnode (atom : nat -> node) (t : ptree) : node :=
  match t with
  | PA neg i => set_neg (atom i) neg
  | PL neg or l => NVPred (mk_vpred false [] or (map (pnode atom) l) neg)
  end.
Definition tneg (b : bool) (v : tv) := if b then tnot v else v.
Fixpoint pval (v : nat -> tv) (t : ptree) : tv :=
  match t with
  | PA neg i => tneg neg (v i)
  | PL neg or l =>
    tneg neg (if or then fold_right (fun c r => tor (pval v c) r) FF l
              else fold_right (fun c r => tand (pval v c) r) TT l)
  end.

Fixpoint cond_ind' (P : cond -> Prop) (HA : forall i, P (CAtom i)) (HN : forall c, P c -> P (CNot c))
  (HAnd : forall cs, Forall P cs -> P (CAnd cs)) (HOr : forall cs, Forall P cs -> P (COr cs)) (c : cond) : P c :=
  let go := cond_ind' P HA HN HAnd HOr in
  let all := fix all (cs : list cond) : Forall P cs :=
    match cs with [] => Forall_nil P | c :: cs => Forall_cons c (go c) (all cs) end in
  match c with
  | CAtom i => HA i
  | CNot c => HN c (go c)
  | CAnd cs => HAnd cs (all cs)
  | COr cs => HOr cs (all cs)
  end.
Fixpoint ptree_ind' (P : ptree -> Prop) (HA : forall n i, P (PA n i))
  (HL : forall n o l, Forall P l -> P (PL n o l)) (t : ptree) : P t :=
  let all := fix all (cs : list ptree) : Forall P cs :=
    match cs with [] => Forall_nil P | c :: cs => Forall_cons c (ptree_ind' P HA HL c) (all cs) end in
  match t with PA n i => HA n i | PL n o l => HL n o l (all l) end.

Lemma tnot_tneg b v : tneg (negb b) v = tnot (tneg b v).
Proof. destruct b, v; auto. Qed.
Lemma pval_pneg v t : pval v (pneg t) = tnot (pval v t).
Proof. destruct t; cbn [pneg pval]; apply tnot_tneg. Qed.
Lemma pval_norm v c : pval v (norm c) = meaning v c.
Proof.
  induction c as [i|c IH|cs IH|cs IH] using cond_ind'; cbn [norm pval meaning tneg]; auto.
  - now rewrite pval_pneg, IH.
  - induction IH as [|c cs E _ IH']; cbn; auto. now rewrite E, IH'.
  - induction IH as [|c cs E _ IH']; cbn; auto. now rewrite E, IH'.
Qed.

Lemma p_not_pnode atom t : (forall i, is_atom (atom i) = true) -> p_not (pnode atom t) = Some (pnode atom (pneg t)).
Proof.
  intros HA. destruct t as [n i|n o l]; cbn [pneg pnode]; auto.
  pose proof (HA i) as H. destruct (atom i); try discriminate H; cbn in *; auto.
  destruct keepenv; [discriminate|]. auto.
Qed.
Lemma build_norm atom c : (forall i, is_atom (atom i) = true) -> build atom c = Some (pnode atom (norm c)).
Proof.
  intros HA. assert (HS : forall i, set_neg (atom i) false = atom i).
  { intros i. specialize (HA i). destruct (atom i); try discriminate HA; cbn in *.
    - destruct keepenv, neg; try discriminate; auto.
    - destruct neg; try discriminate; auto. }
  induction c as [i|c IH|cs IH|cs IH] using cond_ind'.
  - cbn. now rewrite HS.
  - cbn [build norm]. rewrite IH. now apply p_not_pnode.
  - cbn [build norm]. match goal with |- option_map _ (?g cs) = _ => set (all := g) end.
    assert (E : all cs = Some (map (pnode atom) (map norm cs))).
    { induction IH as [|c cs E _ IH']; auto. cbn [map]. unfold all at 1. fold all. now rewrite E, IH'. }
    now rewrite E.
  - cbn [build norm]. match goal with |- option_map _ (?g cs) = _ => set (all := g) end.
    assert (E : all cs = Some (map (pnode atom) (map norm cs))).
    { induction IH as [|c cs E _ IH']; auto. cbn [map]. unfold all at 1. fold all. now rewrite E, IH'. }
    now rewrite E.
Qed.

(** ** The tokens the library writes *)
Definition knot (neg : bool) : list btok := if neg then [KNot] else [].
Definition wrap (top : bool) (ts : list btok) : list btok := if top then ts else KLp :: ts ++ [KRp].
Fixpoint ksep (sep : btok) (ts : list (list btok)) : list btok :=
  match ts with
  | [] => []
  | [t] => t
  | t :: ts => t ++ sep :: ksep sep ts
  end.
Definition is_list (t : ptree) : bool := match t with PL _ _ _ => true | _ => false end.
Fixpoint ptoks (top : bool) (t : ptree) : list btok :=
  match t with
  | PA neg i => knot neg ++ [KAtom i]
  | PL neg or l =>
    match l with
    | [] => []
    | [c] => knot neg ++ (if is_list c then wrap top (ptoks true c) else ptoks false c)
    | _ => knot neg ++ wrap top (ksep (if or then KOr else KAnd) (map (ptoks false) l))
    end
  end.

(** ** Rendering *)
Lemma seq_assoc (a b c : M) : (a ;; b) ;; c = a ;; (b ;; c).
Proof. destruct a as [ca []], b as [cb []], c as [cc sc]; cbn; auto. now rewrite app_assoc. Qed.
Lemma ret_seq' m : ret ;; m = m.
Proof. now destruct m. Qed.
Lemma seq_ret' m : m ;; ret = m.
Proof. unfold seq. destruct m as [cs []]; cbn; auto. now rewrite app_nil_r. Qed.
Lemma seqs_app a b : seqs (a ++ b) = seqs a ;; seqs b.
Proof. induction a as [|m a IH]; cbn [app seqs]; [now rewrite ret_seq'|]. now rewrite IH, seq_assoc. Qed.

Section Rendering.
  Context (d : dialect) (atom : nat -> node) (x : list bytes).
  Context (HA : forall i, is_atom (atom i) = true).
  Local Notation sql := (toks_sql d atom x).

  Lemma sql_app a b : sql (a ++ b) = sql a ;; sql b.
  Proof. unfold toks_sql. now rewrite map_app, seqs_app. Qed.
  Lemma sql_cons a b : sql (a :: b) = tok_sql d atom x a ;; sql b.
  Proof. reflexivity. Qed.
  Lemma sql_knot n : sql (knot n) = when n (emit (B "NOT ")).
  Proof. destruct n; cbn; auto. Qed.
  Lemma sql_wrap top ts :
    sql (wrap top ts) = when (negb top) (emit (B "(")) ;; sql ts ;; when (negb top) (emit (B ")")).
  Proof.
    destruct top; cbn [wrap negb when].
    - now rewrite ret_seq', seq_ret'.
    - rewrite sql_cons, sql_app. cbn [tok_sql]. unfold toks_sql at 2. cbn [map seqs tok_sql].
      now rewrite seq_ret'.
  Qed.
  Lemma sql_sep k tss : sql (ksep k tss) = sep_by (match k with KOr => B " OR " | KAnd => B " AND " | KNot => B "NOT " | KLp => B "(" | KRp => B ")" | KAtom _ => [] end) (map (fun t => sql t) tss) \/ exists i, k = KAtom i.
  Proof.
    destruct k; try (right; eauto; fail); left;
    (destruct tss as [|t tss]; [reflexivity|]; unfold sep_by; cbn [map];
     revert t; induction tss as [|u tss IH]; intros t;
     [cbn [ksep map seqs]; now rewrite seq_ret'|];
     change (ksep ?k (t :: u :: tss)) with (t ++ k :: ksep k (u :: tss));
     rewrite sql_app, sql_cons, (IH u); cbn [map seqs tok_sql]; now rewrite !seq_assoc).
  Qed.

  Lemma render_atom n i top name :
    render d (set_neg (atom i) n) (mk_ctx top name None x) = sql (knot n ++ [KAtom i]).
  Proof.
    rewrite sql_app, sql_knot. unfold toks_sql. cbn [map seqs tok_sql]. rewrite seq_ret'.
    pose proof (HA i) as H. destruct (atom i); try discriminate H.
    - cbn in H. destruct keepenv; [discriminate|]. destruct neg; [discriminate|].
      cbn [set_neg render when ctx c_excl c_env]. now rewrite ret_seq'.
    - cbn in H. destruct neg; [discriminate|].
      cbn [set_neg render when ctx c_excl c_env]. now rewrite ret_seq'.
  Qed.
  Lemma pnode_nil t : is_nil (pnode atom t) = false.
  Proof.
    destruct t as [n i|]; cbn; auto. specialize (HA i). destruct (atom i); cbn in *; auto; discriminate.
  Qed.
  Lemma pnode_vpred t : is_vpred (pnode atom t) = is_list t.
  Proof.
    destruct t as [n i|]; cbn; auto. specialize (HA i). destruct (atom i); cbn in *; auto; discriminate.
  Qed.
  Lemma render_vpred p c :
    render d (NVPred p) c =
    vpred_run (match c_top c with Some b => b | None => vp_top p end) (vp_or p) (vp_neg p)
      (map (fun v => (v, render d v)) (vp_preds p)) (c_excl c).
  Proof. reflexivity. Qed.

  Lemma render_ptoks t : forall top name,
    render d (pnode atom t) (mk_ctx top name None x)
    = sql (ptoks (match top with Some b => b | None => false end) t).
  Proof.
    induction t as [n i|n o l IH] using ptree_ind'; intros top name; [apply render_atom|].
    cbn [pnode]. rewrite render_vpred. cbn [c_top c_excl vp_top vp_or vp_neg vp_preds].
    rewrite map_map. set (b := match top with Some b => b | None => false end). clearbody b.
    destruct l as [|c [|c2 l]].
    - reflexivity.
    - inversion IH as [|? ? Hc _]; subst. cbn [map vpred_run ptoks].
      rewrite pnode_nil, pnode_vpred, sql_app, sql_knot. f_equal.
      destruct (is_list c).
      + rewrite sql_wrap. now rewrite (Hc (Some true) []).
      + exact (Hc None []).
    - cbn [ptoks]. rewrite sql_app, sql_knot, sql_wrap. cbn [map vpred_run]. f_equal. f_equal. f_equal.
      destruct (sql_sep (if o then KOr else KAnd) (map (ptoks false) (c :: c2 :: l))) as [E|[i E]];
        [|destruct o; discriminate].
      cbn [map] in E. rewrite E. f_equal; [now destruct o|].
      rewrite Forall_forall in IH.
      change (map (fun pr => if is_nil (fst pr) then fail else snd pr (ctx None x))
                (map (fun t => (pnode atom t, render d (pnode atom t))) (c :: c2 :: l))
              = map (fun t => sql t) (map (ptoks false) (c :: c2 :: l))).
      rewrite !map_map. apply map_ext_in. intros t I. cbn [fst snd]. rewrite pnode_nil.
      exact (IH t I None []).
  Qed.
End Rendering.

(** ** When the tokens keep the meaning *)
(** The rendering is a single operand: parenthesised, an atom or NOT ... *)
Fixpoint tight (top : bool) (t : ptree) : bool :=
  match t with
  | PA _ _ => true
  | PL _ _ [c] => if is_list c then (if top then tight true c else true) else true
  | PL _ _ _ => negb top
  end.
Fixpoint safe (top : bool) (t : ptree) : bool :=
  match t with
  | PA _ _ => true
  | PL neg _ l =>
    match l with
    | [] => false
    | [c] => if is_list c then safe true c && (negb neg || negb top || tight true c) else safe false c
    | _ => (negb neg || negb top) && forallb (safe false) l
    end
  end.

Lemma parses_knot n ts a rest : parses LNot ts a rest ->
  parses LNot (knot n ++ ts) (if n then BNot a else a) rest.
Proof. destruct n; cbn; auto. apply parses_not. Qed.
Lemma beval_neg (v : nat -> tv) (n : bool) a : beval v (if n then BNot a else a) = tneg n (beval v a).
Proof. destruct n; auto. Qed.

Lemma fold_tand_one v t : fold_right (fun c r => tand (pval v c) r) TT [t] = pval v t.
Proof. cbn. now destruct (pval v t). Qed.
Lemma fold_tor_one v t : fold_right (fun c r => tor (pval v c) r) FF [t] = pval v t.
Proof. cbn. now destruct (pval v t). Qed.
Lemma pval_one v n o c : pval v (PL n o [c]) = tneg n (pval v c).
Proof. cbn [pval]. f_equal. destruct o; [apply fold_tor_one|apply fold_tand_one]. Qed.

Definition good_tight top t :=
  forall rest, exists b, parses LNot (ptoks top t ++ rest) b rest /\ forall v, beval v b = pval v t.
Definition good_loose top t :=
  forall rest, ends_or rest -> exists b, parses LOr (ptoks top t ++ rest) b rest /\ forall v, beval v b = pval v t.
Lemma good_tight_loose top t : good_tight top t -> good_loose top t.
Proof.
  intros H rest E. destruct (H rest) as (b & P & V). exists b. split; auto. now apply parses_not_or.
Qed.

Lemma and_chain l : l <> [] -> Forall (good_tight false) l ->
  forall rest, ends_and rest -> exists b, parses LAnd (ksep KAnd (map (ptoks false) l) ++ rest) b rest /\
    forall v, beval v b = fold_right (fun c r => tand (pval v c) r) TT l.
Proof.
  intros H0 HF. induction HF as [|t l Ht HF IH]; [congruence|]. intros rest E.
  destruct l as [|u l].
  - destruct (Ht rest) as (b & P & V). exists b. split; [now apply parses_not_and|].
    intros v. now rewrite fold_tand_one.
  - destruct (IH ltac:(discriminate) rest E) as (b2 & P2 & V2).
    destruct (Ht (KAnd :: ksep KAnd (map (ptoks false) (u :: l)) ++ rest)) as (b & P & V).
    exists (BAnd b b2). split.
    + change (map (ptoks false) (t :: u :: l)) with (ptoks false t :: map (ptoks false) (u :: l)).
      change (ksep KAnd (ptoks false t :: map (ptoks false) (u :: l)))
        with (ptoks false t ++ KAnd :: ksep KAnd (map (ptoks false) (u :: l))).
      rewrite <- app_assoc. cbn [app]. eapply parses_and_cons; eauto.
    + intros v. cbn [beval]. now rewrite V, V2.
Qed.
Lemma or_chain l : l <> [] -> Forall (good_tight false) l ->
  forall rest, ends_or rest -> exists b, parses LOr (ksep KOr (map (ptoks false) l) ++ rest) b rest /\
    forall v, beval v b = fold_right (fun c r => tor (pval v c) r) FF l.
Proof.
  intros H0 HF. induction HF as [|t l Ht HF IH]; [congruence|]. intros rest E.
  destruct l as [|u l].
  - destruct (Ht rest) as (b & P & V). exists b. split; [now apply parses_not_or|].
    intros v. now rewrite fold_tor_one.
  - destruct (IH ltac:(discriminate) rest E) as (b2 & P2 & V2).
    destruct (Ht (KOr :: ksep KOr (map (ptoks false) (u :: l)) ++ rest)) as (b & P & V).
    exists (BOr b b2). split.
    + change (map (ptoks false) (t :: u :: l)) with (ptoks false t :: map (ptoks false) (u :: l)).
      change (ksep KOr (ptoks false t :: map (ptoks false) (u :: l)))
        with (ptoks false t ++ KOr :: ksep KOr (map (ptoks false) (u :: l))).
      rewrite <- app_assoc. cbn [app]. eapply parses_or_cons; eauto.
      apply parses_not_and; cbn; auto.
    + intros v. cbn [beval]. now rewrite V, V2.
Qed.
Lemma list_chain (o : bool) l : l <> [] -> Forall (good_tight false) l ->
  forall rest, ends_or rest ->
  exists b, parses LOr (ksep (if o then KOr else KAnd) (map (ptoks false) l) ++ rest) b rest /\
    forall v, beval v b = pval v (PL false o l).
Proof.
  intros H0 HF rest E. destruct o; cbn [pval tneg].
  - now apply or_chain.
  - destruct (ends_or_facts rest E) as [E1 E2]. destruct (and_chain l H0 HF rest E1) as (b & P & V).
    exists b. split; auto. now apply parses_and_or.
Qed.

Lemma wrapped_good n ts rest (v0 : (nat -> tv) -> tv) :
  (forall r, ends_or r -> exists b, parses LOr (ts ++ r) b r /\ forall v : nat -> tv, beval v b = v0 v) ->
  exists b, parses LNot ((knot n ++ wrap false ts) ++ rest) b rest /\ forall v, beval v b = tneg n (v0 v).
Proof.
  intros H. destruct (H (KRp :: rest) I) as (b & P & V). exists (if n then BNot b else b). split.
  - rewrite <- app_assoc. apply parses_knot. cbn [wrap]. cbn [app]. rewrite <- app_assoc. cbn [app].
    now apply parses_paren.
  - intros v. now rewrite beval_neg, V.
Qed.

Lemma safe_good t :
  (safe true t = true -> good_loose true t /\ (tight true t = true -> good_tight true t)) /\
  (safe false t = true -> good_tight false t).
Proof.
  assert (HAt : forall top n i, good_tight top (PA n i)).
  { intros top n i rest. exists (if n then BNot (BAtom i) else BAtom i). split.
    - cbn [ptoks]. rewrite <- app_assoc. apply parses_knot. apply parses_atom.
    - intros v. now rewrite beval_neg. }
  induction t as [n i|n o l IH] using ptree_ind'.
  { split; intros _; auto. split; auto. apply good_tight_loose; auto. }
  destruct l as [|c [|c2 l]].
  - split; discriminate.
  - inversion IH as [|? ? Hc _]; subst. destruct Hc as [Hc1 Hc2].
    cbn [safe tight]. destruct (is_list c) eqn:EL.
    + split; intros S; apply andb_true_iff in S; destruct S as [S1 S2]; destruct (Hc1 S1) as [L T].
      * assert (TG : tight true c = true -> good_tight true (PL n o [c])).
        { intros ET rest. destruct (T ET rest) as (b & P & V). exists (if n then BNot b else b). split.
          - cbn [ptoks]. rewrite EL. cbn [wrap]. rewrite <- app_assoc. now apply parses_knot.
          - intros v. rewrite beval_neg, pval_one. now rewrite V. }
        split; [|now auto]. destruct n; [apply good_tight_loose; auto|].
        intros rest E. destruct (L rest E) as (b & P & V). exists b. split.
        { cbn [ptoks]. rewrite EL. exact P. }
        intros v. rewrite pval_one. apply V.
      * intros rest. destruct (wrapped_good n (ptoks true c) rest (fun v => pval v c) L) as (b & P & V).
        exists b. split; [cbn [ptoks]; rewrite EL; exact P|]. intros v. now rewrite pval_one.
    + destruct c as [m i|]; [|discriminate].
      assert (TG : forall top, good_tight top (PL n o [PA m i])).
      { intros top rest. destruct (HAt false m i rest) as (b & P & V). exists (if n then BNot b else b). split.
        - cbn [ptoks is_list]. rewrite <- app_assoc. now apply parses_knot.
        - intros v. now rewrite beval_neg, pval_one, V. }
      split; intros _; auto. split; auto. apply good_tight_loose; auto.
  - cbn [safe tight]. 
    assert (HF : forallb (safe false) (c :: c2 :: l) = true -> Forall (good_tight false) (c :: c2 :: l)).
    { intros S. rewrite forallb_forall in S. rewrite Forall_forall in *. intros t It. apply (IH t It). auto. }
    split; intros S; apply andb_true_iff in S; destruct S as [S1 S2]; specialize (HF S2).
    + split; [|discriminate]. destruct n; [discriminate|]. intros rest E.
      exact (list_chain o (c :: c2 :: l) ltac:(discriminate) HF rest E).
    + intros rest.
      destruct (wrapped_good n (ksep (if o then KOr else KAnd) (map (ptoks false) (c :: c2 :: l))) rest
                  (fun v => pval v (PL false o (c :: c2 :: l)))
                  (list_chain o (c :: c2 :: l) ltac:(discriminate) HF)) as (b & P & V).
      exists b. split; [exact P|]. intros v. rewrite V. reflexivity.
Qed.

Lemma safe_reads top t : safe top t = true ->
  exists b, reads_as (ptoks top t) b /\ forall v, beval v b = pval v t.
Proof.
  intros H. assert (L : good_loose top t).
  { destruct (safe_good t) as [S1 S2]. destruct top; [now apply S1|]. apply good_tight_loose. auto. }
  destruct (L [] I) as (b & P & V). rewrite app_nil_r in P. exists b. split; auto.
Qed.

(** Supported conditions. *)
Definition plist (t : ptree) : bool := match t with PL n _ _ => n | _ => false end.
Lemma norm_shape c :
  (atomic c = true -> exists i, norm c = PA (negated c) i) /\
  (atomic c = false -> exists o l, norm c = PL (negated c) o l).
Proof.
  induction c as [i|c [IH1 IH2]|cs IH|cs IH] using cond_ind'; cbn [atomic norm negated].
  - split; eauto; discriminate.
  - split; intros H.
    + destruct (IH1 H) as (i & ->). exists i. reflexivity.
    + destruct (IH2 H) as (o & l & ->). exists o, l. reflexivity.
  - split; eauto; discriminate.
  - split; eauto; discriminate.
Qed.
Lemma safe_pneg_false t : safe false (pneg t) = safe false t.
Proof.
  destruct t as [n i|n o l]; auto. destruct l as [|c [|c2 l]]; auto.
  - cbn [pneg safe]. destruct (is_list c); auto. cbn [negb]. now rewrite !orb_true_r.
  - cbn [pneg safe]. cbn [negb]. now rewrite !orb_true_r.
Qed.
Lemma supported_safe : forall c, supported c = true ->
  safe false (norm c) = true /\ (atomic c = true \/ negated c = false -> safe true (norm c) = true).
Proof.
  assert (HL : forall o cs, Forall (fun c => supported c = true -> safe false (norm c) = true /\
      (atomic c = true \/ negated c = false -> safe true (norm c) = true)) cs ->
    match cs with [] => false | [c] => supported c && (atomic c || negb (negated c)) | _ => forallb supported cs end = true ->
    forall top, safe top (PL false o (map norm cs)) = true).
  { intros o cs IH H top. destruct cs as [|c [|c2 cs]]; [discriminate| |].
    - inversion IH as [|? ? Hc _]; subst. apply andb_true_iff in H. destruct H as [H1 H2].
      destruct (Hc H1) as [S1 S2]. cbn [map safe]. destruct (norm c) eqn:EN; [auto|].
      cbn [is_list negb orb]. rewrite andb_true_r. apply S2.
      apply orb_true_iff in H2. destruct H2 as [H2|H2]; [auto|right]. now destruct (negated c).
    - assert (HF : forallb (safe false) (map norm (c :: c2 :: cs)) = true).
      { rewrite forallb_forall in *. intros t I. apply in_map_iff in I. destruct I as (c' & <- & I).
        rewrite Forall_forall in IH. apply (IH c' I). auto. }
      exact HF. }
  intros c. induction c as [i|c IH|cs IH|cs IH] using cond_ind'; intros H.
  - split; auto.
  - cbn [supported] in H. destruct (IH H) as [S1 S2]. cbn [norm atomic negated]. rewrite safe_pneg_false.
    split; auto. intros HH. destruct (norm_shape c) as [N1 N2]. destruct (atomic c) eqn:EA.
    + destruct (N1 eq_refl) as (i & ->). reflexivity.
    + destruct HH as [HH|HH]; [discriminate|]. apply negb_false_iff in HH.
      destruct (N2 eq_refl) as (o & l & E). rewrite E, HH in *. cbn [pneg negb] in *.
      destruct l as [|c1 [|c2 l]]; auto.
  - split; [|intros _]; apply HL; auto.
  - split; [|intros _]; apply HL; auto.
Qed.
