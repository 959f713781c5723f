(** * ReadParts: reading the tokens of the clauses of a statement *)
From Coq Require Import Lia.
From Verif Require Import GoBase GoBaseFacts QuoteModel SpecLex SpecIdent SpecSql SprintModel TokenModel EffectModel RenderModel
  SqlFacts ExecFacts SpecClauses ClauseFacts SpecDdl DdlToks DdlRead DdlConstraint SpecReadSql ReadToks.
Local Open Scope m_scope.

(** ** Clauses *)
Definition ctoks (k : list string) (o : option (list tok)) : list tok :=
  match o with Some b => map W k ++ b | None => [] end.
Definition flat (cs : list (list string * option (list tok))) : list tok := flat_map (fun c => ctoks (fst c) (snd c)) cs.
Definition first_word (k : list string) : string := match k with w :: _ => w | [] => ""%string end.
Definition kw_ok (k : list string) : bool :=
  nonempty k && forallb (fun w => kw w (W w)) k && clause_word (W (first_word k)).
Fixpoint kws_ok (ks : list (list string)) : bool :=
  match ks with
  | [] => true
  | k :: ks' => kw_ok k && forallb (fun k' => negb (kw (first_word k) (W (first_word k')))) ks' && kws_ok ks'
  end.
Lemma words_read : forall k r, forallb (fun w => kw w (W w)) k = true -> words k (map W k ++ r) = Some r.
Proof.
  induction k as [|w k IH]; intros r H; [reflexivity|]. cbn [forallb] in H. apply andb_true_iff in H. destruct H as [H1 H2].
  cbn [map app words]. rewrite H1. now apply IH.
Qed.
(** What comes after a clause begins with the word of a later clause. *)
Lemma flat_head : forall cs, Forall (fun c => kw_ok (fst c) = true) cs ->
  flat cs = [] \/ exists k r, In k (map fst cs) /\ flat cs = W (first_word k) :: r /\ kw_ok k = true.
Proof.
  induction 1 as [|[k o] cs H HH IH]; [now left|]. cbn [flat flat_map fst snd]. destruct o as [b|]; cbn [ctoks].
  - right. exists k. destruct k as [|w k]; [discriminate|]. cbn [map app first_word]. eexists. split; [now left|]. split; [reflexivity|exact H].
  - cbn [app]. destruct IH as [E|(k' & r & I & E & K)].
    + left. exact E.
    + right. exists k', r. split; [now right|]. now split.
Qed.
Lemma flat_stops : forall cs, Forall (fun c => kw_ok (fst c) = true) cs -> stops clause_word (flat cs).
Proof.
  intros cs H. destruct (flat_head cs H) as [E|(k & r & _ & E & K)]; rewrite E; [exact I|]. cbn [stops].
  unfold kw_ok in K. now apply andb_true_iff in K.
Qed.
Lemma read_clauses_flat : forall cs, kws_ok (map fst cs) = true ->
  Forall (fun c => match snd c with Some b => closed clause_word 0 b = true | None => True end) cs ->
  read_clauses (map fst cs) (flat cs) = Some (map snd cs).
Proof.
  induction cs as [|[k o] cs IH]; intros K C; [reflexivity|]. cbn [map fst snd kws_ok] in *.
  apply andb_true_iff in K. destruct K as [K K3]. apply andb_true_iff in K. destruct K as [K1 K2].
  inversion C as [|? ? C1 C2]; subst. cbn [snd] in C1. specialize (IH K3 C2). cbn [read_clauses flat flat_map fst snd].
  assert (KK : Forall (fun c => kw_ok (fst c) = true) cs).
  { clear -K3. induction cs as [|c cs IH]; [constructor|]. cbn [map kws_ok] in K3. apply andb_true_iff in K3. destruct K3 as [H K3].
    apply andb_true_iff in H. constructor; [apply H|now apply IH]. }
  fold (flat cs). destruct o as [b|]; cbn [ctoks].
  - rewrite <- app_assoc, words_read.
    + rewrite (until_closed clause_word b 0 (flat cs) C1 (flat_stops _ KK)). now rewrite IH.
    + unfold kw_ok in K1. apply andb_true_iff in K1. destruct K1 as [K1 _]. now apply andb_true_iff in K1.
  - cbn [app].
    assert (N : words k (flat cs) = None).
    { destruct k as [|w k]; [discriminate|]. destruct (flat_head cs KK) as [E|(k' & r & I & E & _)]; rewrite E; [reflexivity|].
      cbn [words]. rewrite forallb_forall in K2. specialize (K2 _ I). cbn [first_word] in K2. apply negb_true_iff in K2. now rewrite K2. }
    now rewrite N, IH.
Qed.

(** ** Kinds of tokens *)
Lemma is_word_in : forall ws w t, In w ws -> kw w t = true -> is_word ws t = true.
Proof. intros ws w t I H. unfold is_word. apply existsb_exists. now exists w. Qed.
Lemma is_word_app : forall a b t, is_word (a ++ b) t = is_word a t || is_word b t.
Proof. intros a b t. unfold is_word. apply existsb_app. Qed.
Definition outer (t : tok) : bool := clause_word t || join_word t || kw "ON" t || sym "," t.
Lemma sep_clause : forall t, clause_word t = true -> separates t = true.
Proof. intros t H. unfold separates. rewrite is_word_app. unfold clause_word in H. now rewrite H. Qed.
Lemma sep_join : forall t, join_word t = true -> separates t = true.
Proof. intros t H. unfold separates. rewrite !is_word_app. unfold join_word in H. rewrite H. now rewrite !orb_true_r. Qed.
Lemma sep_as : forall t, kw "AS" t = true -> separates t = true.
Proof. intros t H. unfold separates. rewrite !is_word_app, (is_word_in ["AS"; "ON"; "DISTINCT"; "DO"]%string "AS" t); [now rewrite !orb_true_r|cbn; tauto|exact H]. Qed.
Lemma sep_on : forall t, kw "ON" t = true -> separates t = true.
Proof. intros t H. unfold separates. rewrite !is_word_app, (is_word_in ["AS"; "ON"; "DISTINCT"; "DO"]%string "ON" t); [now rewrite !orb_true_r|cbn; tauto|exact H]. Qed.
Lemma sep_distinct : forall t, kw "DISTINCT" t = true -> separates t = true.
Proof. intros t H. unfold separates. rewrite !is_word_app, (is_word_in ["AS"; "ON"; "DISTINCT"; "DO"]%string "DISTINCT" t); [now rewrite !orb_true_r|cbn; tauto|exact H]. Qed.
Lemma sep_do : forall t, kw "DO" t = true -> separates t = true.
Proof. intros t H. unfold separates. rewrite !is_word_app, (is_word_in ["AS"; "ON"; "DISTINCT"; "DO"]%string "DO" t); [now rewrite !orb_true_r|cbn; tauto|exact H]. Qed.
Lemma sep_comma : forall t, sym "," t = true -> separates t = true.
Proof. intros t H. unfold separates. rewrite H. apply orb_true_r. Qed.
Lemma sep_outer : forall t, outer t = true -> separates t = true.
Proof.
  intros t H. unfold outer in H. apply orb_true_iff in H. destruct H as [H|H]; [|now apply sep_comma].
  apply orb_true_iff in H. destruct H as [H|H]; [|now apply sep_on].
  apply orb_true_iff in H. destruct H; [now apply sep_clause|now apply sep_join].
Qed.
Lemma outer_clause : forall t, clause_word t = true -> outer t = true.
Proof. intros t H. unfold outer. now rewrite H. Qed.
Lemma outer_join : forall t, join_word t = true -> outer t = true.
Proof. intros t H. unfold outer. rewrite H. now rewrite orb_true_r. Qed.
Lemma outer_comma : forall t, sym "," t = true -> outer t = true.
Proof. intros t H. unfold outer. rewrite H. now rewrite orb_true_r. Qed.
Lemma outer_on : forall t, kw "ON" t = true -> outer t = true.
Proof. intros t H. unfold outer. rewrite H. now rewrite orb_true_r. Qed.
Definition sql_ok (ts : list tok) : Prop := ts <> [] /\ closed separates 0 ts = true.

Lemma Forall2_imp : forall A B0 (P Q : A -> B0 -> Prop) l r, (forall a b, P a b -> Q a b) -> Forall2 P l r -> Forall2 Q l r.
Proof. intros A B0 P Q l r H. induction 1; constructor; auto. Qed.

(** ** Placeholders *)
Lemma word_char_first : forall d c, word_char c = true -> blank c = false /\ Ascii.eqb c (fst (identifier_quotes d)) = false /\
  string_quote d c = false /\ forall s, comment_start c s = false.
Proof.
  intros d c H. assert (K : blank c = false /\ Ascii.eqb c """" = false /\ Ascii.eqb c "`" = false /\ Ascii.eqb c "[" = false /\
    Ascii.eqb c "'" = false /\ Ascii.eqb c "-" = false /\ Ascii.eqb c "/" = false).
  { destruct c as [b0 b1 b2 b3 b4 b5 b6 b7]; destruct b0, b1, b2, b3, b4, b5, b6, b7; try discriminate H; repeat split. }
  destruct K as (K1 & K2 & K3 & K4 & K5 & K6 & K7). split; [exact K1|]. split; [destruct d; assumption|]. split.
  - unfold string_quote. rewrite K5, K2. now rewrite andb_false_r.
  - intros s. unfold comment_start. now rewrite K6, K7.
Qed.
Lemma take_word_all : forall w, forallb word_char w = true -> take_word w = (w, []).
Proof. induction w as [|c w IH]; intros H; [reflexivity|]. cbn [forallb] in H. apply andb_true_iff in H. destruct H as [H1 H2]. cbn [take_word]. now rewrite H1, IH. Qed.
Lemma toks_word : forall d w, w <> [] -> forallb word_char w = true -> tokens d w = Some [TWord w].
Proof.
  intros d [|c w] NE H; [congruence|]. assert (H' := H). cbn [forallb] in H. apply andb_true_iff in H. destruct H as [H1 _].
  destruct (word_char_first d c H1) as (K1 & K2 & K3 & K4). rewrite tokens_cons, K1, K2, K3, K4, H1, take_word_all by exact H'. reflexivity.
Qed.
Lemma digit_word : forall w, Forall (fun c => in_range 48 57 (ord c) = true) w -> forallb word_char w = true.
Proof.
  intros w H. apply forallb_forall. rewrite Forall_forall in H. intros c I. specialize (H c I). unfold word_char. rewrite H.
  now rewrite !orb_true_r.
Qed.
Lemma toks_ord : forall d i v, exists w, tokens d (chunk_text d (KOrd i v)) = Some [TWord w] /\ separates (TWord w) = false /\
  sym "=" (TWord w) = false.
Proof.
  intros d i v. exists (chunk_text d (KOrd i v)). cbn [chunk_text].
  assert (G : forallb word_char (itoa (i + 1)) = true) by (apply digit_word, bytes_of_uint_digits).
  destruct (is_sqlserver d); cbn [B app]; (split; [apply toks_word; [discriminate|cbn; exact G]|split; reflexivity]).
Qed.
Lemma toks_mark : forall d v, tokens d (chunk_text d (KMark v)) = Some [TSym "?"].
Proof. intros d v. cbn [chunk_text]. lit. Qed.
(** A value: its placeholder. *)
Lemma bind_text : forall d v s, exists t, tokens d (text_after d s (act (CBind [] v))) = Some [t] /\ separates t = false /\
  sym "(" t = false /\ sym ")" t = false /\ sym "=" t = false.
Proof.
  intros d v s.
  assert (G : exists k, st_out (exec d s (fst (act (CBind [] v)))) = st_out s ++ [k] /\ (exists i v', k = KOrd i v') \/
    exists k v', st_out (exec d s (fst (act (CBind [] v)))) = st_out s ++ [k] /\ k = KMark v').
  { cbn. destruct (numbered d) eqn:N; cbn; unfold push; cbn; rewrite N; cbn.
    - eexists. left. split; [reflexivity|]. eexists. eexists. reflexivity.
    - exists (KMark v). right. exists (KMark v), v. split; reflexivity. }
  destruct G as [k [[E (i & v' & ->)]|(k' & v' & E & ->)]].
  - rewrite (text_after_out _ _ _ _ E). cbn [out_text flat_map]. rewrite app_nil_r. destruct (toks_ord d i v') as (w & T & Z & Z2).
    exists (TWord w). repeat split; assumption.
  - rewrite (text_after_out _ _ _ _ E). cbn [out_text flat_map]. rewrite app_nil_r. exists (TSym "?"). rewrite toks_mark. repeat split.
Qed.
Lemma bind_fragment : forall d v, fragment d separates (act (CBind [] v)).
Proof.
  intros d v _ s. destruct (bind_text d v s) as (t & T & Z & L & R & _). exists [t]. split; [exact T|]. split; [discriminate|].
  now apply closed_cons.
Qed.

Section Dialect.
  Context (d : dialect).
  Notation wr := (wr d). Notation wrs := (wrs d). Notation wro := (wro d).

  (** A component. *)
  Definition part (m : M) (ts : list tok) : Prop := says d m ts /\ sql_ok ts.
  Lemma fragment_wr : forall m, fragment d separates m -> wr m (part m).
  Proof. intros m H O s. destruct (H O s) as (ts & T & N & C). exists ts. split; [exact T|]. split; [now exists s|now split]. Qed.
  Definition inner_part (m : M) (ts : list tok) : Prop := says d m ts /\ closed no_stop 0 ts = true.
  Lemma fragment_inner : forall m, fragment d (fun _ => false) m -> wr m (inner_part m).
  Proof. intros m H O s. destruct (H O s) as (ts & T & N & C). exists ts. split; [exact T|]. split; [now exists s|exact C]. Qed.

  (** ** Lists of expressions *)
  Lemma list_wr : forall e x ns, Forall (expr d e x) ns ->
    wr (list_sql d e x ns) (fun ts => exists es, list_found d e x ns es /\ Forall sql_ok es /\ ts = commas es).
  Proof.
    intros e x ns H. unfold list_sql.
    refine (wr_imp d _ _ _ (wr_commas d node (fun f => render d f (ctx e x)) (fun f ts => part (render d f (ctx e x)) ts) ns _) _).
    - revert H. apply Forall_impl. intros n H. now apply fragment_wr.
    - intros ts (es & F & ->). exists es. split; [|split; [|reflexivity]].
      + unfold list_found. revert F. apply Forall2_imp. intros a b [P _]. exact P.
      + induction F as [|a b l l' [_ P] F IH]; constructor; auto. apply IH. inversion H; assumption.
  Qed.
  Lemma sql_comma : forall es, Forall sql_ok es -> Forall (fun e => e <> [] /\ closed comma_stop 0 e = true) es.
  Proof.
    intros es. apply Forall_impl. intros e [N C]. split; [exact N|]. revert C. apply closed_weaken. exact sep_comma.
  Qed.
  Lemma closed_commas_stop : forall stop es, stop comma = false -> Forall (fun e => closed stop 0 e = true) es -> closed stop 0 (commas es) = true.
  Proof.
    intros stop es Z H. destruct H as [|e es E H]; [reflexivity|]. cbn [commas]. rewrite closed_app by exact E.
    induction H as [|e' es' E' H IH]; [reflexivity|]. cbn [flat_map app]. apply closed_cons; [exact Z|reflexivity|reflexivity|].
    rewrite closed_app by exact E'. exact IH.
  Qed.
  Lemma clause_list : forall es, Forall sql_ok es -> closed clause_word 0 (commas es) = true /\ elements (commas es) = es.
  Proof.
    intros es H. split.
    - apply closed_commas_stop; [reflexivity|]. revert H. apply Forall_impl. intros e [_ C]. revert C. apply closed_weaken. exact sep_clause.
    - apply elements_commas. now apply sql_comma.
  Qed.

  (** ** Items *)
  Definition alias_toks (a : bytes) : list tok := if is_empty a then [] else [W "AS"; name_tok d a].
  Lemma toks_as : forall a, a <> [] -> alias_ok d a -> tokens d (B " AS " ++ quote_identifier d a) = Some (alias_toks a).
  Proof.
    intros a NE [->|[G _]]; [congruence|]. unfold alias_toks. destruct a as [|c a]; [congruence|]. cbn [is_empty].
    apply (pre_toks d (B " AS ") [W "AS"]); [prelit|]. now apply toks_name.
  Qed.
  Definition item_toks (e : option env) (n : node) (ts : list tok) : Prop :=
    exists sql, part (render d n (ctx e [])) sql /\ ts = sql ++ alias_toks (get_alias n) /\ alias_ok d (get_alias n).
  Lemma as_wrs : forall a, alias_ok d a -> wrs (as_sql d a) (is (alias_toks a)).
  Proof.
    intros a H. unfold as_sql. apply wrs_when.
    - intros E. destruct a as [|c a]; [discriminate|]. apply wrs_emit; [apply toks_as; [discriminate|exact H]|reflexivity].
    - intros E. destruct a; [reflexivity|discriminate].
  Qed.
  Lemma item_wr : forall e n, item_ok d e n -> wr (render d n (ctx e []) ;; as_sql d (get_alias n)) (item_toks e n).
  Proof.
    intros e n [X A]. refine (wr_imp d _ _ _ (wr_seq d _ _ _ _ (fragment_wr _ X) (as_wrs _ A)) _).
    intros ts (a & b & -> & P & ->). now exists a.
  Qed.
  Lemma name_outer : forall a, alias_ok d a -> a <> [] -> outer (name_tok d a) = false /\ kw "AS" (name_tok d a) = false.
  Proof.
    intros a [->|[_ K]] NE; [congruence|]. unfold name_tok. destruct (needs_quoting a); [split; reflexivity|].
    specialize (K eq_refl). unfold keyword, keywords in K. rewrite !is_word_app in K.
    apply orb_false_iff in K. destruct K as [K1 K]. apply orb_false_iff in K. destruct K as [K2 K3]. split.
    - unfold outer, clause_word, join_word. rewrite K1, K2. cbn [orb sym]. rewrite orb_false_r.
      destruct (kw "ON" (TWord a)) eqn:E; [|reflexivity]. rewrite (is_word_in other_words "ON" _) in K3; [discriminate|cbn; tauto|exact E].
    - destruct (kw "AS" (TWord a)) eqn:E; [|reflexivity]. rewrite (is_word_in other_words "AS" _) in K3; [discriminate|cbn; tauto|exact E].
  Qed.
  Lemma item_read : forall e n ts, item_toks e n ts -> exists i, read_item ts = Some i /\ item_found d e n i.
  Proof.
    intros e n ts (sql & [S0 [N C]] & -> & A). unfold read_item.
    rewrite (until_closed (kw "AS") sql 0 (alias_toks (get_alias n))).
    - unfold alias_toks. destruct (is_empty (get_alias n)) eqn:E.
      + exists (mk_item sql None). split; [reflexivity|]. split; [exact S0|]. unfold alias_found. now rewrite E.
      + exists (mk_item sql (Some (get_alias n))). rewrite name_tok_name. split; [reflexivity|]. split; [exact S0|].
        unfold alias_found. now rewrite E.
    - revert C. apply closed_weaken. exact sep_as.
    - unfold alias_toks. destruct (is_empty (get_alias n)); [exact I|]. reflexivity.
  Qed.
  Lemma item_outer : forall e n ts, item_toks e n ts -> ts <> [] /\ closed outer 0 ts = true.
  Proof.
    intros e n ts (sql & [S0 [N C]] & -> & A). split.
    - intros E. apply app_eq_nil in E. tauto.
    - rewrite closed_app by (revert C; apply closed_weaken; exact sep_outer). unfold alias_toks.
      destruct (get_alias n) as [|c a] eqn:G; [reflexivity|]. cbn [is_empty].
      destruct (name_outer _ A) as [O _]; [discriminate|].
      apply closed_cons; [reflexivity|reflexivity|reflexivity|]. apply closed_cons; try apply name_tok_sym; [exact O|reflexivity].
  Qed.
  (** Lists of items. *)
  Definition items_toks (e : option env) (ns : list node) (ts : list tok) : Prop :=
    exists es, Forall2 (item_toks e) ns es /\ ts = commas es.
  Lemma items_wr : forall ns, Forall (item_ok d None) ns -> wr (columns_sql d ns) (items_toks None ns).
  Proof.
    intros ns H. apply (wr_commas d node (fun f => render d f (ctx None []) ;; as_sql d (get_alias f)) (item_toks None)).
    revert H. apply Forall_impl. intros n H. now apply item_wr.
  Qed.
  Lemma items_read : forall e ns ts, items_toks e ns ts ->
    closed clause_word 0 ts = true /\ exists is, read_items ts = Some is /\ Forall2 (item_found d e) ns is.
  Proof.
    intros e ns ts (es & F & ->).
    assert (Q : Forall (fun t => t <> [] /\ closed outer 0 t = true) es).
    { induction F as [|n t ns es H F IH]; constructor; [now apply (item_outer e n)|exact IH]. }
    split.
    - apply closed_commas_stop; [reflexivity|]. revert Q. apply Forall_impl. intros t [_ C]. revert C. apply closed_weaken. exact outer_clause.
    - unfold read_items. rewrite elements_commas.
      + clear Q. induction F as [|n t ns es H F IH]; [now exists []|]. destruct IH as (l & R & F').
        destruct (item_read _ _ _ H) as (i & Ri & Fi). exists (i :: l). cbn [read_all]. rewrite Ri, R. split; [reflexivity|now constructor].
      + revert Q. apply Forall_impl. intros t [N C]. split; [exact N|]. revert C. apply closed_weaken. exact outer_comma.
  Qed.
  Lemma items_head : forall e ns ts, items_toks e ns ts -> ns <> [] -> exists t r, ts = t :: r /\ separates t = false.
  Proof.
    intros e ns ts (es & F & ->) NE. destruct F as [|n x ns es H F]; [congruence|]. destruct H as (sql & [_ [N C]] & -> & _).
    destruct sql as [|t sql]; [congruence|]. cbn [commas app]. eexists. eexists. split; [reflexivity|].
    cbn [closed] in C. apply andb_true_iff in C. destruct C as [C _]. apply negb_true_iff in C. now rewrite andb_true_r in C.
  Qed.

  (** ** Joins *)
  Definition join_toks (j : join_ node) (ts : list tok) : Prop :=
    exists ty t x o, tokens d (join_type j) = Some ty /\ ty <> [] /\ forallb join_word ty = true /\ kw "JOIN" (last ty lp) = true /\
      jn_table j = Some t /\ item_toks None t x /\
      found (nonempty (vp_preds (jn_on j))) o (part (cond_sql d (jn_on j))) /\
      ts = ty ++ x ++ (match o with Some c => W "ON" :: c | None => [] end).
  Lemma seq_assoc_m : forall a b c : M, ((a ;; b) ;; c) = (a ;; b ;; c).
  Proof. intros [ca []] [cb []] [cc sc]; unfold seq; cbn; try reflexivity. now rewrite app_assoc. Qed.
  Lemma join_wr : forall j, join_reads d j -> wr (join_sql d j) (join_toks j).
  Proof.
    intros j (TY & TB & ON). unfold join_sql. destruct (jn_table j) as [t|] eqn:T; [|intros O; discriminate O].
    destruct TY as (ty & Ty & NE & JW & LA). destruct (TB t eq_refl) as [X A].
    assert (P1 : pre d (join_type j ++ B " ") ty).
    { rewrite <- (app_nil_r ty). apply toks_pre; [exact Ty|now apply pre_blank|reflexivity|discriminate]. }
    refine (wr_imp d _ _ _ (wro_seq d _ _ _ _ (wro_emit d _ _ P1) (wr_seq d _ _ _ _ (fragment_wr _ X) (wrs_seq d _ _ _ _ _ _))) _).
    - instantiate (1 := is (alias_toks (get_alias t))). apply wrs_when.
      + intros E. destruct (get_alias t) as [|c a] eqn:G; [discriminate|].
        intros O s. exists (alias_toks (c :: a)). rewrite text_after_seq by reflexivity. rewrite !text_after_emit.
        split; [apply toks_as; [discriminate|exact A]|]. split; [reflexivity|reflexivity].
      + intros E. destruct (get_alias t); [reflexivity|discriminate].
    - instantiate (1 := fun ts => exists o, found (nonempty (vp_preds (jn_on j))) o (part (cond_sql d (jn_on j))) /\
        ts = match o with Some c => W "ON" :: c | None => [] end).
      apply wrs_when.
      + intros E.
        refine (wrs_imp d _ _ _ (wrs_lit d " " (B "ON ") [W "ON"] _ (part (cond_sql d (jn_on j))) eq_refl _ _) _).
        * change (" "%char :: B "ON ") with (B " ON "). prelit.
        * apply fragment_wr, ON. destruct (vp_preds (jn_on j)); [discriminate|discriminate].
        * intros ts (a & b & -> & -> & P). exists (Some b). split; [split; [exact E|exact P]|reflexivity].
      + intros E. now exists None.
    - intros ts (a & b & -> & -> & b1 & b2 & -> & P & b3 & b4 & -> & -> & o & F & ->).
      exists ty, t, (b1 ++ alias_toks (get_alias t)), o. repeat (split; [assumption|]). split.
      { now exists b1. }
      split; [exact F|]. now rewrite <- app_assoc.
  Qed.
  Definition joins_toks (js : list (join_ node)) (ts : list tok) : Prop := exists es, Forall2 join_toks js es /\ ts = concat es.
  Lemma joins_wrs : forall js, Forall (join_reads d) js ->
    wrs (when (nonempty js) (emit (B " ") ;; sep_by (B " ") (map (join_sql d) js))) (joins_toks js).
  Proof.
    intros js H. assert (P1 : pre d (B " ") []) by (now apply pre_blank). apply wrs_when.
    - intros _.
      refine (wrs_imp d _ _ _ (wrs_lit d " " [] [] _ _ eq_refl P1 (wr_sep_by d _ (join_sql d) join_toks " " [] [] js eq_refl P1 _)) _).
      + revert H. apply Forall_impl. intros j H. now apply join_wr.
      + intros ts (a & b & -> & -> & es & F & ->). exists es. split; [exact F|]. cbn [app]. destruct es as [|e es]; [reflexivity|].
        cbn [concat]. f_equal.
    - intros E. destruct js; [|discriminate]. now exists [].
  Qed.
  Lemma span_words : forall f a r, forallb f a = true -> match r with [] => True | t :: _ => f t = false end -> span f (a ++ r) = (a, r).
  Proof.
    intros f. induction a as [|t a IH]; intros r H N; cbn [app span].
    - destruct r as [|t r]; [reflexivity|]. cbn [span]. now rewrite N.
    - cbn [forallb] in H. apply andb_true_iff in H. destruct H as [H1 H2]. rewrite H1. now rewrite IH.
  Qed.
  Lemma join_words_sym : forall t, join_word t = true -> sym "(" t = false /\ sym ")" t = false /\ clause_word t = false /\ sym "," t = false.
  Proof.
    intros t H. destruct t as [w|n|s|c]; try (cbn in H; discriminate H). repeat split.
    unfold join_word, is_word in H. apply existsb_exists in H. destruct H as (x & I & K).
    cbn [kw] in K. apply beqb_eq in K. unfold clause_word, is_word. cbn [kw existsb clause_words]. rewrite K.
    cbn [In join_words] in I. repeat (destruct I as [<-|I]; [reflexivity|]). destruct I.
  Qed.
  Lemma closed_words_app : forall stop a r, forallb join_word a = true -> (forall t, stop t = true -> clause_word t = true) ->
    closed stop 0 (a ++ r) = closed stop 0 r.
  Proof.
    intros stop a r H Z. induction a as [|t a IH]; [reflexivity|]. cbn [forallb] in H. apply andb_true_iff in H. destruct H as [H1 H2].
    destruct (join_words_sym t H1) as (L & R & C & _). cbn [app closed]. rewrite L, R, IH by exact H2.
    destruct (stop t) eqn:E; [|reflexivity]. apply Z in E. congruence.
  Qed.
  Lemma join_clause : forall j ts, join_toks j ts -> closed clause_word 0 ts = true.
  Proof.
    intros j ts (ty & t & x & o & _ & _ & JW & _ & _ & X & F & ->). rewrite closed_words_app by auto.
    destruct (item_outer _ _ _ X) as [_ C]. rewrite closed_app by (revert C; apply closed_weaken; exact outer_clause).
    destruct o as [c|]; [|reflexivity]. destruct F as [_ [_ [_ C2]]]. apply closed_cons; try reflexivity.
    revert C2. apply closed_weaken. exact sep_clause.
  Qed.
  Lemma joins_clause : forall js ts, joins_toks js ts -> closed clause_word 0 ts = true.
  Proof.
    intros js ts (es & F & ->). induction F as [|j e js es H F IH]; [reflexivity|]. cbn [concat].
    rewrite closed_app; [exact IH|now apply (join_clause j)].
  Qed.
  Lemma joins_head : forall js es, Forall2 join_toks js es -> stops join_word (concat es).
  Proof.
    intros js es F. destruct F as [|j e js es H F]; [exact I|]. destruct H as (ty & t & x & o & _ & NE & JW & _ & _ & _ & _ & ->).
    destruct ty as [|w ty]; [congruence|]. cbn [forallb] in JW. apply andb_true_iff in JW. cbn. apply JW.
  Qed.
  Lemma read_joins_S : forall f ts, ts <> [] -> read_joins (S f) ts =
    let (ty, r) := span join_word ts in let (body, rest) := until join_word 0 r in
    match read_join ty body, read_joins f rest with Some j, Some js => Some (j :: js) | _, _ => None end.
  Proof. intros f [|t ts] H; [congruence|reflexivity]. Qed.
  Lemma joins_read_fuel : forall js es, Forall2 join_toks js es -> forall fuel, length (concat es) <= fuel ->
    exists rs, read_joins fuel (concat es) = Some rs /\ Forall2 (join_found d) js rs.
  Proof.
    induction 1 as [|j e js es H F IH]; intros fuel L.
    - exists []. split; [now destruct fuel|constructor].
    - destruct H as (ty & t & x & o & Ty & NE & JW & LA & T & X & FO & ->).
      destruct (item_outer _ _ _ X) as [XN XC]. destruct (item_read _ _ _ X) as (i & Ri & Fi).
      cbn [concat] in *. rewrite <- !app_assoc in *. rewrite !app_length in L.
      destruct fuel as [|fuel]; [destruct ty; [congruence|cbn in L; lia]|].
      destruct (IH fuel) as (rs & R & FR). { destruct ty; [congruence|]. cbn [length] in L. lia. }
      assert (XO : closed (kw "ON") 0 x = true) by (revert XC; apply closed_weaken; exact outer_on).
      assert (XJ : closed join_word 0 x = true) by (revert XC; apply closed_weaken; exact outer_join).
      set (on := match o with Some c => W "ON" :: c | None => [] end) in *.
      assert (CO : closed join_word 0 on = true).
      { unfold on. destruct o as [c|]; [|reflexivity]. destruct FO as [_ [_ [_ C]]]. apply closed_cons; try reflexivity.
        revert C. apply closed_weaken. exact sep_join. }
      assert (SP : span join_word (ty ++ x ++ on ++ concat es) = (ty, x ++ on ++ concat es)).
      { apply span_words; [exact JW|]. destruct x as [|w x]; [congruence|]. cbn [app]. cbn [closed] in XJ. apply andb_true_iff in XJ.
        destruct XJ as [XJ _]. apply negb_true_iff in XJ. now rewrite andb_true_r in XJ. }
      assert (UN : until join_word 0 (x ++ on ++ concat es) = (x ++ on, concat es)).
      { rewrite app_assoc. apply until_closed; [rewrite closed_app; assumption|now apply (joins_head js)]. }
      assert (UO : until (kw "ON") 0 (x ++ on) = (x, on)).
      { apply until_closed; [exact XO|]. unfold on. destruct o; [reflexivity|exact I]. }
      exists (mk_joined ty i o :: rs). split.
      + rewrite read_joins_S by (destruct ty; [congruence|discriminate]).
        rewrite SP, UN. unfold read_join. rewrite LA, UO, Ri, R. cbn [option_map]. unfold on. now destruct o.
      + constructor; [|exact FR]. split; [exact Ty|]. split; [now exists t|]. cbn [rj_on]. destruct o as [c|]; [|exact FO].
        destruct FO as [F1 [F2 _]]. now split.
  Qed.

  (** ** Sources *)
  Definition source_toks (e : option env) (t : option node) (js : list (join_ node)) (ts : list tok) : Prop :=
    exists n x es, t = Some n /\ item_toks e n x /\ Forall2 join_toks js es /\ ts = x ++ concat es.
  Lemma source_read : forall e t js ts, source_toks e t js ts ->
    closed clause_word 0 ts = true /\ exists r, read_source ts = Some r /\ source_found d e t js r.
  Proof.
    intros e t js ts (n & x & es & T & X & F & ->). destruct (item_outer _ _ _ X) as [XN XC].
    destruct (item_read _ _ _ X) as (i & Ri & Fi). destruct (joins_read_fuel _ _ F (length (concat es)) (le_n _)) as (rs & R & FR). split.
    - rewrite closed_app by (revert XC; apply closed_weaken; exact outer_clause). apply (joins_clause js). now exists es.
    - exists (mk_source i rs). unfold read_source.
      rewrite (until_closed join_word x 0 (concat es)); [|revert XC; apply closed_weaken; exact outer_join|now apply (joins_head js)].
      rewrite Ri, R. split; [reflexivity|]. split; [now exists n|exact FR].
  Qed.

  (** ** WITH *)
  Definition mat_toks (c : cte_ node) : list tok :=
    if is_postgres d then match cte_mat c with Some true => [W "MATERIALIZED"] | Some false => [W "NOT"; W "MATERIALIZED"] | None => [] end else [].
  Definition common_toks (c : cte_ node) (ts : list tok) : Prop :=
    exists q x, cte_query c = Some q /\ inner_part (render d q (mk_ctx (if is_vquery q then Some true else None) [] None [])) x /\
      keyword (cte_name c) = false /\
      ts = TWord (cte_name c) :: (if cte_explicit c then words_in (cte_fields c) else []) ++ [W "AS"] ++ mat_toks c ++ lp :: x ++ [rp].
  Lemma common_wr : forall c, common_reads d c -> wr (cte_sql d c) (common_toks c).
  Proof.
    intros c ([NW NK] & FF & QQ). unfold cte_sql. destruct (cte_query c) as [q|] eqn:Q; [|intros O; discriminate O].
    specialize (QQ q eq_refl).
    assert (PA : pre d (" "%char :: B "AS ") [W "AS"]) by (change (" "%char :: B "AS ") with (B " AS "); prelit).
    assert (PL : pre d (B "(") [lp]) by (apply pre_sym; cbn; tauto).
    assert (W0 : wr (emit (cte_name c)) (is [TWord (cte_name c)])) by (apply wr_emit; exact NW).
    assert (W1 : wrs (when (cte_explicit c) (emit (B " (" ++ join (B ", ") (cte_fields c) ++ B ")")))
                  (is (if cte_explicit c then words_in (cte_fields c) else []))).
    { apply wrs_when; intros E; rewrite E; [|reflexivity]. apply wrs_emit; [now apply toks_words_in, FF|reflexivity]. }
    assert (W2 : wro (when (is_postgres d) match cte_mat c with Some true => emit (B "MATERIALIZED ") | Some false => emit (B "NOT MATERIALIZED ") | None => ret end)
                  (is (mat_toks c))).
    { unfold mat_toks. apply wro_when; intros E; rewrite E; [|reflexivity]. destruct (cte_mat c) as [[|]|]; [apply wro_emit; prelit|apply wro_emit; prelit|apply wro_ret]. }
    assert (W3 : wrs (emit (B ")")) (is [rp])).
    { apply wrs_emit; [apply pre_of, pre_sym; cbn; tauto|reflexivity]. }
    refine (wr_imp d _ _ _ (wr_seq d _ _ _ _ W0 (wrs_seq d _ _ _ _ W1 (wrs_lit d " " (B "AS ") [W "AS"] _ _ eq_refl PA
      (wro_seq d _ _ _ _ W2 (wro_seq d _ _ _ _ (wro_emit d _ _ PL) (wr_seq d _ _ _ _ (fragment_inner _ QQ) W3)))))) _).
    intros ts (a1 & b1 & -> & -> & a2 & b2 & -> & -> & a3 & b3 & -> & -> & a4 & b4 & -> & -> & a5 & b5 & -> & -> & a6 & b6 & -> & P & ->).
    exists q, a6. repeat (split; [assumption|]). reflexivity.
  Qed.
  Lemma closed_words_in : forall ns r stop, stop lp = false -> closed stop 0 r = true -> closed stop 0 (words_in ns ++ r) = true.
  Proof.
    intros ns r stop Z H. unfold words_in. cbn [app]. rewrite <- app_assoc. apply closed_group; [apply closed_words|exact H|exact Z].
  Qed.
  Lemma common_closed : forall c ts, common_toks c ts -> ts <> [] /\ closed clause_word 0 ts = true /\ closed comma_stop 0 ts = true.
  Proof.
    intros c ts (q & x & _ & [_ IC] & NK & ->). split; [discriminate|].
    assert (G : forall stop, stop lp = false -> stop (TWord (cte_name c)) = false -> (forall t, In t [W "AS"; W "MATERIALIZED"; W "NOT"] -> stop t = false) ->
      closed stop 0 (TWord (cte_name c) :: (if cte_explicit c then words_in (cte_fields c) else []) ++ [W "AS"] ++ mat_toks c ++ lp :: x ++ [rp]) = true).
    { intros stop Z1 Z2 Z3. apply closed_cons; [exact Z2|reflexivity|reflexivity|].
      assert (R : closed stop 0 ([W "AS"] ++ mat_toks c ++ lp :: x ++ [rp]) = true).
      { apply closed_cons; [apply Z3; cbn; tauto|reflexivity|reflexivity|].
        assert (R : closed stop 0 (lp :: x ++ [rp]) = true) by (apply closed_group; [exact IC|reflexivity|exact Z1]).
        unfold mat_toks. cbn [app]. destruct (is_postgres d); [|exact R]. destruct (cte_mat c) as [[|]|]; [| |exact R]; cbn [app].
        - apply closed_cons; [apply Z3; cbn; tauto|reflexivity|reflexivity|exact R].
        - apply closed_cons; [apply Z3; cbn; tauto|reflexivity|reflexivity|]. apply closed_cons; [apply Z3; cbn; tauto|reflexivity|reflexivity|exact R]. }
      destruct (cte_explicit c); [now apply closed_words_in|exact R]. }
    split; apply G; try reflexivity.
    - unfold keyword, keywords in NK. rewrite is_word_app in NK. apply orb_false_iff in NK. apply NK.
    - intros t I. repeat (destruct I as [<-|I]; [reflexivity|]). destruct I.
    - intros t I. repeat (destruct I as [<-|I]; [reflexivity|]). destruct I.
  Qed.
  Lemma common_read : forall c ts, common_toks c ts -> exists r, read_common ts = Some r /\ common_found d c r.
  Proof.
    intros c ts (q & x & Q & [IS IC] & NK & ->). unfold read_common. cbn [read_name name_of option_map].
    set (tail := [W "AS"] ++ mat_toks c ++ lp :: x ++ [rp]).
    assert (G : match read_group ((if cte_explicit c then words_in (cte_fields c) else []) ++ tail) with
                | Some (g, r') => option_map (fun ns => (Some ns, r')) (read_names g)
                | None => Some (None, (if cte_explicit c then words_in (cte_fields c) else []) ++ tail)
                end = Some ((if cte_explicit c then Some (cte_fields c) else None), tail)).
    { destruct (cte_explicit c).
      - unfold words_in. cbn [app]. rewrite <- app_assoc. cbn [app]. rewrite (read_group_closed no_stop) by apply closed_words.
        now rewrite read_names_words.
      - reflexivity. }
    rewrite G. unfold tail. cbn [app words]. change (kw "AS" (W "AS")) with true. cbn match.
    assert (RG : read_group (lp :: x ++ [rp]) = Some (x, [])) by now apply (read_group_closed no_stop).
    exists (mk_common (cte_name c) (if cte_explicit c then Some (cte_fields c) else None) (if is_postgres d then cte_mat c else None) x).
    split; [|split; [reflexivity|]; split; [reflexivity|]; split; [reflexivity|]; now exists q].
    unfold mat_toks. destruct (is_postgres d); [destruct (cte_mat c) as [[|]|]|]; cbn [app].
    - change (kw "MATERIALIZED" (W "MATERIALIZED")) with true. cbn match. now rewrite RG.
    - change (kw "MATERIALIZED" (W "NOT")) with false. change (kw "NOT" (W "NOT")) with true.
      change (kw "MATERIALIZED" (W "MATERIALIZED")) with true. cbn match. now rewrite RG.
    - change (kw "MATERIALIZED" lp) with false. change (kw "NOT" lp) with false. cbn match. now rewrite RG.
    - change (kw "MATERIALIZED" lp) with false. change (kw "NOT" lp) with false. cbn match. now rewrite RG.
  Qed.
  Definition with_toks (cs : list (cte_ node)) (o : option (list tok)) : Prop :=
    found (nonempty cs) o (fun ts => exists es, Forall2 common_toks cs es /\
      ts = (if existsb cte_rec cs then [W "RECURSIVE"] else []) ++ commas es).
  Lemma with_wro : forall cs, Forall (common_reads d) cs ->
    wro (when (cl_set (with_clause_sql d cs)) (cl_sql (with_clause_sql d cs))) (fun ts => exists o, with_toks cs o /\ ts = ctoks ["WITH"%string] o).
  Proof.
    intros cs H. cbn [with_clause_sql cl_set cl_sql]. apply wro_when.
    - intros NE.
      assert (P1 : pre d (if existsb cte_rec cs then B "WITH RECURSIVE " else B "WITH ") (W "WITH" :: if existsb cte_rec cs then [W "RECURSIVE"] else [])).
      { destruct (existsb cte_rec cs); prelit. }
      refine (wro_imp d _ _ _ (wro_wro d _ _ _ _ (wro_emit d _ _ P1) (wr_wro d _ " " [] [] _ (wr_commas d _ (cte_sql d) common_toks cs _) eq_refl _)) _).
      + revert H. apply Forall_impl. intros c H. now apply common_wr.
      + now apply pre_blank.
      + intros ts (a & b & -> & -> & b1 & b2 & -> & (es & F & ->) & ->). rewrite app_nil_r. eexists (Some _). split.
        * split; [exact NE|]. exists es. split; [exact F|reflexivity].
        * reflexivity.
    - intros E. exists None. split; [exact E|reflexivity].
  Qed.
  Lemma with_read : forall cs o, with_toks cs o ->
    match o with Some b => closed clause_word 0 b = true | None => True end /\ exists r, opt read_with o = Some r /\ with_found d cs r.
  Proof.
    intros cs [b|] H.
    - destruct H as [NE (es & F & ->)].
      assert (CC : Forall (fun e => e <> [] /\ closed comma_stop 0 e = true) es /\ Forall (fun e => closed clause_word 0 e = true) es).
      { clear NE. induction F as [|c e cs es H F IH]; [split; constructor|]. destruct (common_closed _ _ H) as (A1 & A2 & A3).
        destruct IH. split; constructor; auto. }
      destruct CC as [C1 C2].
      assert (R : exists rs, read_all read_common es = Some rs /\ Forall2 (common_found d) cs rs).
      { clear -F. induction F as [|c e cs es H F IH]; [now exists []|]. destruct IH as (rs & R & FR). destruct (common_read _ _ H) as (r & Rr & Fr).
        exists (r :: rs). cbn [read_all]. rewrite Rr, R. split; [reflexivity|now constructor]. }
      destruct R as (rs & R & FR). split.
      + assert (C3 : closed clause_word 0 (commas es) = true) by (apply closed_commas_stop; [reflexivity|exact C2]).
        destruct (existsb cte_rec cs); [|exact C3]. cbn [app]. apply closed_cons; try reflexivity. exact C3.
      + exists (Some (existsb cte_rec cs, rs)). split; [|split; [exact NE|split; [reflexivity|exact FR]]].
        cbn [opt]. unfold read_with.
        assert (OW : option_words ["RECURSIVE"%string] ((if existsb cte_rec cs then [W "RECURSIVE"] else []) ++ commas es) = (existsb cte_rec cs, commas es)).
        { destruct (existsb cte_rec cs); [reflexivity|]. cbn [app]. destruct F as [|c e cs es H F]; [discriminate|].
          destruct H as (q & x & _ & _ & NK & ->). cbn [commas app]. unfold option_words. cbn [words].
          assert (K : kw "RECURSIVE" (TWord (cte_name c)) = false).
          { destruct (kw "RECURSIVE" (TWord (cte_name c))) eqn:E; [|reflexivity]. unfold keyword in NK.
            rewrite (is_word_in keywords "RECURSIVE" _) in NK; [discriminate|cbn; tauto|exact E]. }
          now rewrite K. }
        rewrite OW, elements_commas by exact C1. now rewrite R.
    - split; [exact I|]. exists None. split; [reflexivity|exact H].
  Qed.

  (** ** Clauses with one component *)
  Lemma clause_wrs : forall k (set : bool) b body (P : list tok -> Prop), pre d (" "%char :: b) (map W k) -> (set = true -> wr body P) ->
    wrs (when set (emit (" "%char :: b) ;; body)) (fun ts => exists o, found set o P /\ ts = ctoks k o).
  Proof.
    intros k set b body P H1 H2. apply wrs_when.
    - intros E. refine (wrs_imp d _ _ _ (wrs_lit d " " b _ _ _ eq_refl H1 (H2 E)) _).
      intros ts (x & y & -> & -> & p). exists (Some y). split; [now split|reflexivity].
    - intros E. exists None. now split.
  Qed.
  (** Numbers: a placeholder. *)
  Lemma number_wrs : forall k b n, pre d (" "%char :: b) (map W k) ->
    wrs (when (present n) (number_sql d (" "%char :: b) n)) (fun ts => exists o,
      number_found d n o /\ match o with Some x => closed clause_word 0 x = true | None => True end /\ ts = ctoks k o).
  Proof.
    intros k b [z|] H1; cbn [present when number_sql].
    - assert (G : wr (render d (NRaw (GInt z)) (ctx None []) ;; act (CDel []) ;; emit []) (part (render d (NRaw (GInt z)) (ctx None [])))).
      { apply wr_quiet; [|intros s; rewrite text_after_seq by reflexivity; now rewrite text_after_del, text_after_emit].
        apply fragment_wr. change (render d (NRaw (GInt z)) (ctx None [])) with (act (CBind [] (GInt z))). apply bind_fragment. }
      refine (wrs_imp d _ _ _ (wrs_lit d " " b _ _ _ eq_refl H1 G) _).
      intros ts (x & y & -> & -> & P1 & P2). exists (Some y). split; [exact P1|]. split; [|reflexivity].
      destruct P2 as [_ P2]. revert P2. apply closed_weaken. exact sep_clause.
    - apply (wrs_imp d _ _ _ (wrs_ret d)). intros ts ->. now exists None.
  Qed.
End Dialect.
