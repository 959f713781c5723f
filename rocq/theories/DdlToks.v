(** * DdlToks: the tokens of the DDL commands *)
From Coq Require Import Lia.
From Verif Require Import GoBase GoBaseFacts QuoteModel SpecLex SpecIdent SpecSql EffectModel SpecText QuoteFacts QuotePf SqlFacts
  CacheModel UpsertModel DdlModel SpecDdl.
Local Open Scope m_scope.

Definition W (s : string) : tok := TWord (B s).

(** ** Text of an [M] *)
Lemma texts_app : forall a b s, texts (a ++ b) = Some s -> exists x y, texts a = Some x /\ texts b = Some y /\ s = x ++ y.
Proof.
  induction a as [|c a IH]; intros b s H; cbn [app texts] in *.
  - now exists [], s.
  - destruct c; try discriminate. destruct (texts (a ++ b)) as [t|] eqn:E; [|discriminate]. cbn [option_map] in H.
    destruct (IH b t E) as (x & y & X & Y & ->). exists (b0 ++ x), y. rewrite X. split; [reflexivity|]. split; [exact Y|].
    assert (s = b0 ++ x ++ y) by congruence. subst. now rewrite app_assoc.
Qed.
Lemma text_seq : forall m k s, text_of (m ;; k) = Some s -> exists x y, text_of m = Some x /\ text_of k = Some y /\ s = x ++ y.
Proof.
  intros [ca sa] [cb sb] s H. unfold text_of, seq in *. cbn [fst snd] in *. destruct sa; cbn [fst snd] in H; try discriminate.
  destruct sb; try discriminate. now apply texts_app.
Qed.
Lemma text_emit : forall b s, text_of (emit b) = Some s -> s = b.
Proof. intros b s H. unfold text_of, emit in H. cbn in H. rewrite app_nil_r in H. congruence. Qed.
Lemma text_ret : forall s, text_of ret = Some s -> s = [].
Proof. intros s H. unfold text_of, ret in H. cbn in H. congruence. Qed.

(** ** Prefixes: text that can be followed by anything *)
Definition pre (d : dialect) (s : bytes) (ts : list tok) : Prop :=
  forall x, tokens d (s ++ x) = option_map (app ts) (tokens d x).
Lemma app_map_app : forall (a b : list tok) o, option_map (app a) (option_map (app b) o) = option_map (app (a ++ b)) o.
Proof. intros a b [l|]; [|reflexivity]. cbn. now rewrite app_assoc. Qed.
Lemma map_app_nil : forall o, option_map (app (@nil tok)) o = o.
Proof. intros [l|]; reflexivity. Qed.
Lemma pre_nil : forall d, pre d [] [].
Proof. intros d x. cbn [app]. now rewrite map_app_nil. Qed.
Lemma pre_app : forall d a ta b tb, pre d a ta -> pre d b tb -> pre d (a ++ b) (ta ++ tb).
Proof. intros d a ta b tb Ha Hb x. now rewrite <- app_assoc, Ha, Hb, app_map_app. Qed.
Lemma pre_toks : forall d a ta b tb, pre d a ta -> tokens d b = Some tb -> tokens d (a ++ b) = Some (ta ++ tb).
Proof. intros d a ta b tb Ha Hb. now rewrite Ha, Hb. Qed.
Lemma toks_pre : forall d a ta b tb, tokens d a = Some ta -> pre d b tb -> sep_start b -> b <> [] -> pre d (a ++ b) (ta ++ tb).
Proof.
  intros d a ta b tb Ha Hb N NE x. rewrite <- app_assoc, (tokens_app _ _ _ _ Ha), Hb, app_map_app; [reflexivity|].
  destruct b; [congruence|exact N].
Qed.
Lemma pre_of : forall d s ts, pre d s ts -> tokens d s = Some ts.
Proof. intros d s ts H. specialize (H []). rewrite app_nil_r in H. rewrite H. cbn. now rewrite app_nil_r. Qed.
Lemma pre_blank : forall d c, blank c = true -> pre d [c] [].
Proof. intros d c H x. cbn [app]. now rewrite toks_blank, map_app_nil. Qed.
Lemma pre_sym : forall d c, In c ["("; ")"; ","; "."]%char -> pre d [c] [TSym c].
Proof.
  intros d c H x. cbn [app]. rewrite tokens_cons.
  repeat (destruct H as [<-|H]; [destruct d; cbn; now destruct (tokens _ x)|]). destruct H.
Qed.
(** Literals that end in a separator. *)
Lemma pre_lit : forall d a ta c tc, tokens d a = Some ta -> separator c = true -> pre d [c] tc -> pre d (a ++ [c]) (ta ++ tc).
Proof. intros d a ta c tc Ha S P. apply toks_pre; auto. discriminate. Qed.

(** ** Rules for [M] *)
(** [starts]: what is written has these tokens; [writes]: and begins with a
    separator; [opens]: and anything can follow. *)
Definition starts (d : dialect) (m : M) (ts : list tok) : Prop := forall s, text_of m = Some s -> tokens d s = Some ts.
Definition writes (d : dialect) (m : M) (ts : list tok) : Prop := forall s, text_of m = Some s -> tokens d s = Some ts /\ sep_start s.
Definition opens (d : dialect) (m : M) (ts : list tok) : Prop := forall s, text_of m = Some s -> pre d s ts.
Definition sepm (m : M) : Prop := forall s, text_of m = Some s -> sep_start s /\ s <> [].

Lemma starts_seq : forall d m k t1 t2, starts d m t1 -> writes d k t2 -> starts d (m ;; k) (t1 ++ t2).
Proof.
  intros d m k t1 t2 H1 H2 s H. apply text_seq in H. destruct H as (x & y & X & Y & ->). destruct (H2 _ Y) as [Ty Sy].
  apply toks_app; auto.
Qed.
Lemma writes_seq : forall d m k t1 t2, writes d m t1 -> writes d k t2 -> writes d (m ;; k) (t1 ++ t2).
Proof.
  intros d m k t1 t2 H1 H2 s H. apply text_seq in H. destruct H as (x & y & X & Y & ->). destruct (H2 _ Y) as [Ty Sy].
  destruct (H1 _ X) as [Tx Sx]. split; [now apply toks_app|now apply sep_start_app].
Qed.
Lemma opens_starts : forall d m k t1 t2, opens d m t1 -> starts d k t2 -> starts d (m ;; k) (t1 ++ t2).
Proof.
  intros d m k t1 t2 H1 H2 s H. apply text_seq in H. destruct H as (x & y & X & Y & ->). apply pre_toks; auto.
Qed.
Lemma opens_opens : forall d m k t1 t2, opens d m t1 -> opens d k t2 -> opens d (m ;; k) (t1 ++ t2).
Proof.
  intros d m k t1 t2 H1 H2 s H. apply text_seq in H. destruct H as (x & y & X & Y & ->). apply pre_app; auto.
Qed.
Lemma starts_opens : forall d m k t1 t2, starts d m t1 -> opens d k t2 -> sepm k -> opens d (m ;; k) (t1 ++ t2).
Proof.
  intros d m k t1 t2 H1 H2 S s H. apply text_seq in H. destruct H as (x & y & X & Y & ->). destruct (S _ Y). apply toks_pre; auto.
Qed.
Lemma starts_writes : forall d m t, starts d m t -> sepm m -> writes d m t.
Proof. intros d m t H S s T. split; [now apply H|now apply S]. Qed.
Lemma writes_starts : forall d m t, writes d m t -> starts d m t.
Proof. intros d m t H s T. now apply H. Qed.
Lemma opens_are_starts : forall d m t, opens d m t -> starts d m t.
Proof. intros d m t H s T. apply pre_of. now apply H. Qed.
Lemma sepm_seq : forall m k, sepm m -> sepm (m ;; k).
Proof.
  intros m k H s T. apply text_seq in T. destruct T as (x & y & X & Y & ->). destruct (H _ X) as [S N].
  destruct x; [congruence|]. split; [exact S|discriminate].
Qed.
Lemma sepm_emit : forall c s, separator c = true -> sepm (emit (c :: s)).
Proof. intros c s H t T. apply text_emit in T. subst. split; [exact H|discriminate]. Qed.
Lemma writes_ret : forall d, writes d ret [].
Proof. intros d s H. apply text_ret in H. subst. split; [reflexivity|exact I]. Qed.
Lemma opens_ret : forall d, opens d ret [].
Proof. intros d s H. apply text_ret in H. subst. apply pre_nil. Qed.
Lemma writes_when : forall d (b : bool) m t, (b = true -> writes d m t) -> writes d (when b m) (if b then t else []).
Proof. intros d [|] m t H; [now apply H|apply writes_ret]. Qed.
Lemma opens_when : forall d (b : bool) m t, (b = true -> opens d m t) -> opens d (when b m) (if b then t else []).
Proof. intros d [|] m t H; [now apply H|apply opens_ret]. Qed.
Lemma writes_if : forall d (b : bool) m k t1 t2, (b = true -> writes d m t1) -> (b = false -> writes d k t2) ->
  writes d (if b then m else k) (if b then t1 else t2).
Proof. intros d [|] m k t1 t2 H1 H2; auto. Qed.
Lemma no_text_fail : forall s, text_of fail = Some s -> False.
Proof. intros s H. discriminate. Qed.
Lemma no_text_crash : forall s, text_of crash = Some s -> False.
Proof. intros s H. discriminate. Qed.
Lemma writes_fail : forall d t, writes d fail t.
Proof. intros d t s H. discriminate. Qed.
Lemma opens_fail : forall d t, opens d fail t.
Proof. intros d t s H. discriminate. Qed.
Lemma starts_fail : forall d t, starts d fail t.
Proof. intros d t s H. discriminate. Qed.
Lemma writes_emit : forall d b t, tokens d b = Some t -> sep_start b -> writes d (emit b) t.
Proof. intros d b t H S s T. apply text_emit in T. now subst. Qed.
Lemma starts_emit : forall d b t, tokens d b = Some t -> starts d (emit b) t.
Proof. intros d b t H s T. apply text_emit in T. now subst. Qed.
Lemma opens_emit : forall d b t, pre d b t -> opens d (emit b) t.
Proof. intros d b t H s T. apply text_emit in T. now subst. Qed.
Lemma writes_cast : forall d m t t', writes d m t -> t = t' -> writes d m t'.
Proof. intros. now subst. Qed.
Lemma starts_cast : forall d m t t', starts d m t -> t = t' -> starts d m t'.
Proof. intros. now subst. Qed.
Lemma opens_cast : forall d m t t', opens d m t -> t = t' -> opens d m t'.
Proof. intros. now subst. Qed.

(** ** Literals *)
Lemma plain_frag : forall d stop s, plain_sql d stop s -> tokens d s = Some (frag d s).
Proof. intros d stop s (ts & T & _). unfold frag. now rewrite T. Qed.
Lemma plain_closed : forall d stop s, plain_sql d stop s -> closed stop 0 (frag d s) = true.
Proof. intros d stop s (ts & T & C). unfold frag. now rewrite T. Qed.
Lemma frag_nil : forall d, frag d [] = [].
Proof. reflexivity. Qed.
(** Literals that end in a blank, or in a symbol. *)
Lemma pre_end : forall d b t, b <> [] -> tokens d (removelast b) = Some t -> blank (last b "0"%char) = true -> pre d b t.
Proof.
  intros d b t NE T L. rewrite (app_removelast_last "0"%char NE). rewrite <- (app_nil_r t). apply pre_lit; auto.
  - unfold separator. now rewrite L.
  - now apply pre_blank.
Qed.
Lemma pre_end_sym : forall d b t c, b <> [] -> tokens d (removelast b) = Some t -> last b "0"%char = c -> In c ["("; ")"; ","; "."]%char ->
  pre d b (t ++ [TSym c]).
Proof.
  intros d b t c NE T L I. rewrite (app_removelast_last "0"%char NE). rewrite L. apply pre_lit; auto.
  - repeat (destruct I as [<-|I]; [reflexivity|]). destruct I.
  - now apply pre_sym.
Qed.
Ltac lit := match goal with |- tokens ?d _ = _ => destruct d; vm_compute; reflexivity end.
Ltac prelit := apply pre_end; [discriminate|lit|reflexivity].
Ltac prelit_sym t c := change (t ++ [TSym c]) || idtac; apply (pre_end_sym _ _ t c); [discriminate|lit|reflexivity|cbn; tauto].

(** ** Column definitions *)
Definition collate_tok (d : dialect) (c : bytes) : tok := if is_postgres d then TName c else TWord c.
Definition auto_toks (d : dialect) : list tok :=
  match d with DMySQL => [W "AUTO_INCREMENT"] | DSQLite => [W "AUTOINCREMENT"] | _ => [] end.
Definition default_written (l : column) : bool :=
  negb (is_empty (l_default l)) && negb (l_autoincrement l) && is_empty (l_identity l) && is_empty (l_generated l).
Definition generated_toks (d : dialect) (l : column) : list tok :=
  if l_autoincrement l then auto_toks d
  else if negb (is_empty (l_identity l)) then W "GENERATED" :: frag d (l_identity l)
  else if negb (is_empty (l_generated l)) then
    [W "GENERATED"; W "ALWAYS"; W "AS"; lp] ++ frag d (l_generated l) ++ [rp] ++ [if l_stored l then W "STORED" else W "VIRTUAL"]
  else [].
Definition column_clauses (d : dialect) (l : column) : list tok :=
  (if l_not_null l then [W "NOT"; W "NULL"] else []) ++
  (if default_written l then W "DEFAULT" :: frag d (l_default l) else []) ++
  (if l_primary_key l && is_sqlite d then [W "PRIMARY"; W "KEY"] else []) ++
  generated_toks d l ++
  (if l_on_update l then [W "ON"; W "UPDATE"; W "CURRENT_TIMESTAMP"] else []) ++
  (if negb (is_empty (l_collation l)) then [W "COLLATE"; collate_tok d (l_collation l)] else []).
Lemma toks_collation : forall d c, c <> [] -> collation_ok d c ->
  tokens d (if is_postgres d then B " COLLATE """ ++ escape_quote c """" ++ B """" else B " COLLATE " ++ c) = Some [W "COLLATE"; collate_tok d c].
Proof.
  intros d c NE [Z|H]; [congruence|]. unfold collate_tok. destruct (is_postgres d) eqn:P.
  - destruct d; try discriminate. change (B " COLLATE """) with (B " COLLATE " ++ [ident_open DPostgres]). rewrite <- app_assoc.
    apply (pre_toks DPostgres _ [W "COLLATE"]); [prelit|]. cbn [app].
    rewrite tokens_cons. cbn [blank ident_open]. change (blank """") with false. cbn match.
    change (Ascii.eqb """" (fst (identifier_quotes DPostgres))) with true. cbn match.
    change (B """") with [""""%char]. change (snd (identifier_quotes DPostgres)) with """"%char.
    rewrite lex_quoted_escape by exact I. change """"%char with (ident_close DPostgres) at 1. now rewrite collapse_good.
  - apply (pre_toks d _ [W "COLLATE"]); [prelit|exact H].
Qed.
Lemma column_toks : forall d l, column_ok d l -> starts d (column_definition d l) (name_tok d (l_name l) :: frag d (l_type l) ++ column_clauses d l).
Proof.
  intros d l [ON OT OD OG OI OC]. unfold column_definition, column_clauses.
  change (name_tok d (l_name l) :: frag d (l_type l) ++ ?r) with ([name_tok d (l_name l)] ++ frag d (l_type l) ++ r).
  apply starts_seq; [apply starts_emit, toks_name, ON|].
  apply writes_seq.
  { destruct (l_type l) as [|c ty] eqn:T; [apply writes_ret|]. cbn [is_empty negb when]. rewrite <- T in *. apply writes_emit; [|reflexivity].
    change (B " " ++ l_type l) with (" "%char :: l_type l). rewrite toks_blank by reflexivity. now apply (plain_frag _ clause_stop). }
  apply writes_seq; [apply writes_when; intros _; apply writes_emit; [lit|reflexivity]|].
  apply writes_seq.
  { apply writes_when. intros _. apply writes_emit; [|reflexivity].
    apply (pre_toks d (B " DEFAULT ") [W "DEFAULT"]); [prelit|now apply (plain_frag _ clause_stop)]. }
  apply writes_seq; [apply writes_when; intros _; apply writes_emit; [lit|reflexivity]|].
  change (generated_toks d l ++ ?r) with ([] ++ [] ++ generated_toks d l ++ r).
  apply writes_seq; [destruct (_ && _); [apply writes_fail|apply writes_ret]|].
  apply writes_seq; [destruct (_ && _); [apply writes_fail|apply writes_ret]|].
  apply writes_seq.
  { unfold generated_toks. apply writes_if; intros _.
    { unfold auto_toks. destruct d; try apply writes_ret; apply writes_emit; reflexivity. }
    apply writes_if; intros ID.
    { apply writes_emit; [|reflexivity]. apply (pre_toks d (B " GENERATED ") [W "GENERATED"]); [prelit|].
      destruct OI as [OI|[OI|[OI|[]]]]; rewrite <- OI in *; [discriminate ID| |]; destruct d; vm_compute; reflexivity. }
    apply writes_if; intros GE; [|apply writes_ret].
    rewrite !app_assoc. apply writes_seq.
    - apply writes_emit; [|reflexivity].
      rewrite <- app_assoc. apply (pre_toks d (B " GENERATED ALWAYS AS (") [W "GENERATED"; W "ALWAYS"; W "AS"; lp]).
      { apply (pre_end_sym d _ [W "GENERATED"; W "ALWAYS"; W "AS"] "("%char); [discriminate|lit|reflexivity|cbn; tauto]. }
      apply toks_app; [now apply (plain_frag _ no_stop)|lit|reflexivity].
    - destruct (l_stored l); [apply writes_emit; [lit|reflexivity]|]. destruct (is_postgres d); [apply writes_fail|apply writes_emit; [lit|reflexivity]]. }
  apply writes_seq.
  { apply writes_when. intros _. destruct (is_mysql d); [apply writes_emit; [lit|reflexivity]|apply writes_fail]. }
  apply writes_when. intros CO. assert (NE : l_collation l <> []) by (intros Z; rewrite Z in CO; discriminate).
  pose proof (toks_collation d (l_collation l) NE OC) as Q. destruct (is_postgres d); (apply writes_emit; [exact Q|reflexivity]).
Qed.
