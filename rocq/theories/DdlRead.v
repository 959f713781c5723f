(** * DdlRead: reading the tokens of the DDL commands *)
From Coq Require Import Lia.
From Verif Require Import GoBase GoBaseFacts QuoteModel SpecLex SpecIdent SpecSql EffectModel SpecText SqlFacts
  CacheModel UpsertModel DdlModel SpecDdl DdlToks.

(** ** Groups and elements *)
Lemma sym_true : forall c t, sym c t = true -> t = TSym c.
Proof. intros c [w|n|s|x] H; try discriminate. cbn in H. apply Ascii.eqb_eq in H. congruence. Qed.
Lemma closed_weaken : forall s1 s2 ts n, (forall t, s2 t = true -> s1 t = true) -> closed s1 n ts = true -> closed s2 n ts = true.
Proof.
  intros s1 s2 ts. induction ts as [|t ts IH]; intros n W0 H; [exact H|]. cbn [closed] in *.
  apply andb_true_iff in H. destruct H as [H1 H2]. apply andb_true_iff. split.
  - apply negb_true_iff in H1. apply negb_true_iff. destruct (Nat.eqb n 0); [|apply andb_false_r]. rewrite andb_true_r in *.
    destruct (s2 t) eqn:E; [|reflexivity]. apply W0 in E. congruence.
  - destruct (sym "(" t); [now apply IH|]. destruct (sym ")" t); [|now apply IH]. destruct n; [discriminate|now apply IH].
Qed.
Lemma closed_app : forall s a b n, closed s n a = true -> closed s n (a ++ b) = closed s 0 b.
Proof.
  intros s. induction a as [|t a IH]; intros b n H; cbn [closed app] in *.
  - apply Nat.eqb_eq in H. now subst.
  - apply andb_true_iff in H. destruct H as [H1 H2]. rewrite H1. cbn [andb].
    destruct (sym "(" t); [now apply IH|]. destruct (sym ")" t); [|now apply IH]. destruct n; [discriminate|now apply IH].
Qed.
Lemma closed_app_true : forall s a b, closed s 0 a = true -> closed s 0 b = true -> closed s 0 (a ++ b) = true.
Proof. intros s a b A B0. now rewrite closed_app. Qed.
Lemma closed_if : forall s (b : bool) x y, closed s 0 x = true -> closed s 0 y = true -> closed s 0 (if b then x else y) = true.
Proof. intros s [|] x y X Y; assumption. Qed.
Lemma closed_cons : forall s t r, s t = false -> sym "(" t = false -> sym ")" t = false -> closed s 0 r = true -> closed s 0 (t :: r) = true.
Proof. intros s t r H1 H2 H3 H. cbn [closed]. now rewrite H1, H2, H3, H. Qed.
(** In parentheses nothing stops. *)
Lemma closed_group_depth : forall s a r n, closed no_stop n a = true -> closed s (S n) (a ++ rp :: r) = closed s 0 r.
Proof.
  intros s. induction a as [|t a IH]; intros r n H; cbn [app closed] in *.
  - apply Nat.eqb_eq in H. subst. cbn [Nat.eqb]. rewrite andb_false_r. reflexivity.
  - cbn [no_stop andb negb] in H. cbn [Nat.eqb]. rewrite andb_false_r. cbn [negb andb].
    destruct (sym "(" t); [now rewrite (IH r (S n))|]. destruct (sym ")" t); [|now rewrite (IH r n)].
    destruct n; [discriminate|now rewrite (IH r n)].
Qed.
Lemma closed_group : forall s a r, closed no_stop 0 a = true -> closed s 0 r = true -> s lp = false -> closed s 0 (lp :: a ++ rp :: r) = true.
Proof. intros s a r A R L. cbn [closed]. rewrite L. cbn [andb negb]. change (sym "(" lp) with true. cbn match. now rewrite closed_group_depth. Qed.
Lemma no_stop_weaken : forall s n a, closed s n a = true -> closed no_stop n a = true.
Proof. intros s n a. apply closed_weaken. discriminate. Qed.

Definition stops (stop : tok -> bool) (r : list tok) : Prop := match r with [] => True | t :: _ => stop t = true end.
Lemma until_closed : forall stop ts n r, closed stop n ts = true -> stops stop r -> until stop n (ts ++ r) = (ts, r).
Proof.
  intros stop. induction ts as [|t ts IH]; intros n r H S; cbn [app closed] in *.
  - apply Nat.eqb_eq in H. subst. destruct r as [|t r]; [reflexivity|]. cbn [until]. cbn [stops] in S. now rewrite S.
  - apply andb_true_iff in H. destruct H as [H1 H2]. apply negb_true_iff in H1. cbn [until]. rewrite H1.
    destruct (sym "(" t); [now rewrite IH|]. destruct (sym ")" t); [|now rewrite IH]. destruct n; [discriminate|]. cbn [Nat.pred]. now rewrite IH.
Qed.
Lemma group_closed : forall ts n r, closed no_stop n ts = true -> group n (ts ++ rp :: r) = Some (ts, r).
Proof.
  induction ts as [|t ts IH]; intros n r H; cbn [app closed] in *.
  - apply Nat.eqb_eq in H. subst. reflexivity.
  - cbn [no_stop andb negb] in H. cbn [group]. destruct (sym "(" t) eqn:L.
    + apply sym_true in L. subst t. change (sym ")" (TSym "(")) with false. cbn match. now rewrite IH.
    + destruct (sym ")" t); [destruct n; [discriminate|]|]; now rewrite IH.
Qed.
Lemma read_group_closed : forall s ts r, closed s 0 ts = true -> read_group (lp :: ts ++ rp :: r) = Some (ts, r).
Proof. intros s ts r H. unfold read_group. change (sym "(" lp) with true. cbn match. apply group_closed. now apply (no_stop_weaken s). Qed.
Lemma split_closed : forall ts n, closed comma_stop n ts = true -> split_from n ts = [ts].
Proof.
  induction ts as [|t ts IH]; intros n H; cbn [closed split_from] in *; [reflexivity|].
  apply andb_true_iff in H. destruct H as [H1 H2]. apply negb_true_iff in H1. unfold comma_stop in H1. rewrite H1.
  destruct (sym "(" t); [now rewrite IH|]. destruct (sym ")" t); [|now rewrite IH]. destruct n; [discriminate|]. cbn [Nat.pred]. now rewrite IH.
Qed.
Lemma split_comma : forall ts n r, closed comma_stop n ts = true -> split_from n (ts ++ comma :: r) = ts :: split_from 0 r.
Proof.
  induction ts as [|t ts IH]; intros n r H; cbn [closed split_from app] in *.
  - apply Nat.eqb_eq in H. subst. reflexivity.
  - apply andb_true_iff in H. destruct H as [H1 H2]. apply negb_true_iff in H1. unfold comma_stop in H1. rewrite H1.
    destruct (sym "(" t); [now rewrite IH|]. destruct (sym ")" t); [|now rewrite IH]. destruct n; [discriminate|]. cbn [Nat.pred]. now rewrite IH.
Qed.
(** Elements with commas between them. *)
Definition commas (es : list (list tok)) : list tok :=
  match es with [] => [] | e :: es' => e ++ flat_map (cons comma) es' end.
Lemma split_commas : forall es e, Forall (fun e => closed comma_stop 0 e = true) (e :: es) ->
  split_from 0 (e ++ flat_map (cons comma) es) = e :: es.
Proof.
  induction es as [|e2 es IH]; intros e H; inversion H; subst; cbn [flat_map].
  - rewrite app_nil_r. now apply split_closed.
  - cbn [app]. rewrite split_comma by assumption. now rewrite IH.
Qed.
Lemma elements_commas : forall es, Forall (fun e => e <> [] /\ closed comma_stop 0 e = true) es -> elements (commas es) = es.
Proof.
  intros [|e es] H; [reflexivity|]. unfold commas, elements. inversion H as [|? ? [NE C] H']; subst.
  destruct (e ++ flat_map (cons comma) es) as [|t r] eqn:E.
  - apply app_eq_nil in E. destruct E as [E _]. congruence.
  - rewrite <- E. apply split_commas. constructor; [exact C|]. eapply Forall_impl; [|exact H']. cbn. tauto.
Qed.
Lemma closed_flat : forall es, Forall (fun e => closed no_stop 0 e = true) es -> closed no_stop 0 (flat_map (cons comma) es) = true.
Proof. induction 1 as [|e es E H IH]; [reflexivity|]. cbn [flat_map app]. cbn [closed]. cbn. now rewrite closed_app. Qed.
Lemma closed_commas : forall es, Forall (fun e => closed no_stop 0 e = true) es -> closed no_stop 0 (commas es) = true.
Proof. intros [|e es] H; [reflexivity|]. inversion H; subst. cbn [commas]. rewrite closed_app by assumption. now apply closed_flat. Qed.
Lemma read_all_map : forall A B0 (f : list tok -> option A) (g : B0 -> list tok) (h : B0 -> A) l,
  Forall (fun x => f (g x) = Some (h x)) l -> read_all f (map g l) = Some (map h l).
Proof. intros A B0 f g h. induction 1 as [|x l X H IH]; [reflexivity|]. cbn [map read_all]. now rewrite X, IH. Qed.
Lemma read_all_app : forall A (f : list tok -> option A) a b x y, read_all f a = Some x -> read_all f b = Some y -> read_all f (a ++ b) = Some (x ++ y).
Proof.
  intros A f. induction a as [|e a IH]; intros b x y H1 H2; cbn [read_all app] in *.
  - assert (x = []) by congruence. now subst.
  - destruct (f e); [|discriminate]. destruct (read_all f a) eqn:E; [|discriminate]. rewrite (IH b l y eq_refl H2).
    assert (x = a0 :: l) by congruence. now subst.
Qed.

(** ** Names *)
Lemma name_tok_sym : forall d n c, sym c (name_tok d n) = false.
Proof. intros d n c. unfold name_tok. now destruct (needs_quoting n). Qed.
Lemma read_name_tok : forall d n r, read_name (name_tok d n :: r) = Some (n, r).
Proof. intros d n r. unfold read_name. now rewrite name_tok_name. Qed.
Lemma read_names_toks : forall d ns, read_names (commas (map (fun n => [name_tok d n]) ns)) = Some ns.
Proof.
  intros d ns. unfold read_names. rewrite elements_commas.
  - rewrite (read_all_map _ _ _ _ (fun n => n)); [now rewrite map_id|]. apply Forall_forall. intros n _. apply name_tok_name.
  - apply Forall_forall. intros e H. apply in_map_iff in H. destruct H as (n & <- & _). split; [discriminate|].
    apply closed_cons; try reflexivity; try apply name_tok_sym.
Qed.
Lemma read_names_words : forall ns, read_names (commas (map (fun n => [TWord n]) ns)) = Some ns.
Proof.
  intros ns. unfold read_names. rewrite elements_commas.
  - rewrite (read_all_map _ _ _ _ (fun n => n)); [now rewrite map_id|]. apply Forall_forall. reflexivity.
  - apply Forall_forall. intros e H. apply in_map_iff in H. destruct H as (n & <- & _). split; [discriminate|reflexivity].
Qed.
Lemma closed_words : forall ns, closed no_stop 0 (commas (map (fun n => [TWord n]) ns)) = true.
Proof. intros ns. apply closed_commas. apply Forall_forall. intros e H. apply in_map_iff in H. destruct H as (n & <- & _). reflexivity. Qed.
Lemma closed_names : forall d ns, closed no_stop 0 (commas (map (fun n => [name_tok d n]) ns)) = true.
Proof.
  intros d ns. apply closed_commas. apply Forall_forall. intros e H. apply in_map_iff in H. destruct H as (n & <- & _).
  apply closed_cons; try reflexivity; apply name_tok_sym.
Qed.

(** ** Column definitions *)
Definition cd_stops (r : list tok) : Prop := stops clause_word r.
Lemma stops_app : forall stop a b, stops stop a -> stops stop b -> stops stop (a ++ b).
Proof. intros stop [|t a] b A B0; [exact B0|exact A]. Qed.
Lemma stops_if : forall stop (b : bool) x y, stops stop x -> stops stop y -> stops stop (if b then x else y).
Proof. intros stop [|] x y X Y; assumption. Qed.
Section Clauses.
  Context (n : bytes) (ty : list tok).
  Notation mk := (mk_col_def n ty).
  Definition reads (c : col_def) (ts : list tok) (x : option col_def) : Prop :=
    forall k, length ts <= k -> read_clauses k c ts = x.
  Lemma reads_step : forall c ts c' r x, (forall f, read_clause f c ts = f c' r) -> length r < length ts -> reads c' r x -> reads c ts x.
  Proof.
    intros c ts c' r x ST L R k K. destruct ts as [|t ts]; [cbn in L; lia|]. destruct k as [|k]; [cbn in K; lia|].
    cbn [read_clauses]. rewrite ST. apply R. cbn [length] in *. lia.
  Qed.
  Lemma reads_nil : forall c, reads c [] (Some c).
  Proof. intros c [|k] _; reflexivity. Qed.
  Lemma reads_not_null : forall (b : bool) df pk au ge ou co ch re r x, reads (mk b df pk au ge ou co ch re) r x ->
    reads (mk false df pk au ge ou co ch re) ((if b then [W "NOT"; W "NULL"] else []) ++ r) x.
  Proof. intros [|] df pk au ge ou co ch re r x R; [|exact R]. eapply reads_step; [reflexivity| |exact R]. cbn [app length]; lia. Qed.
  Lemma reads_default : forall (b : bool) nn e pk au ge ou co ch re r x, closed clause_word 0 e = true -> cd_stops r ->
    reads (mk nn (if b then Some e else None) pk au ge ou co ch re) r x ->
    reads (mk nn None pk au ge ou co ch re) ((if b then W "DEFAULT" :: e else []) ++ r) x.
  Proof.
    intros [|] nn e pk au ge ou co ch re r x C S R; [|exact R]. eapply reads_step; [| |exact R].
    - intros f. cbn [app]. unfold read_clause. change (kw "NOT" (W "DEFAULT")) with false. change (kw "DEFAULT" (W "DEFAULT")) with true. cbn match.
      now rewrite (until_closed _ _ _ _ C S).
    - cbn [app length]. rewrite app_length. lia.
  Qed.
  Lemma reads_primary : forall (b : bool) nn df au ge ou co ch re r x, reads (mk nn df b au ge ou co ch re) r x ->
    reads (mk nn df false au ge ou co ch re) ((if b then [W "PRIMARY"; W "KEY"] else []) ++ r) x.
  Proof. intros [|] nn df au ge ou co ch re r x R; [|exact R]. eapply reads_step; [reflexivity| |exact R]. cbn [app length]; lia. Qed.
  Lemma reads_auto : forall d nn df pk ge ou co ch re r x, d = DMySQL \/ d = DSQLite -> reads (mk nn df pk true ge ou co ch re) r x ->
    reads (mk nn df pk false ge ou co ch re) (auto_toks d ++ r) x.
  Proof. intros d nn df pk ge ou co ch re r x [-> | ->] R; (eapply reads_step; [reflexivity| |exact R]; cbn [app length auto_toks]; lia). Qed.
  Lemma reads_identity : forall d i nn df pk au ou co ch re r x, In i [BY_DEFAULT; ALWAYS] -> reads (mk nn df pk au (identity_of i) ou co ch re) r x ->
    reads (mk nn df pk au GNo ou co ch re) ((W "GENERATED" :: frag d i) ++ r) x.
  Proof.
    intros d i nn df pk au ou co ch re r x I R. destruct I as [<-|[<-|[]]].
    - change (identity_of BY_DEFAULT) with (GIdentity false) in R.
      assert (F : frag d BY_DEFAULT = [W "BY"; W "DEFAULT"; W "AS"; W "IDENTITY"]) by (destruct d; vm_compute; reflexivity).
      rewrite F. eapply reads_step; [reflexivity| |exact R]. cbn [app length]; lia.
    - change (identity_of ALWAYS) with (GIdentity true) in R.
      assert (F : frag d ALWAYS = [W "ALWAYS"; W "AS"; W "IDENTITY"]) by (destruct d; vm_compute; reflexivity).
      rewrite F. eapply reads_step; [reflexivity| |exact R]. cbn [app length]; lia.
  Qed.
  Lemma reads_generated : forall (st : bool) e nn df pk au ou co ch re r x, closed no_stop 0 e = true -> reads (mk nn df pk au (GExpr e st) ou co ch re) r x ->
    reads (mk nn df pk au GNo ou co ch re) (([W "GENERATED"; W "ALWAYS"; W "AS"; lp] ++ e ++ [rp] ++ [if st then W "STORED" else W "VIRTUAL"]) ++ r) x.
  Proof.
    intros st e nn df pk au ou co ch re r x C R. eapply reads_step; [| |exact R].
    - intros f. rewrite <- !app_assoc. cbn [app]. unfold read_clause.
      change (kw "NOT" (W "GENERATED")) with false. change (kw "DEFAULT" (W "GENERATED")) with false. change (kw "PRIMARY" (W "GENERATED")) with false.
      change (kw "AUTO_INCREMENT" (W "GENERATED")) with false. change (kw "AUTOINCREMENT" (W "GENERATED")) with false. change (kw "GENERATED" (W "GENERATED")) with true.
      cbn match. cbn [orb]. unfold read_generated.
      change (words ["BY"; "DEFAULT"; "AS"; "IDENTITY"]%string (W "ALWAYS" :: W "AS" :: lp :: ?y)) with (@None (list tok)). cbn match.
      change (words ["ALWAYS"; "AS"; "IDENTITY"]%string (W "ALWAYS" :: W "AS" :: lp :: ?y)) with (@None (list tok)). cbn match.
      change (words ["ALWAYS"; "AS"]%string (W "ALWAYS" :: W "AS" :: ?y)) with (Some y). cbn match.
      rewrite (read_group_closed no_stop e _ C). destruct st; reflexivity.
    - rewrite !app_length. cbn [length]. lia.
  Qed.
  Lemma reads_on_update : forall (b : bool) nn df pk au ge co ch re r x, reads (mk nn df pk au ge b co ch re) r x ->
    reads (mk nn df pk au ge false co ch re) ((if b then [W "ON"; W "UPDATE"; W "CURRENT_TIMESTAMP"] else []) ++ r) x.
  Proof. intros [|] nn df pk au ge co ch re r x R; [|exact R]. eapply reads_step; [reflexivity| |exact R]. cbn [app length]; lia. Qed.
  Lemma reads_collate : forall d c nn df pk au ge ou ch re r x,
    reads (mk nn df pk au ge ou (match c with [] => None | _ => Some c end) ch re) r x ->
    reads (mk nn df pk au ge ou None ch re) ((if negb (is_empty c) then [W "COLLATE"; collate_tok d c] else []) ++ r) x.
  Proof.
    intros d [|c0 c] nn df pk au ge ou ch re r x R; [exact R|]. unfold collate_tok.
    destruct d; (eapply reads_step; [reflexivity| |exact R]; cbn [app length is_empty negb]; lia).
  Qed.
  Lemma reads_check : forall e nn df pk au ge ou co ch re r x, closed no_stop 0 e = true -> reads (mk nn df pk au ge ou co (ch ++ [e]) re) r x ->
    reads (mk nn df pk au ge ou co ch re) ((W "CHECK" :: lp :: e ++ [rp]) ++ r) x.
  Proof.
    intros e nn df pk au ge ou co ch re r x C R. eapply reads_step; [| |exact R].
    - intros f. cbn [app]. rewrite <- app_assoc. cbn [app]. unfold read_clause.
      repeat match goal with |- context [kw ?a (W "CHECK")] => let v := eval vm_compute in (kw a (W "CHECK")) in change (kw a (W "CHECK")) with v end.
      cbn match. cbn [orb]. now rewrite (read_group_closed no_stop e r C).
    - cbn [app length]. rewrite !app_length. cbn [length]. lia.
  Qed.
  Lemma reads_references : forall d a b nn df pk au ge ou co ch re r x, reads (mk nn df pk au ge ou co ch (Some (a, b))) r x ->
    reads (mk nn df pk au ge ou co ch re) ([W "REFERENCES"; name_tok d a; lp; name_tok d b; rp] ++ r) x.
  Proof.
    intros d a b nn df pk au ge ou co ch re r x R. eapply reads_step; [| |exact R].
    - intros f. cbn [app]. unfold read_clause.
      repeat match goal with |- context [kw ?a (W "REFERENCES")] => let v := eval vm_compute in (kw a (W "REFERENCES")) in change (kw a (W "REFERENCES")) with v end.
      cbn match. cbn [orb]. rewrite read_name_tok.
      change (lp :: name_tok d b :: rp :: r) with (lp :: [name_tok d b] ++ rp :: r).
      rewrite (read_group_closed no_stop [name_tok d b] r).
      2:{ apply closed_cons; try reflexivity; apply name_tok_sym. }
      change [name_tok d b] with (commas (map (fun n => [name_tok d n]) [b])). now rewrite read_names_toks.
    - cbn [app length]. lia.
  Qed.
End Clauses.

Lemma column_reads : forall d l extra ch re, column_ok d l -> (l_autoincrement l = true -> d = DMySQL \/ d = DSQLite) ->
  cd_stops extra ->
  (forall c, cd_checks c = [] -> cd_references c = None -> reads c extra
    (Some (mk_col_def (cd_name c) (cd_type c) (cd_not_null c) (cd_default c) (cd_primary c) (cd_auto c) (cd_generated c) (cd_on_update c) (cd_collate c) ch re))) ->
  read_column (name_tok d (l_name l) :: frag d (l_type l) ++ column_clauses d l ++ extra) = Some (said_column d l ch re).
Proof.
  intros d l extra ch re [ON OT OD OG OI OC] AU ES EX. unfold read_column. rewrite read_name_tok.
  assert (CL : forall s, plain_sql d clause_stop s -> closed clause_word 0 (frag d s) = true).
  { intros s P. apply plain_closed in P. eapply closed_weaken; [|exact P]. intros t T. unfold clause_stop. now rewrite T. }
  assert (GS : stops clause_word (generated_toks d l)).
  { unfold generated_toks, auto_toks. destruct (l_autoincrement l); [destruct d; try exact I; reflexivity|].
    destruct (negb (is_empty (l_identity l))); [reflexivity|]. destruct (negb (is_empty (l_generated l))); [reflexivity|exact I]. }
  set (tail1 := (if l_on_update l then [W "ON"; W "UPDATE"; W "CURRENT_TIMESTAMP"] else []) ++
    (if negb (is_empty (l_collation l)) then [W "COLLATE"; collate_tok d (l_collation l)] else []) ++ extra).
  set (tail2 := (if l_primary_key l && is_sqlite d then [W "PRIMARY"; W "KEY"] else []) ++ generated_toks d l ++ tail1).
  assert (EQ : column_clauses d l ++ extra = (if l_not_null l then [W "NOT"; W "NULL"] else []) ++
    (if default_written l then W "DEFAULT" :: frag d (l_default l) else []) ++ tail2).
  { unfold column_clauses, tail2, tail1. now rewrite <- !app_assoc. }
  assert (S1 : cd_stops tail1) by (unfold cd_stops, tail1; repeat apply stops_app; auto; apply stops_if; reflexivity || exact I).
  assert (S2 : cd_stops tail2) by (unfold cd_stops, tail2; repeat apply stops_app; auto; apply stops_if; reflexivity || exact I).
  rewrite EQ. rewrite (until_closed clause_word).
  2:{ now apply CL. }
  2:{ repeat apply stops_app; auto; apply stops_if; reflexivity || exact I. }
  match goal with |- read_clauses (length ?ts) ?c ?ts = ?x => enough (R : reads c ts x) by now apply R end.
  unfold plain_column. apply reads_not_null. apply reads_default; [now apply CL|exact S2|]. unfold tail2. apply reads_primary.
  set (df := if default_written l then Some (frag d (l_default l)) else None).
  set (pk := l_primary_key l && is_sqlite d).
  assert (FIN : forall au ge, au = l_autoincrement l -> cd_generated (said_column d l ch re) = ge ->
    reads (mk_col_def (l_name l) (frag d (l_type l)) (l_not_null l) df pk au ge false None [] None) tail1 (Some (said_column d l ch re))).
  { intros au ge -> <-. unfold tail1. apply reads_on_update. apply reads_collate.
    assert (SC : said_column d l ch re = mk_col_def (l_name l) (frag d (l_type l)) (l_not_null l) df pk (l_autoincrement l) (cd_generated (said_column d l ch re)) (l_on_update l)
      (match l_collation l with [] => None | _ :: _ => Some (l_collation l) end) ch re).
    { unfold said_column. cbn [cd_generated]. f_equal.
      - unfold df, default_written. destruct (l_default l), (l_autoincrement l), (l_identity l), (l_generated l); reflexivity.
      - unfold pk. destruct d; cbn [is_sqlite]; now rewrite ?andb_true_r, ?andb_false_r.
      - now destruct (l_collation l). }
    rewrite SC at 2. match goal with |- reads ?c extra _ => exact (EX c eq_refl eq_refl) end. }
  unfold generated_toks. destruct (l_autoincrement l) eqn:AI.
  - apply reads_auto; [now apply AU|]. apply FIN; [reflexivity|]. unfold said_column. cbn [cd_generated]. now rewrite AI.
  - destruct OI as [OI|OI].
    + rewrite <- OI. cbn [is_empty negb]. destruct (l_generated l) as [|c g] eqn:GE.
      * cbn [is_empty negb app]. apply FIN; [reflexivity|]. unfold said_column. cbn [cd_generated]. now rewrite AI, <- OI, GE.
      * cbn [is_empty negb]. apply reads_generated; [now apply plain_closed|]. apply FIN; [reflexivity|]. unfold said_column. cbn [cd_generated]. now rewrite AI, <- OI, GE.
    + assert (NE : is_empty (l_identity l) = false) by (destruct OI as [<-|[<-|[]]]; reflexivity). rewrite NE. cbn [negb].
      apply reads_identity; [exact OI|]. apply FIN; [reflexivity|]. unfold said_column. cbn [cd_generated]. rewrite AI.
      destruct (l_identity l); [discriminate|reflexivity].
Qed.
