(** * DdlAlter: ALTER TABLE reads back *)
From Coq Require Import Lia.
From Verif Require Import GoBase GoBaseFacts QuoteModel SpecLex SpecIdent SpecSql EffectModel SpecText QuoteFacts QuotePf SqlFacts
  CacheModel UpsertModel DdlModel SpecDdl DdlToks DdlRead DdlConstraint DdlIndex DdlTable.
Local Open Scope m_scope.

(** ** Commands that write several elements *)
Definition element_ok (e : list tok) : Prop := e <> [] /\ closed comma_stop 0 e = true.
(** [m] writes these elements, which mean these actions. *)
Record says (d : dialect) (m : M) (es : list (list tok)) (acts : list action) : Prop := {
  says_some : es <> [];
  says_toks : starts d m (commas es);
  says_ok : Forall element_ok es;
  says_reads : read_all read_action es = Some acts }.
Lemma says_one : forall d m e a, starts d m e -> element_ok e -> read_action e = Some a -> says d m [e] [a].
Proof.
  intros d m e a T O R. constructor; [discriminate| | |].
  - eapply starts_cast; [exact T|]. cbn. now rewrite app_nil_r.
  - now constructor.
  - cbn. now rewrite R.
Qed.
Lemma commas_app : forall a b, a <> [] -> commas (a ++ b) = commas a ++ flat_map (cons comma) b.
Proof. intros [|x a] b H; [congruence|]. cbn [app commas]. now rewrite flat_map_app, app_assoc. Qed.
Lemma commas_flat : forall a, a <> [] -> flat_map (cons comma) a = comma :: commas a.
Proof. intros [|x a] H; [congruence|]. reflexivity. Qed.
Lemma says_next : forall d ms ess acts, Forall2 (fun m ea => says d m (fst ea) (snd ea)) ms (combine ess acts) -> length ess = length acts ->
  writes d (elements_from false ms) (flat_map (cons comma) (concat ess)).
Proof.
  intros d ms ess. revert ms. induction ess as [|es ess IH]; intros ms [|a acts] H L; cbn [combine] in H; try discriminate; inversion H; subst; cbn [elements_from concat]; [apply writes_ret|].
  rewrite flat_map_app. match goal with X : says _ _ _ _ |- _ => destruct X as [NE TK OK RD] end. cbn [fst snd] in *.
  apply starts_writes; [|apply sepm_seq, sepm_emit; reflexivity]. rewrite (commas_flat es NE). change ((comma :: ?x) ++ ?y) with ([comma] ++ (x ++ y)).
  apply opens_starts; [apply opens_emit, sep_next|]. apply starts_seq; [exact TK|]. eapply IH; [eassumption|]. now inversion L.
Qed.
Lemma says_all : forall d ms ess acts, Forall2 (fun m ea => says d m (fst ea) (snd ea)) ms (combine ess acts) -> length ess = length acts ->
  writes d (elements_from true ms) (commas (concat ess)) /\ Forall element_ok (concat ess) /\ read_all read_action (concat ess) = Some (concat acts).
Proof.
  intros d ms ess acts H L. split; [|split].
  - destruct ess as [|es ess], acts as [|a acts]; try discriminate; cbn [combine] in H; inversion H; subst; cbn [elements_from concat]; [apply writes_ret|].
    match goal with X : says _ _ _ _ |- _ => destruct X as [NE TK OK RD] end. cbn [fst snd] in *. rewrite (commas_app es _ NE).
    apply starts_writes; [|apply sepm_seq, sepm_emit; reflexivity]. change (commas es ++ ?y) with ([] ++ (commas es ++ y)).
    apply opens_starts; [apply opens_emit, sep_first|]. apply starts_seq; [exact TK|]. eapply says_next; [eassumption|]. now inversion L.
  - revert ms acts H L. induction ess as [|es ess IH]; intros ms [|a acts] H L; cbn [combine] in H; try discriminate; [constructor|]. inversion H; subst. cbn [concat].
    apply Forall_app. split; [match goal with X : says _ _ _ _ |- _ => exact (says_ok _ _ _ _ X) end|]. eapply IH; [eassumption|now inversion L].
  - revert ms acts H L. induction ess as [|es ess IH]; intros ms [|a acts] H L; cbn [combine] in H; try discriminate; [reflexivity|]. inversion H; subst. cbn [concat].
    apply read_all_app; [match goal with X : says _ _ _ _ |- _ => exact (says_reads _ _ _ _ X) end|]. eapply IH; [eassumption|now inversion L].
Qed.
(** Lists of parts. *)
Definition parts_say (d : dialect) (ms : list M) (acts : list action) : Prop :=
  exists ess aas, Forall2 (fun m ea => says d m (fst ea) (snd ea)) ms (combine ess aas) /\ length ess = length aas /\ acts = concat aas.
Lemma parts_app : forall d m1 m2 a1 a2, parts_say d m1 a1 -> parts_say d m2 a2 -> parts_say d (m1 ++ m2) (a1 ++ a2).
Proof.
  intros d m1 m2 a1 a2 (e1 & b1 & F1 & L1 & ->) (e2 & b2 & F2 & L2 & ->). exists (e1 ++ e2), (b1 ++ b2).
  assert (C : combine (e1 ++ e2) (b1 ++ b2) = combine e1 b1 ++ combine e2 b2).
  { clear - L1. revert b1 L1. induction e1 as [|x e1 IH]; intros [|y b1] L; try discriminate; [reflexivity|]. cbn. f_equal. apply IH. now inversion L. }
  rewrite C, concat_app, !app_length. split; [now apply Forall2_app|]. split; [lia|reflexivity].
Qed.
Lemma parts_flat : forall d A (f : A -> M) (g : A -> list action) l, (forall x, In x l -> exists es, says d (f x) es (g x)) -> parts_say d (map f l) (flat_map g l).
Proof.
  intros d A f g. induction l as [|x l IH]; intros H.
  - exists [], []. cbn. repeat split. constructor.
  - destruct (H x (or_introl eq_refl)) as [es S]. destruct (IH (fun y Y => H y (or_intror Y))) as (ess & aas & F & L & E).
    exists (es :: ess), (g x :: aas). cbn [combine map flat_map concat length]. split; [now constructor|]. split; [lia|now rewrite E].
Qed.
Lemma parts_map : forall d A (f : A -> M) (g : A -> action) l, (forall x, In x l -> exists e, says d (f x) [e] [g x]) -> parts_say d (map f l) (map g l).
Proof.
  intros d A f g l H. assert (E : map g l = flat_map (fun x => [g x]) l) by (clear; induction l; [reflexivity|]; cbn; now rewrite IHl). rewrite E.
  apply parts_flat. intros x X. destruct (H x X) as [e S]. now exists [e].
Qed.

(** ** Columns *)
Definition check_toks (d : dialect) (e : bytes) : list tok := W "CHECK" :: lp :: frag d e ++ [rp].
Definition extra_toks (d : dialect) (c : add_column) : list tok :=
  if is_sqlite d then
    flat_map (check_toks d) (al_checks c) ++
    (if negb (is_empty (al_ref_table c)) && negb (is_empty (al_ref_column c))
     then [W "REFERENCES"; name_tok d (al_ref_table c); lp; name_tok d (al_ref_column c); rp] else [])
  else [].
Definition add_column_toks (d : dialect) (c : add_column) : list tok :=
  [W "ADD"; W "COLUMN"] ++ (if al_if_not_exists c then [W "IF"; W "NOT"; W "EXISTS"] else []) ++
  name_tok d (l_name (al_column c)) :: frag d (l_type (al_column c)) ++ column_clauses d (al_column c) ++ extra_toks d c.
Lemma opens_fails : forall d (b : bool) t, opens d (when b fail) (if b then t else []).
Proof. intros d [|] t; [apply opens_fail|apply opens_ret]. Qed.
Lemma opens_guard : forall d m, (forall s, text_of m = Some s -> s = []) -> opens d m [].
Proof. intros d m H s T. rewrite (H s T). apply pre_nil. Qed.
Lemma guard_seq : forall m k, (forall s, text_of m = Some s -> s = []) -> (forall s, text_of k = Some s -> s = []) -> forall s, text_of (m ;; k) = Some s -> s = [].
Proof. intros m k M0 K s T. apply text_seq in T. destruct T as (x & y & X & Y & ->). now rewrite (M0 _ X), (K _ Y). Qed.
Lemma guard_when : forall b m, (forall s, text_of m = Some s -> s = []) -> forall s, text_of (when b m) = Some s -> s = [].
Proof. intros [|] m M0 s T; [now apply M0|]. now apply text_ret in T. Qed.
Lemma guard_fail : forall s, text_of fail = Some s -> s = [].
Proof. intros s H. discriminate. Qed.
Lemma add_column_starts : forall d c, add_column_ok d c -> al_ignore c = false -> starts d (add_column_sql d c) (add_column_toks d c).
Proof.
  intros d c OK IG. unfold add_column_sql, add_column_toks. rewrite IG. cbn zeta.
  apply opens_starts; [apply opens_emit; prelit|].
  apply opens_starts; [apply opens_when; intros _; destruct (is_postgres d); [apply opens_emit; prelit|apply opens_fail]|].
  change (name_tok d (l_name (al_column c)) :: ?r) with ([] ++ (name_tok d (l_name (al_column c)) :: r)).
  apply opens_starts.
  { apply opens_guard. repeat first [apply guard_when | apply guard_seq | apply guard_fail]. }
  change (name_tok d (l_name (al_column c)) :: frag d (l_type (al_column c)) ++ column_clauses d (al_column c) ++ extra_toks d c)
    with ([name_tok d (l_name (al_column c))] ++ frag d (l_type (al_column c)) ++ column_clauses d (al_column c) ++ extra_toks d c).
  rewrite (app_assoc (frag d _)), (app_assoc [name_tok d (l_name (al_column c))]). apply starts_seq; [apply column_toks, OK|].
  unfold extra_toks. apply writes_when. intros _. apply writes_seq.
  - apply writes_seqs. intros e E. apply writes_emit; [|reflexivity]. change (check_toks d e) with (([W "CHECK"] ++ [lp]) ++ frag d e ++ [rp]).
    apply (group_toks d _ _ _ no_stop); [lpre [W "CHECK"]|]. pose proof (oka_checks _ _ OK) as F. rewrite Forall_forall in F. now apply F.
  - apply writes_when. intros _. apply writes_emit; [|reflexivity].
    change [W "REFERENCES"; name_tok d (al_ref_table c); lp; name_tok d (al_ref_column c); rp] with ([W "REFERENCES"] ++ [name_tok d (al_ref_table c)] ++ [lp] ++ [name_tok d (al_ref_column c)] ++ [rp]).
    apply pre_toks; [prelit|]. apply toks_app; [apply toks_name, OK| |reflexivity].
    apply pre_toks; [lpre (@nil tok)|]. apply toks_app; [apply toks_name, OK|lit|reflexivity].
Qed.
Lemma reads_checks : forall d n ty nn df pk au ge ou co re es ch r x, Forall (plain_sql d no_stop) es ->
  reads (mk_col_def n ty nn df pk au ge ou co (ch ++ map (frag d) es) re) r x ->
  reads (mk_col_def n ty nn df pk au ge ou co ch re) (flat_map (check_toks d) es ++ r) x.
Proof.
  intros d n ty nn df pk au ge ou co re es. induction es as [|e es IH]; intros ch r x H R.
  - cbn [map flat_map app] in *. now rewrite app_nil_r in R.
  - inversion H; subst. cbn [flat_map map] in *. rewrite <- app_assoc. unfold check_toks at 1. apply reads_check; [now apply plain_closed|].
    apply IH; [assumption|]. now rewrite <- app_assoc.
Qed.
Lemma words_if_none : forall d l extra, column_ok d l -> stops clause_word extra -> (forall t r, extra = t :: r -> kw "NOT" t = false) ->
  words ["IF"; "NOT"; "EXISTS"]%string (name_tok d (l_name l) :: frag d (l_type l) ++ column_clauses d l ++ extra) = None.
Proof.
  intros d l extra OK ST NN. cbn [words]. destruct (kw "IF" _); [|reflexivity].
  pose proof (plain_closed _ _ _ (ok_type _ _ OK)) as C. destruct (frag d (l_type l)) as [|t ty]; cbn [app].
  - unfold column_clauses. destruct (l_not_null l); [reflexivity|]. cbn [app].
    set (rr := _ ++ extra).
    assert (K : match rr with t :: _ => kw "NOT" t = false | [] => True end).
    { unfold rr. destruct (default_written l); [reflexivity|]. destruct (l_primary_key l && is_sqlite d); [reflexivity|]. cbn [app].
      unfold generated_toks, auto_toks. destruct (l_autoincrement l).
      - destruct d; try reflexivity; cbn [app]; destruct (l_on_update l); try reflexivity; destruct (negb (is_empty (l_collation l))); try reflexivity; cbn [app]; destruct extra; try exact I; eapply NN; reflexivity.
      - destruct (negb (is_empty (l_identity l))); [reflexivity|]. destruct (negb (is_empty (l_generated l))); [reflexivity|]. cbn [app].
        destruct (l_on_update l); try reflexivity; destruct (negb (is_empty (l_collation l))); try reflexivity; cbn [app]; destruct extra; try exact I; eapply NN; reflexivity. }
    destruct rr as [|t rr']; [reflexivity|]. now rewrite K.
  - cbn [closed] in C. apply andb_true_iff in C. destruct C as [C _]. apply negb_true_iff in C. rewrite andb_true_r in C. unfold clause_stop, clause_word in C.
    destruct (kw "NOT" t); [discriminate|reflexivity].
Qed.
Lemma extra_stops : forall d c, stops clause_word (extra_toks d c) /\ forall t r, extra_toks d c = t :: r -> kw "NOT" t = false.
Proof.
  intros d c. unfold extra_toks. destruct (is_sqlite d); [|split; [exact I|discriminate]]. destruct (al_checks c) as [|e es]; cbn [flat_map app].
  - destruct (_ && _); [|split; [exact I|discriminate]]. split; [reflexivity|]. intros t r H. injection H as <- _. reflexivity.
  - split; [reflexivity|]. intros t r H. injection H as <- _. reflexivity.
Qed.
Lemma read_add_column : forall d c, add_column_ok d c -> column_supported d (al_column c) -> read_action (add_column_toks d c) = Some (said_add_column d c).
Proof.
  intros d c OK SU. unfold read_action, add_column_toks. change (words ["ADD"; "COLUMN"]%string ([W "ADD"; W "COLUMN"] ++ ?x)) with (Some x). cbn match.
  destruct (extra_stops d c) as [ST NN].
  assert (RC : read_column (name_tok d (l_name (al_column c)) :: frag d (l_type (al_column c)) ++ column_clauses d (al_column c) ++ extra_toks d c) =
    Some (said_column d (al_column c) (if is_sqlite d then map (frag d) (al_checks c) else [])
       (match is_sqlite d, al_ref_table c, al_ref_column c with true, _ :: _, _ :: _ => Some (al_ref_table c, al_ref_column c) | _, _, _ => None end))).
  { apply column_reads; [apply OK|apply SU|exact ST|]. intros [n ty nn df pk au ge ou co ch re] C R. cbn in C, R. subst. cbn [cd_name cd_type cd_not_null cd_default cd_primary cd_auto cd_generated cd_on_update cd_collate].
    unfold extra_toks. destruct (is_sqlite d); [|apply reads_nil]. apply reads_checks; [apply OK|]. cbn [app].
    destruct (al_ref_table c) as [|a1 a2]; [apply reads_nil|]. destruct (al_ref_column c) as [|b1 b2]; [apply reads_nil|]. cbn [is_empty negb andb].
    rewrite <- (app_nil_r [W "REFERENCES"; _; _; _; _]). apply reads_references, reads_nil. }
  unfold option_words. destruct (al_if_not_exists c) eqn:IE.
  - change (words ["IF"; "NOT"; "EXISTS"]%string ([W "IF"; W "NOT"; W "EXISTS"] ++ ?x)) with (Some x). cbn match. rewrite RC. unfold said_add_column. rewrite IE. now destruct d.
  - cbn [app]. rewrite words_if_none by (apply OK || assumption). rewrite RC. unfold said_add_column. rewrite IE. now destruct d.
Qed.
Lemma closed_extra : forall d c, add_column_ok d c -> closed comma_stop 0 (extra_toks d c) = true.
Proof.
  intros d c OK. unfold extra_toks. apply closed_if; [|reflexivity]. apply closed_app_true.
  - pose proof (oka_checks _ _ OK) as F. induction F as [|e es P F IH]; [reflexivity|]. cbn [flat_map]. apply closed_app_true; [|exact IH].
    unfold check_toks. apply closed_cons; [reflexivity..|]. apply closed_paren; [now apply plain_closed|reflexivity].
  - apply closed_if; [|reflexivity]. apply closed_cons; [reflexivity..|]. apply closed_name; [apply comma_stop_comma|].
    change [lp; name_tok d (al_ref_column c); rp] with (lp :: [name_tok d (al_ref_column c)] ++ [rp]). apply closed_paren; [|reflexivity].
    apply closed_cons; try reflexivity; apply name_tok_sym.
Qed.
Lemma says_add_column : forall d c, add_column_ok d c -> al_ignore c = false -> column_supported d (al_column c) ->
  exists e, says d (add_column_sql d c) [e] [said_add_column d c].
Proof.
  intros d c OK IG SU. exists (add_column_toks d c). apply says_one; [now apply add_column_starts| |now apply read_add_column].
  split; [discriminate|]. unfold add_column_toks. apply closed_app_true; [reflexivity|]. apply closed_app_true; [apply closed_if; reflexivity|].
  pose proof (closed_column d _ (oka_column _ _ OK)) as CC. unfold column_element in CC.
  change (name_tok d (l_name (al_column c)) :: frag d (l_type (al_column c)) ++ column_clauses d (al_column c) ++ extra_toks d c)
    with ([name_tok d (l_name (al_column c))] ++ frag d (l_type (al_column c)) ++ column_clauses d (al_column c) ++ extra_toks d c).
  rewrite (app_assoc (frag d _)), (app_assoc [name_tok d (l_name (al_column c))]). apply closed_app_true; [exact CC|now apply closed_extra].
Qed.

(** ** Changes of a column *)
Definition change_toks (d : dialect) (c : alter_column) : list (list tok) :=
  let l := ac_column c in
  (match l_type l with
   | [] => []
   | t => [[W "SET"; W "DATA"; W "TYPE"] ++ frag d t ++
           (if is_empty (l_collation l) then [] else [W "COLLATE"; TName (l_collation l)]) ++
           (if is_empty (ac_using c) then [] else [W "USING"] ++ frag d (ac_using c))]
   end) ++
  (if ac_drop_not_null c then [[W "DROP"; W "NOT"; W "NULL"]] else if l_not_null l then [[W "SET"; W "NOT"; W "NULL"]] else []) ++
  (if ac_drop_default c then [[W "DROP"; W "DEFAULT"]] else if is_empty (l_default l) then [] else [[W "SET"; W "DEFAULT"] ++ frag d (l_default l)]) ++
  (if ac_drop_identity c then [[W "DROP"; W "IDENTITY"] ++ (if ac_drop_identity_if_exists c then [W "IF"; W "EXISTS"] else [])]
   else if is_empty (l_identity l) then [] else [[W "ADD"; W "GENERATED"] ++ frag d (l_identity l)]) ++
  (if ac_drop_expr c then [[W "DROP"; W "EXPRESSION"] ++ (if ac_drop_expr_if_exists c then [W "IF"; W "EXISTS"] else [])] else []).
Definition change_element (d : dialect) (c : alter_column) (e : list tok) : list tok :=
  [W "ALTER"; W "COLUMN"; name_tok d (l_name (ac_column c))] ++ e.
Lemma forall2_if : forall A B0 (R : A -> B0 -> Prop) (b : bool) x y u v, (b = true -> Forall2 R x u) -> (b = false -> Forall2 R y v) -> Forall2 R (if b then x else y) (if b then u else v).
Proof. intros A B0 R [|] x y u v H1 H2; auto. Qed.
Section Changes.
  Context (c : alter_column).
  Hypothesis OK : alter_column_ok DPostgres c.
  Let d := DPostgres.
  Let l := ac_column c.
  Lemma change_texts : Forall2 (fun s ts => tokens d s = Some ts /\ sep_start s) (alter_actions d c) (change_toks d c).
  Proof.
    unfold alter_actions, change_toks. fold l. repeat apply Forall2_app.
    - destruct (l_type l) as [|a t] eqn:T; cbn [is_empty]; [constructor|]. rewrite <- T. constructor; [|constructor]. split; [|reflexivity].
      apply pre_toks; [prelit|]. apply toks_app; [apply (plain_frag _ type_stop), OK| |].
      + apply toks_app.
        * destruct (l_collation l) as [|b co] eqn:CO; [reflexivity|]. cbn [is_empty]. rewrite <- CO.
          pose proof (toks_collation DPostgres (l_collation l)) as TC. cbn [is_postgres] in TC. apply TC; [congruence|]. right. exact (okl_collation _ _ OK).
        * destruct (ac_using c) as [|b u] eqn:U; [reflexivity|]. cbn [is_empty]. rewrite <- U. apply pre_toks; [prelit|]. apply (plain_frag _ comma_stop), OK.
        * destruct (is_empty (ac_using c)); [exact I|reflexivity].
      + destruct (is_empty (l_collation l)); [|reflexivity]. destruct (is_empty (ac_using c)); [exact I|reflexivity].
    - apply forall2_if; intros _; [repeat constructor|]. apply forall2_if; intros _; repeat constructor.
    - apply forall2_if; intros _; [repeat constructor|]. apply forall2_if; intros _; [constructor|]. constructor; [|constructor]. split; [|reflexivity].
      apply pre_toks; [prelit|]. apply (plain_frag _ comma_stop), OK.
    - apply forall2_if; intros _; [constructor; [|constructor]; destruct (ac_drop_identity_if_exists c); split; reflexivity|].
      apply forall2_if; intros _; [constructor|]. constructor; [|constructor]. split; [|reflexivity].
      apply pre_toks; [prelit|]. destruct (okl_identity _ _ OK) as [E|[E|[E|[]]]]; fold l in E; rewrite <- E; vm_compute; reflexivity.
    - apply forall2_if; intros _; [constructor; [|constructor]; destruct (ac_drop_expr_if_exists c); split; reflexivity|constructor].
  Qed.
  Lemma read_changes : read_all read_col_action (change_toks d c) = Some (said_changes d c).
  Proof.
    unfold change_toks, said_changes. fold l. repeat (apply read_all_app; [|]).
    - destruct (l_type l) as [|a t] eqn:T; [reflexivity|]. rewrite <- T. cbn [read_all].
      unfold read_col_action. change (words ["SET"; "DATA"; "TYPE"]%string ([W "SET"; W "DATA"; W "TYPE"] ++ ?x)) with (Some x). cbn match.
      rewrite (until_closed type_word).
      2:{ pose proof (plain_closed _ _ _ (okl_type _ _ OK)) as P. fold l in P. eapply closed_weaken; [|exact P]. intros x X. unfold type_stop. now rewrite X. }
      2:{ destruct (is_empty (l_collation l)); [|reflexivity]. destruct (is_empty (ac_using c)); [exact I|reflexivity]. }
      destruct (l_collation l) as [|b co]; cbn [is_empty app].
      + destruct (ac_using c) as [|b u]; [reflexivity|]. reflexivity.
      + change (words ["COLLATE"]%string (W "COLLATE" :: ?x)) with (Some x). cbn match. cbn [read_name name_of option_map].
        destruct (ac_using c) as [|b0 u]; reflexivity.
    - destruct (ac_drop_not_null c); [reflexivity|]. destruct (l_not_null l); reflexivity.
    - destruct (ac_drop_default c); [reflexivity|]. destruct (l_default l) as [|a t]; reflexivity.
    - destruct (ac_drop_identity c); [destruct (ac_drop_identity_if_exists c); reflexivity|]. destruct (okl_identity _ _ OK) as [E|[E|[E|[]]]]; fold l in E; rewrite <- E; vm_compute; reflexivity.
    - destruct (ac_drop_expr c); [destruct (ac_drop_expr_if_exists c); reflexivity|reflexivity].
  Qed.
  Lemma closed_changes : Forall (fun e => closed comma_stop 0 e = true) (change_toks d c).
  Proof.
    unfold change_toks. fold l. rewrite !Forall_app. split; [|split; [|split; [|split]]].
    - destruct (l_type l) as [|a t] eqn:T; constructor; [|constructor]. rewrite <- T. apply closed_app_true; [reflexivity|].
      apply closed_app_true. { pose proof (plain_closed _ _ _ (okl_type _ _ OK)) as P. fold l in P. eapply closed_weaken; [|exact P]. intros x X. unfold type_stop. change (sym "," x) with (comma_stop x). rewrite X. apply orb_true_r. }
      apply closed_app_true; [apply closed_if; reflexivity|]. apply closed_if; [reflexivity|]. apply closed_cons; [reflexivity..|]. apply plain_closed, OK.
    - destruct (ac_drop_not_null c); [repeat constructor|]. destruct (l_not_null l); repeat constructor.
    - destruct (ac_drop_default c); [repeat constructor|]. destruct (is_empty (l_default l)); constructor; [|constructor]. apply closed_app_true; [reflexivity|]. apply plain_closed, OK.
    - destruct (ac_drop_identity c); [destruct (ac_drop_identity_if_exists c); repeat constructor|]. destruct (okl_identity _ _ OK) as [E|[E|[E|[]]]]; fold l in E; rewrite <- E; [constructor|constructor; [vm_compute; reflexivity|constructor]..].
    - destruct (ac_drop_expr c); [destruct (ac_drop_expr_if_exists c); repeat constructor|constructor].
  Qed.
  Lemma read_change_elements : forall es as_, read_all read_col_action es = Some as_ ->
    read_all read_action (map (change_element d c) es) = Some (map (AAlterColumn (l_name l)) as_).
  Proof.
    induction es as [|e es IH]; intros as_ H; cbn [read_all map] in *.
    - assert (as_ = []) by congruence. now subst.
    - destruct (read_col_action e) as [a|] eqn:E; [|discriminate]. destruct (read_all read_col_action es) as [r|]; [|discriminate].
      assert (as_ = a :: r) by congruence. subst. rewrite (IH r eq_refl).
      assert (R : read_action (change_element d c e) = Some (AAlterColumn (l_name l) a)).
      { unfold read_action, change_element. fold l. cbn [app].
        change (words ["ADD"; "COLUMN"]%string (W "ALTER" :: ?x)) with (@None (list tok)). change (words ["MODIFY"; "COLUMN"]%string (W "ALTER" :: ?x)) with (@None (list tok)).
        change (words ["ALTER"; "COLUMN"]%string (W "ALTER" :: W "COLUMN" :: ?x)) with (Some x). cbn match. rewrite read_name_tok, E. reflexivity. }
      now rewrite R.
  Qed.
  Lemma change_starts : starts d (sep_by (B "
    ,") (map (fun a => emit (B "ALTER COLUMN " ++ quote_identifier d (l_name l) ++ a)) (alter_actions d c))) (commas (map (change_element d c) (change_toks d c))).
  Proof.
    assert (ONE : forall s ts, tokens d s = Some ts /\ sep_start s -> tokens d (B "ALTER COLUMN " ++ quote_identifier d (l_name l) ++ s) = Some (change_element d c ts)).
    { intros s ts [T S]. unfold change_element. change ([W "ALTER"; W "COLUMN"; ?n] ++ ts) with ([W "ALTER"; W "COLUMN"] ++ ([n] ++ ts)).
      apply pre_toks; [prelit|]. apply toks_app; [apply toks_name, OK|exact T|exact S]. }
    destruct change_texts as [|s ts ss tss H F]; [apply writes_starts, writes_ret|]. cbn [map sep_by commas]. apply starts_seq; [now apply starts_emit, ONE|].
    induction F as [|s2 ts2 ss tss H2 F IH]; [apply writes_ret|]. cbn [map seqs flat_map]. apply writes_seq; [|exact IH].
    apply starts_writes; [|apply sepm_seq, sepm_emit; reflexivity]. change (comma :: change_element d c ts2) with ([comma] ++ change_element d c ts2).
    apply opens_starts; [apply opens_emit, (sep_next d)|now apply starts_emit, ONE].
  Qed.
End Changes.
Lemma says_alter_column : forall d c, alter_column_ok d c -> ac_ignore c = false -> alter_column_supported d c -> said_alter_column d c <> [] ->
  exists es, says d (alter_column_sql d c) es (said_alter_column d c).
Proof.
  intros d c OK IG SU NE. unfold alter_column_sql, said_alter_column in *. rewrite IG. destruct SU as [SU|[[-> SU] | ->]]; [congruence| |].
  - pose proof (okl_column _ _ OK eq_refl) as OC. exists [[W "MODIFY"; W "COLUMN"] ++ column_element DMySQL (ac_column c)]. apply says_one.
    + apply opens_starts; [apply opens_emit; prelit|now apply column_toks].
    + split; [discriminate|]. apply closed_app_true; [reflexivity|now apply closed_column].
    + unfold read_action. change (words ["ADD"; "COLUMN"]%string ([W "MODIFY"; W "COLUMN"] ++ ?x)) with (@None (list tok)).
      change (words ["MODIFY"; "COLUMN"]%string ([W "MODIFY"; W "COLUMN"] ++ ?x)) with (Some x). cbn match. now rewrite read_plain_column.
  - exists (map (change_element DPostgres c) (change_toks DPostgres c)). pose proof (read_changes c OK) as RC. constructor.
    + intros Z. apply map_eq_nil in Z. rewrite Z in RC. cbn in RC. apply NE. assert (E : said_changes DPostgres c = []) by congruence. now rewrite E.
    + now apply change_starts.
    + apply Forall_forall. intros e H. apply in_map_iff in H. destruct H as (x & <- & H). split; [discriminate|]. unfold change_element.
      cbn [app]. do 2 (apply closed_cons; [reflexivity..|]). apply closed_name; [apply comma_stop_comma|].
      pose proof (closed_changes c OK) as CC. rewrite Forall_forall in CC. now apply CC.
    + now apply read_change_elements.
Qed.

(** ** DROP COLUMN, DROP CONSTRAINT *)
Definition drop_toks (d : dialect) (what : string) (if_exists : bool) (n : bytes) (cascade : bool) : list tok :=
  [W "DROP"; W what] ++ (if if_exists then [W "IF"; W "EXISTS"] else []) ++ [name_tok d n] ++ (if cascade then [W "CASCADE"] else []).
Lemma drop_starts : forall d what ie n ca, In what ["COLUMN"; "CONSTRAINT"]%string -> good_name d n -> starts d (drop_sql d (B what) ie n ca) (drop_toks d what ie n ca).
Proof.
  intros d what ie n ca IN G. unfold drop_sql, drop_toks.
  apply opens_starts. { apply opens_emit. destruct IN as [<-|[<-|[]]]; (apply pre_end; [discriminate|lit|reflexivity]). }
  apply opens_starts. { apply opens_when. intros _. destruct (is_postgres d); [apply opens_emit; prelit|apply opens_fail]. }
  apply starts_seq; [apply starts_emit, toks_name, G|]. apply writes_when. intros _. destruct (is_postgres d); [apply writes_emit; [lit|reflexivity]|apply writes_fail].
Qed.
Lemma read_drop_toks : forall d (ie : bool) n (ca : bool), read_drop ((if ie then [W "IF"; W "EXISTS"] else []) ++ [name_tok d n] ++ (if ca then [W "CASCADE"] else [])) = Some (ie, n, ca).
Proof.
  intros d ie n ca. unfold read_drop, option_words.
  assert (N : words ["IF"; "EXISTS"]%string (name_tok d n :: (if ca then [W "CASCADE"] else [])) = None) by (cbn [words]; destruct (kw "IF" _), ca; reflexivity).
  assert (D : match read_name (name_tok d n :: (if ca then [W "CASCADE"] else [])) with
    | Some (n0, r) => let (ca0, r0) := match words ["CASCADE"]%string r with Some r1 => (true, r1) | None => (false, r) end in match r0 with [] => Some (ie, n0, ca0) | _ => None end
    | None => None end = Some (ie, n, ca)) by (rewrite read_name_tok; destruct ca; reflexivity).
  destruct ie; cbn [app].
  - change (words ["IF"; "EXISTS"]%string (W "IF" :: W "EXISTS" :: ?x)) with (Some x). cbn match. exact D.
  - rewrite N. exact D.
Qed.
Lemma says_drop : forall d what ie n ca, In what ["COLUMN"; "CONSTRAINT"]%string -> good_name d n ->
  exists e, says d (drop_sql d (B what) ie n ca) [e] [(if String.eqb what "COLUMN" then ADropColumn else ADropConstraint) ie n ca].
Proof.
  intros d what ie n ca IN G. exists (drop_toks d what ie n ca). apply says_one; [now apply drop_starts| |].
  - split; [discriminate|]. unfold drop_toks. apply closed_app_true; [destruct IN as [<-|[<-|[]]]; reflexivity|].
    apply closed_app_true; [apply closed_if; reflexivity|]. apply closed_app_true; [|apply closed_if; reflexivity]. apply closed_name; [apply comma_stop_comma|reflexivity].
  - pose proof (read_drop_toks d ie n ca) as R. unfold read_action, drop_toks. destruct IN as [<-|[<-|[]]].
    + change (words ["ADD"; "COLUMN"]%string ([W "DROP"; W "COLUMN"] ++ ?x)) with (@None (list tok)). change (words ["MODIFY"; "COLUMN"]%string ([W "DROP"; W "COLUMN"] ++ ?x)) with (@None (list tok)).
      change (words ["ALTER"; "COLUMN"]%string ([W "DROP"; W "COLUMN"] ++ ?x)) with (@None (list tok)). change (words ["DROP"; "COLUMN"]%string ([W "DROP"; W "COLUMN"] ++ ?x)) with (Some x). cbn match. now rewrite R.
    + change (words ["ADD"; "COLUMN"]%string ([W "DROP"; W "CONSTRAINT"] ++ ?x)) with (@None (list tok)). change (words ["MODIFY"; "COLUMN"]%string ([W "DROP"; W "CONSTRAINT"] ++ ?x)) with (@None (list tok)).
      change (words ["ALTER"; "COLUMN"]%string ([W "DROP"; W "CONSTRAINT"] ++ ?x)) with (@None (list tok)). change (words ["DROP"; "COLUMN"]%string ([W "DROP"; W "CONSTRAINT"] ++ ?x)) with (@None (list tok)).
      change (words ["DROP"; "CONSTRAINT"]%string ([W "DROP"; W "CONSTRAINT"] ++ ?x)) with (Some x). cbn match. now rewrite R.
Qed.

(** ** ADD CONSTRAINT, ALTER CONSTRAINT *)
(** None of the other actions starts with ADD. *)
Lemma read_add : forall t r, kw "COLUMN" t = false -> read_action (W "ADD" :: t :: r) =
  match read_key_using (t :: r) with
  | Some a => Some a
  | None => match read_index (t :: r) with Some x => Some (AAddIndex x) | None => read_add_constraint (t :: r) end
  end.
Proof. intros t r H. unfold read_action. cbn [words]. change (kw "ADD" (W "ADD")) with true. cbn match. rewrite H. reflexivity. Qed.
Definition named (d : dialect) (k : constraint) : option bytes := if is_mysql d && beqb (c_type k) PRIMARY_KEY then None else Some (c_name k).
Definition name_toks (d : dialect) (nm : option bytes) : list tok := match nm with Some n => [W "CONSTRAINT"; name_tok d n] | None => [] end.
Definition valid_toks (d : dialect) (b : bool) : list tok :=
  if b then match d with DPostgres => [W "NOT"; W "VALID"] | DMySQL => [W "NOT"; W "ENFORCED"] | _ => [] end else [].
Definition add_constraint_toks (d : dialect) (c : add_constraint) : list tok :=
  let k := at_constraint c in
  [W "ADD"] ++ name_toks d (named d k) ++
  (if negb (is_empty (at_index c)) then
     (if beqb (c_type k) PRIMARY_KEY then [W "PRIMARY"; W "KEY"] else [W "UNIQUE"]) ++ [W "USING"; W "INDEX"; name_tok d (at_index c)] ++
     deferrable_toks (c_deferrable k) (c_deferred k)
   else con_toks d k) ++ valid_toks d (at_not_valid c).
Lemma add_constraint_starts : forall d c, add_constraint_ok d c -> at_ignore c = false -> starts d (add_constraint_sql d c) (add_constraint_toks d c).
Proof.
  intros d c [OK OI] IG. unfold add_constraint_sql, add_constraint_toks. rewrite IG. cbn zeta. set (k := at_constraint c) in *.
  destruct (is_sqlite d); [apply starts_fail|]. apply starts_seq; [apply starts_emit; lit|].
  apply writes_seq.
  { unfold named. destruct (is_mysql d && beqb (c_type k) PRIMARY_KEY) eqn:E.
    - assert (Z : negb (is_mysql d) || negb (beqb (c_type k) PRIMARY_KEY) = false) by (destruct (is_mysql d), (beqb (c_type k) PRIMARY_KEY); try discriminate; reflexivity). rewrite Z. apply writes_ret.
    - assert (Z : negb (is_mysql d) || negb (beqb (c_type k) PRIMARY_KEY) = true) by (destruct (is_mysql d), (beqb (c_type k) PRIMARY_KEY); try discriminate; reflexivity). rewrite Z. cbn [when name_toks].
      apply writes_emit; [|reflexivity]. change [W "CONSTRAINT"; ?n] with ([W "CONSTRAINT"] ++ [n]). apply pre_toks; [prelit|apply toks_name, OK]. }
  apply writes_seq.
  { destruct (negb (is_empty (at_index c))).
    - match goal with |- writes d (?g1 ;; ?g2 ;; ?m) ?t => change t with ([] ++ [] ++ t) end.
      apply writes_seq; [destruct (negb (is_postgres d)); [apply writes_fail|apply writes_ret]|].
      destruct (beqb (c_type k) PRIMARY_KEY) eqn:PK; [|destruct (beqb (c_type k) UNIQUE) eqn:UN]; cbn [negb andb when].
      + apply writes_seq; [apply writes_ret|]. apply beqb_eq in PK. rewrite PK. rewrite (app_assoc [W "PRIMARY"; W "KEY"]). apply writes_seq.
        * apply writes_emit; [|reflexivity]. change (B " " ++ PRIMARY_KEY ++ B " USING INDEX " ++ ?q) with (B " PRIMARY KEY USING INDEX " ++ q).
          change ([W "PRIMARY"; W "KEY"] ++ [W "USING"; W "INDEX"; ?n]) with ([W "PRIMARY"; W "KEY"; W "USING"; W "INDEX"] ++ [n]). apply pre_toks; [prelit|apply toks_name, OI].
        * destruct (c_deferrable k); [apply writes_deferrable|apply writes_ret].
      + apply writes_seq; [apply writes_ret|]. apply beqb_eq in UN. rewrite UN. rewrite (app_assoc [W "UNIQUE"]). apply writes_seq.
        * apply writes_emit; [|reflexivity]. change (B " " ++ UNIQUE ++ B " USING INDEX " ++ ?q) with (B " UNIQUE USING INDEX " ++ q).
          change ([W "UNIQUE"] ++ [W "USING"; W "INDEX"; ?n]) with ([W "UNIQUE"; W "USING"; W "INDEX"] ++ [n]). apply pre_toks; [prelit|apply toks_name, OI].
        * destruct (c_deferrable k); [apply writes_deferrable|apply writes_ret].
      + intros s H. apply text_seq in H. destruct H as (x & y & H & _). discriminate.
    - change (con_toks d k) with ([] ++ con_toks d k). apply starts_writes; [|apply sepm_seq, sepm_emit; reflexivity].
      apply opens_starts; [apply opens_emit, pre_blank; reflexivity|now apply def_starts]. }
  unfold valid_toks. destruct (at_not_valid c); [|apply writes_ret]. cbn [when]. destruct d; try apply writes_ret;
    (match goal with |- context [if ?b then fail else _] => destruct b end; [apply writes_fail|apply writes_emit; [lit|reflexivity]]).
Qed.
Lemma follows_valid : forall d b, follows (valid_toks d b).
Proof. intros d [|]; [|now left]. destruct d; try (now left); right; eexists; reflexivity. Qed.
Lemma read_constraint_action : forall d k nm b, constraint_ok d k -> (nm = None -> c_type k = PRIMARY_KEY) ->
  read_action ([W "ADD"] ++ name_toks d nm ++ con_toks d k ++ valid_toks d b) =
    Some (AAddConstraint (mk_table_con nm (said_def d k) (said_deferrable k)) (match d with DPostgres => b | _ => false end) (match d with DMySQL => b | _ => false end)).
Proof.
  intros d k nm b OK NN. pose proof (prefix_reads d k (valid_toks d b) nm OK (follows_valid d b)) as P. fold (name_toks d nm) in P.
  assert (RA : read_add_constraint (name_toks d nm ++ con_toks d k ++ valid_toks d b) =
    Some (AAddConstraint (mk_table_con nm (said_def d k) (said_deferrable k)) (match d with DPostgres => b | _ => false end) (match d with DMySQL => b | _ => false end))).
  { unfold read_add_constraint. rewrite P. unfold valid_toks. destruct b, d; reflexivity. }
  destruct nm as [n|]; cbn [name_toks app] in *.
  - rewrite read_add by reflexivity. unfold read_key_using. change (words ["CONSTRAINT"]%string (W "CONSTRAINT" :: ?x)) with (Some x). cbn match. rewrite read_name_tok.
    assert (KU : match match words ["PRIMARY"; "KEY"]%string (con_toks d k ++ valid_toks d b) with
        | Some r => Some (true, r)
        | None => match words ["UNIQUE"]%string (con_toks d k ++ valid_toks d b) with Some r => Some (false, r) | None => None end
        end with Some (p, r) => match words ["USING"; "INDEX"]%string r with Some r0 => match read_name r0 with Some (x, r1) => match read_deferrable r1 with Some (df, r2) => match r2 with [] => Some (AAddKeyUsing n p x df) | _ :: _ => None end | None => None end | None => None end | None => None end | None => None end = None).
    { unfold con_toks, def_toks, words_in. destruct (okc_type _ _ OK) as [T|[T|[T|[T|[T|[]]]]]]; rewrite <- T; reflexivity. }
    rewrite KU. change (read_index (W "CONSTRAINT" :: ?x)) with (@None index_def). exact RA.
  - specialize (NN eq_refl). assert (HD : exists r', con_toks d k ++ valid_toks d b = W "PRIMARY" :: W "KEY" :: lp :: r').
    { unfold con_toks, def_toks, words_in. rewrite NN. eexists. reflexivity. }
    destruct HD as [r' HD]. rewrite HD in *. rewrite read_add by reflexivity. unfold read_key_using. change (words ["CONSTRAINT"]%string (W "PRIMARY" :: ?x)) with (@None (list tok)). cbn match.
    change (read_index (W "PRIMARY" :: ?x)) with (@None index_def). exact RA.
Qed.
Lemma says_add_constraint : forall d c, add_constraint_ok d c -> at_ignore c = false -> add_constraint_supported d c ->
  exists e, says d (add_constraint_sql d c) [e] [said_add_constraint d c].
Proof.
  intros d c OK IG SU. exists (add_constraint_toks d c). apply says_one; [now apply add_constraint_starts| |].
  - split; [discriminate|]. unfold add_constraint_toks. cbn zeta. apply closed_app_true; [reflexivity|]. apply closed_app_true.
    { unfold name_toks. destruct (named d (at_constraint c)); [|reflexivity]. apply closed_cons; [reflexivity..|]. apply closed_name; [apply comma_stop_comma|reflexivity]. }
    apply closed_app_true; [|destruct d, (at_not_valid c); reflexivity]. apply closed_if; [|apply closed_con, OK].
    apply closed_app_true; [apply closed_if; reflexivity|]. cbn [app]. do 2 (apply closed_cons; [reflexivity..|]). apply closed_name; [apply comma_stop_comma|].
    unfold deferrable_toks. destruct (c_deferrable (at_constraint c)), (c_deferred (at_constraint c)); reflexivity.
  - destruct SU as [SU|(S1 & S2 & S3 & S4)]; [congruence|]. unfold add_constraint_toks, said_add_constraint. cbn zeta. set (k := at_constraint c) in *.
    destruct (at_index c) as [|a x] eqn:AI; cbn [is_empty negb].
    + rewrite read_constraint_action.
      * unfold named. destruct d; cbn [is_mysql andb]; try reflexivity.
      * apply OK.
      * unfold named. destruct (is_mysql d && beqb (c_type k) PRIMARY_KEY) eqn:E; [|discriminate]. intros _. apply andb_true_iff in E. now apply beqb_eq.
    + assert (NE : a :: x <> []) by discriminate. destruct (S2 NE) as [-> TY]. unfold named. cbn [is_mysql andb name_toks app]. rewrite read_add by reflexivity.
      assert (NV : at_not_valid c = false).
      { destruct (at_not_valid c); [|reflexivity]. destruct (S4 eq_refl) as [P _]. destruct (P eq_refl) as [Q|Q], TY as [Q2|Q2]; rewrite Q in Q2; discriminate. }
      rewrite NV. cbn [valid_toks]. rewrite app_nil_r. unfold read_key_using. change (words ["CONSTRAINT"]%string (W "CONSTRAINT" :: ?y)) with (Some y). cbn match. rewrite read_name_tok.
      pose proof (read_deferrable_toks (c_deferrable k) (c_deferred k) [] (or_introl eq_refl)) as RD. rewrite app_nil_r in RD.
      destruct TY as [TY|TY]; rewrite TY.
      * change (beqb PRIMARY_KEY PRIMARY_KEY) with true. cbn match. cbn [app]. change (words ["PRIMARY"; "KEY"]%string (W "PRIMARY" :: W "KEY" :: ?y)) with (Some y). cbn match.
        change (words ["USING"; "INDEX"]%string (W "USING" :: W "INDEX" :: ?y)) with (Some y). cbn match. rewrite read_name_tok, RD. reflexivity.
      * change (beqb UNIQUE PRIMARY_KEY) with false. cbn match. cbn [app]. change (words ["PRIMARY"; "KEY"]%string (W "UNIQUE" :: ?y)) with (@None (list tok)).
        change (words ["UNIQUE"]%string (W "UNIQUE" :: ?y)) with (Some y). cbn match.
        change (words ["USING"; "INDEX"]%string (W "USING" :: W "INDEX" :: ?y)) with (Some y). cbn match. rewrite read_name_tok, RD. reflexivity.
Qed.
Lemma says_alter_constraint : forall d c, good_name d (ak_name c) -> ak_ignore c = false -> ak_alter c = true ->
  exists e, says d (alter_constraint_sql d c) [e] [said_alter_constraint c].
Proof.
  intros d c G IG AL. exists ([W "ALTER"; W "CONSTRAINT"; name_tok d (ak_name c)] ++ (if ak_deferrable c then deferrable_toks true (ak_deferred c) else [W "NOT"; W "DEFERRABLE"])).
  apply says_one.
  - unfold alter_constraint_sql. rewrite IG, AL. cbn [negb]. destruct (is_mysql d); [apply starts_fail|]. destruct (is_sqlite d); [apply starts_fail|].
    apply starts_seq.
    + apply starts_emit. change [W "ALTER"; W "CONSTRAINT"; ?n] with ([W "ALTER"; W "CONSTRAINT"] ++ [n]). apply pre_toks; [prelit|apply toks_name, G].
    + apply writes_if; intros _; [apply writes_deferrable|apply writes_emit; [lit|reflexivity]].
  - split; [discriminate|]. cbn [app]. do 2 (apply closed_cons; [reflexivity..|]). apply closed_name; [apply comma_stop_comma|]. apply closed_if; [unfold deferrable_toks; destruct (ak_deferred c); reflexivity|reflexivity].
  - unfold read_action. cbn [app].
    change (words ["ADD"; "COLUMN"]%string (W "ALTER" :: ?x)) with (@None (list tok)). change (words ["MODIFY"; "COLUMN"]%string (W "ALTER" :: ?x)) with (@None (list tok)).
    change (words ["ALTER"; "COLUMN"]%string (W "ALTER" :: W "CONSTRAINT" :: ?x)) with (@None (list tok)). change (words ["DROP"; "COLUMN"]%string (W "ALTER" :: ?x)) with (@None (list tok)).
    change (words ["DROP"; "CONSTRAINT"]%string (W "ALTER" :: ?x)) with (@None (list tok)). change (words ["ALTER"; "CONSTRAINT"]%string (W "ALTER" :: W "CONSTRAINT" :: ?x)) with (Some x). cbn match.
    rewrite read_name_tok. unfold said_alter_constraint. destruct (ak_deferrable c); [destruct (ak_deferred c); reflexivity|reflexivity].
Qed.

(** ** Indexes (MySQL) *)
Lemma says_add_index : forall c, index_ok DMySQL (ci_index c) -> ci_ignore c = false -> index_supported DMySQL c ->
  exists e, says DMySQL (when (is_mysql DMySQL) (emit (B "ADD ")) ;; create_index_sql DMySQL c) [e] [AAddIndex (said_index DMySQL c)].
Proof.
  intros c OK IG SU. exists ([W "ADD"] ++ index_toks DMySQL c). pose proof (index_reads DMySQL c OK SU) as R. apply says_one.
  - cbn [is_mysql when]. apply opens_starts; [apply opens_emit; prelit|]. exact (create_index_starts DMySQL c OK IG).
  - split; [discriminate|]. apply closed_app_true; [reflexivity|]. apply closed_index; [exact OK|]. destruct SU as (_ & _ & _ & SP & _). destruct (x_predicate (ci_index c)); [reflexivity|].
    assert (NN : a :: b <> []) by discriminate. destruct (SP NN); discriminate.
  - cbn [app]. destruct (index_toks DMySQL c) as [|t r] eqn:E; [discriminate R|].
    assert (K : kw "COLUMN" t = false /\ kw "CONSTRAINT" t = false).
    { revert E. unfold index_toks. cbn [is_mysql andb]. destruct (special_type (x_type (ci_index c))) eqn:SP.
      - intros E. injection E as <- <-. unfold special_type in SP. cbn [kw]. apply orb_true_iff in SP. destruct SP as [SP|SP]; apply beqb_eq in SP; rewrite SP; split; reflexivity.
      - destruct (x_unique (ci_index c)); intros E; injection E as <- <-; split; reflexivity. }
    destruct K as [K1 K2]. rewrite read_add by exact K1. unfold read_key_using.
    assert (KW : words ["CONSTRAINT"]%string (t :: r) = None) by (cbn [words]; now rewrite K2). rewrite KW, R. reflexivity.
Qed.
Lemma says_drop_index : forall c, good_name DMySQL (dx_name c) -> dx_ignore c = false ->
  dx_concurrently c = false -> dx_if_exists c = false -> dx_cascade c = false ->
  exists e, says DMySQL (drop_index_sql DMySQL c) [e] [ADropIndex (dx_name c)].
Proof.
  intros c G IG C1 C2 C3. exists [W "DROP"; W "INDEX"; name_tok DMySQL (dx_name c)]. apply says_one.
  - unfold drop_index_sql. rewrite IG, C1, C2, C3. cbn [when is_mysql]. change [W "DROP"; W "INDEX"; ?n] with ([W "DROP"; W "INDEX"] ++ [] ++ [] ++ [n] ++ []).
    apply opens_starts; [apply opens_emit; prelit|]. apply opens_starts; [apply opens_ret|]. apply opens_starts; [apply opens_ret|].
    apply starts_seq; [|apply writes_ret]. apply starts_emit. unfold qualified. cbn [is_empty app]. now apply toks_name.
  - split; [discriminate|]. do 2 (apply closed_cons; [reflexivity..|]). apply closed_name; [apply comma_stop_comma|reflexivity].
  - unfold read_action. change (words ["ADD"; "COLUMN"]%string (W "DROP" :: ?x)) with (@None (list tok)). change (words ["MODIFY"; "COLUMN"]%string (W "DROP" :: ?x)) with (@None (list tok)).
    change (words ["ALTER"; "COLUMN"]%string (W "DROP" :: ?x)) with (@None (list tok)). change (words ["DROP"; "COLUMN"]%string (W "DROP" :: W "INDEX" :: ?x)) with (@None (list tok)).
    change (words ["DROP"; "CONSTRAINT"]%string (W "DROP" :: W "INDEX" :: ?x)) with (@None (list tok)). change (words ["ALTER"; "CONSTRAINT"]%string (W "DROP" :: ?x)) with (@None (list tok)).
    change (words ["DROP"; "INDEX"]%string (W "DROP" :: W "INDEX" :: ?x)) with (Some x). cbn match. now rewrite name_tok_name.
Qed.

(** ** ALTER TABLE *)
Lemma name_not_if : forall d (b : bool) s n r, option_words ["IF"; "EXISTS"]%string ((if b then [W "IF"; W "EXISTS"] else []) ++ qual_toks d s n ++ r) =
  (b, qual_toks d s n ++ r) \/ (b = false /\ s = [] /\ match r with t :: _ => kw "EXISTS" t = true | [] => False end).
Proof.
  intros d [|] s n r; [left; reflexivity|]. cbn [app]. unfold option_words, qual_toks. destruct s as [|a s]; cbn [is_empty app words].
  - destruct (kw "IF" (name_tok d n)); [|now left]. destruct r as [|t r]; [now left|]. destruct (kw "EXISTS" t) eqn:E; [|now left]. right. auto.
  - left. destruct (kw "IF" _); reflexivity.
Qed.
Lemma alter_table_reads : forall d a s, alter_table_ok d a -> alter_table_supported d a -> a_ignore a = false -> text_of (alter_table_sql d a) = Some s ->
  exists ts, tokens d s = Some ts /\ read_alter_table ts = Some (said_alter d a).
Proof.
  intros d a s OK (S1 & S2 & S3 & S4 & S5 & S6 & S7 & S8 & S9 & S10 & S11) IG.
  assert (PS : parts_say d
      (map (add_column_sql d) (a_add_columns a)
       ++ map (alter_column_sql d) (a_alter_columns a)
       ++ map (drop_column_sql d) (a_drop_columns a)
       ++ map (drop_constraint_sql d) (a_drop_constraints a)
       ++ map (add_constraint_sql d) (a_add_constraints a)
       ++ map (alter_constraint_sql d) (a_alter_constraints a)
       ++ map (fun x => when (is_mysql d) (emit (B "ADD ")) ;; create_index_sql d x) (a_create_indexes a)
       ++ map (drop_index_sql d) (a_drop_indexes a)) (ad_actions (said_alter d a))).
  { unfold said_alter. cbn [ad_actions]. repeat apply parts_app.
    - apply parts_map. intros c C. destruct (oke_add_columns _ _ OK c C) as [I1 I2]. apply says_add_column; auto. destruct (S4 c C) as [Z|[Z _]]; [congruence|exact Z].
    - apply parts_flat. intros c C. destruct (oke_alter_columns _ _ OK c C) as (I1 & I2 & I3). apply says_alter_column; auto.
    - apply parts_map. intros c C. destruct (oke_drop_columns _ _ OK c C) as [I1 I2]. unfold drop_column_sql. rewrite I1. apply (says_drop d "COLUMN"); [now left|exact I2].
    - apply parts_map. intros c C. destruct (oke_drop_constraints _ _ OK c C) as [I1 I2]. unfold drop_constraint_sql. rewrite I1. destruct (S7 c C) as [Z|[Z _]]; [congruence|].
      destruct d; cbn [is_sqlite]; try congruence; (apply (says_drop _ "CONSTRAINT"); [right; now left|exact I2]).
    - apply parts_map. intros c C. destruct (oke_add_constraints _ _ OK c C) as [I1 I2]. apply says_add_constraint; auto.
    - apply parts_map. intros c C. destruct (oke_alter_constraints _ _ OK c C) as (I1 & I2 & I3). now apply says_alter_constraint.
    - apply parts_map. intros c C. destruct (oke_create_indexes _ _ OK c C) as (-> & I1 & I2). destruct (S10 c C) as [Z|Z]; [congruence|]. now apply says_add_index.
    - apply parts_map. intros c C. destruct (oke_drop_indexes _ _ OK c C) as (-> & I1 & I2). destruct (S11 c C) as [Z|(Z1 & Z2 & Z3)]; [congruence|]. now apply says_drop_index. }
  destruct PS as (ess & aas & F & L & E). destruct (says_all _ _ _ _ F L) as (TK & EO & RD).
  set (ts := [W "ALTER"; W "TABLE"] ++ (if a_if_exists a then [W "IF"; W "EXISTS"] else []) ++ qual_toks d (a_schema a) (a_table a) ++ commas (concat ess)).
  intros T. exists ts. split.
  - revert s T. unfold alter_table_sql. rewrite IG. cbn zeta. unfold ts.
    apply opens_starts; [apply opens_emit; prelit|].
    apply opens_starts; [apply opens_when; intros _; destruct (is_postgres d); [apply opens_emit; prelit|apply opens_fail]|].
    apply starts_seq; [apply starts_emit, toks_qualified; apply OK|].
    change (commas (concat ess)) with ([] ++ [] ++ commas (concat ess)). rewrite <- (app_nil_r (commas (concat ess))).
    apply writes_seq; [destruct (_ && _); [apply writes_fail|apply writes_ret]|]. apply writes_seq; [destruct (_ && _); [apply writes_fail|apply writes_ret]|].
    apply writes_seq; [exact TK|]. apply writes_emit; [lit|reflexivity].
  - unfold read_alter_table, ts. change (words ["ALTER"; "TABLE"]%string ([W "ALTER"; W "TABLE"] ++ ?x)) with (Some x). cbn match.
    assert (HD : forall t r, commas (concat ess) = t :: r -> kw "EXISTS" t = false /\ sym "." t = false).
    { intros t r H. destruct (concat ess) as [|e es]; [discriminate|]. cbn [read_all] in RD. destruct (read_action e) as [x|] eqn:RE; [|discriminate].
      destruct e as [|t' e]; [discriminate|]. cbn [commas app] in H. injection H as -> _.
      destruct t as [w|n0|s0|ch]; try (exfalso; discriminate RE). split; [|reflexivity]. destruct (kw "EXISTS" (TWord w)) eqn:K; [|reflexivity]. exfalso.
      unfold read_action in RE. cbn [kw words] in K, RE. apply beqb_eq in K. rewrite K in RE. discriminate RE. }
    assert (Q : match commas (concat ess) with t :: _ => sym "." t = false | [] => True end).
    { destruct (commas (concat ess)) as [|t r] eqn:CE; [exact I|]. now apply (HD t r). }
    destruct (name_not_if d (a_if_exists a) (a_schema a) (a_table a) (commas (concat ess))) as [N|(N1 & N2 & N3)].
    + rewrite N. rewrite read_qual_toks by exact Q. rewrite elements_commas by exact EO. rewrite RD. unfold said_alter. cbn [ad_actions] in E. unfold said_alter in E. cbn [ad_actions] in E. now rewrite E.
    + exfalso. destruct (commas (concat ess)) as [|t r] eqn:CE; [exact N3|]. destruct (HD t r eq_refl). congruence.
Qed.
