(** * DdlConstraint: constraints read back *)
From Coq Require Import Lia.
From Verif Require Import GoBase GoBaseFacts QuoteModel SpecLex SpecIdent SpecSql EffectModel SpecText QuoteFacts QuotePf SqlFacts
  CacheModel UpsertModel DdlModel SpecDdl DdlToks DdlRead.
Local Open Scope m_scope.

(** ** Tokens *)
Lemma pre_comma : forall d, pre d (B ", ") [comma].
Proof.
  intros d. change (B ", ") with ([","%char] ++ [" "%char]). change [comma] with ([comma] ++ []).
  apply pre_app; [apply pre_sym; cbn; tauto|apply pre_blank; reflexivity].
Qed.
Lemma toks_join : forall d ss, Forall (fun s => tokens d s = Some (frag d s)) ss -> tokens d (join (B ", ") ss) = Some (commas (map (frag d) ss)).
Proof.
  intros d. induction 1 as [|s ss S H IH]; [reflexivity|]. destruct ss as [|s2 ss].
  - cbn [join map commas flat_map]. now rewrite app_nil_r.
  - change (join (B ", ") (s :: s2 :: ss)) with (s ++ (B ", " ++ join (B ", ") (s2 :: ss))).
    change (commas (map (frag d) (s :: s2 :: ss))) with (frag d s ++ ([comma] ++ commas (map (frag d) (s2 :: ss)))).
    apply toks_app; [exact S| |reflexivity]. apply pre_toks; [apply pre_comma|exact IH].
Qed.
Lemma frag_word : forall d n, plain_word d n -> frag d n = [TWord n].
Proof. intros d n H. unfold frag. red in H. now rewrite H. Qed.
Lemma toks_words : forall d ns, Forall (plain_word d) ns -> tokens d (join (B ", ") ns) = Some (commas (map (fun n => [TWord n]) ns)).
Proof.
  intros d ns H. rewrite toks_join.
  - f_equal. f_equal. apply map_ext_in. intros n I. apply frag_word. rewrite Forall_forall in H. now apply H.
  - eapply Forall_impl; [|exact H]. intros n P. rewrite (frag_word _ _ P). exact P.
Qed.

Definition deferrable_toks (deferrable deferred : bool) : list tok :=
  if deferrable then [W "DEFERRABLE"; W "INITIALLY"; if deferred then W "DEFERRED" else W "IMMEDIATE"] else [].
Definition words_in (ns : list bytes) : list tok := lp :: commas (map (fun n => [TWord n]) ns) ++ [rp].
Definition excl_element (d : dialect) (c : constraint) (i : nat) : list tok :=
  frag d (part_text (c_columns c) (c_exprs c) i) ++ W "WITH" :: frag d (nth i (c_operators c) []).
Definition def_toks (d : dialect) (c : constraint) : list tok :=
  if beqb (c_type c) CHECK then [W "CHECK"; lp] ++ frag d (c_check c) ++ [rp]
  else if beqb (c_type c) FOREIGN_KEY then
    [W "FOREIGN"; W "KEY"] ++ words_in (c_columns c) ++ [W "REFERENCES"] ++
    (if negb (is_empty (c_ref_schema c)) then [TWord (c_ref_schema c); dot] else []) ++ [TWord (c_ref_table c)] ++
    (if match c_ref_columns c with [] => false | _ => true end then words_in (c_ref_columns c) else []) ++
    (if negb (is_empty (c_match c)) then frag d (c_match c) else []) ++
    (if negb (is_empty (c_update c)) then [W "ON"; W "UPDATE"] ++ frag d (c_update c) else []) ++
    (if negb (is_empty (c_delete c)) then [W "ON"; W "DELETE"] ++ frag d (c_delete c) else [])
  else if beqb (c_type c) EXCLUDE then
    [W "EXCLUDE"; W "USING"; TWord (c_index_type c)] ++ [lp] ++
    commas (map (excl_element d c) (List.seq 0 (length (c_columns c)))) ++ [rp] ++
    (if negb (is_empty (c_predicate c)) then [W "WHERE"; lp] ++ frag d (c_predicate c) ++ [rp] else [])
  else (if beqb (c_type c) PRIMARY_KEY then [W "PRIMARY"; W "KEY"] else [W "UNIQUE"]) ++ words_in (c_columns c).
Definition con_toks (d : dialect) (c : constraint) : list tok :=
  def_toks d c ++ deferrable_toks (c_deferrable c) (c_deferred c).

Lemma writes_deferrable : forall d b, writes d (emit (deferrable_text b)) (deferrable_toks true b).
Proof. intros d b. apply writes_emit; [destruct b; lit|destruct b; reflexivity]. Qed.
Lemma toks_words_in : forall d ns, Forall (plain_word d) ns -> tokens d (B " (" ++ join (B ", ") ns ++ B ")") = Some (words_in ns).
Proof.
  intros d ns H. unfold words_in. apply (pre_toks d (B " (") [lp]).
  - apply (pre_end_sym d _ [] "("%char); [discriminate|lit|reflexivity|cbn; tauto].
  - apply toks_app; [now apply toks_words|lit|reflexivity].
Qed.
Lemma group_toks : forall d (l : bytes) t s stop, pre d l (t ++ [lp]) -> plain_sql d stop s -> tokens d (l ++ s ++ B ")") = Some ((t ++ [lp]) ++ frag d s ++ [rp]).
Proof.
  intros d l t s stop P Q. apply pre_toks; [exact P|]. apply toks_app; [now apply (plain_frag _ stop)|lit|reflexivity].
Qed.
Ltac lpre t := apply (pre_end_sym _ _ t "("%char); [discriminate|lit|reflexivity|cbn; tauto].

Lemma skipn_next : forall A (l : list A) i x r, skipn i l = x :: r -> nth_error l i = Some x /\ skipn (S i) l = r /\ i < length l.
Proof.
  intros A. induction l as [|y l IH]; intros [|i] x r H; cbn in H; try discriminate.
  - assert (y = x /\ l = r) as [-> ->] by (split; congruence). split; [reflexivity|]. split; [reflexivity|cbn; lia].
  - destruct (IH _ _ _ H) as (A1 & A2 & A3). split; [exact A1|]. split; [exact A2|cbn; lia].
Qed.
Section Exclusion.
  Context (d : dialect) (c : constraint).
  Hypothesis OK : forall i, i < length (c_columns c) ->
    plain_sql d with_stop (part_text (c_columns c) (c_exprs c) i) /\ plain_sql d comma_stop (nth i (c_operators c) []).
  Lemma starts_body : forall i n, skipn i (c_columns c) <> [] -> nth_error (c_columns c) i = Some n ->
    forall k t, writes d k t ->
    starts d ((if negb (is_empty n) then emit n
       else match nth_error (c_exprs c) i with None => crash | Some e => if is_empty e then fail else emit e end) ;;
      emit (B " WITH ") ;;
      (match nth_error (c_operators c) i with None => crash | Some o => if is_empty o then fail else emit o end) ;; k) (excl_element d c i ++ t).
  Proof.
    intros i n NE N k t K.
    assert (L : i < length (c_columns c)) by (apply nth_error_Some; congruence).
    destruct (OK i L) as [P1 P2]. unfold excl_element. rewrite <- app_assoc.
    intros s H. apply text_seq in H. destruct H as (s1 & r1 & H1 & H & ->). apply text_seq in H. destruct H as (s2 & r2 & H2 & H & ->).
    apply text_seq in H. destruct H as (s3 & s4 & H3 & H4 & ->). apply text_emit in H2. subst s2. destruct (K _ H4) as [T4 S4].
    assert (E1 : s1 = part_text (c_columns c) (c_exprs c) i).
    { unfold part_text. rewrite (nth_error_nth _ _ _ N). destruct n as [|a n]; cbn [is_empty negb] in H1.
      - destruct (nth_error (c_exprs c) i) as [e|] eqn:E; [|discriminate]. rewrite (nth_error_nth _ _ _ E). destruct e; [discriminate|]. now apply text_emit in H1.
      - now apply text_emit in H1. }
    assert (E3 : s3 = nth i (c_operators c) []).
    { destruct (nth_error (c_operators c) i) as [o|] eqn:E; [|discriminate]. rewrite (nth_error_nth _ _ _ E). destruct o; [discriminate|]. now apply text_emit in H3. }
    subst s1 s3. apply toks_app; [now apply (plain_frag _ with_stop)| |reflexivity].
    change ((W "WITH" :: ?x) ++ t) with ([W "WITH"] ++ (x ++ t)). apply pre_toks; [prelit|]. apply toks_app; [now apply (plain_frag _ comma_stop)|exact T4|exact S4].
  Qed.
  Lemma writes_rest : forall cols i, skipn i (c_columns c) = cols -> 0 < i ->
    writes d (exclusion_elements i cols (c_exprs c) (c_operators c)) (flat_map (cons comma) (map (excl_element d c) (List.seq i (length cols)))).
  Proof.
    induction cols as [|n cols IH]; intros i E P; cbn [exclusion_elements length List.seq map flat_map]; [apply writes_ret|].
    destruct (skipn_next _ _ _ _ _ E) as (N & E2 & L). assert (NZ : Nat.ltb 0 i = true) by (apply Nat.ltb_lt; lia). rewrite NZ. cbn [when].
    apply starts_writes; [|apply sepm_seq, sepm_emit; reflexivity]. change ((comma :: ?x) ++ ?y) with ([comma] ++ (x ++ y)).
    apply opens_starts; [apply opens_emit, pre_comma|]. apply starts_body; [congruence|exact N|]. apply IH; [exact E2|lia].
  Qed.
  Lemma exclusion_toks : starts d (exclusion_elements 0 (c_columns c) (c_exprs c) (c_operators c)) (commas (map (excl_element d c) (List.seq 0 (length (c_columns c))))).
  Proof.
    remember (c_columns c) as cs eqn:E in |- *. destruct cs as [|n cols]; [apply writes_starts, writes_ret|]. cbn [exclusion_elements]. cbn [Nat.ltb Nat.leb when].
    change (List.seq 0 (length (n :: cols))) with (0 :: List.seq 1 (length cols)). cbn [map commas].
    change (excl_element d c 0 ++ ?r) with ([] ++ excl_element d c 0 ++ r). apply opens_starts; [apply opens_ret|].
    apply starts_body; [rewrite <- E; discriminate|rewrite <- E; reflexivity|]. apply writes_rest; [rewrite <- E; reflexivity|lia].
  Qed.
End Exclusion.

Lemma type_cases : forall c d, constraint_ok d c -> c_type c = CHECK \/ c_type c = UNIQUE \/ c_type c = PRIMARY_KEY \/ c_type c = FOREIGN_KEY \/ c_type c = EXCLUDE.
Proof. intros c d H. destruct (okc_type _ _ H) as [E|[E|[E|[E|[E|[]]]]]]; rewrite <- E; tauto. Qed.
Lemma pre_word_dot : forall d w, plain_word d w -> pre d (w ++ B ".") [TWord w; dot].
Proof. intros d w H. apply (pre_lit d w [TWord w] "."%char [dot]); [exact H|reflexivity|]. apply pre_sym. cbn; tauto. Qed.
Lemma starts_word : forall d w, plain_word d w -> starts d (emit w) [TWord w].
Proof. intros d w H. apply starts_emit. exact H. Qed.
Lemma writes_clause : forall d (l : bytes) t s stop, (l <> [])%list -> sep_start l -> pre d l t -> plain_sql d stop s -> writes d (emit (l ++ s)) (t ++ frag d s).
Proof. intros d l t s stop NE S P Q. apply writes_emit; [apply pre_toks; [exact P|now apply (plain_frag _ stop)]|]. destruct l; [congruence|exact S]. Qed.

Lemma def_starts : forall d c, constraint_ok d c -> starts d (constraint_definition d c) (con_toks d c).
Proof.
  intros d c OK. unfold constraint_definition, con_toks. apply starts_seq.
  2:{ destruct (c_deferrable c); [|apply writes_ret]. unfold when.
      change (deferrable_toks true (c_deferred c)) with ([] ++ deferrable_toks true (c_deferred c)). apply writes_seq; [|apply writes_deferrable].
      destruct d; try apply writes_fail; match goal with |- context [if ?b then _ else _] => destruct b end; (apply writes_fail || apply writes_ret). }
  destruct OK as [ON OTY OCH OCO ORS ORT ORC [OM OM2] OU OD OME OEX OP]. unfold def_toks.
  destruct (beqb (c_type c) CHECK) eqn:T1.
  { apply starts_emit. apply (group_toks d _ [W "CHECK"] _ no_stop); [lpre [W "CHECK"]|exact OCH]. }
  destruct (beqb (c_type c) FOREIGN_KEY) eqn:T2.
  { apply beqb_eq in T2. assert (NX : c_type c <> EXCLUDE) by (rewrite T2; discriminate). specialize (OCO NX). specialize (ORT T2).
    rewrite (app_assoc (words_in _)), (app_assoc [W "FOREIGN"; W "KEY"]).
    apply opens_starts.
    { apply opens_emit.
      replace (B "FOREIGN KEY (" ++ join (B ", ") (c_columns c) ++ B ") REFERENCES ") with ((B "FOREIGN KEY" ++ (B " (" ++ join (B ", ") (c_columns c) ++ B ")")) ++ B " REFERENCES ").
      2:{ rewrite <- !app_assoc. reflexivity. }
      rewrite (app_assoc [W "FOREIGN"; W "KEY"]). apply toks_pre; [|prelit|reflexivity|discriminate].
      apply toks_app; [lit|now apply toks_words_in|reflexivity]. }
    apply opens_starts.
    { apply opens_when. intros E. apply opens_emit, pre_word_dot. destruct ORS as [Z|Z]; [rewrite Z in E; discriminate|exact Z]. }
    apply starts_seq; [now apply starts_word|].
    apply writes_seq.
    { apply writes_when. intros _. apply writes_emit; [now apply toks_words_in|reflexivity]. }
    apply writes_seq.
    { apply writes_when. intros _. change (frag d (c_match c)) with ([] ++ frag d (c_match c)). apply (writes_clause d _ _ _ rule_stop); [discriminate|reflexivity|prelit|exact OM]. }
    apply writes_seq; (apply writes_when; intros _; eapply (writes_clause d _ _ _ rule_stop); [discriminate|reflexivity|prelit|assumption]). }
  destruct (beqb (c_type c) EXCLUDE) eqn:T3.
  { apply beqb_eq in T3. specialize (OEX T3).
    change ([W "EXCLUDE"; W "USING"; TWord (c_index_type c)] ++ ?r) with ([] ++ [] ++ [W "EXCLUDE"; W "USING"; TWord (c_index_type c)] ++ r).
    apply opens_starts; [destruct (negb _); [apply opens_fail|apply opens_ret]|].
    destruct (is_empty (c_index_type c)) eqn:IT.
    { intros s H. apply text_seq in H. destruct H as (x & y & H & _). discriminate. }
    apply opens_starts; [apply opens_ret|].
    assert (PW : plain_word d (c_index_type c)) by (destruct OME as [Z|Z]; [rewrite Z in IT; discriminate|exact Z]).
    apply starts_seq.
    { apply starts_emit. apply (pre_toks d (B "EXCLUDE USING ") [W "EXCLUDE"; W "USING"]); [prelit|exact PW]. }
    apply starts_writes; [|apply sepm_seq, sepm_emit; reflexivity].
    apply opens_starts; [apply opens_emit; lpre (@nil tok)|]. apply starts_seq; [now apply exclusion_toks|].
    apply writes_seq; [apply writes_emit; [lit|reflexivity]|]. apply writes_when. intros _. apply writes_emit; [|reflexivity].
    apply (group_toks d (B " WHERE (") [W "WHERE"] _ no_stop); [lpre [W "WHERE"]|exact OP]. }
  assert (T : tokens d (c_type c) = Some (if beqb (c_type c) PRIMARY_KEY then [W "PRIMARY"; W "KEY"] else [W "UNIQUE"])).
  { destruct OTY as [E|[E|[E|[E|[E|[]]]]]]; rewrite <- E in *; try discriminate; lit. }
  apply starts_emit. rewrite app_assoc. assert (NX : c_type c <> EXCLUDE) by (intros Z; rewrite Z in T3; discriminate).
  rewrite <- app_assoc. apply toks_app; [exact T|apply toks_words_in; auto|reflexivity].
Qed.

(** ** Reading *)
Definition no_sym (ts : list tok) : Prop := match ts with TSym _ :: _ => False | _ => True end.
Lemma no_sym_group : forall ts, no_sym ts -> read_group ts = None.
Proof. intros [|[w|n|s|c] ts] H; try reflexivity. destruct H. Qed.
Lemma no_sym_app : forall a b, no_sym a -> no_sym b -> no_sym (a ++ b).
Proof. intros [|t a] b A B0; [exact B0|exact A]. Qed.
Lemma read_words_in : forall ns r, read_group (words_in ns ++ r) = Some (commas (map (fun n => [TWord n]) ns), r).
Proof.
  intros ns r. unfold words_in. cbn [app]. rewrite <- app_assoc. cbn [app]. apply (read_group_closed no_stop). apply closed_words.
Qed.
Lemma read_deferrable_toks : forall b1 b2 r, (r = [] \/ exists t, r = W "NOT" :: t) ->
  read_deferrable (deferrable_toks b1 b2 ++ r) = Some (if b1 then Some b2 else None, r).
Proof. intros [|] [|] r H; try reflexivity; destruct H as [->|(t & ->)]; reflexivity. Qed.
Lemma stops_deferrable : forall b1 b2 r, (r = [] \/ exists t, r = W "NOT" :: t) -> stops rule_word (deferrable_toks b1 b2 ++ r).
Proof. intros [|] b2 r H; [reflexivity|]. destruct H as [->|(t & ->)]; [exact I|reflexivity]. Qed.
Lemma no_sym_deferrable : forall b1 b2 r, (r = [] \/ exists t, r = W "NOT" :: t) -> no_sym (deferrable_toks b1 b2 ++ r).
Proof. intros [|] b2 r H; [exact I|]. destruct H as [->|(t & ->)]; exact I. Qed.
Lemma read_rule_there : forall w e r, closed rule_word 0 e = true -> stops rule_word r -> kw w (W w) = true ->
  read_rule w ([W "ON"; W w] ++ e ++ r) = (e, r).
Proof. intros w e r C S K. unfold read_rule. cbn [app words]. change (kw "ON" (W "ON")) with true. cbn match. rewrite K. now apply until_closed. Qed.
Lemma read_exclusion_elem : forall d c i, plain_sql d with_stop (part_text (c_columns c) (c_exprs c) i) ->
  read_exclusion (excl_element d c i) = Some (frag d (part_text (c_columns c) (c_exprs c) i), frag d (nth i (c_operators c) [])).
Proof.
  intros d c i P. unfold read_exclusion, excl_element. rewrite (until_closed (kw "WITH")); [reflexivity| |reflexivity].
  apply plain_closed in P. eapply closed_weaken; [|exact P]. intros t T. unfold with_stop. now rewrite T.
Qed.
Lemma closed_exclusion : forall d c i, plain_sql d with_stop (part_text (c_columns c) (c_exprs c) i) -> plain_sql d comma_stop (nth i (c_operators c) []) ->
  closed comma_stop 0 (excl_element d c i) = true.
Proof.
  intros d c i P Q. unfold excl_element. apply closed_app_true.
  - apply plain_closed in P. eapply closed_weaken; [|exact P]. intros t T. unfold with_stop. change (comma_stop t) with (sym "," t) in T. rewrite T. apply orb_true_r.
  - apply closed_cons; try reflexivity. now apply plain_closed.
Qed.
Definition follows (r : list tok) : Prop := r = [] \/ exists t, r = W "NOT" :: t.
Lemma def_reads : forall d c r, constraint_ok d c -> follows r ->
  let rest := deferrable_toks (c_deferrable c) (c_deferred c) ++ r in
  read_constraint_def (def_toks d c ++ rest) = Some (said_def d c, rest).
Proof.
  intros d c r OK FO rest. pose proof (stops_deferrable (c_deferrable c) (c_deferred c) r FO) as SR. pose proof (no_sym_deferrable (c_deferrable c) (c_deferred c) r FO) as NR.
  fold rest in SR, NR.
  destruct OK as [ON OTY OCH OCO ORS ORT ORC [OM OM2] OU OD OME OEX OP].
  assert (RW : forall s, plain_sql d rule_stop s -> closed rule_word 0 (frag d s) = true).
  { intros s P. apply plain_closed in P. eapply closed_weaken; [|exact P]. intros t T. unfold rule_stop. now rewrite T. }
  destruct OTY as [E|[E|[E|[E|[E|[]]]]]]; unfold def_toks, said_def; rewrite <- E in *.
  - change (beqb CHECK CHECK) with true. cbn match. cbn [app]. rewrite <- app_assoc. cbn [app].
    unfold read_constraint_def. change (words ["CHECK"]%string (W "CHECK" :: ?x)) with (Some x). cbn match.
    now rewrite (read_group_closed no_stop _ _ (plain_closed _ _ _ OCH)).
  - change (beqb UNIQUE CHECK) with false. change (beqb UNIQUE FOREIGN_KEY) with false. change (beqb UNIQUE EXCLUDE) with false. change (beqb UNIQUE PRIMARY_KEY) with false.
    change (beqb UNIQUE UNIQUE) with true. cbn match. rewrite <- app_assoc. cbn [app]. unfold read_constraint_def.
    change (words ["CHECK"]%string (W "UNIQUE" :: ?x)) with (@None (list tok)). change (words ["UNIQUE"]%string (W "UNIQUE" :: ?x)) with (Some x). cbn match.
    now rewrite read_words_in, read_names_words.
  - change (beqb PRIMARY_KEY CHECK) with false. change (beqb PRIMARY_KEY FOREIGN_KEY) with false. change (beqb PRIMARY_KEY EXCLUDE) with false. change (beqb PRIMARY_KEY PRIMARY_KEY) with true.
    change (beqb PRIMARY_KEY UNIQUE) with false. cbn match. rewrite <- app_assoc. cbn [app]. unfold read_constraint_def.
    change (words ["CHECK"]%string (W "PRIMARY" :: ?x)) with (@None (list tok)). change (words ["UNIQUE"]%string (W "PRIMARY" :: ?x)) with (@None (list tok)).
    change (words ["PRIMARY"; "KEY"]%string (W "PRIMARY" :: W "KEY" :: ?x)) with (Some x). cbn match.
    now rewrite read_words_in, read_names_words.
  - change (beqb FOREIGN_KEY CHECK) with false. change (beqb FOREIGN_KEY UNIQUE) with false. change (beqb FOREIGN_KEY PRIMARY_KEY) with false. change (beqb FOREIGN_KEY FOREIGN_KEY) with true.
    cbn match. rewrite <- !app_assoc. cbn [app]. unfold read_constraint_def.
    change (words ["CHECK"]%string (W "FOREIGN" :: ?x)) with (@None (list tok)). change (words ["UNIQUE"]%string (W "FOREIGN" :: ?x)) with (@None (list tok)).
    change (words ["PRIMARY"; "KEY"]%string (W "FOREIGN" :: ?x)) with (@None (list tok)). change (words ["FOREIGN"; "KEY"]%string (W "FOREIGN" :: W "KEY" :: ?x)) with (Some x). cbn match.
    rewrite read_words_in, read_names_words. change (words ["REFERENCES"]%string (W "REFERENCES" :: ?x)) with (Some x). cbn match.
    set (dl := (if negb (is_empty (c_delete c)) then W "ON" :: W "DELETE" :: frag d (c_delete c) else []) ++ rest).
    set (up := (if negb (is_empty (c_update c)) then W "ON" :: W "UPDATE" :: frag d (c_update c) else []) ++ dl).
    set (mt := (if negb (is_empty (c_match c)) then frag d (c_match c) else []) ++ up).
    set (rc := (if match c_ref_columns c with [] => false | _ => true end then words_in (c_ref_columns c) else []) ++ mt).
    assert (Sdl : stops rule_word dl) by (apply stops_app; [destruct (is_empty (c_delete c)); [exact I|reflexivity]|exact SR]).
    assert (Sup : stops rule_word up) by (apply stops_app; [destruct (is_empty (c_update c)); [exact I|reflexivity]|exact Sdl]).
    assert (Ndl : no_sym dl) by (apply no_sym_app; [destruct (is_empty (c_delete c)); exact I|exact NR]).
    assert (Nup : no_sym up) by (apply no_sym_app; [destruct (is_empty (c_update c)); exact I|exact Ndl]).
    assert (Nmt : no_sym mt) by (apply no_sym_app; [destruct (is_empty (c_match c)); [exact I|exact OM2]|exact Nup]).
    assert (Q : read_qualified ((if negb (is_empty (c_ref_schema c)) then [TWord (c_ref_schema c); dot] else []) ++ TWord (c_ref_table c) :: rc) = Some (c_ref_schema c, c_ref_table c, rc)).
    { destruct (c_ref_schema c) as [|a b]; cbn [is_empty negb app]; [|reflexivity]. unfold read_qualified. cbn [read_name name_of option_map].
      destruct rc as [|t rc'] eqn:RC; [reflexivity|]. unfold rc in RC. destruct (c_ref_columns c); cbn [app] in RC.
      - rewrite RC in Nmt. destruct t as [w|n|s|x]; try reflexivity. destruct Nmt.
      - unfold words_in in RC. cbn [app] in RC. assert (T : hd lp (t :: rc') = lp) by now rewrite <- RC. cbn [hd] in T. subst t. reflexivity. }
    rewrite Q.
    assert (R : read_optional_names rc = Some (c_ref_columns c, mt)).
    { unfold read_optional_names, rc. destruct (c_ref_columns c) as [|a b]; [cbn [app]; now rewrite (no_sym_group _ Nmt)|]. now rewrite read_words_in, read_names_words. }
    rewrite R. assert (MT : mt = frag d (c_match c) ++ up) by (unfold mt; destruct (c_match c); reflexivity).
    rewrite MT, (until_closed rule_word _ _ _ (RW _ OM) Sup).
    assert (UP : read_rule "UPDATE" up = (frag d (c_update c), dl)).
    { unfold up. destruct (c_update c) as [|a b] eqn:EU; cbn [is_empty negb app].
      - unfold dl. destruct (c_delete c); cbn [is_empty negb app]; [|reflexivity]. unfold rest. destruct (c_deferrable c); [reflexivity|]. cbn [app deferrable_toks].
        destruct FO as [->|(t & ->)]; reflexivity.
      - rewrite <- EU in *. exact (read_rule_there "UPDATE" _ _ (RW _ OU) Sdl eq_refl). }
    rewrite UP.
    assert (DL : read_rule "DELETE" dl = (frag d (c_delete c), rest)).
    { unfold dl. destruct (c_delete c) as [|a b] eqn:EU; cbn [is_empty negb app].
      - unfold rest. destruct (c_deferrable c); [reflexivity|]. cbn [app deferrable_toks].
        destruct FO as [->|(t & ->)]; reflexivity.
      - rewrite <- EU in *. exact (read_rule_there "DELETE" _ _ (RW _ OD) SR eq_refl). }
    now rewrite DL.
  - change (beqb EXCLUDE CHECK) with false. change (beqb EXCLUDE UNIQUE) with false. change (beqb EXCLUDE PRIMARY_KEY) with false. change (beqb EXCLUDE FOREIGN_KEY) with false.
    change (beqb EXCLUDE EXCLUDE) with true. cbn match. rewrite <- !app_assoc. cbn [app]. unfold read_constraint_def.
    change (words ["CHECK"]%string (W "EXCLUDE" :: ?x)) with (@None (list tok)). change (words ["UNIQUE"]%string (W "EXCLUDE" :: ?x)) with (@None (list tok)).
    change (words ["PRIMARY"; "KEY"]%string (W "EXCLUDE" :: ?x)) with (@None (list tok)). change (words ["FOREIGN"; "KEY"]%string (W "EXCLUDE" :: ?x)) with (@None (list tok)).
    change (words ["EXCLUDE"; "USING"]%string (W "EXCLUDE" :: W "USING" :: ?x)) with (Some x). cbn match. change (read_name (TWord (c_index_type c) :: ?x)) with (Some (c_index_type c, x)). cbn match.
    specialize (OEX eq_refl).
    assert (FA : Forall (fun e => e <> [] /\ closed comma_stop 0 e = true) (map (excl_element d c) (List.seq 0 (length (c_columns c))))).
    { apply Forall_forall. intros e H. apply in_map_iff in H. destruct H as (i & <- & H). apply in_seq in H. destruct (OEX i ltac:(lia)) as [P1 P2].
      split; [unfold excl_element; destruct (frag d (part_text (c_columns c) (c_exprs c) i)); discriminate|now apply closed_exclusion]. }
    rewrite (read_group_closed no_stop).
    2:{ apply closed_commas. eapply Forall_impl; [|exact FA]. intros e [_ C]. now apply (no_stop_weaken comma_stop). }
    rewrite elements_commas by exact FA.
    rewrite (read_all_map _ _ read_exclusion (excl_element d c) (fun i => (frag d (part_text (c_columns c) (c_exprs c) i), frag d (nth i (c_operators c) [])))).
    2:{ apply Forall_forall. intros i H. apply in_seq in H. destruct (OEX i ltac:(lia)) as [P1 P2]. now apply read_exclusion_elem. }
    destruct (c_predicate c) as [|a b] eqn:EP; cbn [is_empty negb app].
    + unfold rest. destruct (c_deferrable c); cbn [deferrable_toks app]; [reflexivity|]. destruct FO as [->|(t & ->)]; reflexivity.
    + rewrite <- EP in *. change (words ["WHERE"]%string (W "WHERE" :: ?x)) with (Some x). cbn match. rewrite <- app_assoc. cbn [app].
      now rewrite (read_group_closed no_stop _ _ (plain_closed _ _ _ OP)).
Qed.
