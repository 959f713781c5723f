(** * DdlDrop: DROP, CREATE VIEW, CREATE SCHEMA and CREATE EXTENSION read back *)
From Coq Require Import Lia.
From Verif Require Import GoBase GoBaseFacts QuoteModel SpecLex SpecIdent SpecSql EffectModel SpecText QuoteFacts QuotePf SqlFacts
  CacheModel UpsertModel DdlModel SpecDdl SpecDrop DdlToks DdlRead DdlConstraint DdlIndex DdlTable.
Local Open Scope m_scope.

(** ** Optional words before a name *)
Lemma option_words_there : forall ws r, forallb (fun w => kw w (W w)) ws = true -> option_words ws (map W ws ++ r) = (true, r).
Proof.
  intros ws r H. unfold option_words. assert (E : words ws (map W ws ++ r) = Some r).
  { induction ws as [|w ws IH]; [reflexivity|]. cbn [forallb] in H. apply andb_true_iff in H. destruct H as [H1 H2]. cbn [map app words]. rewrite H1. now apply IH. }
  now rewrite E.
Qed.
Lemma option_qual : forall w1 w2 ws (b : bool) d s n r, forallb (fun w => kw w (W w)) (w1 :: w2 :: ws) = true ->
  (match r with t :: _ => kw w2 t = false | [] => True end) ->
  option_words (w1 :: w2 :: ws) ((if b then map W (w1 :: w2 :: ws) else []) ++ qual_toks d s n ++ r) = (b, qual_toks d s n ++ r).
Proof.
  intros w1 w2 ws [|] d s n r H N; [now apply option_words_there|]. cbn [app]. unfold option_words, qual_toks. destruct s as [|a s]; cbn [is_empty app words].
  - destruct (kw w1 _); [|reflexivity]. destruct r as [|t r]; [reflexivity|]. now rewrite N.
  - destruct (kw w1 _); reflexivity.
Qed.
Lemma option_one_qual : forall w (b : bool) d s n r, kw w (W w) = true -> kw w (name_tok d (match s with [] => n | _ => s end)) = false ->
  option_words [w] ((if b then [W w] else []) ++ qual_toks d s n ++ r) = (b, qual_toks d s n ++ r).
Proof.
  intros w [|] d s n r H N; [apply (option_words_there [w]); cbn [forallb]; now rewrite H|]. cbn [app]. unfold option_words, qual_toks.
  destruct s as [|a s]; cbn [is_empty app words]; now rewrite N.
Qed.
Lemma option_last : forall w (b : bool), kw w (W w) = true -> option_words [w] (if b then [W w] else []) = (b, []).
Proof. intros w [|] H; unfold option_words; cbn [words]; [now rewrite H|reflexivity]. Qed.
Lemma not_word_kw : forall w d n, is_not_word w n -> kw w (name_tok d n) = false.
Proof.
  intros w d n H. unfold name_tok. rewrite needs_quoting_is_bare. destruct (is_bare n) eqn:E; [|reflexivity]. cbn [negb kw].
  specialize (H E). destruct (beqb (map fold_case n) (B w)) eqn:Q; [|reflexivity]. apply beqb_eq in Q. congruence.
Qed.

(** ** Lists of names *)
Definition pair_toks (d : dialect) (sn : bytes * bytes) : list tok := qual_toks d (fst sn) (snd sn).
Definition list_toks (d : dialect) (ns : list (bytes * bytes)) : list tok := commas (map (pair_toks d) ns).
Lemma qual_ne : forall d s n, qual_toks d s n <> [].
Proof. intros d s n. unfold qual_toks. destruct (is_empty s); discriminate. Qed.
Lemma read_names_list : forall d ns r fuel, ns <> [] -> length ns <= fuel ->
  match r with t :: _ => sym "." t = false /\ sym "," t = false | [] => True end ->
  read_name_list fuel (list_toks d ns ++ r) = Some (ns, r).
Proof.
  intros d. induction ns as [|[s n] ns IH]; intros r fuel NE L H; [congruence|]. destruct fuel as [|f]; [cbn in L; lia|].
  cbn [read_name_list]. destruct ns as [|sn2 ns].
  - unfold list_toks. cbn [map commas flat_map]. rewrite app_nil_r. unfold pair_toks. cbn [fst snd]. rewrite read_qual_toks by (destruct r; [exact I|apply H]).
    destruct r as [|t r]; [reflexivity|]. destruct H as [_ H]. now rewrite H.
  - assert (E : list_toks d ((s, n) :: sn2 :: ns) ++ r = qual_toks d s n ++ comma :: (list_toks d (sn2 :: ns) ++ r)).
    { unfold list_toks. cbn [map commas flat_map]. unfold pair_toks at 1. cbn [fst snd]. rewrite <- !app_assoc. cbn [app]. rewrite <- ?app_assoc. reflexivity. }
    rewrite E. rewrite read_qual_toks by reflexivity. change (sym "," comma) with true. cbn match.
    rewrite IH; [reflexivity|discriminate|cbn in *; lia|exact H].
Qed.
Lemma list_toks_length : forall d ns, length ns <= length (list_toks d ns).
Proof.
  intros d ns. destruct ns as [|x ns]; [apply Nat.le_refl|]. unfold list_toks. cbn [map commas]. rewrite app_length.
  assert (1 <= length (pair_toks d x)) by (pose proof (qual_ne d (fst x) (snd x)) as Q; unfold pair_toks; destruct (qual_toks _ _ _); [congruence|cbn; lia]).
  assert (length ns <= length (flat_map (cons comma) (map (pair_toks d) ns))); [|cbn [length]; lia].
  clear. induction ns as [|y ns IH]; [cbn; lia|]. cbn [map flat_map length app]. rewrite app_length. lia.
Qed.
Definition drop_objects_toks (d : dialect) (ie : bool) (ns : list (bytes * bytes)) (ca : bool) : list tok :=
  (if ie then [W "IF"; W "EXISTS"] else []) ++ list_toks d ns ++ (if ca then [W "CASCADE"] else []).
Lemma drop_objects_read : forall d (ie : bool) ns (ca : bool), ns <> [] -> read_drop_objects (drop_objects_toks d ie ns ca) = Some (mk_drop_def ie ns ca).
Proof.
  intros d ie ns ca NE. unfold read_drop_objects, drop_objects_toks. destruct ns as [|[s n] ns]; [congruence|].
  set (rest := flat_map (cons comma) (map (pair_toks d) ns) ++ (if ca then [W "CASCADE"] else [])).
  assert (E : list_toks d ((s, n) :: ns) ++ (if ca then [W "CASCADE"] else []) = qual_toks d s n ++ rest).
  { unfold list_toks, rest. cbn [map commas]. unfold pair_toks at 1. cbn [fst snd]. now rewrite <- app_assoc. }
  rewrite E. change [W "IF"; W "EXISTS"] with (map W ["IF"; "EXISTS"]%string). rewrite option_qual; [|reflexivity|].
  2:{ unfold rest. destruct ns; [destruct ca; [reflexivity|exact I]|reflexivity]. }
  rewrite <- E. rewrite read_names_list; [|exact NE| |destruct ca; [split; reflexivity|exact I]].
  2:{ rewrite app_length. pose proof (list_toks_length d ((s, n) :: ns)). lia. }
  rewrite option_last by reflexivity. reflexivity.
Qed.
(** The text: IF EXISTS, and the names one per line unless there is only one. *)
Lemma names_next : forall d ns, Forall (fun sn => good_name d (fst sn) /\ good_name d (snd sn)) ns ->
  writes d ((fix go (first : bool) (l : list (bytes * bytes)) : M :=
     match l with
     | [] => ret
     | (s, n) :: l' =>
       emit (if first then (if Nat.ltb 1 (length ns) then element_start true else []) else element_start false) ;;
       emit (qualified d s n) ;; go false l'
     end) false ns) (flat_map (cons comma) (map (pair_toks d) ns)).
Proof.
  intros d ns. generalize (Nat.ltb 1 (length ns)). intros many F. induction F as [|[s n] ns [G1 G2] F IH]; [apply writes_ret|]. cbn [map flat_map].
  apply starts_writes; [|apply sepm_seq, sepm_emit; reflexivity]. unfold pair_toks at 1. cbn [fst snd]. change ((comma :: ?a) ++ ?b) with ([comma] ++ (a ++ b)).
  apply opens_starts; [apply opens_emit, sep_next|]. apply starts_seq; [apply starts_emit; now apply toks_qualified|exact IH].
Qed.
Lemma drop_list_starts : forall d ns, names_ok d ns -> starts d (drop_list d ns) (list_toks d ns).
Proof.
  intros d ns [NE F]. destruct ns as [|[s n] ns]; [congruence|]. inversion F as [|? ? [G1 G2] F2]; subst. cbn [fst snd] in *.
  unfold drop_list, list_toks. cbn [map commas]. generalize (Nat.ltb 1 (length ((s, n) :: ns))). intros many.
  unfold pair_toks at 1. cbn [fst snd]. change (qual_toks d s n ++ ?b) with ([] ++ (qual_toks d s n ++ b)).
  apply opens_starts; [apply opens_emit; destruct many; [apply sep_first|apply pre_nil]|].
  apply starts_seq; [apply starts_emit; now apply toks_qualified|].
  clear F NE G1 G2. induction F2 as [|[s2 n2] ns [G1 G2] F2 IH]; [apply writes_ret|]. cbn [map flat_map].
  apply starts_writes; [|apply sepm_seq, sepm_emit; reflexivity]. unfold pair_toks at 1. cbn [fst snd]. change ((comma :: ?a) ++ ?b) with ([comma] ++ (a ++ b)).
  apply opens_starts; [apply opens_emit, sep_next|]. apply starts_seq; [apply starts_emit; now apply toks_qualified|exact IH].
Qed.
Lemma drop_list_many_sep : forall d ns, Nat.ltb 1 (length ns) = true -> sepm (drop_list d ns).
Proof.
  intros d ns L. destruct ns as [|[s n] ns]; [discriminate|]. unfold drop_list. cbn zeta. rewrite L. apply sepm_seq, sepm_emit. reflexivity.
Qed.
Lemma cascade_writes : forall d ns, writes d (emit (cascade_text ns)) [W "CASCADE"].
Proof. intros d ns. unfold cascade_text. destruct (Nat.ltb 1 (length ns)); (apply writes_emit; [lit|reflexivity]). Qed.
Lemma drop_objects_starts : forall d (ie : bool) ns k (ca : bool), names_ok d ns -> writes d k (if ca then [W "CASCADE"] else []) ->
  starts d (when ie (emit (if_exists_text ns)) ;; drop_list d ns ;; k) (drop_objects_toks d ie ns ca).
Proof.
  intros d ie ns k ca OK K. pose proof OK as [NE _]. unfold drop_objects_toks.
  assert (R : starts d (drop_list d ns ;; k) (list_toks d ns ++ (if ca then [W "CASCADE"] else []))) by (apply starts_seq; [now apply drop_list_starts|exact K]).
  destruct ie; [|cbn [when]; eapply starts_cast; [apply opens_starts; [apply opens_ret|exact R]|reflexivity]].
  cbn [when]. unfold if_exists_text. destruct ns as [|x [|y ns]]; [congruence| |].
  - apply opens_starts; [apply opens_emit; prelit|exact R].
  - apply starts_seq; [apply starts_emit; lit|]. apply starts_writes; [exact R|]. apply sepm_seq. now apply drop_list_many_sep.
Qed.

(** ** DROP TABLE, DROP VIEW, DROP INDEX *)
Lemma drop_table_reads : forall d c s, dt_ignore c = false -> names_ok d (dt_names c) -> text_of (drop_table_sql d c) = Some s ->
  exists ts, tokens d s = Some ts /\ read_drop_table ts = Some (mk_drop_def (dt_if_exists c) (dt_names c) (dt_cascade c)).
Proof.
  intros d c s IG OK T. exists ([W "DROP"; W "TABLE"] ++ drop_objects_toks d (dt_if_exists c) (dt_names c) (dt_cascade c)). split.
  - revert s T. unfold drop_table_sql. rewrite IG. apply opens_starts; [apply opens_emit; prelit|]. apply drop_objects_starts; [exact OK|].
    apply writes_when. intros _. destruct (is_postgres d || is_mysql d); [apply cascade_writes|apply writes_fail].
  - unfold read_drop_table. change (words ["DROP"; "TABLE"]%string ([W "DROP"; W "TABLE"] ++ ?x)) with (Some x). cbn match. apply drop_objects_read, OK.
Qed.
Lemma drop_list_succ : forall d ns, succ (drop_list d ns).
Proof.
  intros d ns. unfold drop_list. cbn zeta. match goal with |- succ (?g true ns) => assert (H : forall l b, succ (g b l)) end.
  { induction l as [|[s n] l IH]; intros b; [now apply succ_ret|]. rewrite !succ_seq, !succ_emit. split; [exact I|]. split; [exact I|apply IH]. }
  apply H.
Qed.
Lemma text_seq_back : forall m k x y, text_of m = Some x -> text_of k = Some y -> text_of (m ;; k) = Some (x ++ y).
Proof.
  intros [c1 s1] [c2 s2] x y. unfold text_of, seq. cbn [fst snd]. destruct s1; try discriminate. destruct s2; try discriminate. cbn [fst snd]. intros T1 T.
  revert x T1. induction c1 as [|a c1 IH]; intros x T1; cbn [app texts] in *; [assert (x = []) by congruence; now subst|].
  destruct a; try discriminate. destruct (texts c1) as [z|]; [|discriminate]. cbn [option_map] in T1. assert (x = b ++ z) by congruence. subst. rewrite (IH z eq_refl). cbn [option_map]. now rewrite app_assoc.
Qed.
Lemma starts_skip : forall d a (b : bool) k t, starts d (a ;; k) t -> starts d (a ;; when b fail ;; k) t.
Proof.
  intros d a [|] k t H s T; cbn [when] in T; apply text_seq in T; destruct T as (x & y & T1 & T & ->); apply text_seq in T; destruct T as (x' & y' & T2 & T & ->); [discriminate|].
  apply text_ret in T2. subst x'. cbn [app]. apply H. now apply text_seq_back.
Qed.
Lemma drop_table_succ : forall d c, dt_ignore c = false -> (succ (drop_table_sql d c) <-> drop_table_supported d c).
Proof.
  intros d c IG. unfold drop_table_sql, drop_table_supported. rewrite IG. rewrite !succ_seq, !succ_when, !succ_emit, succ_if, succ_emit, succ_fail.
  pose proof (drop_list_succ d (dt_names c)) as L.
  destruct d; cbn; intuition congruence.
Qed.
Lemma drop_view_reads : forall d c s, dv_ignore c = false -> names_ok d (dv_names c) -> text_of (drop_view_sql d c) = Some s ->
  exists ts, tokens d s = Some ts /\ read_drop_view ts = Some (dv_materialized c, mk_drop_def (dv_if_exists c) (dv_names c) (dv_cascade c)).
Proof.
  intros d c s IG OK T.
  exists ([W "DROP"] ++ (if dv_materialized c then [W "MATERIALIZED"] else []) ++ [W "VIEW"] ++ drop_objects_toks d (dv_if_exists c) (dv_names c) (dv_cascade c)). split.
  - revert s T. unfold drop_view_sql. rewrite IG. apply opens_starts; [apply opens_emit; prelit|].
    apply opens_starts; [apply opens_when; intros _; destruct (is_postgres d); [apply opens_emit; prelit|apply opens_fail]|].
    apply opens_starts; [apply opens_emit; prelit|]. apply starts_skip. apply drop_objects_starts; [exact OK|].
    apply writes_when. intros _. destruct (is_sqlite d); [apply writes_fail|apply cascade_writes].
  - unfold read_drop_view. change (words ["DROP"]%string ([W "DROP"] ++ ?x)) with (Some x). cbn match.
    destruct (dv_materialized c).
    + change (option_words ["MATERIALIZED"]%string ([W "MATERIALIZED"] ++ [W "VIEW"] ++ ?x)) with (true, [W "VIEW"] ++ x). cbn match.
      change (words ["VIEW"]%string ([W "VIEW"] ++ ?x)) with (Some x). cbn match. now rewrite drop_objects_read by apply OK.
    + change (option_words ["MATERIALIZED"]%string ([] ++ [W "VIEW"] ++ ?x)) with (false, [W "VIEW"] ++ x). cbn match.
      change (words ["VIEW"]%string ([W "VIEW"] ++ ?x)) with (Some x). cbn match. now rewrite drop_objects_read by apply OK.
Qed.
Lemma drop_view_succ : forall d c, dv_ignore c = false -> (succ (drop_view_sql d c) <-> drop_view_supported d c).
Proof.
  intros d c IG. unfold drop_view_sql, drop_view_supported. rewrite IG. rewrite !succ_seq, !succ_when, !succ_emit, !succ_if, !succ_emit, !succ_fail.
  pose proof (drop_list_succ d (dv_names c)) as L. rewrite andb_true_iff, Nat.ltb_lt.
  assert (Z : (1 < length (dv_names c) -> False) <-> length (dv_names c) <= 1) by lia. rewrite <- Z. generalize dependent (1 < length (dv_names c)). intros P _.
  destruct d, (dv_materialized c), (dv_cascade c); cbn; intuition congruence.
Qed.
Lemma drop_index_reads : forall d c s, dx_ignore c = false -> drop_index_ok d c -> text_of (drop_index_sql d c) = Some s ->
  exists ts, tokens d s = Some ts /\ read_drop_index ts = Some (said_drop_index d c).
Proof.
  intros d c s IG OK T. set (sc := if is_mysql d then [] else dx_schema c).
  assert (SC : sc = match d with DMySQL => [] | _ => dx_schema c end) by (unfold sc; now destruct d).
  exists ([W "DROP"; W "INDEX"] ++ (if dx_concurrently c then [W "CONCURRENTLY"] else []) ++ (if dx_if_exists c then [W "IF"; W "EXISTS"] else []) ++
    qual_toks d sc (dx_name c) ++ (if dx_cascade c then [W "CASCADE"] else [])). split.
  - revert s T. unfold drop_index_sql. rewrite IG. fold sc. apply opens_starts; [apply opens_emit; prelit|].
    apply opens_starts; [apply opens_when; intros _; destruct (is_postgres d); [apply opens_emit; prelit|apply opens_fail]|].
    apply opens_starts; [apply opens_when; intros _; destruct (is_postgres d || is_sqlite d); [apply opens_emit; prelit|apply opens_fail]|].
    apply starts_seq; [apply starts_emit, toks_qualified; [|apply OK]|].
    { unfold sc. destruct (is_mysql d); [|apply OK]. intros (p & x & t & E). destruct p; discriminate E. }
    apply writes_when. intros _. destruct (is_postgres d); [apply writes_emit; [lit|reflexivity]|apply writes_fail].
  - unfold read_drop_index. change (words ["DROP"; "INDEX"]%string ([W "DROP"; W "INDEX"] ++ ?x)) with (Some x). cbn match.
    set (o := drop_objects_toks d (dx_if_exists c) [(sc, dx_name c)] (dx_cascade c)).
    assert (EO : (if dx_if_exists c then [W "IF"; W "EXISTS"] else []) ++ qual_toks d sc (dx_name c) ++ (if dx_cascade c then [W "CASCADE"] else []) = o).
    { unfold o, drop_objects_toks, list_toks. cbn [map commas flat_map]. unfold pair_toks. cbn [fst snd]. now rewrite app_nil_r. }
    assert (OW : option_words ["CONCURRENTLY"]%string ((if dx_concurrently c then [W "CONCURRENTLY"] else []) ++ o) = (dx_concurrently c, o)).
    { rewrite <- EO. destruct (dx_if_exists c).
      - destruct (dx_concurrently c); reflexivity.
      - cbn [app]. apply option_one_qual; [reflexivity|]. apply not_word_kw. destruct sc as [|a b] eqn:E; [apply OK|]. unfold sc in E. destruct (is_mysql d); [discriminate|]. rewrite <- E. apply OK. }
    rewrite EO, OW. unfold o. rewrite drop_objects_read by discriminate. unfold said_drop_index. now rewrite SC.
Qed.

(** ** DROP TRIGGER, DROP FUNCTION *)
Lemma drop_trigger_reads : forall d c s, dg_ignore c = false -> drop_trigger_ok d c -> text_of (drop_trigger_sql d c) = Some s ->
  exists ts, tokens d s = Some ts /\ read_drop_trigger ts = Some (said_drop_trigger d c).
Proof.
  intros d c s IG OK T.
  exists ([W "DROP"; W "TRIGGER"] ++ (if dg_if_exists c then [W "IF"; W "EXISTS"] else []) ++
    (if is_postgres d then qual_toks d [] (dg_name c) ++ [W "ON"] ++ qual_toks d (dg_schema c) (dg_table c) ++ (if dg_cascade c then [W "CASCADE"] else [])
     else qual_toks d (dg_schema c) (dg_name c))). split.
  - revert s T. unfold drop_trigger_sql. rewrite IG. apply opens_starts; [apply opens_emit; prelit|].
    apply opens_starts; [apply opens_when; intros _; apply opens_emit; prelit|].
    destruct (is_postgres d).
    + rewrite (app_assoc (qual_toks d [] _)). apply opens_starts.
      * apply opens_emit. unfold qual_toks. cbn [is_empty app]. change ([name_tok d (dg_name c); W "ON"]) with ([name_tok d (dg_name c)] ++ [W "ON"]). apply toks_pre; [apply toks_name, OK|prelit|reflexivity|discriminate].
      * apply starts_seq; [apply starts_emit, toks_qualified; apply OK|]. apply writes_when. intros _. apply writes_emit; [lit|reflexivity].
    + apply starts_emit, toks_qualified; apply OK.
  - unfold read_drop_trigger. change (words ["DROP"; "TRIGGER"]%string ([W "DROP"; W "TRIGGER"] ++ ?x)) with (Some x). cbn match.
    change [W "IF"; W "EXISTS"] with (map W ["IF"; "EXISTS"]%string). destruct (is_postgres d) eqn:P.
    + rewrite option_qual; [|reflexivity|reflexivity]. rewrite read_qual_toks by reflexivity. change (words ["ON"]%string ([W "ON"] ++ ?x)) with (Some x). cbn match.
      rewrite read_qual_toks by (destruct (dg_cascade c); [reflexivity|exact I]). rewrite option_last by reflexivity. destruct d; try discriminate. reflexivity.
    + rewrite <- (app_nil_r (qual_toks d _ _)). rewrite option_qual; [|reflexivity|exact I]. rewrite read_qual_toks by exact I. cbn [words]. unfold option_words. cbn [words].
      destruct d; try discriminate; reflexivity.
Qed.
Lemma drop_trigger_succ : forall d c, succ (drop_trigger_sql d c).
Proof.
  intros d c. unfold drop_trigger_sql. destruct (dg_ignore c); [now apply succ_ret|]. rewrite !succ_seq, !succ_when, !succ_emit, succ_if, !succ_seq, !succ_when, !succ_emit. tauto.
Qed.
Lemma drop_function_reads : forall d c s, df_ignore c = false -> drop_function_ok d c -> text_of (drop_function_sql d c) = Some s ->
  exists ts, tokens d s = Some ts /\ read_drop_function ts = Some (said_drop_function d c).
Proof.
  intros d c s IG OK T. set (f := df_function c) in *.
  set (tail := (if is_postgres d then lp :: frag d (f_args f) ++ [rp] else []) ++ (if df_cascade c then [W "CASCADE"] else [])).
  exists ([W "DROP"; W "FUNCTION"] ++ (if df_if_exists c then [W "IF"; W "EXISTS"] else []) ++ qual_toks d (f_schema f) (f_name f) ++ tail). split.
  - revert s T. unfold drop_function_sql. rewrite IG. fold f. destruct (is_sqlite d); [apply starts_fail|]. apply opens_starts; [apply opens_emit; prelit|].
    apply opens_starts; [apply opens_when; intros _; apply opens_emit; prelit|].
    apply starts_seq; [apply starts_emit, toks_qualified; apply OK|]. unfold tail. apply writes_seq.
    + apply writes_when. intros _. apply writes_emit; [|reflexivity]. change (lp :: frag d (f_args f) ++ [rp]) with ([lp] ++ (frag d (f_args f) ++ [rp])).
      apply pre_toks; [apply pre_sym; cbn; tauto|]. apply toks_app; [apply (plain_frag _ no_stop), OK|lit|reflexivity].
    + apply writes_when. intros _. apply writes_emit; [lit|reflexivity].
  - unfold read_drop_function. change (words ["DROP"; "FUNCTION"]%string ([W "DROP"; W "FUNCTION"] ++ ?x)) with (Some x). cbn match.
    change [W "IF"; W "EXISTS"] with (map W ["IF"; "EXISTS"]%string). rewrite option_qual; [|reflexivity|].
    2:{ unfold tail. destruct (is_postgres d); [reflexivity|]. destruct (df_cascade c); [reflexivity|exact I]. }
    rewrite read_qual_toks.
    2:{ unfold tail. destruct (is_postgres d); [reflexivity|]. destruct (df_cascade c); [reflexivity|exact I]. }
    unfold tail, said_drop_function. fold f. destruct (is_postgres d) eqn:P.
    + cbn [app]. rewrite <- app_assoc. cbn [app]. rewrite (read_group_closed no_stop) by (apply plain_closed, OK). rewrite option_last by reflexivity. destruct d; try discriminate. reflexivity.
    + cbn [app]. assert (RG : read_group (if df_cascade c then [W "CASCADE"] else []) = None) by (destruct (df_cascade c); reflexivity). rewrite RG. rewrite option_last by reflexivity.
      destruct d; try discriminate; reflexivity.
Qed.
Lemma drop_function_succ : forall d c, df_ignore c = false -> (succ (drop_function_sql d c) <-> d <> DSQLite).
Proof.
  intros d c IG. unfold drop_function_sql. rewrite IG, succ_if, succ_fail, !succ_seq, !succ_when, !succ_emit. destruct d; cbn; intuition congruence.
Qed.

(** ** CREATE VIEW, CREATE SCHEMA, CREATE EXTENSION, DROP EXTENSION *)
Lemma create_view_reads : forall d c s, cv_ignore c = false -> create_view_ok d c -> text_of (create_view_sql d c) = Some s ->
  exists ts, tokens d s = Some ts /\ read_create_view ts = Some (said_create_view d c).
Proof.
  intros d c s IG OK T. set (v := cv_view c) in *.
  exists ([W "CREATE"] ++ (if cv_or_replace c then [W "OR"; W "REPLACE"] else []) ++ (if v_materialized v then [W "MATERIALIZED"] else []) ++ [W "VIEW"] ++
    (if cv_if_not_exists c then [W "IF"; W "NOT"; W "EXISTS"] else []) ++ qual_toks d (v_schema v) (v_name v) ++ [W "AS"] ++ frag d (v_sql v)). split.
  - revert s T. unfold create_view_sql. rewrite IG. fold v. cbn zeta. apply opens_starts; [apply opens_emit; prelit|].
    assert (GF : forall (b : bool), opens d (when b fail) []) by (intros []; [apply opens_fail|apply opens_ret]).
    apply opens_starts. { apply opens_when. intros _. change [W "OR"; W "REPLACE"] with ([] ++ [] ++ [W "OR"; W "REPLACE"]). apply opens_opens; [apply GF|]. apply opens_opens; [apply GF|]. apply opens_emit. prelit. }
    apply opens_starts; [apply opens_when; intros _; apply opens_emit; prelit|].
    apply opens_starts; [apply opens_emit; prelit|].
    apply opens_starts. { apply opens_when. intros _. change [W "IF"; W "NOT"; W "EXISTS"] with ([] ++ [] ++ [W "IF"; W "NOT"; W "EXISTS"]). apply opens_opens; [apply GF|]. apply opens_opens; [apply GF|]. apply opens_emit. prelit. }
    apply starts_emit. apply toks_app; [apply toks_qualified; apply OK| |reflexivity]. apply pre_toks; [prelit|].
    unfold frag. pose proof (okcv_sql _ _ OK) as Q. fold v in Q. destruct (tokens d (v_sql v)); [reflexivity|congruence].
  - unfold read_create_view. change (words ["CREATE"]%string ([W "CREATE"] ++ ?x)) with (Some x). cbn match.
    set (rest := [W "VIEW"] ++ _). 
    assert (O1 : option_words ["OR"; "REPLACE"]%string ((if cv_or_replace c then [W "OR"; W "REPLACE"] else []) ++ (if v_materialized v then [W "MATERIALIZED"] else []) ++ rest) = (cv_or_replace c, (if v_materialized v then [W "MATERIALIZED"] else []) ++ rest)) by (destruct (cv_or_replace c), (v_materialized v); reflexivity).
    assert (O2 : option_words ["MATERIALIZED"]%string ((if v_materialized v then [W "MATERIALIZED"] else []) ++ rest) = (v_materialized v, rest)) by (destruct (v_materialized v); reflexivity).
    rewrite O1, O2. unfold rest. change (words ["VIEW"]%string ([W "VIEW"] ++ ?x)) with (Some x). cbn match.
    change [W "IF"; W "NOT"; W "EXISTS"] with (map W ["IF"; "NOT"; "EXISTS"]%string). rewrite option_qual; [|reflexivity|reflexivity].
    rewrite read_qual_toks by reflexivity. change (words ["AS"]%string ([W "AS"] ++ ?x)) with (Some x). reflexivity.
Qed.
Lemma create_view_succ : forall d c, cv_ignore c = false -> (succ (create_view_sql d c) <-> create_view_supported d c).
Proof.
  intros d c IG. unfold create_view_sql, create_view_supported. rewrite IG. cbn zeta. rewrite !succ_seq, !succ_when, !succ_emit, !succ_seq, !succ_when, !succ_fail, !succ_emit.
  destruct d, (cv_or_replace c), (cv_if_not_exists c), (v_materialized (cv_view c)); cbn; intuition congruence.
Qed.
Lemma create_schema_reads : forall d c s, cs_ignore c = false -> plain_word d (cs_name c) -> text_of (create_schema_sql d c) = Some s ->
  exists ts, tokens d s = Some ts /\ read_create_schema ts = Some (cs_if_not_exists c, cs_name c).
Proof.
  intros d c s IG OK T. exists ([W "CREATE"; W "SCHEMA"] ++ (if cs_if_not_exists c then [W "IF"; W "NOT"; W "EXISTS"] else []) ++ [TWord (cs_name c)]). split.
  - revert s T. unfold create_schema_sql. rewrite IG. destruct (is_sqlite d); [apply starts_fail|]. apply opens_starts; [apply opens_emit; prelit|].
    apply opens_starts; [apply opens_when; intros _; apply opens_emit; prelit|]. apply starts_emit. exact OK.
  - unfold read_create_schema. change (words ["CREATE"; "SCHEMA"]%string ([W "CREATE"; W "SCHEMA"] ++ ?x)) with (Some x). cbn match.
    destruct (cs_if_not_exists c); cbn [app]; [reflexivity|]. unfold option_words. cbn [words]. destruct (kw "IF" _); reflexivity.
Qed.
Lemma create_schema_succ : forall d c, cs_ignore c = false -> (succ (create_schema_sql d c) <-> d <> DSQLite).
Proof. intros d c IG. unfold create_schema_sql. rewrite IG, succ_if, succ_fail, !succ_seq, !succ_when, !succ_emit. destruct d; cbn; intuition congruence. Qed.
Lemma extension_split : forall e n v, extension_parts e n v -> ext_name e = n /\ ext_version e = v.
Proof.
  intros e n v [NI [[-> ->] | ->]]; unfold ext_name, ext_version.
  - assert (E : index_byte "@" n = None) by now apply index_byte_none. rewrite E. now split.
  - rewrite index_byte_app by exact NI. split; [now rewrite firstn_app, Nat.sub_diag, firstn_all, app_nil_r|].
    rewrite skipn_app. rewrite skipn_all2 by lia. cbn [app]. replace (S (length n) - length n) with 1 by lia. reflexivity.
Qed.
Lemma toks_version : forall v, ~ has_inner_pair "'" v -> tokens DPostgres (B " VERSION '" ++ escape_quote v "'" ++ B "'") = Some [W "VERSION"; TStr v].
Proof.
  intros v G. change (B " VERSION '") with (B " VERSION " ++ ["'"%char]). rewrite <- app_assoc. apply (pre_toks DPostgres _ [W "VERSION"]); [prelit|]. cbn [app].
  rewrite tokens_cons. change (blank "'") with false. change (Ascii.eqb "'" (fst (identifier_quotes DPostgres))) with false. change (string_quote DPostgres "'") with true. cbn match.
  change (B "'") with ("'"%char :: []). rewrite lex_quoted_escape by exact I. apply collapse_id_iff in G. now rewrite G.
Qed.
Lemma create_extension_reads : forall c n v s, ce_ignore c = false -> extension_parts (ce_extension c) n v -> good_name DPostgres n -> ~ has_inner_pair "'" v ->
  text_of (create_extension_sql DPostgres c) = Some s ->
  exists ts, tokens DPostgres s = Some ts /\ read_create_extension ts = Some (said_extension c n v).
Proof.
  intros c n v s IG EP G V T. destruct (extension_split _ _ _ EP) as [EN EV].
  set (tail := if negb (is_empty v) || ce_cascade c then [W "WITH"] ++ (if negb (is_empty v) then [W "VERSION"; TStr v] else []) ++ (if ce_cascade c then [W "CASCADE"] else []) else []).
  exists ([W "CREATE"; W "EXTENSION"] ++ (if ce_if_not_exists c then [W "IF"; W "NOT"; W "EXISTS"] else []) ++ qual_toks DPostgres [] n ++ tail). split.
  - revert s T. unfold create_extension_sql. rewrite IG. cbn [is_postgres negb]. rewrite EN, EV. cbn zeta. apply opens_starts; [apply opens_emit; prelit|].
    apply opens_starts; [apply opens_when; intros _; apply opens_emit; prelit|]. apply starts_seq; [apply starts_emit; now apply toks_name|].
    unfold tail. apply writes_when. intros _. apply writes_seq; [apply writes_emit; [lit|reflexivity]|].
    apply writes_seq; [apply writes_when; intros _; apply writes_emit; [now apply toks_version|reflexivity]|].
    apply writes_when. intros _. apply writes_emit; [lit|reflexivity].
  - unfold read_create_extension. change (words ["CREATE"; "EXTENSION"]%string ([W "CREATE"; W "EXTENSION"] ++ ?x)) with (Some x). cbn match.
    change [W "IF"; W "NOT"; W "EXISTS"] with (map W ["IF"; "NOT"; "EXISTS"]%string). rewrite option_qual; [|reflexivity|].
    2:{ unfold tail. destruct (negb (is_empty v) || ce_cascade c); [reflexivity|exact I]. }
    unfold qual_toks. cbn [is_empty app]. rewrite read_name_tok. unfold tail, said_extension. destruct v as [|a v]; cbn [is_empty negb orb].
    + destruct (ce_cascade c); reflexivity.
    + destruct (ce_cascade c); reflexivity.
Qed.
Lemma create_extension_succ : forall d c, ce_ignore c = false -> (succ (create_extension_sql d c) <-> d = DPostgres).
Proof.
  intros d c IG. unfold create_extension_sql. rewrite IG, succ_if, succ_fail. cbn zeta. rewrite !succ_seq, !succ_when, !succ_emit, !succ_seq, !succ_when, !succ_emit.
  destruct d; cbn; intuition congruence.
Qed.
Lemma drop_extension_reads : forall c ns s, de_ignore c = false -> ns <> [] ->
  Forall2 (fun e n => exists v, extension_parts e n v) (de_extensions c) ns -> Forall (good_name DPostgres) ns ->
  text_of (drop_extension_sql DPostgres c) = Some s ->
  exists ts, tokens DPostgres s = Some ts /\ read_drop_extension ts = Some (mk_drop_def (de_if_exists c) (map (pair []) ns) (de_cascade c)).
Proof.
  intros c ns s IG NE EP G T. exists ([W "DROP"; W "EXTENSION"] ++ drop_objects_toks DPostgres (de_if_exists c) (map (pair []) ns) (de_cascade c)). split.
  - revert s T. unfold drop_extension_sql. rewrite IG. cbn [is_postgres negb]. apply opens_starts; [apply opens_emit; prelit|].
    unfold drop_objects_toks. apply opens_starts; [apply opens_when; intros _; apply opens_emit; prelit|].
    apply starts_seq; [|apply writes_when; intros _; apply writes_emit; [lit|reflexivity]].
    assert (E : map (fun e => emit (quote_identifier DPostgres (ext_name e))) (de_extensions c) = map (fun n => emit (quote_identifier DPostgres n)) ns).
    { clear - EP. induction EP as [|e n es ns [v P] F IH]; [reflexivity|]. cbn [map]. destruct (extension_split _ _ _ P) as [-> _]. now rewrite IH. }
    rewrite E. eapply starts_cast; [now apply (toks_names DPostgres)|]. unfold list_toks. f_equal. rewrite map_map. apply map_ext. intros n. reflexivity.
  - unfold read_drop_extension. change (words ["DROP"; "EXTENSION"]%string ([W "DROP"; W "EXTENSION"] ++ ?x)) with (Some x). cbn match. apply drop_objects_read.
    destruct ns; [congruence|discriminate].
Qed.
Lemma drop_extension_succ : forall d c, de_ignore c = false -> (succ (drop_extension_sql d c) <-> d = DPostgres).
Proof.
  intros d c IG. unfold drop_extension_sql. rewrite IG, succ_if, succ_fail, !succ_seq, !succ_when, !succ_emit, succ_sep_by, Forall_map_in.
  assert (E : (forall x, In x (de_extensions c) -> succ (emit (quote_identifier d (ext_name x)))) <-> True) by (split; [tauto|]; intros _ x _; now apply succ_emit). rewrite E.
  destruct d; cbn; intuition congruence.
Qed.

(** ** CREATE VIRTUAL TABLE *)
Lemma create_virtual_reads : forall c s, ct_ignore c = false -> t_virtual (ct_table c) <> [] -> virtual_ok DSQLite c -> create_table_supported DSQLite c ->
  text_of (create_table_sql DSQLite c) = Some s ->
  exists ts, tokens DSQLite s = Some ts /\ read_create_virtual ts = Some (said_virtual DSQLite c).
Proof.
  intros c s IG NV OK SU T. set (d := DSQLite) in *. set (t := ct_table c) in *.
  set (args := map (frag d) (t_virtual_args t)). set (tail := [W "USING"; TWord (t_virtual t); lp] ++ commas args ++ [rp]).
  exists ([W "CREATE"; W "VIRTUAL"; W "TABLE"] ++ (if ct_if_not_exists c then [W "IF"; W "NOT"; W "EXISTS"] else []) ++ qual_toks d (t_schema t) (t_name t) ++ tail). split.
  - revert s T. unfold create_table_sql. rewrite IG. cbn zeta. fold t. assert (V : negb (is_empty (t_virtual t)) = true) by now apply not_empty_true. rewrite V.
    destruct (is_empty (t_name t)); [apply starts_fail|]. cbn [is_sqlite d negb when andb].
    assert (NI : ct_indexes c = []). { destruct SU as (_ & _ & _ & _ & _ & H & _). destruct (ct_indexes c); [reflexivity|]. exfalso. discriminate H. discriminate. }
    pose proof (table_constraints_model d c) as TC. fold t in TC. change (is_sqlite d) with true. rewrite TC, (okv_constraints _ _ OK), NI. cbn [map newline_before]. clear TC.
    apply opens_starts. { change [W "CREATE"; W "VIRTUAL"; W "TABLE"] with ([] ++ [W "CREATE"; W "VIRTUAL"; W "TABLE"]). apply opens_opens; [apply opens_ret|apply opens_emit; prelit]. }
    apply opens_starts; [apply opens_when; intros _; apply opens_emit; prelit|].
    apply starts_seq; [apply starts_emit, toks_qualified; apply OK|]. unfold tail.
    change ([W "USING"; TWord (t_virtual t); lp] ++ commas args ++ [rp]) with ([W "USING"; TWord (t_virtual t)] ++ [lp] ++ commas args ++ [rp]).
    apply writes_seq; [apply writes_emit; [|reflexivity]; apply (pre_toks d (B " USING ") [W "USING"]); [prelit|apply OK]|].
    apply starts_writes; [|apply sepm_seq, sepm_emit; reflexivity]. apply opens_starts; [apply opens_emit; lpre (@nil tok)|]. apply writes_starts.
    change (commas args ++ [rp]) with ([] ++ [] ++ commas args ++ [] ++ [] ++ [rp]). apply writes_seq; [apply writes_ret|]. apply writes_seq; [rewrite andb_false_r; apply writes_ret|].
    apply writes_seq. { unfold args. apply elements_first. intros a A. apply starts_emit. apply (plain_frag _ comma_stop). now apply (okv_args _ _ OK). }
    apply writes_seq; [apply writes_ret|]. apply writes_seq; [apply writes_ret|]. apply writes_emit; [reflexivity|reflexivity].
  - unfold read_create_virtual. change (words ["CREATE"; "VIRTUAL"; "TABLE"]%string ([W "CREATE"; W "VIRTUAL"; W "TABLE"] ++ ?x)) with (Some x). cbn match.
    change [W "IF"; W "NOT"; W "EXISTS"] with (map W ["IF"; "NOT"; "EXISTS"]%string). rewrite option_qual; [|reflexivity|reflexivity].
    rewrite read_qual_toks by reflexivity. unfold tail. cbn [app]. change (words ["USING"]%string (W "USING" :: ?x)) with (Some x). cbn match. cbn [read_name name_of option_map].
    assert (EL : Forall (fun e => e <> [] /\ closed comma_stop 0 e = true) args).
    { unfold args. apply Forall_forall. intros e H. apply in_map_iff in H. destruct H as (a & <- & H). destruct (okv_args _ _ OK a H) as [P NE]. split; [exact NE|now apply plain_closed]. }
    rewrite (read_group_closed no_stop).
    2:{ apply closed_commas. eapply Forall_impl; [|exact EL]. intros e [_ C]. now apply (no_stop_weaken comma_stop). }
    rewrite elements_commas by exact EL. reflexivity.
Qed.
