(** * RenamePf: the command that renames tables reads back *)
From Coq Require Import Lia.
From Verif Require Import GoBase GoBaseFacts QuoteModel SpecLex SpecIdent SpecSql EffectModel SpecText QuoteFacts QuotePf SqlFacts
  CacheModel UpsertModel DdlModel SpecDdl SpecDrop DdlToks DdlRead DdlConstraint DdlIndex DdlTable DdlDrop RenameModel SpecRename.
Local Open Scope m_scope.

Lemma opens_dotted : forall d sc, good_name d sc -> opens d (dotted d sc) (if is_empty sc then [] else [name_tok d sc; dot]).
Proof.
  intros d sc G. unfold dotted. destruct (is_empty sc); cbn [negb when]; [apply opens_ret|]. apply opens_emit.
  apply (pre_lit d _ [name_tok d sc] "."%char [dot]); [now apply toks_name|reflexivity|]. apply pre_sym. cbn; tauto.
Qed.
Lemma starts_qual : forall d sc n, good_name d sc -> good_name d n -> starts d (dotted d sc ;; emit (quote_identifier d n)) (qual_toks d sc n).
Proof. intros d sc n G1 G2. unfold qual_toks. apply opens_starts; [now apply opens_dotted|]. apply starts_emit. now apply toks_name. Qed.
Lemma opens_old : forall d sc n, good_name d sc -> good_name d n ->
  opens d (dotted d sc ;; emit (quote_identifier d n ++ B " RENAME TO ")) (qual_toks d sc n ++ [W "RENAME"; W "TO"]).
Proof.
  intros d sc n G1 G2. unfold qual_toks. rewrite <- app_assoc. apply opens_opens; [now apply opens_dotted|]. apply opens_emit.
  apply toks_pre; [now apply toks_name|prelit|reflexivity|discriminate].
Qed.
Definition rename_toks (d : dialect) (p : (bytes * bytes) * (bytes * bytes)) : list tok :=
  (qual_toks d (fst (fst p)) (snd (fst p)) ++ [W "RENAME"; W "TO"]) ++ qual_toks d (fst (snd p)) (snd (snd p)).
Lemma seq_assoc3 : forall a b c, ((a ;; b) ;; c) = (a ;; b ;; c).
Proof. intros [c1 []] [c2 []] [c3 []]; unfold seq; cbn [fst snd]; now rewrite ?app_assoc. Qed.
Lemma starts_one : forall d s n s' n' k t, good_name d s -> good_name d n -> good_name d s' -> good_name d n' -> writes d k t ->
  starts d (dotted d s ;; emit (quote_identifier d n ++ B " RENAME TO ") ;; dotted d s' ;; emit (quote_identifier d n') ;; k)
    (rename_toks d ((s, n), (s', n')) ++ t).
Proof.
  intros d s n s' n' k t G1 G2 G3 G4 K.
  eapply starts_cast; [|unfold rename_toks; cbn [fst snd]; apply app_assoc].
  rewrite <- (seq_assoc3 (dotted d s)). apply opens_starts; [now apply opens_old|].
  rewrite <- (seq_assoc3 (dotted d s')). apply starts_seq; [now apply starts_qual|exact K].
Qed.
Lemma rename_rest : forall d ss ns ss' ns', Forall (good_name d) ss -> Forall (good_name d) ns -> Forall (good_name d) ss' -> Forall (good_name d) ns' ->
  writes d (rename_list d false ss ns ss' ns') (flat_map (cons comma) (map (rename_toks d) (renames ss ns ss' ns'))).
Proof.
  intros d. induction ss as [|s ss IH]; intros ns ss' ns' F1 F2 F3 F4; [apply writes_ret|]. cbn [rename_list].
  inversion F1; subst. destruct ns as [|n ns].
  { intros x T. exfalso. apply text_seq in T. destruct T as (? & ? & _ & T & _). apply text_seq in T. destruct T as (? & ? & _ & T & _). cbn [at_head] in T. discriminate T. }
  destruct ss' as [|s' ss'].
  { intros x T. exfalso. do 3 (apply text_seq in T; destruct T as (? & ? & _ & T & _)). cbn [at_head] in T. discriminate T. }
  destruct ns' as [|n' ns'].
  { intros x T. exfalso. do 4 (apply text_seq in T; destruct T as (? & ? & _ & T & _)). cbn [at_head] in T. discriminate T. }
  inversion F2; inversion F3; inversion F4; subst. cbn [at_head tl renames map flat_map].
  apply starts_writes; [|apply sepm_seq, sepm_emit; reflexivity]. change ((comma :: ?a) ++ ?b) with ([comma] ++ (a ++ b)).
  apply opens_starts; [apply opens_emit, pre_comma|]. apply starts_one; auto.
Qed.
Lemma rename_reads : forall d c s, d <> DMySQL -> rt_ignore c = false -> rename_names_ok d c -> text_of (rename_table_sql d c) = Some s ->
  exists sc n n' ss ss' , rt_schemas c = sc :: ss /\ rt_names c = [n] /\ rt_to_names c = n' :: ss' /\
  exists ts, tokens d s = Some ts /\ read_rename ts = Some (mk_rename_def (rt_if_exists c) (sc, n) n').
Proof.
  intros d c s ND IG OK T. unfold rename_table_sql in T. rewrite IG in T. assert (M : is_mysql d = false) by (destruct d; try reflexivity; congruence).
  rewrite M in T. cbn [negb] in T. rewrite andb_true_r in T. destruct (Nat.ltb 1 (length (rt_names c))) eqn:L; [discriminate T|]. apply Nat.ltb_ge in L.
  unfold rename_names_ok in OK. rewrite !Forall_app in OK. destruct OK as (F1 & F2 & _ & F4).
  destruct (rt_schemas c) as [|sc ss].
  { exfalso. do 2 (apply text_seq in T; destruct T as (? & ? & _ & T & _)). discriminate T. }
  destruct (rt_names c) as [|n ns].
  { exfalso. do 3 (apply text_seq in T; destruct T as (? & ? & _ & T & _)). discriminate T. }
  destruct ns as [|? ?]; [|cbn in L; lia].
  destruct (rt_to_names c) as [|n' ns'].
  { exfalso. do 3 (apply text_seq in T; destruct T as (? & ? & _ & T & _)). discriminate T. }
  inversion F1; inversion F2; inversion F4; subst. exists sc, n, n', ss, ns'. repeat split.
  exists ([W "ALTER"; W "TABLE"] ++ (if rt_if_exists c then [W "IF"; W "EXISTS"] else []) ++ (if is_empty sc then [] else [name_tok d sc; dot]) ++ [name_tok d n] ++ [W "RENAME"; W "TO"] ++ [name_tok d n']). split.
  - revert s T. cbn [at_head]. apply opens_starts; [apply opens_emit; prelit|].
    apply opens_starts; [apply opens_when; intros _; destruct (is_postgres d); [apply opens_emit; prelit|apply opens_fail]|].
    apply opens_starts; [now apply opens_dotted|]. apply starts_emit. rewrite app_assoc. rewrite app_assoc. apply pre_toks; [|now apply toks_name].
    apply toks_pre; [now apply toks_name|prelit|reflexivity|discriminate].
  - unfold read_rename. change (words ["ALTER"; "TABLE"]%string ([W "ALTER"; W "TABLE"] ++ ?x)) with (Some x). cbn match.
    change [W "IF"; W "EXISTS"] with (map W ["IF"; "EXISTS"]%string).
    rewrite (app_assoc (if is_empty sc then _ else _)). fold (qual_toks d sc n).
    rewrite option_qual; [|reflexivity|reflexivity]. rewrite read_qual_toks by reflexivity.
    change (words ["RENAME"; "TO"]%string ([W "RENAME"; W "TO"] ++ ?x)) with (Some x). cbn match. now rewrite name_tok_name.
Qed.

(** ** MySQL *)
Lemma closed_qual : forall d s n, closed comma_stop 0 (qual_toks d s n) = true.
Proof.
  intros d s n. unfold qual_toks. destruct (is_empty s); cbn [app]; [apply closed_cons; try reflexivity; apply name_tok_sym|].
  apply closed_cons; try apply name_tok_sym. apply closed_cons; try reflexivity. apply closed_cons; try reflexivity; apply name_tok_sym.
Qed.
Lemma closed_rename : forall d p, closed comma_stop 0 (rename_toks d p) = true.
Proof. intros d p. unfold rename_toks. rewrite closed_app; [|rewrite closed_app; [reflexivity|apply closed_qual]]. apply closed_qual. Qed.
Lemma rename_toks_ne : forall d p, rename_toks d p <> [].
Proof. intros d p E. unfold rename_toks in E. apply app_eq_nil in E. destruct E as [E _]. apply app_eq_nil in E. destruct E as [_ E]. discriminate E. Qed.
Lemma rename_toks_of : forall c s, rt_ignore c = false -> rename_names_ok DMySQL c -> rename_well_formed c -> text_of (rename_table_sql DMySQL c) = Some s ->
  tokens DMySQL s = Some ([W "RENAME"; W "TABLE"] ++ commas (map (rename_toks DMySQL) (renames (rt_schemas c) (rt_names c) (rt_to_schemas c) (rt_to_names c)))).
Proof.
  intros c s IG OK (NE & L1 & L2 & L3) T. unfold rename_table_sql in T. rewrite IG in T. cbn [is_mysql negb] in T. rewrite andb_false_r in T.
  revert s T. apply opens_starts; [apply opens_emit; prelit|].
  unfold rename_names_ok in OK. rewrite !Forall_app in OK. destruct OK as (F1 & F2 & F3 & F4).
  destruct (rt_names c) as [|n ns]; [congruence|]. destruct (rt_schemas c) as [|sc ss]; [discriminate L1|].
  destruct (rt_to_schemas c) as [|sc' ss']; [discriminate L2|]. destruct (rt_to_names c) as [|n' ns']; [discriminate L3|].
  inversion F1; inversion F2; inversion F3; inversion F4; subst. cbn [rename_list at_head tl renames map commas].
  eapply starts_cast; [apply opens_starts; [apply opens_emit, pre_nil|]|reflexivity]. apply starts_one; auto. now apply rename_rest.
Qed.
Lemma read_pair : forall d p, read_rename_pair ["RENAME"; "TO"]%string (rename_toks d p) = Some p.
Proof.
  intros d [[s n] [s' n']]. unfold read_rename_pair, rename_toks. cbn [fst snd]. rewrite <- app_assoc. rewrite read_qual_toks by reflexivity.
  change (words ["RENAME"; "TO"]%string ([W "RENAME"; W "TO"] ++ ?x)) with (Some x). cbn match.
  rewrite <- (app_nil_r (qual_toks d s' n')). rewrite read_qual_toks by exact I. reflexivity.
Qed.
Lemma read_pair_to : forall d p, read_rename_pair ["TO"]%string (rename_toks d p) = None.
Proof.
  intros d [[s n] [s' n']]. unfold read_rename_pair, rename_toks. cbn [fst snd]. rewrite <- app_assoc. rewrite read_qual_toks by reflexivity. reflexivity.
Qed.
Lemma rename_elements : forall d ps, elements (commas (map (rename_toks d) ps)) = map (rename_toks d) ps.
Proof.
  intros d ps. apply elements_commas. apply Forall_forall. intros e H. apply in_map_iff in H. destruct H as (p & <- & _). split; [apply rename_toks_ne|apply closed_rename].
Qed.
Lemma renames_mysql : forall c s, rt_ignore c = false -> rename_names_ok DMySQL c -> rename_well_formed c -> text_of (rename_table_sql DMySQL c) = Some s ->
  exists ts, tokens DMySQL s = Some ts /\
    read_renames ["RENAME"; "TO"]%string ts = Some (renames (rt_schemas c) (rt_names c) (rt_to_schemas c) (rt_to_names c)) /\
    read_renames ["TO"]%string ts = None.
Proof.
  intros c s IG OK WF T. eexists. split; [exact (rename_toks_of c s IG OK WF T)|].
  unfold read_renames. change (words ["RENAME"; "TABLE"]%string ([W "RENAME"; W "TABLE"] ++ ?x)) with (Some x). cbn match. rewrite rename_elements. split.
  - rewrite (read_all_map _ _ _ _ (fun p => p)); [now rewrite map_id|]. apply Forall_forall. intros p _. apply read_pair.
  - destruct WF as (NE & L1 & L2 & L3). destruct (rt_names c) as [|n ns]; [congruence|]. destruct (rt_schemas c); [discriminate L1|].
    destruct (rt_to_schemas c); [discriminate L2|]. destruct (rt_to_names c); [discriminate L3|]. cbn [renames map read_all]. now rewrite read_pair_to.
Qed.

(** ** Errors *)
Lemma rename_list_ok : forall d ss b ns ss' ns', length ss = length ns -> length ss' = length ns -> length ns' = length ns ->
  snd (rename_list d b ss ns ss' ns') = SOk.
Proof.
  intros d. induction ss as [|s ss IH]; intros b ns ss' ns' L1 L2 L3; [reflexivity|]. destruct ns as [|n ns]; [discriminate|].
  destruct ss' as [|s' ss']; [discriminate|]. destruct ns' as [|n' ns']; [discriminate|]. cbn [length] in *.
  cbn [rename_list at_head tl]. specialize (IH false ns ss' ns' ltac:(lia) ltac:(lia) ltac:(lia)).
  unfold dotted. destruct (is_empty s), (is_empty s'); cbn; exact IH.
Qed.
Lemma rename_status : forall d c, rt_ignore c = false -> rename_well_formed c ->
  (snd (rename_table_sql d c) = SOk <-> rename_supported d c) /\ snd (rename_table_sql d c) <> SPanic.
Proof.
  intros d c IG (NE & L1 & L2 & L3). unfold rename_table_sql, rename_supported. rewrite IG. destruct (is_mysql d) eqn:M.
  - assert (d = DMySQL) by (destruct d; try reflexivity; discriminate M). subst. cbn [negb]. rewrite andb_false_r. cbn [seq emit fst snd].
    rewrite rename_list_ok by assumption. split; [split; [congruence|reflexivity]|discriminate].
  - assert (ND : d <> DMySQL) by (intros ->; discriminate). cbn [negb]. rewrite andb_true_r. destruct (Nat.ltb 1 (length (rt_names c))) eqn:L.
    + apply Nat.ltb_lt in L. cbn. split; [split; [discriminate|]|discriminate]. intros H. destruct (H ND). lia.
    + apply Nat.ltb_ge in L. destruct (rt_names c) as [|n ns]; [congruence|]. destruct (rt_schemas c); [discriminate L1|]. destruct (rt_to_names c); [discriminate L3|].
      assert (E : snd (rename_table_sql d (mk_rename_table (rt_if_exists c) (b :: l) (n :: ns) [] (b0 :: l0) false)) =
        if negb (rt_if_exists c) || is_postgres d then SOk else SErr).
      { unfold rename_table_sql. cbn [rt_ignore rt_names rt_schemas rt_to_names rt_to_schemas rt_if_exists at_head]. rewrite M. cbn [negb]. rewrite andb_true_r.
        replace (Nat.ltb 1 (length (n :: ns))) with false by (symmetry; now apply Nat.ltb_ge). unfold dotted.
        destruct (rt_if_exists c), (is_postgres d), (is_empty b); reflexivity. }
      unfold rename_table_sql in E. cbn [rt_ignore rt_names rt_schemas rt_to_names rt_to_schemas rt_if_exists] in E. rewrite M in E. cbn [negb] in E. rewrite andb_true_r in E.
      replace (Nat.ltb 1 (length (n :: ns))) with false in E by (symmetry; now apply Nat.ltb_ge). rewrite E.
      destruct (rt_if_exists c); cbn [negb orb].
      * destruct (is_postgres d) eqn:P; (split; [|discriminate]); split; try reflexivity.
        -- intros _ _. split; [exact L|]. intros _. destruct d; try discriminate P. reflexivity.
        -- discriminate.
        -- intros H. destruct (H ND) as [_ X]. specialize (X eq_refl). subst d. discriminate P.
      * split; [|discriminate]. split; [intros _ _; split; [exact L|discriminate]|reflexivity].
Qed.
