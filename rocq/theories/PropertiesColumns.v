(** * C78: the introspection queries return the columns that are scanned *)
From Verif Require Import GoBase GoBaseFacts QuoteModel SpecLex TemplateModel ScriptText SpecScript SpecColumns
  ScriptLex ScriptPf ScriptPf2 PropertiesScript.

(** ** Values in place of holes *)
Definition value_tok (t : tok) : bool := match t with TStr _ => true | TSym "," => true | _ => false end.
Lemma value_tokens_are l : forallb value_tok (value_tokens l) = true.
Proof. induction l as [|v [|w l] IH]; [reflexivity|reflexivity|]. exact IH. Qed.
Lemma fill_value f t : (is_hole t = false /\ fill f t = [t]) \/
  (exists n, t = hole n /\ forallb value_tok (fill f t) = true).
Proof.
  destruct (is_hole t) eqn:E; [right|left; split; [reflexivity|now apply fill_plain]].
  destruct t as [w|v|v|c|]; try discriminate. destruct v as [|c v]; [discriminate|]. unfold is_hole in E.
  assert (Ec : c = "."%char) by (destruct c as [[] [] [] [] [] [] [] []]; try discriminate E; reflexivity). subst c.
  exists v. split; [reflexivity|]. pose proof (fill_hole f v) as F. unfold hole in F. rewrite F. apply value_tokens_are.
Qed.
Lemma value_depth t d : value_tok t = true -> depth_after d t = d.
Proof. destruct t as [| | |c|]; try discriminate; [reflexivity|]. destruct c as [[] [] [] [] [] [] [] []]; try discriminate; reflexivity. Qed.
Lemma value_not t k : value_tok t = true -> (exists w, k = TWord w) -> tok_eqb t k = false.
Proof. intros V (w & ->). destruct t; try discriminate; reflexivity. Qed.

Lemma lists_value k l : forall d cur r, forallb value_tok l = true ->
  select_lists k d cur (l ++ r) = select_lists k d (option_map (fun c => c ++ l) cur) r.
Proof.
  induction l as [|t l IH]; intros d cur r H.
  - destruct cur; cbn [app option_map]; [now rewrite app_nil_r|reflexivity].
  - cbn [forallb] in H. apply andb_true_iff in H. destruct H as (H1 & H2). cbn [app select_lists].
    rewrite (value_not t KSELECT H1) by (eexists; reflexivity). rewrite (value_not t KFROM H1) by (eexists; reflexivity).
    rewrite (value_depth t d H1). destruct cur as [c|]; cbn [andb]; rewrite (IH _ _ _ H2); cbn [option_map]; [|reflexivity].
    now rewrite <- app_assoc.
Qed.
Lemma lists_fill f k ts : forall d cur,
  select_lists k d (option_map (flat_map (fill f)) cur) (flat_map (fill f) ts) =
  map (flat_map (fill f)) (select_lists k d cur ts).
Proof.
  induction ts as [|t ts IH]; intros d cur; [reflexivity|]. cbn [flat_map].
  destruct (fill_value f t) as [(E & F)|(n & -> & V)].
  - rewrite F. cbn [app select_lists]. destruct cur as [c|]; cbn [option_map].
    + destruct (tok_eqb t KFROM && Nat.eqb d k).
      * cbn [map]. f_equal. exact (IH d None).
      * rewrite <- (IH (depth_after d t) (Some (c ++ [t]))). cbn [option_map]. rewrite flat_map_app. cbn [flat_map]. now rewrite F, app_nil_r.
    + destruct (tok_eqb t KSELECT && Nat.eqb d k); [exact (IH _ (Some []))|exact (IH _ None)].
  - rewrite (lists_value k _ _ _ _ V). cbn [select_lists].
    replace (tok_eqb (hole n) KSELECT) with false by reflexivity. replace (tok_eqb (hole n) KFROM) with false by reflexivity.
    replace (depth_after d (hole n)) with d by reflexivity. cbn [andb]. destruct cur as [c|]; cbn [option_map]; [|exact (IH d None)].
    rewrite <- (IH d (Some (c ++ [hole n]))). cbn [option_map]. rewrite flat_map_app. cbn [flat_map]. now rewrite app_nil_r.
Qed.
Lemma order_value l : forall d r, forallb value_tok l = true -> after_order d (l ++ r) = after_order d r.
Proof.
  induction l as [|t l IH]; intros d r H; [reflexivity|]. cbn [forallb] in H. apply andb_true_iff in H. destruct H as (H1 & H2).
  cbn [app after_order]. rewrite (value_not t KORDER H1) by (eexists; reflexivity). rewrite (value_depth t d H1). now apply IH.
Qed.
Lemma order_fill f ts : forall d, after_order d (flat_map (fill f) ts) = option_map (flat_map (fill f)) (after_order d ts).
Proof.
  induction ts as [|t ts IH]; intros d; [reflexivity|]. cbn [flat_map].
  destruct (fill_value f t) as [(E & F)|(n & -> & V)].
  - rewrite F. cbn [app after_order]. destruct (tok_eqb t KORDER && Nat.eqb d 0); [reflexivity|apply IH].
  - rewrite (order_value _ _ _ V). cbn [after_order]. replace (tok_eqb (hole n) KORDER) with false by reflexivity. apply IH.
Qed.

(** ** The check, for every shape of filter *)
Definition holeless (l : list tok) : bool := forallb (fun t => negb (is_hole t)) l.
Definition no_hole_lists (ts : list tok) : bool :=
  forallb holeless (select_lists 0 0 None ts) && forallb holeless (select_lists 1 0 None ts) &&
  match after_order 0 ts with Some l => holeless l | None => true end.
Lemma map_fill_none f ls : forallb holeless ls = true -> map (flat_map (fill f)) ls = ls.
Proof. induction ls as [|l ls IH]; cbn [forallb map]; [reflexivity|]. intros H. apply andb_true_iff in H. destruct H as (H1 & H2). now rewrite (IH H2), (fill_none f l H1). Qed.
Lemma columns_fill f ts : no_hole_lists ts = true -> columns (flat_map (fill f) ts) = columns ts /\ ordering (flat_map (fill f) ts) = ordering ts.
Proof.
  unfold no_hole_lists. intros H. apply andb_true_iff in H. destruct H as (H & H3). apply andb_true_iff in H. destruct H as (H1 & H2). split.
  - unfold columns. pose proof (lists_fill f 0 ts 0 None) as A. pose proof (lists_fill f 1 ts 0 None) as C. cbn [option_map] in A, C.
    rewrite A, C, (map_fill_none f _ H1), (map_fill_none f _ H2). reflexivity.
  - unfold ordering. rewrite order_fill. destruct (after_order 0 ts) as [l|]; [|reflexivity]. cbn [option_map]. now rewrite (fill_none f l H3).
Qed.

Definition named (d : dest) (n : bytes) : bool := existsb (beqb n) (sql_names d).
Fixpoint fits (ds : list dest) (ns : list bytes) : bool :=
  match ds, ns with
  | [], [] => true
  | d :: ds', n :: ns' => named d n && fits ds' ns'
  | _, _ => false
  end.
Definition order_tokens (q : query) : list (list tok) := map (fun s => lex false (B s)) (q_order q).
Definition query_check (q : query) : bool :=
  match template_of (q_dialect q) (q_text q) with
  | None => false
  | Some t =>
    no_holes t &&
    forallb (fun g => let ts := sym g t in
      no_hole_lists ts &&
      match columns ts with Some (l :: ls) => forallb (fits (q_scan q)) (l :: ls) | _ => false end &&
      match ordering ts with Some o => conds_eqb o (if f_sort g then order_tokens q else []) | None => false end) shapes
  end.
Lemma queries_checked : forallb query_check scans = true.
Proof. vm_compute. reflexivity. Qed.

Lemma fits_all ds : forall ns, fits ds ns = true -> Forall2 (fun d n => In n (sql_names d)) ds ns.
Proof.
  induction ds as [|d ds IH]; intros [|n ns] H; try discriminate; [constructor|]. cbn [fits] in H. apply andb_true_iff in H. destruct H as (H1 & H2).
  constructor; [|now apply IH]. unfold named in H1. apply existsb_exists in H1. destruct H1 as (m & I & E). apply beqb_eq in E. now subst m.
Qed.

(** C78.  For every filter: the query has as many columns as Scan is given
    destinations, each is the one meant for its destination, in every SELECT of
    it; and its rows are sorted exactly if SortOutput is set, by name (columns of
    a table by position). *)
Theorem scanned_columns q f :
  In q scans -> no_backslash (q_dialect q) f ->
  forall dflt, exists text, query_text dflt (Some f) (q_text q) = Some text /\
    let ts := lex (backslashes (q_dialect q)) text in
    (exists cols, columns ts = Some cols /\ cols <> [] /\
       Forall (Forall2 (fun d n => In n (sql_names d)) (q_scan q)) cols) /\
    ordering ts = Some (if f_sort f then map (fun s => lex false (B s)) (q_order q) else []).
Proof.
  intros Hq Nf dflt. pose proof queries_checked as C. rewrite forallb_forall in C. specialize (C q Hq). unfold query_check, template_of in C.
  destruct (parse_template (q_text q)) as [ns|] eqn:P; [|discriminate]. destruct (nodes_check _ _ ns) as [ks|] eqn:Nc; [|discriminate].
  apply andb_true_iff in C. destruct C as (C1 & C2). rewrite forallb_forall in C2. specialize (C2 (shape f) (shapes_all f)). cbn zeta in C2.
  apply andb_true_iff in C2. destruct C2 as (C2 & C4). apply andb_true_iff in C2. destruct C2 as (C2 & C3).
  assert (Sf : filter_silent (backslashes (q_dialect q)) f).
  { unfold filter_silent, no_backslash in *. destruct (q_dialect q); cbn [backslashes]; try (rewrite Forall_forall; intros l _; rewrite Forall_forall; intros v _ X; discriminate X).
    specialize (Nf eq_refl). eapply Forall_impl; [|exact Nf]. intros l Hl. eapply Forall_impl; [|exact Hl]. intros v Hv _. exact Hv. }
  destruct (query_lexed _ f (q_text q) ns ks Sf P Nc dflt) as (text & Q & L). exists text. split; [exact Q|].
  cbn zeta. rewrite L, (expand_sym f _ C1). destruct (columns_fill f _ C2) as (E1 & E2). rewrite E1, E2. split.
  - destruct (columns _) as [[|l ls]|]; try discriminate. exists (l :: ls). split; [reflexivity|]. split; [discriminate|].
    rewrite Forall_forall. intros x X. rewrite forallb_forall in C3. apply fits_all, C3, X.
  - destruct (ordering _) as [o|]; [|discriminate]. apply conds_eqb_eq in C4. subst o. reflexivity.
Qed.
Print Assumptions scanned_columns.

(** ** The names reported are those of the catalogue *)
Definition depths := [0; 1; 2; 3; 4; 5].
Definition no_hole_items (ts : list tok) : bool := forallb (fun k => forallb holeless (select_lists k 0 None ts)) depths.
Lemma selected_fill f ts : no_hole_items ts = true -> selected (flat_map (fill f) ts) = selected ts.
Proof.
  unfold no_hole_items, selected. fold depths. intros H. induction depths as [|k ks IH]; [reflexivity|].
  cbn [forallb] in H. apply andb_true_iff in H. destruct H as (H1 & H2). cbn [flat_map]. rewrite (IH H2).
  pose proof (lists_fill f k ts 0 None) as A. cbn [option_map] in A. now rewrite A, (map_fill_none f _ H1).
Qed.
Definition tok_sources (d : dialect) : list (bytes * list (list tok)) :=
  map (fun p => (B (fst p), map (fun e => lex false (B e)) (snd p))) (name_sources d).
Definition item_check (src : list (bytes * list (list tok))) (it : list tok) : bool :=
  match item_name it with
  | None => true
  | Some n => forallb (fun p => if beqb n (fst p) then existsb (toks_eqb (item_source it)) (snd p) else true) src
  end.
Definition source_check (q : query) : bool :=
  match template_of (q_dialect q) (q_text q) with
  | None => false
  | Some t => let src := tok_sources (q_dialect q) in
    no_holes t && forallb (fun g => let ts := sym g t in no_hole_items ts && forallb (item_check src) (selected ts)) shapes
  end.
Lemma sources_checked : forallb source_check scans = true.
Proof. vm_compute. reflexivity. Qed.
(** For every filter, in every SELECT of the query: a column called after the
    schema, table, view, trigger, ... holds the name that the catalogue of the
    database has for it. *)
Theorem names_from_catalogue q f :
  In q scans -> no_backslash (q_dialect q) f ->
  forall dflt, exists text, query_text dflt (Some f) (q_text q) = Some text /\
    forall it column sources, In it (selected (lex (backslashes (q_dialect q)) text)) ->
      In (column, sources) (name_sources (q_dialect q)) -> item_name it = Some (B column) ->
      exists e, In e sources /\ item_source it = lex false (B e).
Proof.
  intros Hq Nf dflt. pose proof sources_checked as C. rewrite forallb_forall in C. specialize (C q Hq). unfold source_check, template_of in C.
  destruct (parse_template (q_text q)) as [ns|] eqn:P; [|discriminate]. destruct (nodes_check _ _ ns) as [ks|] eqn:Nc; [|discriminate].
  apply andb_true_iff in C. destruct C as (C1 & C2). rewrite forallb_forall in C2. specialize (C2 (shape f) (shapes_all f)). cbn zeta in C2.
  apply andb_true_iff in C2. destruct C2 as (C2 & C3).
  assert (Sf : filter_silent (backslashes (q_dialect q)) f).
  { unfold filter_silent, no_backslash in *. destruct (q_dialect q); cbn [backslashes]; try (rewrite Forall_forall; intros l _; rewrite Forall_forall; intros v _ X; discriminate X).
    specialize (Nf eq_refl). eapply Forall_impl; [|exact Nf]. intros l Hl. eapply Forall_impl; [|exact Hl]. intros v Hv _. exact Hv. }
  destruct (query_lexed _ f (q_text q) ns ks Sf P Nc dflt) as (text & Q & L). exists text. split; [exact Q|].
  intros it column sources I J E. rewrite L, (expand_sym f _ C1), (selected_fill f _ C2) in I.
  rewrite forallb_forall in C3. specialize (C3 it I). unfold item_check in C3. rewrite E in C3.
  rewrite forallb_forall in C3. specialize (C3 (B column, map (fun e => lex false (B e)) sources)).
  cbn [fst snd] in C3. rewrite beqb_refl in C3.
  assert (X : existsb (toks_eqb (item_source it)) (map (fun e => lex false (B e)) sources) = true).
  { apply C3. unfold tok_sources. apply in_map_iff. exists (column, sources). split; [reflexivity|exact J]. }
  apply existsb_exists in X. destruct X as (ts & I2 & T). apply in_map_iff in I2. destruct I2 as (e & <- & I3).
  exists e. split; [exact I3|]. now apply toks_eqb_eq in T.
Qed.
Print Assumptions names_from_catalogue.
Example ex_sources :
  match query_text None (Some ex_filter) postgres_tables with
  | Some text => map (fun it => (item_name it, item_source it)) (selected (lex false text)) =
      [(Some (B "table_schema"), lex false (B "schemas.nspname")); (Some (B "table_name"), lex false (B "tables.relname"))]
  | None => False
  end.
Proof. vm_compute. reflexivity. Qed.

(** Every script is in the table of Scan calls, with its dialect, and nothing else is. *)
Definition pair_eqb (p q : dialect * bytes) : bool := beqb (dialect_name (fst p)) (dialect_name (fst q)) && beqb (snd p) (snd q).
Example every_script :
  forallb (fun q => existsb (pair_eqb (q_dialect q, q_text q)) all_scripts) scans = true /\
  forallb (fun p => existsb (fun q => pair_eqb (q_dialect q, q_text q) p) scans) all_scripts = true /\
  length scans = length all_scripts.
Proof. repeat split; vm_compute; reflexivity. Qed.

(** A filter with all kinds of lists, and what the theorem says of it: the three
    SELECTs of a UNION have the same seven columns. *)
Definition ex_constraints : query := nth 7 scans (mk_query DSQLite [] [] []).
Example ex_columns : In ex_constraints scans /\ q_text ex_constraints = sqlite_constraints /\
  no_backslash (q_dialect ex_constraints) ex_filter /\
  match query_text None (Some ex_filter) (q_text ex_constraints) with
  | Some text =>
    columns (lex false text) = Some (repeat (map B ["table_name"; "constraint_type"; "columns"; "references_table"; "references_columns"; "update_rule"; "delete_rule"]%string) 3) /\
    ordering (lex false text) = Some [lex false (B "table_name"); lex false (B "constraint_type")]
  | None => False
  end.
Proof. split; [unfold scans; cbn [In]; do 7 right; left; reflexivity|]. split; [reflexivity|]. split; [discriminate|]. vm_compute. split; reflexivity. Qed.
