(** * PropertiesParts: the constraints, indexes and triggers of a table whose
    struct has a DDL method (C62) *)
From Verif Require Import GoBase GoBaseFacts QuoteModel CacheModel CacheFacts UpsertModel NameModel TokenModel DdlModel MigrateModel LoadModel LoadFacts LoadTable LoadDdl
  SpecLoad SpecT TriggerModel SpecTrigger LoadGood SpecParts PartsPf PropertiesLoad.

Lemma settled_loaded {A} (nm : A -> bytes) (ig : A -> bool) (P : A -> Prop) (s : cached A) l : sound nm ig P s -> objects s = l -> (forall a, In a l -> ig a = false) -> settled nm ig s.
Proof. intros (F & U & N) E I. split; [split; [exact F|]; split; [exact U|]; intros a J; split; [apply N; exact J|exact Logic.I]|]. rewrite E. exact I. Qed.
(** What the struct fields leave for the DDL method. *)
Lemma fields_ready numeric d sc nm fs ddl t : let tb := mk_table_id sc nm in
  load_table numeric d sc nm fs ddl (empty_table [] []) = LOk t \/ (exists t1, load_fields numeric d fs (empty_table sc nm) = LOk (t1, false) /\ nm <> []) ->
  table_ignored d fs = false -> NoDup (flat_map field_columns fs) ->
  NoDup (map c_name (declared_constraints d tb fs)) -> NoDup (map x_name (declared_indexes d tb fs)) ->
  Forall (fun c => c_ignore c = false) (declared_constraints d tb fs) -> Forall (fun x => x_ignore x = false) (declared_indexes d tb fs) ->
  exists t1, load_fields numeric d fs (empty_table sc nm) = LOk (t1, false) /\ run_ok (mk_t t1 [] [] []) /\ table_of t1 = tb /\ sound l_name l_ignore any (t_columns t1) /\
    objects (t_columns t1) = declared_columns numeric d tb fs /\ objects (t_constraints t1) = declared_constraints d tb fs /\ objects (t_indexes t1) = declared_indexes d tb fs /\ objects (t_triggers t1) = [].
Proof.
  intros tb H I N Nc Nx Ic Ix. assert (H0 : nm <> [] /\ exists t1 b, load_fields numeric d fs (empty_table sc nm) = LOk (t1, b)).
  { destruct H as [H|(t1 & E & H)]; [|eauto]. apply load_table_unfold in H. destruct H as (NE & t1 & b & H & _). eauto. }
  clear H. destruct H0 as (NE & t1 & b & E). assert (W0 : well_loaded (empty_table sc nm)) by (split; [apply sound_new|]; split; [apply sound_new|]; split; apply sound_new).
  destruct (load_fields_sound numeric d fs _ (t1, b) W0 E) as ((W1 & W2 & W3 & W4) & Tb). cbn [fst] in *. change (table_of (empty_table sc nm)) with tb in *.
  pose proof E as E0. apply load_fields_ok in E0; [|reflexivity|].
  2:{ cbn [empty_table t_columns cached_new objects app]. rewrite declared_names, fields_read_all by exact I. exact N. }
  rewrite fields_read_all in E0 by exact I. destruct E0 as [F ->]. rewrite I in E. exists t1. split; [exact E|]. destruct F as (F1 & _ & F3 & F4 & _ & _ & _ & _ & _ & F8).
  change (table_of (empty_table sc nm)) with tb in *. change (objects (t_columns (empty_table sc nm))) with (@nil column) in F1. cbn [app] in F1.
  unfold appended in F3, F4. change (objects (t_constraints (empty_table sc nm))) with (@nil constraint) in F3. change (objects (t_indexes (empty_table sc nm))) with (@nil index) in F4. cbn [app] in F3, F4.
  specialize (F3 Nc). specialize (F4 Nx). rewrite Forall_forall in Ic, Ix. assert (F8' : objects (t_triggers t1) = []) by (rewrite F8; reflexivity).
  split; [|auto 10]. split; [exact (settled_loaded _ _ _ _ _ W2 F3 Ic)|]. split; [constructor|]. split; [exact (settled_loaded _ _ _ _ _ W3 F4 Ix)|]. split; [constructor|].
  split; [apply (settled_loaded _ _ _ _ _ W4 F8'); intros a []|]. cbn [ts_table]. assert (X : t_name t1 = nm) by (apply (f_equal tb_name) in Tb; exact Tb). now rewrite X.
Qed.
Lemma marked_same t : t_constraints (mark_columns (fts5_args t)) = t_constraints t /\ t_indexes (mark_columns (fts5_args t)) = t_indexes t /\ t_triggers (mark_columns (fts5_args t)) = t_triggers t.
Proof. unfold mark_columns, fts5_args. destruct (equal_fold _ _); repeat split. Qed.

(** ** What the table has in the end *)
(** The constraints and indexes are those of the struct tags, changed by the
    calls one after the other; the triggers are those created by the texts given
    to Trigger, in order. *)
Theorem ddl_parts : forall (numeric : bytes -> bool) (d : dialect) (sc nm : bytes) (fs : list struct_field) (calls : list t_call) (t : table),
  let tb := mk_table_id sc nm in
  load_table numeric d sc nm fs calls (empty_table [] []) = LOk t ->
  table_ignored d fs = false -> NoDup (flat_map field_columns fs) ->
  NoDup (map c_name (declared_constraints d tb fs)) -> NoDup (map x_name (declared_indexes d tb fs)) ->
  Forall (fun c => c_ignore c = false) (declared_constraints d tb fs) -> Forall (fun x => x_ignore x = false) (declared_indexes d tb fs) ->
  Forall plain_call calls ->
  objects (t_constraints t) = constraints_after d tb [] [] calls (declared_constraints d tb fs) /\
  objects (t_indexes t) = indexes_after tb [] calls (declared_indexes d tb fs) /\
  exists gs, Forall2 (creates d tb) (trigger_texts calls) gs /\ objects (t_triggers t) = fold_left add_trigger gs [].
Proof.
  intros numeric d sc nm fs calls t tb H I N Nc Nx Ic Ix K.
  destruct (fields_ready numeric d sc nm fs calls t (or_introl H) I N Nc Nx Ic Ix) as (t1 & E & R & Tb & _ & _ & Oc & Ox & Og). fold tb in Tb, Oc, Ox.
  apply load_table_unfold in H. destruct H as (_ & t1' & b & E' & H). rewrite E in E'. injection E' as <- <-. destruct H as (st & Q & ->).
  destruct (marked_same (ts_table st)) as (-> & -> & ->). destruct (t_run_parts numeric d calls _ st R K Q) as (_ & A & B & gs & C & G). cbn [ts_table ts_columns ts_constraints ts_indexes] in *.
  rewrite Tb, Oc in A. rewrite Tb, Ox in B. rewrite Tb in C. rewrite Og in G. split; [exact A|]. split; [exact B|]. exists gs. auto.
Qed.
Print Assumptions ddl_parts.

(** ** When the calls are accepted *)
(** If the struct fields alone load, then LoadTable with the DDL method succeeds
    exactly if each call is acceptable by itself; otherwise the panic becomes an
    error. *)
Theorem ddl_accepted : forall (numeric : bytes -> bool) (d : dialect) (sc nm : bytes) (fs : list struct_field) (calls : list t_call) (t0 : table),
  let tb := mk_table_id sc nm in
  load_table numeric d sc nm fs [] (empty_table [] []) = LOk t0 ->
  table_ignored d fs = false -> NoDup (flat_map field_columns fs) ->
  NoDup (map c_name (declared_constraints d tb fs)) -> NoDup (map x_name (declared_indexes d tb fs)) ->
  Forall (fun c => c_ignore c = false) (declared_constraints d tb fs) -> Forall (fun x => x_ignore x = false) (declared_indexes d tb fs) ->
  Forall (steady_call d) calls -> handled 0 0 0 calls ->
  let ok := Forall (acceptable d tb (visible_columns (declared_columns numeric d tb fs))) calls in
  (ok <-> exists t, load_table numeric d sc nm fs calls (empty_table [] []) = LOk t) /\
  (~ ok -> load_table numeric d sc nm fs calls (empty_table [] []) = LErr).
Proof.
  intros numeric d sc nm fs calls t0 tb H I N Nc Nx Ic Ix K Hd ok. assert (NE : nm <> []) by (apply load_table_unfold in H; apply H).
  destruct (fields_ready numeric d sc nm fs [] t0 (or_introl H) I N Nc Nx Ic Ix) as (t1 & E & R & Tb & Sl & Ol & _). fold tb in Tb, Ol.
  assert (A : (exists st, t_run numeric d calls (mk_t t1 [] [] []) = Some st) <-> ok).
  { unfold ok. rewrite <- Tb. apply (t_run_accepts numeric d); auto. split; [exact Sl|]. split; [constructor|]. rewrite Tb. exact (f_equal visible_columns Ol). }
  assert (L : load_table numeric d sc nm fs calls (empty_table [] []) = match t_run numeric d calls (mk_t t1 [] [] []) with Some st => LOk (mark_columns (fts5_args (ts_table st))) | None => LErr end).
  { unfold load_table. destruct nm as [|c nm]; [congruence|]. cbn [is_empty]. change (mk_table sc (c :: nm) _ _ _ _ _ _ _) with (empty_table sc (c :: nm)). rewrite E. cbn [lbind fst snd]. reflexivity. }
  rewrite L. destruct (t_run numeric d calls (mk_t t1 [] [] [])) as [st|].
  - split; [split; [eauto|intros _; apply A; eauto]|]. intros X. destruct X. apply A. eauto.
  - split; [|reflexivity]. split; [intros X; apply A in X; destruct X as (x & X); discriminate X|intros (x & X); discriminate X].
Qed.
Print Assumptions ddl_accepted.

(** ** Examples *)
Definition parts_calls : list t_call :=
  [TConstraintCall (CDefine (B "UNIQUE") (B "rating_score_key") [B "score"; B "user_id"] []);
   TConstraintCall (CAttr 0 AInitiallyDeferred);
   TColumn (B "score"); TColumnCall 0 TCUnique; TColumnCall 0 TCPrimaryKey;
   TConstraintCall (CExclude (B "excl") (B "gist") [B "score"] [[]] [B "="]);
   TConstraintCall (CAttr 1 (AWhere (B "score > 0")));
   TIndexCall (IDefine (B "rating_film_id_idx") [B "score"] [[]]); TIndexCall (IAttr 0 IUnique);
   TTrigger (Some (B "CREATE TRIGGER trg AFTER INSERT ON rating EXECUTE FUNCTION f()"));
   TTrigger (Some (B "CREATE TRIGGER trg BEFORE DELETE ON rating EXECUTE FUNCTION g()"))].
Definition parts_table : table_id := mk_table_id [] (B "rating").
Example parts_premises :
  table_ignored DPostgres ex_fields = false /\ NoDup (map c_name (declared_constraints DPostgres parts_table ex_fields)) /\
  NoDup (map x_name (declared_indexes DPostgres parts_table ex_fields)) /\
  Forall (fun c => c_ignore c = false) (declared_constraints DPostgres parts_table ex_fields) /\
  Forall (fun x => x_ignore x = false) (declared_indexes DPostgres parts_table ex_fields) /\
  Forall plain_call parts_calls /\ Forall (steady_call DPostgres) parts_calls /\ handled 0 0 0 parts_calls /\
  exists t, load_table ex_numeric DPostgres [] (B "rating") ex_fields [] (empty_table [] []) = LOk t.
Proof.
  split; [reflexivity|]. split; [|split; [|split; [|split; [|split; [|split; [|split]]]]]].
  - vm_compute. repeat constructor; cbn; intros H; repeat destruct H as [H|H]; try discriminate; contradiction.
  - vm_compute. repeat constructor; cbn; intros H; repeat destruct H as [H|H]; try discriminate; contradiction.
  - apply Forall_forall. intros c H. vm_compute in H. repeat destruct H as [<-|H]; try reflexivity. destruct H.
  - apply Forall_forall. intros c H. vm_compute in H. repeat destruct H as [<-|H]; try reflexivity. destruct H.
  - repeat constructor; discriminate.
  - repeat constructor; discriminate.
  - cbn. repeat split; auto with arith.
  - match goal with |- exists t, ?x = LOk t => let r := eval vm_compute in x in match r with LOk ?t => exists t end end. vm_compute. reflexivity.
Qed.
Example parts_loaded :
  exists t, load_table ex_numeric DPostgres [] (B "rating") ex_fields parts_calls (empty_table [] []) = LOk t /\
  map (fun c => (c_name c, c_type c, c_columns c, c_deferred c)) (objects (t_constraints t)) =
    [(B "my_pkey", B "PRIMARY KEY", [B "user_id"; B "film_id"], false); (B "rating_user_id_fkey", B "FOREIGN KEY", [B "user_id"], false);
     (B "film_fk", B "FOREIGN KEY", [B "film_id"], true); (B "rating_score_key", B "UNIQUE", [B "score"], true);
     (B "rating_score_pkey", B "PRIMARY KEY", [B "score"], false); (B "excl", B "EXCLUDE", [B "score"], false)] /\
  map (fun x => (x_name x, x_columns x, x_unique x)) (objects (t_indexes t)) =
    [(B "rating_score_user_id_idx", [B "score"; B "user_id"], true); (B "rating_film_id_idx", [B "score"], true)] /\
  map (fun g => (g_name g, g_sql g)) (objects (t_triggers t)) = [(B "trg", B "CREATE TRIGGER trg BEFORE DELETE ON rating EXECUTE FUNCTION g()")].
Proof.
  match goal with |- exists t, ?x = LOk t /\ _ => let r := eval vm_compute in x in match r with LOk ?t => exists t end end.
  split; [vm_compute; reflexivity|]. repeat split; vm_compute; reflexivity.
Qed.
(** One unacceptable call. *)
Example parts_refused :
  load_table ex_numeric DPostgres [] (B "rating") ex_fields (parts_calls ++ [TTrigger (Some (B "CREATE TRIGGER trg AFTER INSERT ON film EXECUTE FUNCTION f()"))]) (empty_table [] []) = LErr /\
  load_table ex_numeric DMySQL [] (B "rating") ex_fields [TConstraintCall (CExclude (B "excl") (B "gist") [B "score"] [[]] [B "="])] (empty_table [] []) = LErr /\
  load_table ex_numeric DPostgres [] (B "rating") ex_fields [TColumn (B "scores")] (empty_table [] []) = LErr.
Proof. repeat split; vm_compute; reflexivity. Qed.
