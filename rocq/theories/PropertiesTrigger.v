(** * Statements: C44.  See SpecTrigger. *)
From Coq Require Import Lia.
From Verif Require Import GoBase GoBaseFacts QuoteModel SpecSprintf SpecToken CacheModel SpecCache CacheFacts TokenModel DdlModel MigrateModel TriggerModel SpecTrigger TrimPf TriggerPf FunctionPf TriggerStore.

(** ** The trigger's name and table *)
(** A statement of the documented shape is recorded under exactly the name, the
    table and the schema written in it. *)
Theorem trigger_found : forall (d : dialect) (name schema table sql : bytes),
  trigger_text d name schema table sql ->
  trigger_info (S (length sql)) d sql = LOk (mk_trigger schema table name sql false).
Proof.
  intros d name schema table sql (pre & kw & ine & mid & on & tab & rest & H & F & K & I & M & O & Q & N).
  exact (trigger_info_found d pre kw ine name mid on tab rest sql schema table H F K I M O Q N).
Qed.
Print Assumptions trigger_found.
(** A statement without the word TRIGGER, or with no word ON after the name, is an error. *)
Theorem trigger_missing : forall (d : dialect) (ws : list bytes) (rest sql : bytes),
  words_text d ws rest (B " " ++ sql) -> blanks rest -> sql <> [] ->
  Forall (not_keyword (B "TRIGGER")) ws -> trigger_info (S (length sql)) d sql = LErr.
Proof. exact trigger_info_misses. Qed.
Print Assumptions trigger_missing.
Theorem trigger_without_table : forall (d : dialect) (pre : list bytes) (kw name : bytes) (ws : list bytes) (rest sql : bytes),
  d <> DSQLite -> words_text d (pre ++ kw :: name :: ws) rest (B " " ++ sql) -> blanks rest ->
  Forall (not_keyword (B "TRIGGER")) pre -> keyword (B "TRIGGER") kw ->
  Forall (not_keyword (B "ON")) ws -> trigger_info (S (length sql)) d sql = LErr.
Proof. exact trigger_info_no_on. Qed.
Print Assumptions trigger_without_table.
(** Whatever the text, there is no panic; and it ends, if its white space is ASCII,
    U+0085 or U+00A0. *)
Theorem trigger_never_panics : forall (fuel : nat) (d : dialect) (sql : bytes), trigger_info fuel d sql <> LPanic.
Proof.
  intros fuel d sql. unfold trigger_info.
  assert (H : forall f st name s, trigger_loop f d st name s <> LPanic).
  { induction f as [|f IH]; intros st name s; destruct s; try discriminate. cbn [trigger_loop].
    destruct st; (destruct (pop_identifier d _) as [w r]; try apply IH). destruct (split_dot w) as [[? ?]|]; discriminate. }
  specialize (H fuel PreTrigger [] sql). destruct (trigger_loop fuel d PreTrigger [] sql) as [[[? ?] ?]| | |]; try discriminate; [|congruence].
  destruct (_ && _); discriminate.
Qed.
Print Assumptions trigger_never_panics.
Theorem trigger_ends : forall (d : dialect) (sql : bytes), only_blanks sql -> trigger_info (S (length sql)) d sql <> LDiverge.
Proof.
  intros d sql H. unfold trigger_info. destruct (trigger_loop_ends d (S (length sql)) PreTrigger [] sql H) as (E & _); [lia|].
  destruct (trigger_loop _ _ _ _ _) as [[[? ?] ?]| | |]; try discriminate; [|congruence]. destruct (_ && _); discriminate.
Qed.
Print Assumptions trigger_ends.
(** Whatever is reported was a name and a table. *)
Theorem trigger_named : forall (fuel : nat) (d : dialect) (sql : bytes) (g : trigger), sql <> [] ->
  trigger_info fuel d sql = LOk g -> g_name g <> [] /\ g_table g <> [] /\ g_sql g = sql.
Proof.
  intros fuel d sql g N H. unfold trigger_info in H. destruct (trigger_loop _ _ _ _ _) as [[[n s] t]| | |]; try discriminate.
  destruct sql; [congruence|]. cbn [is_empty negb andb] in H. destruct n, t; try discriminate. injection H as <-. repeat split; discriminate.
Qed.
Print Assumptions trigger_named.

(** ** T.Trigger *)
Definition same_table (t t' : table) : Prop :=
  t_schema t' = t_schema t /\ t_name t' = t_name t /\ t_columns t' = t_columns t /\ t_constraints t' = t_constraints t /\
  t_indexes t' = t_indexes t /\ t_virtual t' = t_virtual t /\ t_virtual_args t' = t_virtual_args t /\ t_ignore t' = t_ignore t.
Lemma trigger_text_name d name schema table sql : trigger_text d name schema table sql -> name <> [].
Proof.
  intros (pre & kw & ine & mid & on & tab & rest & H & _).
  assert (X : forall ws r s, words_text d ws r s -> Forall (fun w => w <> []) ws) by (intros ws r s W; induction W; constructor; auto).
  apply X in H. rewrite Forall_forall in H. apply H. apply in_or_app. right. right. apply in_or_app. right. now left.
Qed.
(** On the table it names, the statement is added under its name; if the table has
    a trigger of that name, its text becomes the new one.  Nothing else changes. *)
Theorem table_trigger_added : forall (d : dialect) (name schema text sql : bytes) (t : table),
  trimmed text sql -> trigger_text d name schema (t_name t) sql -> schema = [] \/ schema = t_schema t ->
  fresh g_name g_ignore (t_triggers t) ->
  exists t', t_trigger (S (length sql)) d text t = LOk t' /\ same_table t t' /\ fresh g_name g_ignore (t_triggers t') /\
    ((forall g, In g (objects (t_triggers t)) -> g_name g = name -> g_ignore g = true) ->
     objects (t_triggers t') = objects (t_triggers t) ++ [mk_trigger schema (t_name t) name sql false]) /\
    (forall before old after, objects (t_triggers t) = before ++ old :: after -> g_name old = name -> g_ignore old = false ->
     (forall g, In g after -> g_name g = name -> g_ignore g = true) ->
     objects (t_triggers t') = before ++ mk_trigger (g_schema old) (g_table old) name sql false :: after).
Proof.
  intros d name schema text sql t T W S F. unfold t_trigger. rewrite (trimmed_space _ _ T), (trigger_found _ _ _ _ _ W). cbn [g_schema g_table g_name g_sql].
  replace (negb (is_empty schema) && negb (beqb schema (t_schema t))) with false
    by (destruct S as [->| ->]; [reflexivity|rewrite beqb_refl; now destruct (is_empty _)]).
  rewrite beqb_refl. cbn [negb]. pose proof (lookup_fresh g_name g_ignore false name _ F) as F1.
  pose proof (lookup_objects g_name g_ignore false name (t_triggers t)) as O.
  destruct (lookup_split g_name g_ignore false name _ F (or_introl (trigger_text_name _ _ _ _ _ W))) as [(L & A)|(b & old & a & E & L & N & I & A)];
    destruct (lookup g_name g_ignore false name (t_triggers t)) as [r ts]; cbn [fst snd] in L, O, F1; subst r.
  - eexists. split; [reflexivity|]. split; [repeat split|]. split; [|split].
    + apply (append_fresh g_name g_ignore (mk_trigger schema (t_name t) name sql false) ts F1). now left.
    + intros _. cbn [set_triggers t_triggers append snd objects]. now rewrite O.
    + intros b old a E N I _. rewrite (A old) in I; [discriminate| |exact N]. rewrite E. apply in_or_app. right. now left.
  - rewrite O, E, nth_split. eexists. split; [reflexivity|]. split; [repeat split|]. split; [|split].
    + apply (edit_fresh g_name g_ignore _ ts F1).
      rewrite O, E, set_split. apply Forall2_app; [|constructor; [now split|]]; apply forall2_self; auto.
    + intros X. rewrite (X old) in I; [discriminate| |exact N]. apply in_or_app. right. now left.
    + intros b' old' a' E' N' I' A'. cbn [set_triggers t_triggers edit objects]. rewrite set_split.
      destruct (split_unique g_name g_ignore name b b' old old' a a') as (-> & -> & ->); auto.
      unfold g_set_sql. now rewrite N', I'.
Qed.
Print Assumptions table_trigger_added.
(** On any other table it is an error. *)
Theorem table_trigger_refused : forall (d : dialect) (name schema tname text sql : bytes) (t : table),
  trimmed text sql -> trigger_text d name schema tname sql ->
  (schema <> [] /\ schema <> t_schema t) \/ tname <> t_name t -> t_trigger (S (length sql)) d text t = LErr.
Proof.
  intros d name schema tname text sql t T W H. unfold t_trigger. rewrite (trimmed_space _ _ T), (trigger_found _ _ _ _ _ W). cbn [g_schema g_table].
  destruct (negb (is_empty schema) && negb (beqb schema (t_schema t))) eqn:X; [reflexivity|].
  destruct (beqb tname (t_name t)) eqn:Y; [|reflexivity]. apply beqb_eq in Y. destruct H as [(H1 & H2)|H]; [|congruence].
  destruct schema; [congruence|]. cbn [is_empty negb andb] in X. apply negb_false_iff, beqb_eq in X. congruence.
Qed.
Print Assumptions table_trigger_refused.

(** ** Functions *)
(** A function file of the documented shape is recorded under the schema and the
    name written in it, with its arguments and its return type. *)
Theorem function_found : forall (schema name args ty sql : bytes) (ignore : bool),
  function_text schema name args ty sql ->
  function_info (S (length sql)) DPostgres (mk_func [] [] [] sql ignore) [] = LOk (mk_func schema name args sql ignore, ty).
Proof.
  intros schema name args ty sql ig (pre & kw & b & q & b1 & text & tail & H & F & K & Hb & Nb & Ps & Pn & Nn & Q & Hb1 & Pa & T & R & D).
  exact (function_info_found pre kw b schema name q b1 text tail ty args sql ig H F K Hb Nb Ps Pn Nn Q Hb1 Pa R T D).
Qed.
Print Assumptions function_found.
(** Outside Postgres the file is taken as it is, without a name. *)
Theorem function_elsewhere : forall (fuel : nat) (d : dialect) (f : func) (ret : bytes), d <> DPostgres -> function_info fuel d f ret = LOk (f, ret).
Proof. intros fuel d f ret D. destruct d; try reflexivity. congruence. Qed.
Print Assumptions function_elsewhere.
(** One function per file, in order. *)
Theorem functions_of_files : forall (files : list bytes) (fs : list func),
  Forall2 (fun text f => exists ty, function_text (f_schema f) (f_name f) (f_args f) ty text /\ f_sql f = text /\ f_ignore f = false) files fs ->
  files_to_functions DPostgres (map Some files) = LOk fs.
Proof.
  intros files fs H. induction H as [|text f files fs (ty & T & S & I) H IH]; [reflexivity|]. cbn [map files_to_functions].
  rewrite (function_found _ _ _ _ _ false T), IH. rewrite <- S, <- I. now destruct f.
Qed.
Print Assumptions functions_of_files.
(** A file that cannot be read is an error. *)
Theorem unreadable_file : forall (d : dialect) (files : list (option bytes)) (fs : list func),
  files_to_functions d files = LOk fs -> ~ In None files /\ length fs = length files.
Proof.
  intros d files. induction files as [|[text|] files IH]; intros fs H; cbn [files_to_functions] in H; try discriminate.
  - injection H as <-. split; [tauto|reflexivity].
  - destruct (function_info _ _ _ _) as [[f r]| | |]; try discriminate. destruct (files_to_functions d files) as [fs'| | |]; try discriminate.
    injection H as <-. destruct (IH fs' eq_refl) as (N & L). split; [intros [E|E]; [discriminate|contradiction]|cbn; now rewrite L].
Qed.
Print Assumptions unreadable_file.

(** ** Concrete cases *)
Lemma words_join d ws rest : Forall (fun w => ident d w /\ w <> []) ws -> after_word rest ->
  words_text d ws rest (flat_map (fun w => B " " ++ w) ws ++ rest).
Proof.
  intros F A. induction F as [|w ws (I & N) F IH]; [now constructor|]. cbn [flat_map]. rewrite <- !app_assoc. constructor; auto; [|discriminate].
  exists [32%N]. split; [reflexivity|]. constructor; [right; left; reflexivity|constructor].
Qed.
Definition plain_ascii (w : bytes) : bool := forallb (fun c => let n := ord c in (33 <=? n)%N && (n <=? 126)%N && negb (existsb (N.eqb n) (map ord [""""; "`"; "["]%char))) w.
Lemma ident_plain d w : plain_ascii w = true -> ident d w.
Proof.
  intros H. induction w as [|c w IH]; [constructor|]. cbn [plain_ascii forallb] in H. apply andb_true_iff in H. destruct H as (H & H2).
  apply andb_true_iff in H. destruct H as (H & H1). apply andb_true_iff in H. destruct H as (A & B0). apply N.leb_le in A, B0.
  change (c :: w) with ([c] ++ w). replace [c] with (encode_rune (ord c)).
  - constructor; [unfold scalar, in_range; lia| |  |now apply IH].
    + unfold is_space, in_range. lia.
    + cbn [map existsb] in H1. intros I. apply negb_true_iff in H1. apply orb_false_iff in H1. destruct H1 as (E1 & H1). apply orb_false_iff in H1. destruct H1 as (E2 & H1).
      apply orb_false_iff in H1. destruct H1 as (E3 & _). apply N.eqb_neq in E1, E2, E3. destruct d; cbn [ident_quotes map fst In] in I; repeat (destruct I as [I|I]; [congruence|]); exact I.
  - unfold encode_rune. replace (ord c <? 128)%N with true by (symmetry; apply N.ltb_lt; lia). now rewrite chr_ord.
Qed.
Ltac plain_words := repeat match goal with |- Forall _ (_ :: _) => constructor; [split; [apply ident_plain; reflexivity|discriminate]|] | |- Forall _ [] => constructor end.

(** A SQLite statement with IF NOT EXISTS, on a qualified table. *)
Definition trigger_sql : bytes := B "CREATE TRIGGER IF NOT EXISTS actor_upd AFTER UPDATE ON main.actor BEGIN SELECT 1; END".
Example trigger_sql_text : trigger_text DSQLite (B "actor_upd") (B "main") (B "actor") trigger_sql.
Proof.
  exists [B "CREATE"], (B "TRIGGER"), [B "IF"; B "NOT"; B "EXISTS"], [B "AFTER"; B "UPDATE"], (B "ON"), (B "main.actor"), (B " BEGIN SELECT 1; END").
  split; [|split; [|split; [|split; [|split; [|split; [|split]]]]]].
  - refine (words_join DSQLite [B "CREATE"; B "TRIGGER"; B "IF"; B "NOT"; B "EXISTS"; B "actor_upd"; B "AFTER"; B "UPDATE"; B "ON"; B "main.actor"] (B " BEGIN SELECT 1; END") _ _).
    + plain_words.
    + right. exists 32%N, (B "BEGIN SELECT 1; END"). repeat split.
  - repeat constructor.
  - reflexivity.
  - right. exists (B "IF"), (B "NOT"), (B "EXISTS"). repeat split; reflexivity.
  - repeat constructor.
  - reflexivity.
  - apply (qt_schema (B "main") (B "actor")). cbn. intuition discriminate.
  - discriminate.
Qed.
Example trigger_sql_info : trigger_info 100 DSQLite trigger_sql = LOk (mk_trigger (B "main") (B "actor") (B "actor_upd") trigger_sql false).
Proof. vm_compute. reflexivity. Qed.
Example trigger_sql_added : exists t, t_trigger 100 DSQLite (B "  " ++ trigger_sql ++ B " ") (empty_table (B "main") (B "actor")) = LOk t /\
  objects (t_triggers t) = [mk_trigger (B "main") (B "actor") (B "actor_upd") trigger_sql false].
Proof. eexists. split; vm_compute; reflexivity. Qed.
Example trigger_sql_elsewhere : t_trigger 100 DSQLite trigger_sql (empty_table (B "main") (B "film")) = LErr.
Proof. vm_compute. reflexivity. Qed.
Example not_a_trigger : trigger_info 100 DMySQL (B "CREATE TABLE t ON x") = LErr /\ trigger_info 100 DMySQL (B "CREATE TRIGGER t AFTER INSERT") = LErr.
Proof. split; vm_compute; reflexivity. Qed.

(** A function with a schema, blanks before and inside the brackets, and a return type. *)
Definition function_sql : bytes := B "create or replace function app.touch ( id INT, by TEXT ) returns trigger AS $$ BEGIN END $$".
Ltac plain_runes := repeat match goal with |- Forall _ (_ :: _) => constructor; [repeat split; cbn; intuition discriminate|] | |- Forall _ [] => constructor end.
Definition ascii_runes (s : bytes) : list rune := map ord s.
Example function_sql_text : function_text (B "app") (B "touch") (B "id INT, by TEXT") (B "trigger") function_sql.
Proof.
  exists [B "create"; B "or"; B "replace"], (B "function"), (B " "), (B "app.touch"), (B " "), (B " id INT, by TEXT "), (B " returns trigger AS $$ BEGIN END $$").
  assert (Hb : blanks (B " ")) by (exists [32%N]; split; [reflexivity|constructor; [right; left; reflexivity|constructor]]).
  repeat split.
  - refine (words_join DPostgres [B "create"; B "or"; B "replace"; B "function"] (B " app.touch ( id INT, by TEXT ) returns trigger AS $$ BEGIN END $$") _ _).
    + plain_words.
    + right. eexists 32%N, _. split; [reflexivity|]. now split.
  - repeat constructor.
  - exact Hb.
  - discriminate.
  - right. exists (ascii_runes (B "app")). split; [reflexivity|]. cbn. plain_runes.
  - exists (ascii_runes (B "touch")). split; [reflexivity|]. cbn. plain_runes.
  - discriminate.
  - apply (qt_schema (B "app") (B "touch")). cbn. intuition discriminate.
  - exact Hb.
  - exists (ascii_runes (B " id INT, by TEXT ")). split; [reflexivity|]. cbn. plain_runes.
  - exists [32%N], (ascii_runes (B "id INT, by TEXT")), [32%N]. repeat split; try (vm_compute; intros; congruence).
    + intros r E. vm_compute in E. injection E as <-. reflexivity.
    + intros r E. vm_compute in E. injection E as <-. reflexivity.
  - apply (rt_type (B "returns") (B "trigger") (B " AS $$ BEGIN END $$")); [reflexivity|].
    refine (words_join DPostgres [B "returns"; B "trigger"] (B " AS $$ BEGIN END $$") _ _).
    + plain_words.
    + right. eexists 32%N, _. split; [reflexivity|]. now split.
  - left. discriminate.
Qed.
Example function_sql_info : files_to_functions DPostgres [Some function_sql] = LOk [mk_func (B "app") (B "touch") (B "id INT, by TEXT") function_sql false].
Proof. vm_compute. reflexivity. Qed.

(** ** What is not so *)
(** White space other than the blanks: the scan never ends (here U+3000 before ON). *)
Definition wide_space : bytes := encode_rune 12288%N.
Theorem trigger_hang_refuted : exists sql, forall fuel, trigger_info fuel DPostgres sql = LDiverge.
Proof.
  exists (B "CREATE TRIGGER t AFTER INSERT" ++ wide_space ++ B "ON actor").
  assert (H : forall fuel, trigger_loop fuel DPostgres PreOn (B "t") (wide_space ++ B "ON actor") = LDiverge).
  { induction fuel as [|f IH]; [reflexivity|]. rewrite loop_step by discriminate.
    assert (P : pop_identifier DPostgres (wide_space ++ B "ON actor") = ([], wide_space ++ B "ON actor")) by (vm_compute; reflexivity).
    rewrite P. change (equal_fold [] (B "ON")) with false. cbv iota. exact IH. }
  intros fuel. unfold trigger_info. do 5 (destruct fuel as [|fuel]; [reflexivity|]).
  rewrite loop_step by discriminate.
  assert (P1 : pop_identifier DPostgres (B "CREATE TRIGGER t AFTER INSERT" ++ wide_space ++ B "ON actor") = (B "CREATE", B " TRIGGER t AFTER INSERT" ++ wide_space ++ B "ON actor")) by (vm_compute; reflexivity).
  rewrite P1. change (equal_fold (B "CREATE") (B "TRIGGER")) with false. cbv iota. rewrite loop_step by discriminate.
  assert (P2 : pop_identifier DPostgres (B " TRIGGER t AFTER INSERT" ++ wide_space ++ B "ON actor") = (B "TRIGGER", B " t AFTER INSERT" ++ wide_space ++ B "ON actor")) by (vm_compute; reflexivity).
  rewrite P2. change (equal_fold (B "TRIGGER") (B "TRIGGER")) with true. cbv iota. rewrite loop_step by discriminate.
  change (skip_if_not_exists DPostgres (B " t AFTER INSERT" ++ wide_space ++ B "ON actor")) with (B " t AFTER INSERT" ++ wide_space ++ B "ON actor").
  assert (P3 : pop_identifier DPostgres (B " t AFTER INSERT" ++ wide_space ++ B "ON actor") = (B "t", B " AFTER INSERT" ++ wide_space ++ B "ON actor")) by (vm_compute; reflexivity).
  rewrite P3. rewrite loop_step by discriminate.
  assert (P4 : pop_identifier DPostgres (B " AFTER INSERT" ++ wide_space ++ B "ON actor") = (B "AFTER", B " INSERT" ++ wide_space ++ B "ON actor")) by (vm_compute; reflexivity).
  rewrite P4. change (equal_fold (B "AFTER") (B "ON")) with false. cbv iota. rewrite loop_step by discriminate.
  assert (P5 : pop_identifier DPostgres (B " INSERT" ++ wide_space ++ B "ON actor") = (B "INSERT", wide_space ++ B "ON actor")) by (vm_compute; reflexivity).
  rewrite P5. change (equal_fold (B "INSERT") (B "ON")) with false. cbv iota. now rewrite H.
Qed.
Print Assumptions trigger_hang_refuted.
(** A quoted table name keeps its quotes: T.Trigger refuses the statement for its own table. *)
Theorem trigger_quoted_refuted :
  t_trigger 100 DPostgres (B "CREATE TRIGGER t AFTER INSERT ON ""actor"" EXECUTE FUNCTION f()") (empty_table [] (B "actor")) = LErr.
Proof. vm_compute. reflexivity. Qed.
Print Assumptions trigger_quoted_refuted.
(** The arguments stop at the first closing bracket. *)
Theorem function_args_refuted :
  files_to_functions DPostgres [Some (B "CREATE FUNCTION f(a NUMERIC(10,2), b INT) RETURNS INT")]
  = LOk [mk_func [] (B "f") (B "a NUMERIC(10,2") (B "CREATE FUNCTION f(a NUMERIC(10,2), b INT) RETURNS INT") false].
Proof. vm_compute. reflexivity. Qed.
Print Assumptions function_args_refuted.
(** A dot in the arguments of an unqualified function is taken for the schema's. *)
Theorem function_schema_refuted :
  files_to_functions DPostgres [Some (B "CREATE FUNCTION f(public.money) RETURNS INT")]
  = LOk [mk_func (B "f(public") (B "money)") (B "public.money") (B "CREATE FUNCTION f(public.money) RETURNS INT") false].
Proof. vm_compute. reflexivity. Qed.
Print Assumptions function_schema_refuted.
(** A quoted name with a closing bracket: a panic. *)
Theorem function_panic_refuted : files_to_functions DPostgres [Some (B "CREATE FUNCTION ""a)""(x int)")] = LPanic.
Proof. vm_compute. reflexivity. Qed.
Print Assumptions function_panic_refuted.
