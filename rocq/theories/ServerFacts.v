(** * ServerFacts: lemmas about the database of SpecServer *)
From Coq Require Import Lia.
From Verif Require Import GoBase GoBaseFacts QuoteModel SpecLex SpecIdent SpecSql.
From Verif Require Import CacheModel UpsertModel DdlModel MigrateModel SpecDdl SpecDrop SpecMigrate SpecColumn SpecServer.

Lemma same_item_eq : forall i j, same_item i j = true <-> i = j.
Proof.
  intros i j. split.
  - destruct i; destruct j; cbn [same_item]; try discriminate; intros H; repeat (apply andb_true_iff in H; destruct H as [H ?]);
      repeat match goal with H : beqb _ _ = true |- _ => apply beqb_eq in H end; now subst.
  - intros <-. destruct i; cbn [same_item]; repeat (apply andb_true_iff; split); now apply beqb_eq.
Qed.
Lemma has_in : forall db i, has db i = true <-> exists v, In (i, v) db.
Proof.
  intros db i. unfold has. rewrite existsb_exists. split.
  - intros ([j v] & I & E). apply same_item_eq in E. cbn [fst] in E. subst. now exists v.
  - intros (v & I). exists (i, v). split; [exact I|]. now apply same_item_eq.
Qed.
Lemma has_not : forall db i, has db i = false <-> forall v, ~ In (i, v) db.
Proof.
  intros db i. split.
  - intros H v I. assert (X : has db i = true) by (apply has_in; now exists v). congruence.
  - intros H. destruct (has db i) eqn:E; [|reflexivity]. apply has_in in E. destruct E as [v E]. now apply H in E.
Qed.
Lemma has_app : forall db l i, has (db ++ l) i = has db i || has l i.
Proof. intros. unfold has. apply existsb_app. Qed.
Lemma add_new : forall i v db, has db i = false -> add i v db = Some (db ++ [(i, v)]).
Proof. intros i v db H. unfold add. now rewrite H. Qed.
Lemma remove_all_in : forall p db i v, In (i, v) (remove_all p db) <-> In (i, v) db /\ p i = false.
Proof. intros p db i v. unfold remove_all. rewrite filter_In. cbn [fst]. now rewrite negb_true_iff. Qed.
Lemma remove_there : forall ie i db, has db i = true -> remove ie i db = Some (remove_all (same_item i) db).
Proof. intros ie i db H. unfold remove. now rewrite H. Qed.
(** With IF EXISTS, removing never fails. *)
Lemma remove_if : forall i db, exists db', remove true i db = Some db' /\ forall j v, In (j, v) db' <-> In (j, v) db /\ j <> i.
Proof.
  intros i db. unfold remove. destruct (has db i) eqn:H.
  - eexists. split; [reflexivity|]. intros j v. rewrite remove_all_in. split; intros [A X]; (split; [exact A|]).
    + intros ->. assert (Y : same_item i i = true) by now apply same_item_eq. congruence.
    + destruct (same_item i j) eqn:E; [|reflexivity]. apply same_item_eq in E. now subst.
  - eexists. split; [reflexivity|]. intros j v. split; [|now intros [A _]]. intros A. split; [exact A|]. intros ->. now apply (proj1 (has_not db i) H v).
Qed.
Lemma remove_some_if : forall p db, exists db', remove_some true p db = Some db' /\ forall j v, In (j, v) db' <-> In (j, v) db /\ p j = false.
Proof.
  intros p db. unfold remove_some. destruct (existsb (fun q => p (fst q)) db) eqn:H.
  - eexists. split; [reflexivity|]. intros j v. apply remove_all_in.
  - eexists. split; [reflexivity|]. intros j v. split; [|now intros [A _]]. intros A. split; [exact A|].
    destruct (p j) eqn:E; [|reflexivity]. assert (X : existsb (fun q => p (fst q)) db = true) by (apply existsb_exists; exists (j, v); auto). congruence.
Qed.
Lemma each_app : forall A (f : A -> contents -> option contents) l l' db,
  each f (l ++ l') db = match each f l db with Some db => each f l' db | None => None end.
Proof. intros A f l l'. induction l as [|a l IH]; intros db; cbn [each app]; [reflexivity|]. destruct (f a db); [apply IH|reflexivity]. Qed.
Lemma each_map : forall A B (f : B -> contents -> option contents) (g : A -> B) l db, each f (map g l) db = each (fun a => f (g a)) l db.
Proof. intros A B f g l. induction l as [|a l IH]; intros db; cbn [each map]; [reflexivity|]. destruct (f (g a) db); [apply IH|reflexivity]. Qed.
Definition as_list {A} (o : option A) : list A := match o with Some a => [a] | None => [] end.
(** Adding new things one after the other. *)
Lemma each_add : forall A (f : A -> contents -> option contents) (g : A -> option (item * definition)) l db,
  (forall l1 a l2, l = l1 ++ a :: l2 -> let db' := db ++ flat_map (fun a => as_list (g a)) l1 in
     match g a with Some p => has db' (fst p) = false -> f a db' = Some (db' ++ [p]) | None => f a db' = Some db' end) ->
  NoDup (map fst (flat_map (fun a => as_list (g a)) l)) ->
  (forall p, In p (flat_map (fun a => as_list (g a)) l) -> has db (fst p) = false) ->
  each f l db = Some (db ++ flat_map (fun a => as_list (g a)) l).
Proof.
  intros A f g l. induction l as [|a l IH]; intros db F N D; cbn [each flat_map]; [now rewrite app_nil_r|].
  cbn [flat_map] in N, D. pose proof (F [] a l eq_refl) as FA. cbv zeta in FA. cbn [flat_map] in FA. rewrite app_nil_r in FA.
  assert (F' : forall db', db' = db ++ as_list (g a) -> forall l1 b l2, l = l1 ++ b :: l2 -> let db'' := db' ++ flat_map (fun a => as_list (g a)) l1 in
     match g b with Some p => has db'' (fst p) = false -> f b db'' = Some (db'' ++ [p]) | None => f b db'' = Some db'' end).
  { intros db' -> l1 b l2 E. pose proof (F (a :: l1) b l2) as X. cbn [app flat_map] in X. rewrite E in X. specialize (X eq_refl). rewrite app_assoc in X. exact X. }
  destruct (g a) as [p|]; cbn [as_list app map] in *.
  - rewrite FA by (apply D; now left). inversion N as [|x y NI N']; subst. rewrite IH.
    + now rewrite <- app_assoc.
    + now apply F'.
    + exact N'.
    + intros q I. rewrite has_app, D by now right. cbn [orb has existsb fst]. rewrite orb_false_r. destruct (same_item (fst p) (fst q)) eqn:E; [|reflexivity].
      apply same_item_eq in E. destruct NI. rewrite E. now apply in_map.
  - rewrite FA. apply IH; [apply F'; now rewrite app_nil_r|exact N|exact D].
Qed.
(** What stands before an element of the second part. *)
Lemma second_part : forall A (l r l1 l2 : list A) a, l ++ r = l1 ++ a :: l2 -> ~ In a l -> exists l3, l1 = l ++ l3.
Proof.
  intros A l. induction l as [|x l IH]; intros r l1 l2 a E N; [now exists l1|]. destruct l1 as [|y l1]; cbn [app] in E.
  - destruct N. left. congruence.
  - destruct (IH r l1 l2 a) as (l3 & ->); [congruence|intros I; apply N; now right|]. exists l3. cbn [app]. congruence.
Qed.
(** Removing things that are there, one after the other. *)
Lemma each_remove : forall A (f : A -> contents -> option contents) (g : A -> item) l db,
  (forall a db, In a l -> has db (g a) = true -> f a db = Some (remove_all (same_item (g a)) db)) ->
  NoDup (map g l) -> (forall a, In a l -> has db (g a) = true) ->
  exists db', each f l db = Some db' /\ forall i v, In (i, v) db' <-> In (i, v) db /\ forall a, In a l -> g a <> i.
Proof.
  intros A f g l. induction l as [|a l IH]; intros db F N D; cbn [each].
  - exists db. split; [reflexivity|]. intros i v. split; [intros I; split; [exact I|intros a []]|now intros [I _]].
  - rewrite F; [|now left|apply D; now left]. inversion N as [|x y NI N']; subst.
    destruct (IH (remove_all (same_item (g a)) db)) as (db' & E & C).
    + intros b db' I. apply F. now right.
    + exact N'.
    + intros b I. assert (H : has db (g b) = true) by (apply D; now right). apply has_in in H. destruct H as [v H]. apply has_in. exists v.
      apply remove_all_in. split; [exact H|]. destruct (same_item (g a) (g b)) eqn:E; [|reflexivity]. apply same_item_eq in E. destruct NI. rewrite E. now apply in_map.
    + exists db'. split; [exact E|]. intros i v. rewrite C, remove_all_in. split.
      * intros [[I X] Y]. split; [exact I|]. intros b [<-|B]; [|now apply Y]. intros Z. apply same_item_eq in Z. congruence.
      * intros [I Y]. split; [split; [exact I|]|].
        -- destruct (same_item (g a) i) eqn:E'; [|reflexivity]. apply same_item_eq in E'. now destruct (Y a (or_introl eq_refl)).
        -- intros b B. apply Y. now right.
Qed.
(** With IF EXISTS. *)
Lemma each_remove_if : forall A (f : A -> contents -> option contents) (p : A -> item -> bool) l db,
  (forall a db, exists db', f a db = Some db' /\ forall i v, In (i, v) db' <-> In (i, v) db /\ p a i = false) ->
  exists db', each f l db = Some db' /\ forall i v, In (i, v) db' <-> In (i, v) db /\ forall a, In a l -> p a i = false.
Proof.
  intros A f p l. induction l as [|a l IH]; intros db F; cbn [each].
  - exists db. split; [reflexivity|]. intros i v. split; [intros I; split; [exact I|intros a []]|now intros [I _]].
  - destruct (F a db) as (db1 & -> & C1). destruct (IH db1 F) as (db' & E & C). exists db'. split; [exact E|]. intros i v. rewrite C, C1. split.
    + intros [[I X] Y]. split; [exact I|]. intros b [<-|B]; [exact X|now apply Y].
    + intros [I Y]. split; [split; [exact I|apply Y; now left]|]. intros b B. apply Y. now right.
Qed.

(** ** Reading: no text is read as two statements *)
Lemma words_none : forall w ws t r, kw w t = false -> words (w :: ws) (t :: r) = None.
Proof. intros w ws t r H. cbn [words]. now rewrite H. Qed.
Lemma kw_is : forall w t, kw w t = true -> exists b, t = TWord b /\ map fold_case b = B w.
Proof. intros w [b|b|b|b]; cbn [kw]; try discriminate. intros H. apply beqb_eq in H. now exists b. Qed.
Lemma words1 : forall w ts r, words [w] ts = Some r -> exists b, ts = TWord b :: r /\ map fold_case b = B w.
Proof. intros w [|t ts] r H; cbn [words] in H; [discriminate|]. destruct (kw w t) eqn:K; [|discriminate]. apply kw_is in K. destruct K as (b & -> & E). exists b. split; congruence. Qed.
Ltac kws := repeat (match goal with
  | E : map fold_case ?b = B ?w' |- context [kw ?w (TWord ?b)] =>
    let x := eval vm_compute in (beqb (B w') (B w)) in replace (kw w (TWord b)) with x by (cbn [kw]; rewrite E; vm_compute; reflexivity)
  end; cbn [andb orb]).
Ltac kws_in H := repeat (match type of H with
  | context [kw ?w (TWord ?b)] => match goal with E : map fold_case b = B ?w' |- _ =>
    let x := eval vm_compute in (beqb (B w') (B w)) in replace (kw w (TWord b)) with x in H by (cbn [kw]; rewrite E; vm_compute; reflexivity) end
  end; cbn [andb orb] in H).
(** Failing: the first word, or the second, is another one. *)
Ltac fails := unfold read_create_table, read_create_index, read_create_view, read_create_schema, read_create_extension, read_create_trigger, read_create_function,
  read_alter_table, read_drop_table, read_drop_view, read_drop_index, read_drop_trigger, read_drop_function, read_drop_extension, read_index, option_words; cbn [words]; kws; cbn [words]; kws; try reflexivity.
Ltac statement := unfold read_statement; cbn [first_of option_map].
Ltac step_words H := let K := fresh "K" in
  match type of H with
  | context [words (?w :: _) ?ts] =>
    destruct ts as [|t ts]; cbn [words] in H; [discriminate|]; destruct (kw w t) eqn:K; [|discriminate]; apply kw_is in K; destruct K as (? & -> & K)
  end.
Lemma read_two : forall w1 w2 ts r, words [w1; w2] ts = Some r -> exists a b, ts = TWord a :: TWord b :: r /\ map fold_case a = B w1 /\ map fold_case b = B w2.
Proof.
  intros w1 w2 [|t [|t' ts]] r; cbn [words]; [discriminate|destruct (kw w1 t); discriminate|]. destruct (kw w1 t) eqn:K; [|discriminate]. destruct (kw w2 t') eqn:K'; [|discriminate].
  apply kw_is in K. apply kw_is in K'. destruct K as (a & -> & A). destruct K' as (b & -> & X). intros [= <-]. eauto 6.
Qed.
Lemma statement_table : forall ts x, read_create_table ts = Some x -> read_statement ts = Some (SCreateTable x).
Proof. intros ts x H. statement. now rewrite H. Qed.
Lemma read_index_first : forall ts x, read_index ts = Some x ->
  exists b r, ts = TWord b :: r /\ (map fold_case b = B "UNIQUE" \/ map fold_case b = B "FULLTEXT" \/ map fold_case b = B "SPATIAL" \/ map fold_case b = B "INDEX").
Proof.
  intros [|t ts] x H; [discriminate|]. unfold read_index, option_words in H. cbn [words] in H. destruct (kw "UNIQUE" t) eqn:K.
  - apply kw_is in K. destruct K as (b & -> & K). eauto 8.
  - destruct (kw "FULLTEXT" t) eqn:K1; [apply kw_is in K1; destruct K1 as (b & -> & K1); eauto 8|].
    destruct (kw "SPATIAL" t) eqn:K2; [apply kw_is in K2; destruct K2 as (b & -> & K2); eauto 8|]. cbn [orb words] in H.
    destruct (kw "INDEX" t) eqn:K3; [|discriminate]. apply kw_is in K3. destruct K3 as (b & -> & K3). eauto 8.
Qed.
Lemma statement_index : forall ts x, read_create_index ts = Some x -> read_statement ts = Some (SCreateIndex x).
Proof.
  intros ts x H. statement. pose proof H as H0. unfold read_create_index in H0. destruct (words ["CREATE"]%string ts) as [r|] eqn:W; [|discriminate].
  apply words1 in W. destruct W as (a & -> & A). apply read_index_first in H0. destruct H0 as (b & r' & -> & X). rewrite H.
  replace (read_create_table (TWord a :: TWord b :: r')) with (@None table_def); [reflexivity|]. symmetry. destruct X as [X|[X|[X|X]]]; fails.
Qed.
Lemma statement_schema : forall ts x, read_create_schema ts = Some x -> read_statement ts = Some (SCreateSchema (fst x) (snd x)).
Proof.
  intros ts x H. statement. pose proof H as H0. unfold read_create_schema in H0. destruct (words ["CREATE"; "SCHEMA"]%string ts) as [r|] eqn:W; [|discriminate].
  apply read_two in W. destruct W as (a & b & -> & A & X). rewrite H.
  replace (read_create_table (TWord a :: TWord b :: r)) with (@None table_def) by (symmetry; fails).
  replace (read_create_index (TWord a :: TWord b :: r)) with (@None index_def) by (symmetry; fails).
  replace (read_create_view (TWord a :: TWord b :: r)) with (@None view_def) by (symmetry; fails). reflexivity.
Qed.
Lemma statement_extension : forall ts x, read_create_extension ts = Some x -> read_statement ts = Some (SCreateExtension x).
Proof.
  intros ts x H. statement. pose proof H as H0. unfold read_create_extension in H0. destruct (words ["CREATE"; "EXTENSION"]%string ts) as [r|] eqn:W; [|discriminate].
  apply read_two in W. destruct W as (a & b & -> & A & X). rewrite H.
  replace (read_create_table (TWord a :: TWord b :: r)) with (@None table_def) by (symmetry; fails).
  replace (read_create_index (TWord a :: TWord b :: r)) with (@None index_def) by (symmetry; fails).
  replace (read_create_view (TWord a :: TWord b :: r)) with (@None view_def) by (symmetry; fails).
  replace (read_create_schema (TWord a :: TWord b :: r)) with (@None (bool * bytes)) by (symmetry; fails). reflexivity.
Qed.
Lemma read_view_first : forall a r x, map fold_case a = B "CREATE" -> read_create_view (TWord a :: r) = Some x ->
  exists b r', r = TWord b :: r' /\ (map fold_case b = B "OR" \/ map fold_case b = B "MATERIALIZED" \/ map fold_case b = B "VIEW").
Proof.
  intros a [|t r] x A H; unfold read_create_view, option_words in H; cbn [words] in H; kws_in H; [discriminate|].
  destruct (kw "OR" t) eqn:K; [apply kw_is in K; destruct K as (b & -> & K); eauto 8|]. cbn [words] in H.
  destruct (kw "MATERIALIZED" t) eqn:K1; [apply kw_is in K1; destruct K1 as (b & -> & K1); eauto 8|]. cbn [words] in H.
  destruct (kw "VIEW" t) eqn:K2; [|discriminate]. apply kw_is in K2. destruct K2 as (b & -> & K2). eauto 8.
Qed.
Lemma statement_view : forall ts x, read_create_view ts = Some x -> read_statement ts = Some (SCreateView x).
Proof.
  intros ts x H. statement. pose proof H as H0. unfold read_create_view in H0. destruct (words ["CREATE"]%string ts) as [r|] eqn:W; [|discriminate]. clear H0.
  apply words1 in W. destruct W as (a & -> & A). destruct (read_view_first a r x A H) as (b & r' & -> & X). rewrite H.
  replace (read_create_table (TWord a :: TWord b :: r')) with (@None table_def) by (symmetry; destruct X as [X|[X|X]]; fails).
  replace (read_create_index (TWord a :: TWord b :: r')) with (@None index_def) by (symmetry; destruct X as [X|[X|X]]; fails). reflexivity.
Qed.
Lemma read_trigger_first : forall ts x, read_create_trigger ts = Some x ->
  exists a b r, ts = TWord a :: TWord b :: r /\ map fold_case a = B "CREATE" /\
    ((map fold_case b = B "OR" /\ exists c e r', r = TWord c :: TWord e :: r' /\ map fold_case c = B "REPLACE" /\
        (map fold_case e = B "CONSTRAINT" \/ map fold_case e = B "TEMP" \/ map fold_case e = B "TEMPORARY" \/ map fold_case e = B "TRIGGER")) \/
     map fold_case b = B "CONSTRAINT" \/ map fold_case b = B "TEMP" \/ map fold_case b = B "TEMPORARY" \/ map fold_case b = B "TRIGGER").
Proof.
  intros ts x H. unfold read_create_trigger in H. destruct (words ["CREATE"]%string ts) as [r|] eqn:W; [|discriminate].
  apply words1 in W. destruct W as (a & -> & A). exists a.
  assert (G : forall r y, (match words ["TRIGGER"]%string (match r with t :: r' => if kw "CONSTRAINT" t || kw "TEMP" t || kw "TEMPORARY" t then r' else r | [] => r end) with Some z => y z | None => None end) = Some x ->
            exists e r', r = TWord e :: r' /\ (map fold_case e = B "CONSTRAINT" \/ map fold_case e = B "TEMP" \/ map fold_case e = B "TEMPORARY" \/ map fold_case e = B "TRIGGER")).
  { intros [|t r0] y; [discriminate|].
    destruct (kw "CONSTRAINT" t) eqn:K1; [apply kw_is in K1; destruct K1 as (b & -> & K1); eauto 8|].
    destruct (kw "TEMP" t) eqn:K2; [apply kw_is in K2; destruct K2 as (b & -> & K2); eauto 8|].
    destruct (kw "TEMPORARY" t) eqn:K3; [apply kw_is in K3; destruct K3 as (b & -> & K3); eauto 8|]. cbn [orb words].
    destruct (kw "TRIGGER" t) eqn:K4; [|discriminate]. apply kw_is in K4. destruct K4 as (b & -> & K4). eauto 8. }
  unfold option_words in H at 1. destruct (words ["OR"; "REPLACE"]%string r) as [r1|] eqn:W1.
  - apply read_two in W1. destruct W1 as (b & c & -> & X & C). apply G in H. destruct H as (e & r' & -> & E). eauto 14.
  - apply G in H. destruct H as (e & r' & -> & E). exists e, r'. auto.
Qed.
Lemma statement_trigger : forall ts x, read_create_trigger ts = Some x -> read_statement ts = Some (SCreateTrigger x ts).
Proof.
  intros ts x H. statement. destruct (read_trigger_first ts x H) as (a & b & r & -> & A & X). rewrite H.
  replace (read_create_table (TWord a :: TWord b :: r)) with (@None table_def) by (symmetry; destruct X as [[X _]|[X|[X|[X|X]]]]; fails).
  replace (read_create_index (TWord a :: TWord b :: r)) with (@None index_def) by (symmetry; destruct X as [[X _]|[X|[X|[X|X]]]]; fails).
  replace (read_create_schema (TWord a :: TWord b :: r)) with (@None (bool * bytes)) by (symmetry; destruct X as [[X _]|[X|[X|[X|X]]]]; fails).
  replace (read_create_extension (TWord a :: TWord b :: r)) with (@None extension_def) by (symmetry; destruct X as [[X _]|[X|[X|[X|X]]]]; fails).
  replace (read_create_view (TWord a :: TWord b :: r)) with (@None view_def); [reflexivity|]. symmetry.
  destruct X as [(X & c & e & r' & -> & C & E)|[X|[X|[X|X]]]]; [|fails..].
  destruct E as [E|[E|[E|E]]]; unfold read_create_view, option_words; cbn [words]; kws; cbn [words]; kws; cbn [words]; kws; reflexivity.
Qed.
Lemma statement_function : forall ts rp s f, read_create_function ts = Some (rp, s, f) -> read_statement ts = Some (SCreateFunction rp s f ts).
Proof.
  intros ts rp s f H. statement. pose proof H as H0. unfold read_create_function in H0. destruct (words ["CREATE"]%string ts) as [r|] eqn:W; [|discriminate].
  apply words1 in W. destruct W as (a & -> & A). unfold option_words in H0. destruct (words ["OR"; "REPLACE"]%string r) as [r1|] eqn:W1.
  - apply read_two in W1. destruct W1 as (b & c & -> & X & C). destruct (words ["FUNCTION"]%string r1) as [r2|] eqn:W2; [|discriminate]. apply words1 in W2.
    destruct W2 as (e & -> & E). rewrite H.
    replace (read_create_table (TWord a :: TWord b :: TWord c :: TWord e :: r2)) with (@None table_def) by (symmetry; fails).
    replace (read_create_index (TWord a :: TWord b :: TWord c :: TWord e :: r2)) with (@None index_def) by (symmetry; fails).
    replace (read_create_schema (TWord a :: TWord b :: TWord c :: TWord e :: r2)) with (@None (bool * bytes)) by (symmetry; fails).
    replace (read_create_extension (TWord a :: TWord b :: TWord c :: TWord e :: r2)) with (@None extension_def) by (symmetry; fails).
    replace (read_create_view (TWord a :: TWord b :: TWord c :: TWord e :: r2)) with (@None view_def)
      by (symmetry; unfold read_create_view, option_words; cbn [words]; kws; cbn [words]; kws; cbn [words]; kws; reflexivity).
    replace (read_create_trigger (TWord a :: TWord b :: TWord c :: TWord e :: r2)) with (@None trigger_def)
      by (symmetry; unfold read_create_trigger, option_words; cbn [words]; kws; cbn [words]; kws; cbn [words]; kws; reflexivity).
    reflexivity.
  - destruct (words ["FUNCTION"]%string r) as [r2|] eqn:W2; [|discriminate]. apply words1 in W2. destruct W2 as (e & -> & E). rewrite H.
    replace (read_create_table (TWord a :: TWord e :: r2)) with (@None table_def) by (symmetry; fails).
    replace (read_create_index (TWord a :: TWord e :: r2)) with (@None index_def) by (symmetry; fails).
    replace (read_create_schema (TWord a :: TWord e :: r2)) with (@None (bool * bytes)) by (symmetry; fails).
    replace (read_create_extension (TWord a :: TWord e :: r2)) with (@None extension_def) by (symmetry; fails).
    replace (read_create_view (TWord a :: TWord e :: r2)) with (@None view_def) by (symmetry; fails).
    replace (read_create_trigger (TWord a :: TWord e :: r2)) with (@None trigger_def) by (symmetry; fails).
    reflexivity.
Qed.
(** Not a CREATE statement. *)
Lemma not_create : forall a r, map fold_case a <> B "CREATE" ->
  let ts := TWord a :: r in
  read_create_table ts = None /\ read_create_index ts = None /\ read_create_view ts = None /\ read_create_schema ts = None /\
  read_create_extension ts = None /\ read_create_trigger ts = None /\ read_create_function ts = None.
Proof.
  intros a r A. cbv zeta. assert (K : kw "CREATE" (TWord a) = false). { cbn [kw]. destruct (beqb (map fold_case a) (B "CREATE")) eqn:E; [|reflexivity]. apply beqb_eq in E. contradiction. }
  unfold read_create_table, read_create_index, read_create_view, read_create_schema, read_create_extension, read_create_trigger, read_create_function.
  rewrite !words_none by exact K. repeat split.
Qed.
Ltac not_create a r := 
  let H := fresh in pose proof (not_create a r) as H; cbv zeta in H;
  destruct H as (-> & -> & -> & -> & -> & -> & ->); [match goal with A : map fold_case a = B _ |- _ => rewrite A; discriminate end|].
Lemma statement_alter : forall ts x, read_alter_table ts = Some x -> read_statement ts = Some (SAlterTable x).
Proof.
  intros ts x H. statement. pose proof H as H0. unfold read_alter_table in H0. destruct (words ["ALTER"; "TABLE"]%string ts) as [r|] eqn:W; [|discriminate].
  apply read_two in W. destruct W as (a & b & -> & A & X). not_create a (TWord b :: r). cbn [option_map]. now rewrite H.
Qed.
Lemma not_alter : forall a r, map fold_case a = B "DROP" -> read_alter_table (TWord a :: r) = None.
Proof. intros a r A. fails. Qed.
Lemma statement_drop_table : forall ts x, read_drop_table ts = Some x -> read_statement ts = Some (SDropTable x).
Proof.
  intros ts x H. statement. pose proof H as H0. unfold read_drop_table in H0. destruct (words ["DROP"; "TABLE"]%string ts) as [r|] eqn:W; [|discriminate].
  apply read_two in W. destruct W as (a & b & -> & A & X). not_create a (TWord b :: r). rewrite not_alter by exact A. cbn [option_map]. now rewrite H.
Qed.
Lemma statement_drop_view : forall ts x, read_drop_view ts = Some x -> read_statement ts = Some (SDropView (fst x) (snd x)).
Proof.
  intros ts x H. statement. pose proof H as H0. unfold read_drop_view in H0. destruct (words ["DROP"]%string ts) as [r|] eqn:W; [|discriminate].
  apply words1 in W. destruct W as (a & -> & A). assert (T : read_drop_table (TWord a :: r) = None).
  { unfold option_words in H0. destruct (words ["MATERIALIZED"]%string r) as [r1|] eqn:M.
    - apply words1 in M. destruct M as (b & -> & X). fails.
    - destruct (words ["VIEW"]%string r) as [r1|] eqn:V; [|discriminate]. apply words1 in V. destruct V as (b & -> & X). fails. }
  not_create a r. rewrite not_alter by exact A. cbn [option_map]. now rewrite T, H.
Qed.
Lemma statement_drop_index : forall ts x, read_drop_index ts = Some x -> read_statement ts = Some (SDropIndex (snd x)).
Proof.
  intros ts x H. statement. pose proof H as H0. unfold read_drop_index in H0. destruct (words ["DROP"; "INDEX"]%string ts) as [r|] eqn:W; [|discriminate].
  apply read_two in W. destruct W as (a & b & -> & A & X). not_create a (TWord b :: r). rewrite not_alter by exact A.
  replace (read_drop_table (TWord a :: TWord b :: r)) with (@None drop_def) by (symmetry; fails).
  replace (read_drop_view (TWord a :: TWord b :: r)) with (@None (bool * drop_def)) by (symmetry; fails). cbn [option_map]. now rewrite H.
Qed.
Lemma statement_drop_trigger : forall ts x, read_drop_trigger ts = Some x -> read_statement ts = Some (SDropTrigger x).
Proof.
  intros ts x H. statement. pose proof H as H0. unfold read_drop_trigger in H0. destruct (words ["DROP"; "TRIGGER"]%string ts) as [r|] eqn:W; [|discriminate].
  apply read_two in W. destruct W as (a & b & -> & A & X). not_create a (TWord b :: r). rewrite not_alter by exact A.
  replace (read_drop_table (TWord a :: TWord b :: r)) with (@None drop_def) by (symmetry; fails).
  replace (read_drop_view (TWord a :: TWord b :: r)) with (@None (bool * drop_def)) by (symmetry; fails).
  replace (read_drop_index (TWord a :: TWord b :: r)) with (@None (bool * drop_def)) by (symmetry; fails). cbn [option_map]. now rewrite H.
Qed.
Lemma statement_drop_function : forall ts x, read_drop_function ts = Some x -> read_statement ts = Some (SDropFunction x).
Proof.
  intros ts x H. statement. pose proof H as H0. unfold read_drop_function in H0. destruct (words ["DROP"; "FUNCTION"]%string ts) as [r|] eqn:W; [|discriminate].
  apply read_two in W. destruct W as (a & b & -> & A & X). not_create a (TWord b :: r). rewrite not_alter by exact A.
  replace (read_drop_table (TWord a :: TWord b :: r)) with (@None drop_def) by (symmetry; fails).
  replace (read_drop_view (TWord a :: TWord b :: r)) with (@None (bool * drop_def)) by (symmetry; fails).
  replace (read_drop_index (TWord a :: TWord b :: r)) with (@None (bool * drop_def)) by (symmetry; fails).
  replace (read_drop_trigger (TWord a :: TWord b :: r)) with (@None trigger_drop) by (symmetry; fails). cbn [option_map]. now rewrite H.
Qed.
Lemma statement_drop_extension : forall ts x, read_drop_extension ts = Some x -> read_statement ts = Some (SDropExtension x).
Proof.
  intros ts x H. statement. pose proof H as H0. unfold read_drop_extension in H0. destruct (words ["DROP"; "EXTENSION"]%string ts) as [r|] eqn:W; [|discriminate].
  apply read_two in W. destruct W as (a & b & -> & A & X). not_create a (TWord b :: r). rewrite not_alter by exact A.
  replace (read_drop_table (TWord a :: TWord b :: r)) with (@None drop_def) by (symmetry; fails).
  replace (read_drop_view (TWord a :: TWord b :: r)) with (@None (bool * drop_def)) by (symmetry; fails).
  replace (read_drop_index (TWord a :: TWord b :: r)) with (@None (bool * drop_def)) by (symmetry; fails).
  replace (read_drop_trigger (TWord a :: TWord b :: r)) with (@None trigger_drop) by (symmetry; fails).
  replace (read_drop_function (TWord a :: TWord b :: r)) with (@None function_drop) by (symmetry; fails). cbn [option_map]. now rewrite H.
Qed.
