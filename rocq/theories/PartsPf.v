(** * PartsPf: proofs for the parts of a table that a DDL method defines (C62) *)
From Coq Require Import Lia.
From Verif Require Import GoBase GoBaseFacts QuoteModel CacheModel SpecCache CacheFacts UpsertModel NameModel TokenModel DdlModel MigrateModel LoadModel LoadFacts LoadDdl
  TriggerModel TriggerStore SpecTrigger LoadGood SpecParts.

Section Generic.
  Context {A : Type} (nm : A -> bytes) (ig : A -> bool).
  (** Found by name, and nothing is ignored. *)
  Definition settled (s : cached A) : Prop := sound nm ig any s /\ forall a, In a (objects s) -> ig a = false.
  Lemma settled_new : settled cached_new.
  Proof. split; [apply sound_new|intros a []]. Qed.
  Lemma put_absent n new upd l : ~ In n (map nm l) -> put nm n new upd l = l ++ [new].
  Proof. induction l as [|a l IH]; intros N; [reflexivity|]. cbn [put app]. destruct (beqb (nm a) n) eqn:E; [apply beqb_eq in E; destruct N; now left|]. rewrite IH; [reflexivity|]. intros I. apply N. now right. Qed.
  Lemma put_split n new upd b x a : ~ In n (map nm b) -> nm x = n -> put nm n new upd (b ++ x :: a) = b ++ upd x :: a.
  Proof.
    intros N E. induction b as [|y b IH]; cbn [app put]; [now rewrite E, beqb_refl|]. destruct (beqb (nm y) n) eqn:Q; [apply beqb_eq in Q; destruct N; now left|]. rewrite IH; [reflexivity|]. intros I. apply N. now right.
  Qed.
  Lemma settled_nodup s : settled s -> NoDup (map nm (objects s)).
  Proof.
    intros ((_ & U & _) & I). apply NoDup_nth_error. intros i j L E. rewrite map_length in L. rewrite !nth_error_map in E.
    destruct (nth_error (objects s) i) as [x|] eqn:X; [|apply nth_error_Some in L; congruence]. cbn in E. destruct (nth_error (objects s) j) as [y|] eqn:Y; [|discriminate]. cbn in E. injection E as E.
    apply (U (nm x)); [exists x|exists y]; (split; [assumption|]); (split; [congruence|]); apply I; eapply nth_error_In; eassumption.
  Qed.
  Lemma split_nodup b x a : NoDup (map nm (b ++ x :: a)) -> ~ In (nm x) (map nm b) /\ ~ In (nm x) (map nm a).
  Proof. rewrite map_app. cbn [map]. intros D. apply NoDup_remove_2 in D. rewrite in_app_iff in D. tauto. Qed.
  Lemma change_split n f b x a : ~ In n (map nm b) -> ~ In n (map nm a) -> nm x = n -> change nm n f (b ++ x :: a) = b ++ f x :: a.
  Proof.
    intros N1 N2 E. unfold change. rewrite map_app. cbn [map]. rewrite E, beqb_refl.
    assert (K : forall l, ~ In n (map nm l) -> map (fun a => if beqb (nm a) n then f a else a) l = l).
    { induction l as [|y l IH]; intros N; [reflexivity|]. cbn [map]. destruct (beqb (nm y) n) eqn:Q; [apply beqb_eq in Q; destruct N; now left|]. rewrite IH; [reflexivity|]. intros I. apply N. now right. }
    now rewrite !K.
  Qed.
  Lemma settled_edit s i a a' : settled s -> nth_error (objects s) i = Some a -> nm a' = nm a -> ig a' = ig a -> settled (edit (list_set (objects s) i a') s).
  Proof.
    intros (S & I) E En Ei. split; [apply sound_edit with (a := a); auto; congruence|]. cbn [edit objects]. intros x X. apply In_nth_error in X. destruct X as (k & K).
    rewrite nth_set in K by (apply nth_error_Some; congruence). destruct (Nat.eqb_spec k i) as [Ek|_]; [injection K as <-; rewrite Ei|]; apply I; eapply nth_error_In; eassumption.
  Qed.
  Lemma change_at_handle s i a n f : settled s -> nth_error (objects s) i = Some a -> nm a = n -> list_set (objects s) i (f a) = change nm n f (objects s).
  Proof.
    intros S E En. destruct (nth_error_split _ _ E) as (b & t & O & L). pose proof (settled_nodup s S) as D. rewrite O in *. destruct (split_nodup b a t D) as (N1 & N2). rewrite En in *. subst i.
    rewrite set_split. symmetry. now apply change_split.
  Qed.
  Lemma upsert_put n new upd s hs i s' : settled s -> points nm s hs -> n <> [] -> nm new = n -> ig new = false ->
    (forall a, nm (upd a) = nm a /\ ig (upd a) = ig a) -> upsert nm ig n new upd s = (i, s') ->
    settled s' /\ points nm s' (hs ++ [(i, n)]) /\ objects s' = put nm n new upd (objects s).
  Proof.
    intros S P N Nn In0 Up E. destruct (upsert_sound nm ig any n new upd s hs i s' (proj1 S) P N Nn Logic.I) as (S1 & P1); [intros a; destruct (Up a) as (U1 & U2); repeat split; auto|exact E|].
    assert (O : objects s' = put nm n new upd (objects s)).
    { unfold upsert in E. pose proof (settled_nodup s S) as D. destruct S as ((F & _) & I). pose proof (lookup_objects nm ig false n s) as Ob.
      destruct (lookup_split nm ig false n s F (or_introl N)) as [(L & Ab)|(b & x & a & Os & L & Nx & Ix & Af)]; destruct (lookup nm ig false n s) as [o s1]; cbn [fst snd] in *; subst o.
      - assert (X : ~ In n (map nm (objects s))). { intros X. apply in_map_iff in X. destruct X as (x & Nx & X). pose proof (Ab x X Nx) as Y. rewrite (I x X) in Y. discriminate. }
        rewrite put_absent by exact X. unfold append in E. injection E as <- <-. cbn [objects]. now rewrite Ob.
      - rewrite Ob, Os, nth_split in E. injection E as <- <-. cbn [edit objects]. rewrite Os in D. destruct (split_nodup b x a D) as (N1 & _). rewrite Nx in N1. rewrite set_split, Os, put_split; auto. }
    split; [|auto]. split; [exact S1|]. intros x X. apply In_nth_error in X. destruct X as (k & K). rewrite O in K. apply nth_error_In in K. clear -K S Up In0. destruct S as (_ & I).
    induction (objects s) as [|a l IH]; cbn [put] in K; [destruct K as [<-|[]]; exact In0|]. destruct (beqb (nm a) n).
    - destruct K as [<-|K]; [rewrite (proj2 (Up a)); apply I; now left|apply I; now right].
    - destruct K as [<-|K]; [apply I; now left|]. apply IH; [|exact K]. intros y Y. apply I. now right.
  Qed.
End Generic.
Lemma points_nth {A} (nm : A -> bytes) s hs h i n : points nm s hs -> nth_error hs h = Some (i, n) -> nth h (map snd hs) [] = n /\ exists a, nth_error (objects s) i = Some a /\ nm a = n.
Proof.
  intros P E. split.
  - apply nth_error_nth. rewrite nth_error_map, E. reflexivity.
  - unfold points in P. rewrite Forall_forall in P. apply (P (i, n)). now apply nth_error_In with h.
Qed.

(** ** One call *)
Lemma apply_attr_after d tb n a c : c_name c = n -> apply_attr d tb n a c = after_attr d tb a c.
Proof. intros <-. destruct a; cbn [apply_attr after_attr]; try reflexivity; unfold c_set_deferrable; destruct d, c; reflexivity. Qed.
Lemma apply_index_attr_after tb n a x : x_name x = n -> apply_index_attr tb n a x = after_index_attr tb a x.
Proof. intros <-. destruct a; reflexivity. Qed.
Lemma after_attr_keeps d tb a c : (match a with AConfig f => forall c, c_ignore (f c) = c_ignore c | _ => True end) ->
  c_name (after_attr d tb a c) = c_name c /\ c_ignore (after_attr d tb a c) = c_ignore c.
Proof. intros H. destruct a; split; try reflexivity. cbn. apply H. Qed.
Lemma after_index_attr_keeps tb a x : (match a with IConfig f => forall x, x_ignore (f x) = x_ignore x | _ => True end) ->
  x_name (after_index_attr tb a x) = x_name x /\ x_ignore (after_index_attr tb a x) = x_ignore x.
Proof. intros H. destruct a; split; try reflexivity. cbn. apply H. Qed.
Lemma put_constraint_put d tb ty n columns check s hs i s' : settled c_name c_ignore s -> points c_name s hs -> n <> [] ->
  put_constraint d tb ty n columns check s = Some (i, s') ->
  settled c_name c_ignore s' /\ points c_name s' (hs ++ [(i, n)]) /\ objects s' = put c_name n (defined tb ty n columns check) (redefined tb ty columns check) (objects s).
Proof.
  intros S P N E. unfold put_constraint in E. destruct (_ && _); [discriminate|]. assert (E' := f_equal (fun o => match o with Some p => p | None => (0, s) end) E). cbv beta iota in E'. clear E.
  eapply upsert_put in E'; [exact E'|exact S|exact P|exact N|reflexivity|reflexivity|split; reflexivity].
Qed.
Lemma points_weak {A} (nm : A -> bytes) s hs h : points nm s (hs ++ h) -> points nm s hs.
Proof. intros P. unfold points in *. rewrite Forall_app in P. apply P. Qed.
Lemma t_trigger_put d text t t' : t_name t <> [] -> settled g_name g_ignore (t_triggers t) -> t_trigger (S (length (trim_space text))) d text t = LOk t' ->
  exists g, creates d (table_of t) (Some text) g /\ settled g_name g_ignore (t_triggers t') /\ objects (t_triggers t') = add_trigger (objects (t_triggers t)) g.
Proof.
  intros Nt S H. unfold t_trigger in H. destruct (trigger_info _ d (trim_space text)) as [g| | |] eqn:G; try discriminate. exists g.
  destruct (negb (is_empty (g_schema g)) && negb (beqb (g_schema g) (t_schema t))) eqn:Sc; [discriminate|]. destruct (beqb (g_table g) (t_name t)) eqn:Tb; [|discriminate]. cbn [negb] in H. apply beqb_eq in Tb.
  destruct (trigger_info_named _ _ _ _ G) as (Ng & Ig); [congruence|].
  assert (Sc' : g_schema g = [] \/ g_schema g = t_schema t). { destruct (g_schema g) as [|c l] eqn:Q; [now left|]. right. cbn [is_empty negb andb] in Sc. destruct (beqb (c :: l) (t_schema t)) eqn:Y; [|discriminate]. now apply beqb_eq in Y. }
  split; [exists text; repeat split; auto|].
  destruct (upsert g_name g_ignore (g_name g) g (g_set_sql (g_sql g)) (t_triggers t)) as (i, s') eqn:U.
  destruct (upsert_put g_name g_ignore (g_name g) g (g_set_sql (g_sql g)) (t_triggers t) [] i s' S (Forall_nil _) Ng eq_refl Ig) as (S1 & _ & O); [split; reflexivity|exact U|].
  assert (E : t_triggers t' = s').
  { unfold upsert in U. destruct (lookup _ _ _ _ _) as [[k|] ts].
    - destruct (nth_error (objects ts) k); [|discriminate]. injection H as <-. injection U as _ <-. reflexivity.
    - injection H as <-. injection U as _ <-. reflexivity. }
  rewrite E. split; [exact S1|exact O].
Qed.

Ltac six := refine (conj _ (conj _ (conj _ (conj _ (conj _ _))))); assumption.
Section Numeric.
  Context (numeric : bytes -> bool).
  (** What holds between the calls. *)
  Definition run_ok (st : t_state) : Prop :=
    let t := ts_table st in
    settled c_name c_ignore (t_constraints t) /\ points c_name (t_constraints t) (ts_constraints st) /\
    settled x_name x_ignore (t_indexes t) /\ points x_name (t_indexes t) (ts_indexes st) /\ settled g_name g_ignore (t_triggers t) /\ t_name t <> [].
  Definition names_of (hs : list (nat * bytes)) : list bytes := map snd hs.
  Lemma t_step_parts d st c st' : run_ok st -> plain_call c -> t_step numeric d st c = Some st' ->
    run_ok st' /\ table_of (ts_table st') = table_of (ts_table st) /\
    (forall r, constraints_after d (table_of (ts_table st)) (names_of (ts_columns st)) (names_of (ts_constraints st)) (c :: r) (objects (t_constraints (ts_table st))) =
       constraints_after d (table_of (ts_table st)) (names_of (ts_columns st')) (names_of (ts_constraints st')) r (objects (t_constraints (ts_table st')))) /\
    (forall r, indexes_after (table_of (ts_table st)) (names_of (ts_indexes st)) (c :: r) (objects (t_indexes (ts_table st))) =
       indexes_after (table_of (ts_table st)) (names_of (ts_indexes st')) r (objects (t_indexes (ts_table st')))) /\
    exists gs, Forall2 (creates d (table_of (ts_table st))) (trigger_texts [c]) gs /\ objects (t_triggers (ts_table st')) = fold_left add_trigger gs (objects (t_triggers (ts_table st))).
  Proof.
    intros (S1 & P1 & S2 & P2 & S3 & Nt) K H. pose (tb := table_of (ts_table st)).
    assert (NT : forall c0, trigger_texts [c0] = [] -> exists gs, Forall2 (creates d tb) (trigger_texts [c0]) gs /\ objects (t_triggers (ts_table st)) = fold_left add_trigger gs (objects (t_triggers (ts_table st)))).
    { intros c0 ->. exists []. split; [constructor|reflexivity]. }
    unfold t_step in H. destruct c as [|module args|n|h c|c|c|[text|]].
    - injection H as <-. split; [six|]. split; [reflexivity|]. split; [reflexivity|]. split; [reflexivity|]. now apply NT.
    - injection H as <-. split; [six|]. split; [reflexivity|]. split; [reflexivity|]. split; [reflexivity|]. now apply NT.
    - destruct (lookup _ _ _ _ _) as [[i|] cs]; [|discriminate]. injection H as <-. split; [six|]. split; [reflexivity|].
      split; [intros r; cbn [constraints_after ts_columns ts_constraints ts_table with_columns t_constraints fst]; unfold names_of; now rewrite map_app|]. split; [reflexivity|]. now apply NT.
    - destruct (nth_error (ts_columns st) h) as [[i n]|] eqn:Hh; [|discriminate]. assert (Nh : nth h (names_of (ts_columns st)) [] = n) by (unfold names_of; apply nth_error_nth; rewrite nth_error_map, Hh; reflexivity).
      destruct (t_key c) as [ty|] eqn:Ky.
      + destruct (put_constraint d _ ty _ [n] [] (t_constraints (ts_table st))) as [[j ks]|] eqn:Pc; [|discriminate]. injection H as <-.
        destruct (put_constraint_put d _ ty _ [n] [] _ _ j ks S1 P1 (generated_nonempty _ _ [n] (@not_eq_sym _ _ _ (@nil_cons _ n []))) Pc) as (T1 & T2 & T3). apply points_weak in T2.
        split; [six|]. split; [reflexivity|]. split; [|split; [reflexivity|now apply NT]].
        intros r. cbn [ts_columns ts_constraints ts_table with_columns t_constraints fst]. rewrite T3. destruct c; try discriminate; injection Ky as <-; cbn [constraints_after]; rewrite Nh; reflexivity.
      + destruct (nth_error (objects (t_columns (ts_table st))) i) as [l|]; [|discriminate]. injection H as <-. split; [six|]. split; [reflexivity|].
        split; [|split; [reflexivity|now apply NT]]. intros r. destruct c; try discriminate; reflexivity.
    - destruct c as [ty n columns check|n ixt columns exprs operators|h a]; cbn [constraint_step] in H.
      + destruct (put_constraint d _ ty n columns check (t_constraints (ts_table st))) as [[j ks]|] eqn:Pc; [|discriminate]. injection H as <-.
        destruct (put_constraint_put d _ ty n columns check _ _ j ks S1 P1 K Pc) as (T1 & T2 & T3). split; [six|]. split; [reflexivity|]. split; [|split; [reflexivity|now apply NT]].
        intros r. cbn [ts_columns ts_constraints ts_table with_columns t_constraints fst constraints_after]. unfold names_of. rewrite T3, map_app. reflexivity.
      + unfold put_exclusion in H. destruct (negb (is_postgres d) || is_empty n) eqn:Q; [discriminate|]. apply orb_false_iff in Q. destruct Q as (_ & Q).
        destruct (upsert _ _ n _ _ (t_constraints (ts_table st))) as (j, ks) eqn:U. injection H as <-.
        eapply upsert_put in U; [|exact S1|exact P1|destruct n; [discriminate Q|congruence]|reflexivity|reflexivity|split; reflexivity]. destruct U as (T1 & T2 & T3).
        split; [six|]. split; [reflexivity|]. split; [|split; [reflexivity|now apply NT]].
        intros r. cbn [ts_columns ts_constraints ts_table with_columns t_constraints fst constraints_after]. unfold names_of. rewrite T3, map_app. reflexivity.
      + destruct (nth_error (ts_constraints st) h) as [[i n]|] eqn:Hh; [|discriminate]. destruct (points_nth _ _ _ _ _ _ P1 Hh) as (Nh & c & Hc & Nc). rewrite Hc in H. injection H as <-.
        rewrite (apply_attr_after d _ n a c Nc). cbn [plain_call] in K. destruct (after_attr_keeps d tb a c K) as (A1 & A2).
        split.
        { split; [apply settled_edit with (a := c); auto|]. split; [apply points_edit with (a := c); auto|]. exact (conj S2 (conj P2 (conj S3 Nt))). }
        split; [reflexivity|]. split; [|split; [reflexivity|now apply NT]]. intros r. cbn [ts_columns ts_constraints ts_table with_columns t_constraints fst constraints_after edit objects].
        unfold names_of. rewrite Nh. fold tb. f_equal. symmetry. exact (change_at_handle c_name c_ignore _ i c n (after_attr d tb a) S1 Hc Nc).
    - destruct c as [n columns exprs|h a]; cbn [index_step] in H.
      + unfold put_index in H. destruct (is_empty n) eqn:Q; [discriminate|]. destruct (upsert _ _ n _ _ (t_indexes (ts_table st))) as (j, ks) eqn:U. injection H as <-.
        eapply upsert_put in U; [|exact S2|exact P2|destruct n; [discriminate Q|congruence]|reflexivity|reflexivity|split; reflexivity]. destruct U as (T1 & T2 & T3).
        split; [six|]. split; [reflexivity|]. split; [reflexivity|]. split; [|now apply NT].
        intros r. cbn [ts_indexes ts_table with_columns t_indexes snd indexes_after]. unfold names_of. rewrite T3, map_app. reflexivity.
      + destruct (nth_error (ts_indexes st) h) as [[i n]|] eqn:Hh; [|discriminate]. destruct (points_nth _ _ _ _ _ _ P2 Hh) as (Nh & c & Hc & Nc). rewrite Hc in H. injection H as <-.
        rewrite (apply_index_attr_after _ n a c Nc). cbn [plain_call] in K. destruct (after_index_attr_keeps tb a c K) as (A1 & A2).
        split.
        { split; [exact S1|]. split; [exact P1|]. split; [apply settled_edit with (a := c); auto|]. split; [apply points_edit with (a := c); auto|]. exact (conj S3 Nt). }
        split; [reflexivity|]. split; [reflexivity|]. split; [|now apply NT]. intros r. cbn [ts_indexes ts_table with_columns t_indexes snd indexes_after edit objects].
        unfold names_of. rewrite Nh. fold tb. f_equal. symmetry. exact (change_at_handle x_name x_ignore _ i c n (after_index_attr tb a) S2 Hc Nc).
    - destruct (t_trigger _ d text (ts_table st)) as [t'| | |] eqn:G; try discriminate. injection H as <-. pose proof (t_trigger_same _ _ _ _ _ G) as (gs & ->).
      destruct (t_trigger_put d text _ _ Nt S3 G) as (g & C & S3' & O). split; [six|]. split; [reflexivity|]. split; [reflexivity|]. split; [reflexivity|].
      exists [g]. split; [constructor; [exact C|constructor]|]. exact O.
    - discriminate.
  Qed.
  Lemma t_run_parts d calls st st' : run_ok st -> Forall plain_call calls -> t_run numeric d calls st = Some st' ->
    table_of (ts_table st') = table_of (ts_table st) /\
    objects (t_constraints (ts_table st')) = constraints_after d (table_of (ts_table st)) (names_of (ts_columns st)) (names_of (ts_constraints st)) calls (objects (t_constraints (ts_table st))) /\
    objects (t_indexes (ts_table st')) = indexes_after (table_of (ts_table st)) (names_of (ts_indexes st)) calls (objects (t_indexes (ts_table st))) /\
    exists gs, Forall2 (creates d (table_of (ts_table st))) (trigger_texts calls) gs /\ objects (t_triggers (ts_table st')) = fold_left add_trigger gs (objects (t_triggers (ts_table st))).
  Proof.
    revert st. induction calls as [|c calls IH]; intros st R K H; cbn [t_run] in H.
    - injection H as <-. repeat split. exists []. split; [constructor|reflexivity].
    - destruct (t_step numeric d st c) as [st1|] eqn:E; [|discriminate]. inversion K as [|? ? K1 K2]; subst.
      destruct (t_step_parts d st c st1 R K1 E) as (R1 & Tb & C1 & X1 & gs & F & G). destruct (IH st1 R1 K2 H) as (Tb' & C2 & X2 & gs' & F' & G').
      rewrite Tb in *. split; [exact Tb'|]. split; [now rewrite C1|]. split; [now rewrite X1|]. exists (gs ++ gs'). split.
      + change (trigger_texts (c :: calls)) with (trigger_texts ([c] ++ calls)). unfold trigger_texts. rewrite flat_map_app. apply Forall2_app; assumption.
      + rewrite fold_left_app, <- G. exact G'.
  Qed.

  (** ** Success *)
  Definition columns_ok (vis : list bytes) (st : t_state) : Prop :=
    let s := t_columns (ts_table st) in
    sound l_name l_ignore any s /\ points l_name s (ts_columns st) /\ visible_columns (objects s) = vis.
  Lemma plain_of_steady d call st st' : steady_call d call -> t_step numeric d st call = Some st' -> plain_call call.
  Proof.
    intros K H. destruct call as [| | | |c|c|]; try exact I.
    - destruct c as [ty n columns check| |h a]; try exact I; [|destruct a; exact I || exact K].
      cbn [plain_call steady_call] in *. intros ->. unfold t_step in H. cbn [constraint_step] in H. unfold put_constraint in H.
      destruct d; cbn [is_sqlite negb andb is_empty] in H; try discriminate. now apply K.
    - destruct c as [|h a]; try exact I. destruct a; exact I || exact K.
  Qed.
  Lemma visible_set l i a a' : nth_error l i = Some a -> l_name a' = l_name a -> l_ignore a' = l_ignore a -> visible_columns (list_set l i a') = visible_columns l.
  Proof.
    intros E En Ei. destruct (nth_error_split _ _ E) as (b & t & O & L). subst l i. rewrite set_split. unfold visible_columns. rewrite !filter_app, !map_app. f_equal. cbn [filter]. rewrite Ei. destruct (negb (l_ignore a)); [|reflexivity]. cbn [map]. now rewrite En.
  Qed.
  Lemma visible_in n s : sound l_name l_ignore any s -> (In n (visible_columns (objects s)) <-> n <> [] /\ exists l, In l (objects s) /\ l_name l = n /\ l_ignore l = false).
  Proof.
    intros (_ & _ & N). unfold visible_columns. rewrite in_map_iff. split.
    - intros (l & <- & I). apply filter_In in I. destruct I as (I & J). split; [apply N; exact I|]. exists l. split; [exact I|]. split; [reflexivity|]. now destruct (l_ignore l).
    - intros (_ & l & I & <- & J). exists l. split; [reflexivity|]. apply filter_In. split; [exact I|]. now rewrite J.
  Qed.
  Lemma change_keeps d tb n c l : l_name l = n -> t_key c = None -> (match c with TCIgnore => False | TCConfig f => forall l, l_ignore (f l) = l_ignore l | _ => True end) ->
    l_name (t_column_change numeric d tb n c l) = l_name l /\ l_ignore (t_column_change numeric d tb n c l) = l_ignore l.
  Proof. intros <- K S. destruct c; try discriminate; try contradiction; cbn [t_column_change]; destruct d, l; cbn; split; try reflexivity; apply S. Qed.
  Lemma t_step_columns d vis st c st' : columns_ok vis st -> steady_call d c -> t_step numeric d st c = Some st' -> columns_ok vis st'.
  Proof.
    intros (S & P & V) K H. unfold t_step in H. destruct c as [|module args|n|h c|c|c|[text|]].
    - injection H as <-. exact (conj S (conj P V)).
    - injection H as <-. exact (conj S (conj P V)).
    - pose proof (sound_lookup l_name l_ignore any n (t_columns (ts_table st)) S) as S1. pose proof (points_lookup l_name l_ignore (t_columns (ts_table st)) n _ P) as P1. pose proof (lookup_objects l_name l_ignore false n (t_columns (ts_table st))) as Ob.
      destruct (lookup l_name l_ignore false n (t_columns (ts_table st))) as [[i|] cs] eqn:E; [|discriminate]. injection H as <-. cbn [snd] in *. split; [exact S1|]. split; [|cbn [ts_table with_columns t_columns]; now rewrite Ob].
      cbn [ts_table with_columns t_columns ts_columns]. unfold points in *. apply Forall_app. split; [exact P1|]. constructor; [|constructor]. cbn [fst snd].
      destruct n as [|x n]; [discriminate E|]. destruct S as (F & _). destruct (lookup_exact_state l_name l_ignore false (x :: n) _ F (or_introl (not_eq_sym (@nil_cons _ x n)))) as [L1 _]. rewrite E in L1. destruct (L1 i) as [L _].
      destruct (L eq_refl) as [(l & H1 & H2 & H3) _]. exists l. rewrite Ob. auto.
    - destruct (nth_error (ts_columns st) h) as [[i n]|] eqn:Hh; [|discriminate]. destruct (t_key c) as [ty|] eqn:Ky.
      + destruct (put_constraint d _ ty _ [n] [] _) as [[j ks]|]; [|discriminate]. injection H as <-. exact (conj S (conj P V)).
      + destruct (points_nth _ _ _ _ _ _ P Hh) as (_ & l & Hl & Nl). rewrite Hl in H. injection H as <-.
        assert (K' : match c with TCIgnore => False | TCConfig f => forall l, l_ignore (f l) = l_ignore l | _ => True end) by (destruct c; exact I || exact K).
        destruct (change_keeps d (table_of (ts_table st)) n c l Nl Ky K') as (A1 & A2). split; [|split].
        * cbn [ts_table with_columns t_columns]. apply sound_edit with (a := l); auto. congruence.
        * cbn [ts_table with_columns t_columns ts_columns]. apply points_edit with (a := l); auto.
        * cbn [ts_table with_columns t_columns edit objects]. now rewrite (visible_set _ _ _ _ Hl A1 A2).
    - destruct (constraint_step d _ _ c) as [[ks hs]|]; [|discriminate]. injection H as <-. exact (conj S (conj P V)).
    - destruct (index_step _ _ c) as [[ks hs]|]; [|discriminate]. injection H as <-. exact (conj S (conj P V)).
    - destruct (t_trigger _ d text (ts_table st)) as [t'| | |] eqn:G; try discriminate. injection H as <-. pose proof (t_trigger_same _ _ _ _ _ G) as (gs & ->). exact (conj S (conj P V)).
    - discriminate.
  Qed.
  Lemma t_trigger_accepts d text t : t_name t <> [] -> settled g_name g_ignore (t_triggers t) -> ((exists t', t_trigger (S (length (trim_space text))) d text t = LOk t') <-> exists g, creates d (table_of t) (Some text) g).
  Proof.
    intros Nt S. split.
    - intros (t' & H). destruct (t_trigger_put d text t t' Nt S H) as (g & C & _). now exists g.
    - intros (g & x & E & G & Tb & Sc). assert (x = text) by congruence. subst x. clear E. cbn [table_of tb_schema tb_name] in *. unfold t_trigger. rewrite G.
      assert (Q : negb (is_empty (g_schema g)) && negb (beqb (g_schema g) (t_schema t)) = false) by (destruct Sc as [-> | ->]; [reflexivity|rewrite beqb_refl; apply andb_false_r]).
      rewrite Q, Tb, beqb_refl. cbn [negb]. destruct (trigger_info_named _ _ _ _ G) as (Ng & Ig); [congruence|]. destruct S as ((F & _) & _). pose proof (lookup_objects g_name g_ignore false (g_name g) (t_triggers t)) as Ob.
      destruct (lookup_split g_name g_ignore false (g_name g) (t_triggers t) F (or_introl Ng)) as [(L & _)|(b & y & a & Os & L & _)]; destruct (lookup g_name g_ignore false (g_name g) (t_triggers t)) as [o s1]; cbn [fst snd] in *; subst o.
      + eauto.
      + rewrite Ob, Os, nth_split. eauto.
  Qed.
  Lemma t_step_accepts d vis st c : run_ok st -> columns_ok vis st -> steady_call d c -> handled (length (ts_columns st)) (length (ts_constraints st)) (length (ts_indexes st)) [c] ->
    ((exists st', t_step numeric d st c = Some st') <-> acceptable d (table_of (ts_table st)) vis c).
  Proof.
    intros (S1 & P1 & S2 & P2 & S3 & Nt) (S & P & V) K Hd. unfold t_step. destruct c as [|module args|n|h c|c|c|[text|]].
    - split; [intros _; exact I|eauto].
    - split; [intros _; exact I|eauto].
    - pose proof (column_panics numeric d st n (proj1 S)) as CP. unfold t_step in CP. cbn [acceptable]. rewrite <- V, (visible_in n _ S). destruct (lookup l_name l_ignore false n (t_columns (ts_table st))) as [[i|] cs].
      + split; [|eauto]. intros _. destruct n as [|x n]; [assert (A : Some (mk_t (with_columns cs (t_constraints (ts_table st), t_indexes (ts_table st)) (ts_table st)) (ts_columns st ++ [(i, [])]) (ts_constraints st) (ts_indexes st)) = None) by (apply CP; now left); discriminate A|]. split; [discriminate|].
        unfold visible_columns in V. destruct (in_dec (list_eq_dec Ascii.ascii_dec) (x :: n) (visible_columns (objects (t_columns (ts_table st))))) as [I|I]; [now apply visible_in in I|].
        exfalso. assert (A : Some (mk_t (with_columns cs (t_constraints (ts_table st), t_indexes (ts_table st)) (ts_table st)) (ts_columns st ++ [(i, x :: n)]) (ts_constraints st) (ts_indexes st)) = None); [|discriminate A].
        apply CP. right. intros X. apply I. apply visible_in; [exact S|]. split; [discriminate|exact X].
      + split; [intros (st' & X); discriminate X|]. intros (N & X). destruct (proj1 CP eq_refl) as [Y|Y]; contradiction.
    - cbn [handled] in Hd. destruct Hd as (Hd & _). split; [intros _; exact I|intros _]. destruct (nth_error (ts_columns st) h) as [[i n]|] eqn:Hh; [|apply nth_error_None in Hh; lia].
      destruct (t_key c) as [ty|].
      + unfold put_constraint. pose proof (generated_nonempty ty (tb_name (table_of (ts_table st))) [n] (@not_eq_sym _ _ _ (@nil_cons _ n []))) as G. destruct (generate_name ty (tb_name (table_of (ts_table st))) [n]); [congruence|]. cbn [is_empty]. rewrite andb_false_r. destruct (upsert _ _ _ _ _ _). eauto.
      + destruct (points_nth _ _ _ _ _ _ P Hh) as (_ & l & Hl & _). rewrite Hl. eauto.
    - destruct c as [ty n columns check|n ixt columns exprs operators|h a]; cbn [constraint_step acceptable].
      + unfold put_constraint. destruct (negb (is_sqlite d) && is_empty n) eqn:Q.
        * apply andb_true_iff in Q. destruct Q as (_ & Q). destruct n; [|discriminate]. split; [intros (x & X); discriminate X|congruence].
        * split; [|intros _; destruct (upsert _ _ _ _ _ _); eauto]. intros _ ->. cbn [is_empty] in Q. rewrite andb_true_r in Q. destruct d; try discriminate. cbn [steady_call] in K. now apply K.
      + unfold put_exclusion. destruct (negb (is_postgres d) || is_empty n) eqn:Q.
        * split; [intros (x & X); discriminate X|]. intros (-> & N). destruct n; [congruence|discriminate].
        * apply orb_false_iff in Q. destruct Q as (Q1 & Q2). split; [|intros _; destruct (upsert _ _ _ _ _ _); eauto]. intros _. split; [destruct d; try discriminate; reflexivity|]. intros ->. discriminate Q2.
      + cbn [handled] in Hd. destruct Hd as (Hd & _). split; [intros _; exact I|intros _]. destruct (nth_error (ts_constraints st) h) as [[i n]|] eqn:Hh; [|apply nth_error_None in Hh; lia].
        destruct (points_nth _ _ _ _ _ _ P1 Hh) as (_ & l & Hl & _). rewrite Hl. eauto.
    - destruct c as [n columns exprs|h a]; cbn [index_step acceptable].
      + unfold put_index. destruct n as [|x n]; cbn [is_empty]; [split; [intros (y & Y); discriminate Y|congruence]|]. split; [discriminate|]. destruct (upsert _ _ _ _ _ _). eauto.
      + cbn [handled] in Hd. destruct Hd as (Hd & _). split; [intros _; exact I|intros _]. destruct (nth_error (ts_indexes st) h) as [[i n]|] eqn:Hh; [|apply nth_error_None in Hh; lia].
        destruct (points_nth _ _ _ _ _ _ P2 Hh) as (_ & l & Hl & _). rewrite Hl. eauto.
    - cbn [acceptable]. rewrite <- (t_trigger_accepts d text _ Nt S3). destruct (t_trigger _ d text (ts_table st)) as [t'| | |].
      + split; eauto.
      + split; intros (x & X); discriminate X.
      + split; intros (x & X); discriminate X.
      + split; intros (x & X); discriminate X.
    - cbn [acceptable]. split; [intros (x & X); discriminate X|]. intros (g & t & X & _). discriminate X.
  Qed.
  Lemma t_step_handles d st c st' calls : t_step numeric d st c = Some st' ->
    handled (length (ts_columns st)) (length (ts_constraints st)) (length (ts_indexes st)) (c :: calls) ->
    handled (length (ts_columns st)) (length (ts_constraints st)) (length (ts_indexes st)) [c] /\
    handled (length (ts_columns st')) (length (ts_constraints st')) (length (ts_indexes st')) calls.
  Proof.
    intros H Hd. unfold t_step in H. destruct c as [|module args|n|h c|c|c|[text|]]; cbn [handled] in *.
    - injection H as <-. auto.
    - injection H as <-. auto.
    - destruct (lookup _ _ _ _ _) as [[i|] cs]; [|discriminate]. injection H as <-. cbn [ts_columns ts_constraints ts_indexes]. rewrite app_length, Nat.add_1_r. auto.
    - destruct Hd as (Hh & Hd). split; [auto|]. destruct (nth_error (ts_columns st) h) as [[i n]|]; [|discriminate]. destruct (t_key c) as [ty|].
      + destruct (put_constraint _ _ _ _ _ _ _) as [[j ks]|]; [|discriminate]. injection H as <-. exact Hd.
      + destruct (nth_error (objects _) i); [|discriminate]. injection H as <-. exact Hd.
    - destruct c as [ty n columns check|n ixt columns exprs operators|h a]; cbn [constraint_step] in H.
      + destruct (put_constraint _ _ _ _ _ _ _) as [[j ks]|]; [|discriminate]. injection H as <-. cbn [ts_columns ts_constraints ts_indexes]. rewrite app_length, Nat.add_1_r. auto.
      + destruct (put_exclusion _ _ _ _ _ _ _ _) as [[j ks]|]; [|discriminate]. injection H as <-. cbn [ts_columns ts_constraints ts_indexes]. rewrite app_length, Nat.add_1_r. auto.
      + destruct Hd as (Hh & Hd). split; [auto|]. destruct (nth_error (ts_constraints st) h) as [[i n]|]; [|discriminate]. destruct (nth_error (objects _) i); [injection H as <-; exact Hd|discriminate H].
    - destruct c as [n columns exprs|h a]; cbn [index_step] in H.
      + destruct (put_index _ _ _ _ _) as [[j ks]|]; [|discriminate]. injection H as <-. cbn [ts_columns ts_constraints ts_indexes]. rewrite app_length, Nat.add_1_r. auto.
      + destruct Hd as (Hh & Hd). split; [auto|]. destruct (nth_error (ts_indexes st) h) as [[i n]|]; [|discriminate]. destruct (nth_error (objects _) i); [injection H as <-; exact Hd|discriminate H].
    - destruct (t_trigger _ _ _ _) as [t'| | |]; try discriminate. injection H as <-. auto.
    - discriminate.
  Qed.
  Lemma handled_first nc nk nx c calls : handled nc nk nx (c :: calls) -> handled nc nk nx [c].
  Proof. destruct c as [|module args|n|h c|[]|[]|]; cbn [handled]; tauto. Qed.
  Lemma t_run_accepts d vis calls st : run_ok st -> columns_ok vis st -> Forall (steady_call d) calls -> handled (length (ts_columns st)) (length (ts_constraints st)) (length (ts_indexes st)) calls ->
    ((exists st', t_run numeric d calls st = Some st') <-> Forall (acceptable d (table_of (ts_table st)) vis) calls).
  Proof.
    revert st. induction calls as [|c calls IH]; intros st R C K Hd; cbn [t_run]; [split; [constructor|eauto]|]. inversion K as [|? ? K1 K2]; subst.
    pose proof (t_step_accepts d vis st c R C K1 (handled_first _ _ _ _ _ Hd)) as A. destruct (t_step numeric d st c) as [st1|] eqn:E.
    - pose proof (plain_of_steady d c st st1 K1 E) as Pl. destruct (t_step_parts d st c st1 R Pl E) as (R1 & Tb & _). destruct (t_step_handles d st c st1 calls E Hd) as (_ & Hd1).
      rewrite (IH st1 R1 (t_step_columns d vis st c st1 C K1 E) K2 Hd1), Tb. split; [intros F; constructor; [apply A; eauto|exact F]|]. intros F. now inversion F.
    - split; [intros (x & X); discriminate X|]. intros F. inversion F as [|? ? F1 _]; subst. apply A in F1. destruct F1 as (x & X). discriminate X.
  Qed.
End Numeric.
