(** * ViewPf: loading a view *)
From Coq Require Import Permutation Lia.
From Verif Require Import GoBase GoBaseFacts QuoteModel CacheModel UpsertModel TokenModel DdlModel MigrateModel LoadModel LoadFacts TriggerModel TriggerStore ViewModel SpecView.

(** ** The column check *)
Definition bytes_dec (a b : bytes) : {a = b} + {a <> b} := list_eq_dec ascii_dec a b.
Fixpoint val (c : bytes) (m : list (bytes * Z)) : Z :=
  match m with [] => 0%Z | (k, n) :: m' => if bytes_dec k c then n else val c m' end.
Lemma beqb_dec a b : beqb a b = if bytes_dec a b then true else false.
Proof. destruct (bytes_dec a b) as [->|N]; [apply beqb_refl|]. destruct (beqb a b) eqn:E; [apply beqb_eq in E; contradiction|reflexivity]. Qed.
Lemma val_add c c' k m : val c' (diff_add c k m) = (val c' m + if bytes_dec c c' then k else 0)%Z.
Proof.
  induction m as [|[x n] m IH]; cbn [diff_add val].
  - destruct (bytes_dec c c'); lia.
  - rewrite beqb_dec. destruct (bytes_dec x c) as [->|N]; cbn [val]; destruct (bytes_dec c c') as [->|N1].
    + destruct (bytes_dec c' c'); [lia|congruence].
    + destruct (bytes_dec c c'); [congruence|lia].
    + destruct (bytes_dec x c'); [congruence|]. rewrite IH. destruct (bytes_dec c' c'); [lia|congruence].
    + destruct (bytes_dec x c'); [lia|]. rewrite IH. destruct (bytes_dec c c'); [congruence|lia].
Qed.
Lemma add_keys c k m x : In x (map fst (diff_add c k m)) -> x = c \/ In x (map fst m).
Proof.
  induction m as [|[y n] m IH]; cbn [diff_add map In].
  - intros [<-|[]]. now left.
  - rewrite beqb_dec. destruct (bytes_dec y c) as [->|N]; cbn [map In fst].
    + tauto.
    + intros [<-|H]; [tauto|]. destruct (IH H); tauto.
Qed.
Lemma add_nodup c k m : NoDup (map fst m) -> NoDup (map fst (diff_add c k m)).
Proof.
  induction m as [|[y n] m IH]; cbn [diff_add map]; intros H; [constructor; [tauto|constructor]|].
  inversion H as [|? ? N D]; subst. rewrite beqb_dec. destruct (bytes_dec y c) as [->|Ny]; cbn [map fst]; constructor; auto.
  intros I. apply add_keys in I. destruct I; [subst; congruence|contradiction].
Qed.
Lemma val_zero m : NoDup (map fst m) -> (forallb (fun kv : bytes * Z => (snd kv =? 0)%Z) m = true <-> forall c, val c m = 0%Z).
Proof.
  induction m as [|[y n] m IH]; intros D; cbn [forallb val map] in *; [tauto|]. inversion D as [|? ? N D']; subst. rewrite andb_true_iff, (IH D'), Z.eqb_eq. cbn [snd fst] in *. split.
  - intros (E & H) c. destruct (bytes_dec y c); auto.
  - intros H. split; [specialize (H y); now destruct (bytes_dec y y); [|congruence]|].
    intros c. specialize (H c). destruct (bytes_dec y c) as [->|]; [|exact H].
    clear - N. induction m as [|[x k] m IH]; [reflexivity|]. cbn [val map In fst] in *. destruct (bytes_dec x c); [subst; tauto|]. apply IH. tauto.
Qed.
Lemma val_want want : forall m c, NoDup (map fst m) ->
  NoDup (map fst (fold_left (fun m c => diff_add c (-1) m) want m)) /\
  val c (fold_left (fun m c => diff_add c (-1) m) want m) = (val c m - Z.of_nat (count_occ bytes_dec want c))%Z.
Proof.
  induction want as [|w want IH]; intros m c D; cbn [fold_left count_occ]; [split; [exact D|lia]|].
  destruct (IH (diff_add w (-1) m) c (add_nodup _ _ _ D)) as (A & ->). split; [exact A|]. rewrite val_add. destruct (bytes_dec w c); lia.
Qed.
Lemma field_column_fetched f : field_column f = fetched f.
Proof. unfold field_column, fetched. now destruct (ff_alias f). Qed.
Lemma val_fields fs : forall m, NoDup (map fst m) ->
  match diff_fields fs m with
  | None => Exists (fun f => fetched f = []) fs
  | Some m' => Forall (fun f => fetched f <> []) fs /\ NoDup (map fst m') /\
               forall c, val c m' = (val c m + Z.of_nat (count_occ bytes_dec (map fetched fs) c))%Z
  end.
Proof.
  induction fs as [|f fs IH]; intros m D; cbn [diff_fields map count_occ]; [split; [constructor|]; split; [exact D|intros; lia]|].
  rewrite field_column_fetched. destruct (fetched f) as [|a b] eqn:E; cbn [is_empty]; [now left|].
  specialize (IH (diff_add (fetched f) 1 m) (add_nodup _ _ _ D)). rewrite E in IH. destruct (diff_fields fs _) as [m'|]; [|now right].
  destruct IH as (A & B0 & C). split; [constructor; [congruence|exact A]|]. split; [exact B0|]. intros c. rewrite C, val_add. destruct (bytes_dec (a :: b) c); lia.
Qed.
Lemma columns_match_spec want fs : columns_match want fs = true <-> Forall (fun f => fetched f <> []) fs /\ Permutation want (map fetched fs).
Proof.
  unfold columns_match. destruct (val_want want [] [] (NoDup_nil _)) as (D & _). pose proof (val_fields fs _ D) as H.
  destruct (diff_fields fs _) as [m'|].
  - destruct H as (A & B0 & C). rewrite (val_zero _ B0). rewrite (Permutation_count_occ bytes_dec). split.
    + intros Z. split; [exact A|]. intros c. specialize (Z c). rewrite C in Z. destruct (val_want want [] c (NoDup_nil _)) as (_ & E). rewrite E in Z. cbn [val] in Z. lia.
    + intros (_ & P) c. rewrite C. destruct (val_want want [] c (NoDup_nil _)) as (_ & E). rewrite E, P. cbn [val]. lia.
  - split; [discriminate|]. intros (F & _). apply Exists_exists in H. destruct H as (f & I & E). rewrite Forall_forall in F. now apply F in E.
Qed.
Lemma query_step_fine (d : dialect) id want st q : fine (v_step d id want st (VSetQuery q)) <-> query_ok want q.
Proof.
  split.
  - intros (st' & H). cbn [v_step] in H. destruct q as [[[text|] [fs|]]|]; try discriminate. destruct (columns_match want fs) eqn:E; [|discriminate].
    apply columns_match_spec in E. exists text, fs. tauto.
  - intros (text & fs & -> & H). cbn [v_step]. apply columns_match_spec in H. rewrite H. eexists. reflexivity.
Qed.

(** ** Triggers *)
Lemma key_eqb_eq a b : key_eqb a b = true <-> a = b.
Proof.
  destruct a as [[a1 a2] a3], b as [[b1 b2] b3]. unfold key_eqb. cbn [fst snd]. rewrite !andb_true_iff, !beqb_eq. split.
  - intros ((-> & ->) & ->). reflexivity.
  - intros E. injection E as -> -> ->. auto.
Qed.
Lemma key_eqb_refl a : key_eqb a a = true.
Proof. now apply key_eqb_eq. Qed.
Lemma kget_del_other k k' m : k <> k' -> kget k (kdel k' m) = kget k m.
Proof.
  intros N. induction m as [|[x n] m IH]; [reflexivity|]. cbn [kdel filter fst kget]. destruct (key_eqb x k') eqn:E; cbn [negb kget].
  - apply key_eqb_eq in E. subst. destruct (key_eqb k' k) eqn:E2; [apply key_eqb_eq in E2; congruence|exact IH].
  - destruct (key_eqb x k); [reflexivity|exact IH].
Qed.
Lemma kget_set k k' n m : kget k (kset k' n m) = if key_eqb k' k then Some n else kget k m.
Proof. unfold kset. cbn [kget]. destruct (key_eqb k' k) eqn:E; [reflexivity|]. apply kget_del_other. intros ->. now rewrite key_eqb_refl in E. Qed.

Definition vt_ok (s : view_triggers) : Prop :=
  Forall (fun g => g_ignore g = false /\ g_name g <> []) (vt_list s) /\
  forall i g, nth_error (vt_list s) i = Some g -> kget (key_of g) (vt_cache s) = Some i.
Lemma vt_none k s : vt_ok s -> snd k <> [] -> fst (vt_lookup k s) = None -> ~ In k (map key_of (vt_list s)).
Proof.
  intros (F & C) N H I. apply in_map_iff in I. destruct I as (g & E & I). subst k. pose proof I as I'. apply In_nth_error in I. destruct I as (i & I).
  rewrite Forall_forall in F. destruct (F g I') as (F1 & F2).
  unfold vt_lookup in H. replace (is_empty (snd (key_of g))) with false in H by (cbn [key_of snd]; now destruct (g_name g)).
  rewrite (C i g I), I, key_eqb_refl, F1 in H. discriminate.
Qed.
Lemma vt_some k s i : fst (vt_lookup k s) = Some i -> snd (vt_lookup k s) = s /\ exists g, nth_error (vt_list s) i = Some g /\ key_of g = k.
Proof.
  unfold vt_lookup. destruct (is_empty (snd k)); [discriminate|]. destruct (kget k (vt_cache s)) as [j|]; [|discriminate].
  destruct (nth_error (vt_list s) j) as [g|] eqn:E; [|discriminate]. destruct (key_eqb (key_of g) k) eqn:K; [|discriminate].
  destruct (g_ignore g); [discriminate|]. cbn. intros H. injection H as <-. split; [reflexivity|]. exists g. split; [exact E|]. now apply key_eqb_eq.
Qed.
Lemma vt_lookup_list k s : vt_list (snd (vt_lookup k s)) = vt_list s.
Proof.
  unfold vt_lookup. destruct (is_empty (snd k)); [reflexivity|]. destruct (kget k (vt_cache s)) as [j|]; [|reflexivity].
  destruct (nth_error (vt_list s) j) as [g|]; [|reflexivity]. destruct (_ || _); reflexivity.
Qed.
Lemma vt_lookup_cache k k' s : k' <> k -> kget k' (vt_cache (snd (vt_lookup k s))) = kget k' (vt_cache s).
Proof.
  intros N. unfold vt_lookup. destruct (is_empty (snd k)); [reflexivity|]. destruct (kget k (vt_cache s)) as [j|]; [|reflexivity].
  destruct (nth_error (vt_list s) j) as [g|]; [destruct (_ || _)|]; try reflexivity; cbn [snd vt_cache]; now apply kget_del_other.
Qed.
Lemma put_absent g l : ~ In (key_of g) (map key_of l) -> put_trigger l g = l ++ [g].
Proof.
  induction l as [|h l IH]; cbn [put_trigger map In app]; [reflexivity|]. intros N. destruct (key_eqb (key_of h) (key_of g)) eqn:E.
  - apply key_eqb_eq in E. tauto.
  - rewrite IH; tauto.
Qed.
Lemma put_found g b old a : ~ In (key_of g) (map key_of b) -> key_of old = key_of g -> put_trigger (b ++ old :: a) g = b ++ g_set_sql (g_sql g) old :: a.
Proof.
  intros N K. induction b as [|h b IH]; cbn [app put_trigger map In] in *.
  - rewrite K, key_eqb_refl. reflexivity.
  - destruct (key_eqb (key_of h) (key_of g)) eqn:E; [apply key_eqb_eq in E; tauto|]. rewrite IH; tauto.
Qed.
Lemma named_info fuel d sql g : sql <> [] -> trigger_info fuel d sql = LOk g -> g_name g <> [] /\ g_ignore g = false.
Proof.
  intros N H. unfold trigger_info in H. destruct (trigger_loop _ _ _ _ _) as [[[n s] t]| | |]; try discriminate.
  destruct sql; [congruence|]. cbn [is_empty negb andb] in H. destruct n, t; try discriminate. injection H as <-. split; [discriminate|reflexivity].
Qed.
Definition not_blank (text : option bytes) : Prop := forall t, text = Some t -> trim_space t <> [].
Lemma vt_step g s : vt_ok s -> g_name g <> [] -> g_ignore g = false ->
  exists s', vt_ok s' /\ vt_list s' = put_trigger (vt_list s) g /\
    match vt_lookup (key_of g) s with
    | (Some n, ts) => exists old, nth_error (vt_list ts) n = Some old /\ s' = mk_vt (list_set (vt_list ts) n (g_set_sql (g_sql g) old)) (vt_cache ts)
    | (None, ts) => s' = vt_append g ts
    end.
Proof.
  intros V N I. destruct (fst (vt_lookup (key_of g) s)) as [i|] eqn:L.
  - destruct (vt_some _ _ _ L) as (S & old & E & K). destruct (vt_lookup (key_of g) s) as [r ts]. cbn [fst snd] in L, S. subst r ts.
    destruct (nth_error_split _ _ E) as (b & a & Es & Lb). destruct V as (F & C).
    assert (X : ~ In (key_of g) (map key_of b)).
    { intros X. apply in_map_iff in X. destruct X as (h & Kh & X). apply In_nth_error in X. destruct X as (j & X).
      assert (Lj : j < length b) by (apply nth_error_Some; congruence).
      assert (Ej : nth_error (vt_list s) j = Some h) by (rewrite Es, nth_error_app1; auto).
      pose proof (C j h Ej) as Cj. pose proof (C i old E) as Ci. rewrite Kh in Cj. rewrite K in Ci. assert (j = i) by congruence. lia. }
    exists (mk_vt (list_set (vt_list s) i (g_set_sql (g_sql g) old)) (vt_cache s)). split; [|split; [|exists old; auto]].
    + rewrite Es, <- Lb, set_split. split; cbn [vt_list vt_cache].
      * rewrite Es in F. apply Forall_app in F. destruct F as (F1 & F2). inversion F2 as [|? ? F3 F4]; subst. apply Forall_app. split; [exact F1|]. constructor; auto.
      * intros j h Ej. destruct (Nat.eq_dec j (length b)) as [->|Nj].
        -- rewrite nth_split in Ej. injection Ej as <-. cbn [key_of g_set_sql g_schema g_table g_name]. apply (C (length b) old). now rewrite Lb.
        -- apply C. rewrite Es. rewrite <- (list_set_nth_other _ (length b) j (g_set_sql (g_sql g) old)) by auto. now rewrite set_split.
    + cbn [vt_list]. rewrite Es, <- Lb, set_split, put_found; auto.
  - pose proof (vt_none (key_of g) _ V N L) as A. pose proof (vt_lookup_list (key_of g) s) as Ll. pose proof (fun k' => vt_lookup_cache (key_of g) k' s) as Lc.
    destruct (vt_lookup (key_of g) s) as [r ts]. cbn [fst snd] in L, Ll, Lc. subst r. exists (vt_append g ts). split; [|split; [|reflexivity]].
    + destruct V as (F & C). split; cbn [vt_append vt_list vt_cache]; rewrite Ll.
      * apply Forall_app. split; [exact F|]. constructor; auto.
      * intros j h Ej. rewrite kget_set. destruct (Nat.lt_ge_cases j (length (vt_list s))) as [Lj|Lj].
        -- rewrite nth_error_app1 in Ej by exact Lj. assert (Kh : key_of h <> key_of g).
           { intros Kh. apply A. rewrite <- Kh. apply in_map. now apply nth_error_In in Ej. }
           destruct (key_eqb (key_of g) (key_of h)) eqn:E; [apply key_eqb_eq in E; congruence|]. rewrite Lc by exact Kh. now apply C.
        -- rewrite nth_error_app2 in Ej by exact Lj. destruct (j - length (vt_list s)) as [|k] eqn:Ek; [|destruct k; discriminate].
           injection Ej as <-. rewrite key_eqb_refl. f_equal. lia.
    + cbn [vt_append vt_list]. rewrite Ll. symmetry. now apply put_absent.
Qed.
Lemma trigger_step id want st text st' : vt_ok (vs_triggers st) -> not_blank text -> v_step DPostgres id want st (VTrigger text) = LOk st' ->
  exists g, declared text g /\ vt_ok (vs_triggers st') /\ vt_list (vs_triggers st') = put_trigger (vt_list (vs_triggers st)) g /\
    vs_materialized st' = vs_materialized st /\ vs_sql st' = vs_sql st /\ vs_indexes st' = vs_indexes st.
Proof.
  intros V Nb H. cbn [v_step is_postgres negb] in H. destruct text as [t|]; [|discriminate]. cbv zeta in H. apply lbind_ok in H. destruct H as (g & G & H).
  destruct (named_info _ _ _ _ (Nb t eq_refl) G) as (N & I). destruct (vt_step g _ V N I) as (s' & V' & P & X).
  exists g. split; [exists t; auto|]. destruct (vt_lookup (key_of g) (vs_triggers st)) as [[n|] ts].
  - destruct X as (old & E & ->). rewrite E in H. injection H as <-. cbn. auto.
  - subst s'. injection H as <-. cbn. auto.
Qed.
Lemma trigger_step_fine id want st text : vt_ok (vs_triggers st) -> not_blank text ->
  (fine (v_step DPostgres id want st (VTrigger text)) <-> exists g, declared text g).
Proof.
  intros V Nb. split.
  - intros (st' & H). destruct (trigger_step id want st text st' V Nb H) as (g & G & _). eauto.
  - intros (g & t & -> & G). cbn [v_step is_postgres negb]. rewrite G. cbn [lbind].
    destruct (named_info _ _ _ _ (Nb t eq_refl) G) as (N & I). destruct (vt_step g _ V N I) as (s' & V' & P & X).
    destruct (vt_lookup (key_of g) (vs_triggers st)) as [[n|] ts].
    + destruct X as (old & -> & _). eexists. reflexivity.
    + eexists. reflexivity.
Qed.

(** ** All calls *)
Definition is_materialized_call (c : v_call) : bool := match c with VMaterialized => true | _ => false end.
Lemma last_cons {A} (x : A) l i : last (x :: l) i = last l x.
Proof. revert x i. induction l as [|y l IH]; intros x i; [reflexivity|]. change (last (x :: y :: l) i) with (last (y :: l) i). now rewrite !IH. Qed.

Lemma run_postgres id want : forall ddl st st', vt_ok (vs_triggers st) -> Forall not_blank (trigger_calls ddl) ->
  lfold (v_step DPostgres id want) ddl st = LOk st' ->
  vs_materialized st' = vs_materialized st || existsb is_materialized_call ddl /\
  vs_sql st' = last (query_calls ddl) (vs_sql st) /\
  fold_left (index_step id) (index_calls ddl) (Some (vs_indexes st)) = Some (vs_indexes st') /\
  exists gs, Forall2 declared (trigger_calls ddl) gs /\ vt_list (vs_triggers st') = fold_left put_trigger gs (vt_list (vs_triggers st)).
Proof.
  induction ddl as [|c ddl IH]; intros st st' V Nb H.
  - injection H as <-. cbn. rewrite orb_false_r. repeat split. exists []. split; [constructor|reflexivity].
  - cbn [lfold] in H. apply lbind_ok in H. destruct H as (s1 & E & H). destruct c as [|q|text|call].
    + cbn [v_step is_postgres] in E. injection E as <-. pose proof (fun V' => IH _ st' V' Nb H) as Z; destruct (Z V) as (A & B0 & C & D); clear Z. cbn [vs_materialized vs_sql vs_indexes vs_triggers existsb is_materialized_call query_calls index_calls trigger_calls flat_map app] in *.
      rewrite A, orb_true_r. auto.
    + cbn [v_step] in E. destruct q as [[[txt|] [fs|]]|]; try discriminate. destruct (columns_match want fs); [|discriminate]. injection E as <-.
      pose proof (fun V' => IH _ st' V' Nb H) as Z; destruct (Z V) as (A & B0 & C & D); clear Z. cbn [vs_materialized vs_sql vs_indexes vs_triggers existsb is_materialized_call orb index_calls trigger_calls flat_map app] in *.
      unfold query_calls in *. cbn [flat_map app query_text]. rewrite last_cons. auto.
    + change (trigger_calls (VTrigger text :: ddl)) with (text :: trigger_calls ddl) in *. inversion Nb as [|? ? N1 N2]; subst.
      destruct (trigger_step id want st text s1 V N1 E) as (g & G & V1 & P & M & S & X). destruct (IH _ _ V1 N2 H) as (A & B0 & C & gs & F & D).
      cbn [existsb is_materialized_call orb index_calls query_calls flat_map app]. rewrite A, B0, <- X, M, S. repeat split; auto.
      exists (g :: gs). split; [constructor; auto|]. cbn [fold_left]. now rewrite D, P.
    + cbn [v_step is_postgres negb] in E. destruct (match call with IDefine _ _ _ => negb (vs_materialized st) | IAttr _ _ => false end); [discriminate|].
      destruct (index_step id (Some (vs_indexes st)) call) as [xs|] eqn:X; [|discriminate]. injection E as <-.
      pose proof (fun V' => IH _ st' V' Nb H) as Z; destruct (Z V) as (A & B0 & C & D); clear Z. cbn [vs_materialized vs_sql vs_indexes vs_triggers existsb is_materialized_call orb query_calls trigger_calls flat_map app] in *.
      change (index_calls (VIndex call :: ddl)) with (call :: index_calls ddl). cbn [fold_left]. rewrite X. auto.
Qed.
Lemma run_other d id want : d <> DPostgres -> forall ddl st st', lfold (v_step d id want) ddl st = LOk st' ->
  vs_materialized st' = vs_materialized st /\ vs_sql st' = last (query_calls ddl) (vs_sql st) /\ vs_indexes st' = vs_indexes st /\ vs_triggers st' = vs_triggers st.
Proof.
  intros D. assert (P : is_postgres d = false) by (destruct d; try reflexivity; congruence). induction ddl as [|c ddl IH]; intros st st' H.
  - injection H as <-. auto.
  - cbn [lfold] in H. apply lbind_ok in H. destruct H as (s1 & E & H). destruct (IH _ _ H) as (A & B0 & C & T). destruct c as [|q|text|call]; cbn [v_step] in E; rewrite ?P in E; cbn [negb] in E; try (injection E as <-; auto).
    destruct q as [[[txt|] [fs|]]|]; try discriminate. destruct (columns_match want fs); [|discriminate]. injection E as <-.
    unfold query_calls in *. cbn [flat_map app query_text vs_materialized vs_sql vs_indexes vs_triggers] in *. rewrite last_cons. auto.
Qed.
Lemma step_none id l : fold_left (index_step id) l None = None.
Proof. induction l as [|c l IH]; [reflexivity|exact IH]. Qed.
Lemma fine_postgres id want : forall ddl st, vt_ok (vs_triggers st) -> Forall not_blank (trigger_calls ddl) ->
  (fine (lfold (v_step DPostgres id want) ddl st) <->
   (forall q, In (VSetQuery q) ddl -> query_ok want q) /\
   (forall t, In (VTrigger t) ddl -> exists g, declared t g) /\
   (vs_materialized st = true \/ materialized_first ddl) /\
   fold_left (index_step id) (index_calls ddl) (Some (vs_indexes st)) <> None).
Proof.
  induction ddl as [|c ddl IH]; intros st V Nb.
  - cbn. split; [|intros _; apply fine_ok]. intros _. repeat split; try tauto; [|discriminate]. right. intros b n cs es a E. destruct b; discriminate.
  - cbn [lfold]. rewrite fine_bind. destruct c as [|q|text|call].
    + cbn [v_step is_postgres]. set (s1 := mk_v true (vs_sql st) (vs_indexes st) (vs_triggers st)). specialize (IH s1 V Nb). split.
      * intros (a & E & F). injection E as <-. apply IH in F. destruct F as (A & B0 & C & D). repeat split; auto.
        -- intros q [E|I]; [discriminate|auto].
        -- intros t [E|I]; [discriminate|auto].
        -- right. intros b n cs es af E. destruct b as [|x b]; [discriminate|]. injection E as <- E. now left.
      * intros (A & B0 & C & D). exists s1. split; [reflexivity|]. apply IH. repeat split; auto.
        -- intros q I. apply A. now right.
        -- intros t I. apply B0. now right.
    + assert (R : forall st1, v_step DPostgres id want st (VSetQuery q) = LOk st1 -> vs_materialized st1 = vs_materialized st /\ vs_indexes st1 = vs_indexes st /\ vs_triggers st1 = vs_triggers st).
      { intros st1 E. cbn [v_step] in E. destruct q as [[[txt|] [fs|]]|]; try discriminate. destruct (columns_match want fs); [|discriminate]. injection E as <-. auto. }
      assert (M : materialized_first (VSetQuery q :: ddl) <-> materialized_first ddl).
      { split; intros H b n cs es a E.
        - destruct (H (VSetQuery q :: b) n cs es a) as [X|X]; [now rewrite E|discriminate|exact X].
        - destruct b as [|x b]; [discriminate|]. injection E as <- E. right. now apply (H b n cs es a). }
      rewrite M. split.
      * intros (s1 & E & F). destruct (R s1 E) as (R1 & R2 & R3). apply IH in F; [|now rewrite R3|exact Nb]. rewrite R1, R2 in F. destruct F as (A & B0 & C & D).
        repeat split; auto.
        -- intros q' [X|I]; [|auto]. injection X as <-. apply (query_step_fine DPostgres id want st). eexists. exact E.
        -- intros t [X|I]; [discriminate|auto].
      * intros (A & B0 & C & D). destruct (proj2 (query_step_fine DPostgres id want st q)) as (s1 & E); [apply A; now left|]. exists s1. split; [exact E|].
        destruct (R s1 E) as (R1 & R2 & R3). apply IH; [now rewrite R3|exact Nb|]. rewrite R1, R2. repeat split; auto.
        -- intros q' I. apply A. now right.
        -- intros t I. apply B0. now right.
    + change (trigger_calls (VTrigger text :: ddl)) with (text :: trigger_calls ddl) in *. inversion Nb as [|? ? N1 N2]; subst.
      assert (M : materialized_first (VTrigger text :: ddl) <-> materialized_first ddl).
      { split; intros H b n cs es a E.
        - destruct (H (VTrigger text :: b) n cs es a) as [X|X]; [now rewrite E|discriminate|exact X].
        - destruct b as [|x b]; [discriminate|]. injection E as <- E. right. now apply (H b n cs es a). }
      rewrite M. split.
      * intros (s1 & E & F). destruct (trigger_step id want st text s1 V N1 E) as (g & G & V1 & _ & R1 & _ & R2). apply IH in F; auto. rewrite R1, R2 in F. destruct F as (A & B0 & C & D).
        repeat split; auto.
        -- intros q' [X|I]; [discriminate|auto].
        -- intros t [X|I]; [injection X as <-; eauto|auto].
      * intros (A & B0 & C & D). destruct (proj2 (trigger_step_fine id want st text V N1)) as (s1 & E); [apply B0; now left|]. exists s1. split; [exact E|].
        destruct (trigger_step id want st text s1 V N1 E) as (g & G & V1 & _ & R1 & _ & R2). apply IH; auto. rewrite R1, R2. repeat split; auto.
        -- intros q' I. apply A. now right.
        -- intros t I. apply B0. now right.
    + change (index_calls (VIndex call :: ddl)) with (call :: index_calls ddl). cbn [fold_left v_step is_postgres negb]. split.
      * intros (s1 & E & F). destruct (match call with IDefine _ _ _ => negb (vs_materialized st) | IAttr _ _ => false end) eqn:M; [discriminate|].
        destruct (index_step id (Some (vs_indexes st)) call) as [xs|] eqn:X; [|discriminate]. injection E as <-. apply IH in F; auto. destruct F as (A & B0 & C & D).
        repeat split; auto.
        -- intros q' [Y|I]; [discriminate|auto].
        -- intros t [Y|I]; [discriminate|auto].
        -- cbn [vs_materialized] in C. destruct (vs_materialized st) eqn:Ms; [now left|right]. destruct C as [C|C]; [discriminate|].
           intros b n cs es a E. destruct b as [|x b]; cbn [app] in E.
           ++ injection E as -> _. discriminate.
           ++ injection E as <- E. right. now apply (C b n cs es a).
      * intros (A & B0 & C & D). destruct (index_step id (Some (vs_indexes st)) call) as [xs|] eqn:X; [|rewrite step_none in D; congruence].
        assert (M : (match call with IDefine _ _ _ => negb (vs_materialized st) | IAttr _ _ => false end) = false).
        { destruct call as [n cs es|]; [|reflexivity]. destruct C as [->|C]; [reflexivity|]. destruct (C [] n cs es ddl eq_refl). }
        rewrite M. eexists. split; [reflexivity|]. apply IH; auto. repeat split; auto.
        -- intros q' I. apply A. now right.
        -- intros t I. apply B0. now right.
        -- cbn [vs_materialized]. destruct C as [C|C]; [now left|right]. intros b n cs es a E.
           destruct (C (VIndex call :: b) n cs es a) as [Y|Y]; [now rewrite E|discriminate|exact Y].
Qed.
Lemma fine_other d id want : d <> DPostgres -> forall ddl st,
  (fine (lfold (v_step d id want) ddl st) <-> forall q, In (VSetQuery q) ddl -> query_ok want q).
Proof.
  intros D. assert (P : is_postgres d = false) by (destruct d; try reflexivity; congruence). induction ddl as [|c ddl IH]; intros st.
  - cbn. split; [intros _ q []|intros _; apply fine_ok].
  - cbn [lfold]. rewrite fine_bind. split.
    + intros (s1 & E & F) q [X|I].
      * subst c. apply (query_step_fine d id want st). eexists. exact E.
      * apply (proj1 (IH s1) F). exact I.
    + intros H. assert (X : fine (v_step d id want st c)).
      { destruct c as [|q|text|call]; [| |cbn [v_step]; rewrite P; apply fine_ok|cbn [v_step]; rewrite P; apply fine_ok].
        - cbn [v_step]. apply fine_ok.
        - apply query_step_fine. apply H. now left. }
      destruct X as (s1 & E). exists s1. split; [exact E|]. apply IH. intros q I. apply H. now right.
Qed.

(** ** LoadDDLView *)
Definition good_field (f : view_field) : Prop := f = VFOther \/ exists n, f = VFColumn n /\ n <> [].
Lemma view_columns_spec fs : (Forall good_field fs -> view_columns fs = LOk (struct_columns fs)) /\ (fine (view_columns fs) -> Forall good_field fs).
Proof.
  induction fs as [|f fs (A & B0)]; [split; [reflexivity|constructor]|]. split.
  - intros F. inversion F as [|? ? H F']; subst. destruct H as [->|(n & -> & N)]; cbn [view_columns struct_columns flat_map app].
    + apply A. exact F'.
    + destruct n; [congruence|]. cbn [is_empty]. rewrite (A F'). reflexivity.
  - intros H. destruct f as [n| |]; cbn [view_columns] in H.
    + destruct n as [|a n]; [now destruct H|]. cbn [is_empty] in H. apply fine_bind in H. destruct H as (l & E & _). constructor; [right; eexists; split; [reflexivity|discriminate]|apply B0; now exists l].
    + constructor; [now left|now apply B0].
    + now destruct H.
Qed.
Lemma recovered_ok {A} (r : lexres A) a : recovered r = LOk a <-> r = LOk a.
Proof. destruct r; cbn; split; congruence. Qed.
Lemma start_ok : vt_ok (vs_triggers v_start).
Proof. split; [constructor|]. intros [|i] g H; discriminate. Qed.
