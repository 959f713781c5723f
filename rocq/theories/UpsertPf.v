(** * UpsertPf: proofs for C38 *)
From Coq Require Import Lia.
From Verif Require Import GoBase GoBaseFacts QuoteModel CacheModel UpsertModel SpecUpsert.

Lemma nth_list_set {A} (l : list A) i j v :
  nth_error (list_set l i v) j = if Nat.eqb i j then match nth_error l i with Some _ => Some v | None => None end else nth_error l j.
Proof.
  revert i j. induction l as [|a l IH]; intros [|i] [|j]; cbn; try reflexivity.
  - now destruct (Nat.eqb i j).
  - rewrite IH. destruct (Nat.eqb i j); reflexivity.
Qed.
Lemma beqb_refl : forall b, beqb b b = true.
Proof. intros b. now apply beqb_eq. Qed.

Section Pf.
  Context {A : Type} (name_of : A -> bytes) (ignored : A -> bool).
  Notation lookup := (lookup name_of ignored false).
  Notation upsert := (upsert name_of ignored).

  Definition tidy (s : cached A) : Prop := forall i a, nth_error (objects s) i = Some a ->
    ignored a = false /\ name_of a <> [] /\ mget (name_of a) (positions s) = Some i.
  Definition handles_ok (s : cached A) (hs : list (nat * bytes)) : Prop :=
    forall p n, In (p, n) hs -> exists a, nth_error (objects s) p = Some a /\ name_of a = n.

  Lemma tidy_nodup : forall s, tidy s -> NoDup (map name_of (objects s)).
  Proof.
    intros s T. apply NoDup_nth_error. intros i j L E. rewrite map_length in L.
    destruct (nth_error (objects s) i) as [a|] eqn:Ei; [|apply nth_error_Some in Ei; [contradiction|lia]].
    rewrite (map_nth_error _ _ _ Ei) in E. symmetry in E.
    destruct (nth_error (objects s) j) as [b|] eqn:Ej.
    - rewrite (map_nth_error _ _ _ Ej) in E. assert (N : name_of b = name_of a) by congruence.
      destruct (T i a Ei) as (_ & _ & Hi). destruct (T j b Ej) as (_ & _ & Hj). rewrite N in Hj. congruence.
    - apply nth_error_None in Ej. assert (nth_error (map name_of (objects s)) j = None) by (apply nth_error_None; now rewrite map_length).
      congruence.
  Qed.

  Lemma lookup_tidy : forall name s, tidy s -> name <> [] ->
    match fst (lookup name s) with
    | Some i => exists a, nth_error (objects s) i = Some a /\ name_of a = name /\ snd (lookup name s) = s
    | None => ~ In name (map name_of (objects s)) /\ objects (snd (lookup name s)) = objects s /\
              tidy (snd (lookup name s))
    end.
  Proof.
    intros name s T NE. unfold CacheModel.lookup. destruct name as [|c0 name0]; [congruence|].
    cbn [is_empty andb]. set (name := c0 :: name0) in *.
    assert (NOT : forall m, (mget name m = None \/ forall i a, mget name m = Some i -> nth_error (objects s) i = Some a -> name_of a <> name) ->
                  m = positions s -> ~ In name (map name_of (objects s))).
    { intros m H -> I. apply in_map_iff in I. destruct I as (a & Ha & Ia). apply In_nth_error in Ia. destruct Ia as [i Hi].
      destruct (T i a Hi) as (_ & _ & G). rewrite Ha in G. destruct H as [H|H]; [congruence|]. now apply (H i a G Hi). }
    assert (DEL : ~ In name (map name_of (objects s)) -> tidy (mk_cached (objects s) (mdel name (positions s)))).
    { intros N i a Hi. cbn [objects positions] in *. destruct (T i a Hi) as (I1 & I2 & I3). repeat split; auto.
      rewrite mget_mdel. destruct (beqb (name_of a) name) eqn:B; [|exact I3]. exfalso. apply N. apply beqb_eq in B. rewrite <- B.
      apply in_map. eapply nth_error_In. exact Hi. }
    destruct (mget name (positions s)) as [i|] eqn:M.
    - destruct (nth_error (objects s) i) as [a|] eqn:E.
      + destruct (negb (beqb (name_of a) name) || ignored a) eqn:G; cbn [fst snd].
        * assert (N : ~ In name (map name_of (objects s))).
          { apply (NOT (positions s)); [|reflexivity]. right. intros j b Hj Hb. assert (i = j) by congruence. subst j.
            assert (a = b) by congruence. subst b. intros X. destruct (T i a E) as (I1 & _ & _). rewrite I1, X, beqb_refl in G. discriminate. }
          split; [exact N|]. split; [reflexivity|now apply DEL].
        * exists a. repeat split; auto. apply Bool.orb_false_iff in G. destruct G as [G _]. apply beqb_eq.
          now destruct (beqb (name_of a) name).
      + cbn [fst snd]. assert (N : ~ In name (map name_of (objects s))).
        { apply (NOT (positions s)); [|reflexivity]. right. intros j b Hj Hb. congruence. }
        split; [exact N|]. split; [reflexivity|now apply DEL].
    - cbn [fst snd]. split; [|split; [reflexivity|exact T]]. apply (NOT (positions s)); auto.
  Qed.

  Lemma edit_tidy : forall s i a b, tidy s -> nth_error (objects s) i = Some a -> name_of b = name_of a ->
    ignored b = ignored a -> tidy (edit (list_set (objects s) i b) s).
  Proof.
    intros s i a b T Hi HN HI j c Hj. cbn [edit objects positions] in *. rewrite nth_list_set in Hj.
    destruct (Nat.eqb_spec i j) as [->|N]; [|now apply T]. rewrite Hi in Hj.
    assert (b = c) by congruence. subst c. rewrite HN, HI. now apply T.
  Qed.

  (** What upsert does to a tidy list. *)
  Lemma upsert_tidy : forall name create update s, tidy s -> name <> [] ->
    name_of create = name -> ignored create = false ->
    (forall a, name_of (update a) = name_of a /\ ignored (update a) = ignored a) ->
    tidy (snd (upsert name create update s)) /\
    ((exists i a, nth_error (objects s) i = Some a /\ name_of a = name /\ fst (upsert name create update s) = i /\
        objects (snd (upsert name create update s)) = list_set (objects s) i (update a)) \/
     (~ In name (map name_of (objects s)) /\ fst (upsert name create update s) = length (objects s) /\
        objects (snd (upsert name create update s)) = objects s ++ [create])).
  Proof.
    intros name create update s T NE CN CI UP. pose proof (lookup_tidy name s T NE) as L.
    unfold UpsertModel.upsert. destruct (lookup name s) as [[i|] s1] eqn:E; cbn [fst snd] in L.
    - destruct L as (a & Ha & Hn & ->). rewrite Ha. cbn [fst snd]. split.
      + eapply edit_tidy; [exact T|exact Ha| |]; now destruct (UP a).
      + left. exists i, a. auto.
    - destruct L as (N & O & T1). split.
      + intros j b Hj. cbn [append snd objects positions] in *.
        destruct (Nat.lt_ge_cases j (length (objects s1))) as [L|L].
        * rewrite nth_error_app1 in Hj by exact L. destruct (T1 j b Hj) as (I1 & I2 & I3). repeat split; auto.
          rewrite mget_mset_other; [exact I3|]. intros X. apply N. rewrite <- CN, <- X, <- O.
          apply in_map. eapply nth_error_In. exact Hj.
        * rewrite nth_error_app2 in Hj by exact L. destruct (j - length (objects s1)) as [|k] eqn:K; [|destruct k; discriminate].
          cbn [nth_error] in Hj. assert (create = b) by congruence. subst b. rewrite CN. repeat split; auto.
          rewrite mget_mset_same. f_equal. rewrite app_length. cbn [length]. lia.
      + right. split; [exact N|]. cbn [append fst snd objects]. rewrite app_length. cbn [length]. rewrite O. split; [lia|reflexivity].
  Qed.
  Lemma handles_grow : forall s s' hs i (n : bytes),
    handles_ok s hs ->
    (forall p a, nth_error (objects s) p = Some a -> exists b, nth_error (objects s') p = Some b /\ name_of b = name_of a) ->
    (exists a, nth_error (objects s') i = Some a /\ name_of a = n) ->
    handles_ok s' (hs ++ [(i, n)]).
  Proof.
    intros s s' hs i n H G N p m I. apply in_app_or in I. destruct I as [I|[I|[]]].
    - destruct (H p m I) as (a & Ha & Hm). destruct (G p a Ha) as (b & Hb & Hn). exists b. split; congruence.
    - assert (i = p /\ n = m) by (split; congruence). destruct H0; subst. exact N.
  Qed.
End Pf.

(** ** Constraints *)
Lemma last_def_snoc : forall calls call name x,
  last_definition (calls ++ [call]) name x <->
  (defined_name call = Some name /\ x = call) \/ (defined_name call <> Some name /\ last_definition calls name x).
Proof.
  intros calls call name x. split.
  - intros (b & a & E & D & F). destruct a as [|z a] using rev_ind.
    + apply app_inj_tail in E. destruct E as [_ ->]. now left.
    + clear IHa. right. rewrite app_comm_cons, app_assoc in E. apply app_inj_tail in E. destruct E as [-> ->].
      apply Forall_app in F. destruct F as [F1 F2]. inversion F2. split; [assumption|]. exists b, a. auto.
  - intros [[D ->]|[D (b & a & -> & D2 & F)]].
    + exists calls, []. auto.
    + exists b, (a ++ [call]). split; [now rewrite <- app_assoc|]. split; [exact D2|]. apply Forall_app. auto.
Qed.

Definition cinv (tb : table_id) (calls : list constraint_call) (st : ddl_state) : Prop :=
  let (s, hs) := st in
  tidy c_name c_ignore s /\ handles_ok c_name s hs /\
  (forall n, In n (map c_name (objects s)) <-> exists call, In call calls /\ defined_name call = Some n) /\
  (forall c, In c (objects s) -> c_schema c = tb_schema tb /\ c_table c = tb_name tb /\
     exists call, last_definition calls (c_name c) call /\ as_called call c).

(** One defining call. *)
Lemma cinv_put : forall tb calls s hs call name create update,
  cinv tb calls (s, hs) -> defined_name call = Some name -> name <> [] ->
  c_name create = name -> c_ignore create = false ->
  (forall c, c_name (update c) = c_name c /\ c_ignore (update c) = c_ignore c) ->
  (c_schema create = tb_schema tb /\ c_table create = tb_name tb /\ as_called call create) ->
  (forall c, c_name c = name -> c_schema (update c) = tb_schema tb /\ c_table (update c) = tb_name tb /\ as_called call (update c)) ->
  let r := upsert c_name c_ignore name create update s in
  cinv tb (calls ++ [call]) (snd r, hs ++ [(fst r, name)]).
Proof.
  intros tb calls s hs call name create update (T & H & N & G) D NE CN CI UP HC HU r.
  destruct (upsert_tidy c_name c_ignore name create update s T NE CN CI UP) as [T' C]. fold r in T', C.
  assert (OTHER : forall c, c_name c <> name ->
      (exists x, last_definition calls (c_name c) x /\ as_called x c) ->
      exists x, last_definition (calls ++ [call]) (c_name c) x /\ as_called x c).
  { intros c X (x & L & AS). exists x. split; [|exact AS]. apply last_def_snoc. right. split; [congruence|exact L]. }
  assert (SELF : last_definition (calls ++ [call]) name call) by (apply last_def_snoc; left; auto).
  destruct C as [(i & a & Ha & Hn & Fi & O)|(NI & Fi & O)].
  - split; [exact T'|]. split; [|split].
    + apply (handles_grow c_name s (snd r) hs); [exact H| |].
      * intros p b Hp. rewrite O, nth_list_set. destruct (Nat.eqb_spec i p) as [<-|X].
        -- rewrite Ha. exists (update a). split; [reflexivity|]. assert (a = b) by congruence. subst b. apply UP.
        -- exists b. auto.
      * rewrite Fi, O, nth_list_set, Nat.eqb_refl, Ha. exists (update a). split; [reflexivity|]. destruct (UP a). congruence.
    + intros n. rewrite O.
      assert (M : map c_name (list_set (objects s) i (update a)) = map c_name (objects s)).
      { clear - Ha UP. revert i Ha. induction (objects s) as [|z l IH]; intros [|i] Ha; try discriminate.
        - cbn [nth_error] in Ha. assert (z = a) by congruence. subst z. cbn [list_set map]. f_equal. apply UP.
        - cbn [list_set map]. f_equal. now apply IH. }
      rewrite M, N. split.
      * intros (x & I & X). exists x. split; [apply in_or_app; now left|exact X].
      * intros (x & I & X). apply in_app_or in I. destruct I as [I|[<-|[]]]; [exists x; auto|].
        assert (n = name) by congruence. subst n. apply N. rewrite <- Hn. apply in_map. eapply nth_error_In. exact Ha.
    + intros c I. rewrite O in I. apply In_nth_error in I. destruct I as [j Hj]. rewrite nth_list_set in Hj.
      destruct (Nat.eqb_spec i j) as [EQ|X]; [subst j|].
      * rewrite Ha in Hj. assert (c = update a) by congruence. subst c. destruct (HU a Hn) as (S1 & S2 & S3).
        split; [exact S1|]. split; [exact S2|]. exists call. destruct (UP a) as [U _]. rewrite U, Hn. auto.
      * destruct (G c (nth_error_In _ _ Hj)) as (S1 & S2 & S3). split; [exact S1|]. split; [exact S2|].
        apply OTHER; [|exact S3]. intros X2. apply X.
        destruct (T i a Ha) as (_ & _ & P1). destruct (T j c Hj) as (_ & _ & P2). rewrite Hn in P1. rewrite X2 in P2. congruence.
  - split; [exact T'|]. split; [|split].
    + apply (handles_grow c_name s (snd r) hs); [exact H| |].
      * intros p b Hp. rewrite O. exists b. split; [|reflexivity]. rewrite nth_error_app1; [exact Hp|]. apply nth_error_Some. congruence.
      * rewrite Fi, O, nth_error_app2, Nat.sub_diag by lia. exists create. auto.
    + intros n. rewrite O, map_app, in_app_iff, N. cbn [map In]. rewrite CN. split.
      * intros [(x & I & X)|[<-|[]]]; [exists x; split; [apply in_or_app; now left|exact X]|].
        exists call. split; [apply in_or_app; right; now left|exact D].
      * intros (x & I & X). apply in_app_or in I. destruct I as [I|[<-|[]]]; [left; exists x; auto|]. right. left. congruence.
    + intros c I. rewrite O in I. apply in_app_or in I. destruct I as [I|[<-|[]]].
      * destruct (G c I) as (S1 & S2 & S3). split; [exact S1|]. split; [exact S2|]. apply OTHER; [|exact S3].
        intros X. apply NI. rewrite <- X. now apply in_map.
      * destruct HC as (S1 & S2 & S3). split; [exact S1|]. split; [exact S2|]. exists call. rewrite CN. auto.
Qed.

(** A method of TConstraint. *)
Lemma attr_keeps : forall d tb a c, modest (CAttr 0 a) -> c_schema c = tb_schema tb -> c_table c = tb_name tb ->
  let c' := apply_attr d tb (c_name c) a c in
  c_name c' = c_name c /\ c_ignore c' = c_ignore c /\ c_schema c' = tb_schema tb /\ c_table c' = tb_name tb /\
  forall call, as_called call c -> as_called call c'.
Proof.
  intros d tb a c M S1 S2. assert (KEEP : forall c', c_name c' = c_name c -> c_type c' = c_type c -> c_columns c' = c_columns c ->
     c_check c' = c_check c -> c_exprs c' = c_exprs c -> c_operators c' = c_operators c -> c_index_type c' = c_index_type c ->
     forall call, as_called call c -> as_called call c').
  { intros c' E1 E2 E3 E4 E5 E6 E7 [ty name cols check|name ixt cols exprs ops|h x]; cbn [as_called]; [| |easy];
      rewrite E1, E2, E3, ?E4, ?E5, ?E6, ?E7; auto. }
  destruct a as [t cs|r|r| | |e|f]; cbn [apply_attr].
  1-3,6: repeat split; auto; now apply KEEP.
  - unfold c_set_deferrable. destruct (is_mysql d); repeat split; auto; now apply KEEP.
  - unfold c_set_deferrable. destruct (is_mysql d); repeat split; auto; now apply KEEP.
  - cbn [modest] in M. destruct (M c) as (M1 & M2 & M3 & M4 & M5 & M6 & M7).
    repeat split; auto; try apply KEEP; auto.
Qed.
Lemma cinv_step : forall d tb calls call st st',
  cinv tb calls st -> modest call -> (forall n, defined_name call = Some n -> n <> []) ->
  constraint_step d tb (Some st) call = Some st' -> cinv tb (calls ++ [call]) st'.
Proof.
  intros d tb calls call [s hs] st' I M NE E. destruct call as [ty name cols check|name ixt cols exprs ops|h a]; cbn [constraint_step] in E.
  - unfold put_constraint in E. destruct (negb (is_sqlite d) && is_empty name); [discriminate|].
    match type of E with (let (i, s') := ?u in _) = _ => set (r := u) in *; rewrite (surjective_pairing r) in E end.
    assert (X : st' = (snd r, hs ++ [(fst r, name)])) by congruence. rewrite X.
    apply (cinv_put tb calls s hs); auto; repeat split; auto.
  - unfold put_exclusion in E. destruct (negb (is_postgres d) || is_empty name); [discriminate|].
    match type of E with (let (i, s') := ?u in _) = _ => set (r := u) in *; rewrite (surjective_pairing r) in E end.
    assert (X : st' = (snd r, hs ++ [(fst r, name)])) by congruence. rewrite X.
    apply (cinv_put tb calls s hs); auto; repeat split; auto.
  - destruct (nth_error hs h) as [[i name]|] eqn:HH; [|discriminate].
    destruct (nth_error (objects s) i) as [c|] eqn:HC; [|discriminate].
    assert (X : st' = (edit (list_set (objects s) i (apply_attr d tb name a c)) s, hs)) by congruence. rewrite X. clear E X.
    destruct I as (T & H & N & G).
    destruct (H i name (nth_error_In _ _ HH)) as (c2 & Hc2 & Hn). assert (c2 = c) by congruence. subst c2. subst name.
    destruct (G c (nth_error_In _ _ HC)) as (S1 & S2 & (x & L & AS)).
    destruct (attr_keeps d tb a c M S1 S2) as (K1 & K2 & K3 & K4 & K5).
    set (c' := apply_attr d tb (c_name c) a c) in *.
    assert (LD : forall n y, last_definition (calls ++ [CAttr h a]) n y <-> last_definition calls n y).
    { intros n y. rewrite last_def_snoc. cbn [defined_name]. split; [intros [[X _]|[_ X]]; [discriminate|exact X]|].
      intros X. right. split; [discriminate|exact X]. }
    split; [|split; [|split]].
    + eapply edit_tidy; eauto.
    + intros p n I. cbn [edit objects]. destruct (H p n I) as (b & Hb & Hbn). rewrite nth_list_set.
      destruct (Nat.eqb_spec i p) as [<-|]; [|exists b; auto]. rewrite HC. exists c'. split; [reflexivity|]. congruence.
    + intros n. cbn [edit objects].
      assert (MM : map c_name (list_set (objects s) i c') = map c_name (objects s)).
      { clear - HC K1. revert i HC. induction (objects s) as [|z l IH]; intros [|i] Ha; try discriminate.
        - cbn [nth_error] in Ha. assert (z = c) by congruence. subst z. cbn [list_set map]. now f_equal.
        - cbn [list_set map]. f_equal. now apply IH. }
      rewrite MM, N. split; intros (y & I & Y); exists y.
      * split; [apply in_or_app; now left|exact Y].
      * split; [|exact Y]. apply in_app_or in I. destruct I as [I|[<-|[]]]; [exact I|discriminate].
    + intros b I. cbn [edit objects] in I. apply In_nth_error in I. destruct I as [j Hj]. rewrite nth_list_set in Hj.
      destruct (Nat.eqb_spec i j) as [EQ|]; [subst j|].
      * rewrite HC in Hj. assert (b = c') by congruence. subst b. split; [exact K3|]. split; [exact K4|].
        exists x. rewrite K1, LD. auto.
      * destruct (G b (nth_error_In _ _ Hj)) as (B1 & B2 & (y & Y1 & Y2)). split; [exact B1|]. split; [exact B2|].
        exists y. rewrite LD. auto.
Qed.
Lemma step_none : forall d tb calls, fold_left (constraint_step d tb) calls None = None.
Proof. induction calls; [reflexivity|exact IHcalls]. Qed.
Lemma cinv_run : forall d tb calls st,
  Forall modest calls -> (forall call n, In call calls -> defined_name call = Some n -> n <> []) ->
  run_constraints d tb calls = Some st -> cinv tb calls st.
Proof.
  intros d tb calls. induction calls as [|call calls IH] using rev_ind; intros st M NE E.
  - unfold run_constraints in E. cbn [fold_left] in E. assert (X : st = (cached_new, [])) by congruence. rewrite X.
    split; [|split; [|split]].
    + intros i a Hi. destruct i; discriminate.
    + intros p n [].
    + intros n. split; [intros []|intros (x & [] & _)].
    + intros c [].
  - unfold run_constraints in *. rewrite fold_left_app in E. cbn [fold_left] in E.
    apply Forall_app in M. destruct M as [M1 M2]. inversion M2; subst.
    destruct (fold_left (constraint_step d tb) calls (Some (cached_new, []))) as [st0|] eqn:F; [|discriminate].
    eapply cinv_step; [|eassumption| |exact E].
    + apply IH; [assumption| |reflexivity]. intros x n I. apply NE. apply in_or_app. now left.
    + intros n. apply NE. apply in_or_app. right. now left.
Qed.
(** ** Indexes: the same *)
Lemma last_idef_snoc : forall calls call name x,
  last_index_definition (calls ++ [call]) name x <->
  (defined_index call = Some name /\ x = call) \/ (defined_index call <> Some name /\ last_index_definition calls name x).
Proof.
  intros calls call name x. split.
  - intros (b & a & E & D & F). destruct a as [|z a] using rev_ind.
    + apply app_inj_tail in E. destruct E as [_ ->]. now left.
    + clear IHa. right. rewrite app_comm_cons, app_assoc in E. apply app_inj_tail in E. destruct E as [-> ->].
      apply Forall_app in F. destruct F as [F1 F2]. inversion F2. split; [assumption|]. exists b, a. auto.
  - intros [[D ->]|[D (b & a & -> & D2 & F)]].
    + exists calls, []. auto.
    + exists b, (a ++ [call]). split; [now rewrite <- app_assoc|]. split; [exact D2|]. apply Forall_app. auto.
Qed.

Definition iinv (tb : table_id) (calls : list index_call) (st : index_state) : Prop :=
  let (s, hs) := st in
  tidy x_name x_ignore s /\ handles_ok x_name s hs /\
  (forall n, In n (map x_name (objects s)) <-> exists call, In call calls /\ defined_index call = Some n) /\
  (forall c, In c (objects s) -> x_schema c = tb_schema tb /\ x_table c = tb_name tb /\
     exists call, last_index_definition calls (x_name c) call /\ index_as_called call c).

(** One defining call. *)
Lemma iinv_put : forall tb calls s hs call name create update,
  iinv tb calls (s, hs) -> defined_index call = Some name -> name <> [] ->
  x_name create = name -> x_ignore create = false ->
  (forall c, x_name (update c) = x_name c /\ x_ignore (update c) = x_ignore c) ->
  (x_schema create = tb_schema tb /\ x_table create = tb_name tb /\ index_as_called call create) ->
  (forall c, x_name c = name -> x_schema (update c) = tb_schema tb /\ x_table (update c) = tb_name tb /\ index_as_called call (update c)) ->
  let r := upsert x_name x_ignore name create update s in
  iinv tb (calls ++ [call]) (snd r, hs ++ [(fst r, name)]).
Proof.
  intros tb calls s hs call name create update (T & H & N & G) D NE CN CI UP HC HU r.
  destruct (upsert_tidy x_name x_ignore name create update s T NE CN CI UP) as [T' C]. fold r in T', C.
  assert (OTHER : forall c, x_name c <> name ->
      (exists x, last_index_definition calls (x_name c) x /\ index_as_called x c) ->
      exists x, last_index_definition (calls ++ [call]) (x_name c) x /\ index_as_called x c).
  { intros c X (x & L & AS). exists x. split; [|exact AS]. apply last_idef_snoc. right. split; [congruence|exact L]. }
  assert (SELF : last_index_definition (calls ++ [call]) name call) by (apply last_idef_snoc; left; auto).
  destruct C as [(i & a & Ha & Hn & Fi & O)|(NI & Fi & O)].
  - split; [exact T'|]. split; [|split].
    + apply (handles_grow x_name s (snd r) hs); [exact H| |].
      * intros p b Hp. rewrite O, nth_list_set. destruct (Nat.eqb_spec i p) as [<-|X].
        -- rewrite Ha. exists (update a). split; [reflexivity|]. assert (a = b) by congruence. subst b. apply UP.
        -- exists b. auto.
      * rewrite Fi, O, nth_list_set, Nat.eqb_refl, Ha. exists (update a). split; [reflexivity|]. destruct (UP a). congruence.
    + intros n. rewrite O.
      assert (M : map x_name (list_set (objects s) i (update a)) = map x_name (objects s)).
      { clear - Ha UP. revert i Ha. induction (objects s) as [|z l IH]; intros [|i] Ha; try discriminate.
        - cbn [nth_error] in Ha. assert (z = a) by congruence. subst z. cbn [list_set map]. f_equal. apply UP.
        - cbn [list_set map]. f_equal. now apply IH. }
      rewrite M, N. split.
      * intros (x & I & X). exists x. split; [apply in_or_app; now left|exact X].
      * intros (x & I & X). apply in_app_or in I. destruct I as [I|[<-|[]]]; [exists x; auto|].
        assert (n = name) by congruence. subst n. apply N. rewrite <- Hn. apply in_map. eapply nth_error_In. exact Ha.
    + intros c I. rewrite O in I. apply In_nth_error in I. destruct I as [j Hj]. rewrite nth_list_set in Hj.
      destruct (Nat.eqb_spec i j) as [EQ|X]; [subst j|].
      * rewrite Ha in Hj. assert (c = update a) by congruence. subst c. destruct (HU a Hn) as (S1 & S2 & S3).
        split; [exact S1|]. split; [exact S2|]. exists call. destruct (UP a) as [U _]. rewrite U, Hn. auto.
      * destruct (G c (nth_error_In _ _ Hj)) as (S1 & S2 & S3). split; [exact S1|]. split; [exact S2|].
        apply OTHER; [|exact S3]. intros X2. apply X.
        destruct (T i a Ha) as (_ & _ & P1). destruct (T j c Hj) as (_ & _ & P2). rewrite Hn in P1. rewrite X2 in P2. congruence.
  - split; [exact T'|]. split; [|split].
    + apply (handles_grow x_name s (snd r) hs); [exact H| |].
      * intros p b Hp. rewrite O. exists b. split; [|reflexivity]. rewrite nth_error_app1; [exact Hp|]. apply nth_error_Some. congruence.
      * rewrite Fi, O, nth_error_app2, Nat.sub_diag by lia. exists create. auto.
    + intros n. rewrite O, map_app, in_app_iff, N. cbn [map In]. rewrite CN. split.
      * intros [(x & I & X)|[<-|[]]]; [exists x; split; [apply in_or_app; now left|exact X]|].
        exists call. split; [apply in_or_app; right; now left|exact D].
      * intros (x & I & X). apply in_app_or in I. destruct I as [I|[<-|[]]]; [left; exists x; auto|]. right. left. congruence.
    + intros c I. rewrite O in I. apply in_app_or in I. destruct I as [I|[<-|[]]].
      * destruct (G c I) as (S1 & S2 & S3). split; [exact S1|]. split; [exact S2|]. apply OTHER; [|exact S3].
        intros X. apply NI. rewrite <- X. now apply in_map.
      * destruct HC as (S1 & S2 & S3). split; [exact S1|]. split; [exact S2|]. exists call. rewrite CN. auto.
Qed.

(** A method of TIndex. *)
Lemma iattr_keeps : forall tb a c, modest_index (IAttr 0 a) -> x_schema c = tb_schema tb -> x_table c = tb_name tb ->
  let c' := apply_index_attr tb (x_name c) a c in
  x_name c' = x_name c /\ x_ignore c' = x_ignore c /\ x_schema c' = tb_schema tb /\ x_table c' = tb_name tb /\
  forall call, index_as_called call c -> index_as_called call c'.
Proof.
  intros tb a c M S1 S2. assert (KEEP : forall c', x_name c' = x_name c -> x_columns c' = x_columns c -> x_exprs c' = x_exprs c ->
     forall call, index_as_called call c -> index_as_called call c').
  { intros c' E1 E2 E3 [name cols exprs|h x]; cbn [index_as_called]; [|easy]; rewrite E1, E2, E3; auto. }
  destruct a as [|r|e|cs|f]; cbn [apply_index_attr].
  1-4: repeat split; auto; now apply KEEP.
  cbn [modest_index] in M. destruct (M c) as (M1 & M2 & M3). repeat split; auto; try apply KEEP; auto.
Qed.
Lemma iinv_step : forall tb calls call st st',
  iinv tb calls st -> modest_index call -> (forall n, defined_index call = Some n -> n <> []) ->
  index_step tb (Some st) call = Some st' -> iinv tb (calls ++ [call]) st'.
Proof.
  intros tb calls call [s hs] st' I M NE E. destruct call as [name cols exprs|h a]; cbn [index_step] in E.
  - unfold put_index in E. destruct (is_empty name); [discriminate|].
    match type of E with (let (i, s') := ?u in _) = _ => set (r := u) in *; rewrite (surjective_pairing r) in E end.
    assert (X : st' = (snd r, hs ++ [(fst r, name)])) by congruence. rewrite X.
    apply (iinv_put tb calls s hs); auto; repeat split; auto.
  - destruct (nth_error hs h) as [[i name]|] eqn:HH; [|discriminate].
    destruct (nth_error (objects s) i) as [c|] eqn:HC; [|discriminate].
    assert (X : st' = (edit (list_set (objects s) i (apply_index_attr tb name a c)) s, hs)) by congruence. rewrite X. clear E X.
    destruct I as (T & H & N & G).
    destruct (H i name (nth_error_In _ _ HH)) as (c2 & Hc2 & Hn). assert (c2 = c) by congruence. subst c2. subst name.
    destruct (G c (nth_error_In _ _ HC)) as (S1 & S2 & (x & L & AS)).
    destruct (iattr_keeps tb a c M S1 S2) as (K1 & K2 & K3 & K4 & K5).
    set (c' := apply_index_attr tb (x_name c) a c) in *.
    assert (LD : forall n y, last_index_definition (calls ++ [IAttr h a]) n y <-> last_index_definition calls n y).
    { intros n y. rewrite last_idef_snoc. cbn [defined_index]. split; [intros [[X _]|[_ X]]; [discriminate|exact X]|].
      intros X. right. split; [discriminate|exact X]. }
    split; [|split; [|split]].
    + eapply edit_tidy; eauto.
    + intros p n I. cbn [edit objects]. destruct (H p n I) as (b & Hb & Hbn). rewrite nth_list_set.
      destruct (Nat.eqb_spec i p) as [<-|]; [|exists b; auto]. rewrite HC. exists c'. split; [reflexivity|]. congruence.
    + intros n. cbn [edit objects].
      assert (MM : map x_name (list_set (objects s) i c') = map x_name (objects s)).
      { clear - HC K1. revert i HC. induction (objects s) as [|z l IH]; intros [|i] Ha; try discriminate.
        - cbn [nth_error] in Ha. assert (z = c) by congruence. subst z. cbn [list_set map]. now f_equal.
        - cbn [list_set map]. f_equal. now apply IH. }
      rewrite MM, N. split; intros (y & I & Y); exists y.
      * split; [apply in_or_app; now left|exact Y].
      * split; [|exact Y]. apply in_app_or in I. destruct I as [I|[<-|[]]]; [exact I|discriminate].
    + intros b I. cbn [edit objects] in I. apply In_nth_error in I. destruct I as [j Hj]. rewrite nth_list_set in Hj.
      destruct (Nat.eqb_spec i j) as [EQ|]; [subst j|].
      * rewrite HC in Hj. assert (b = c') by congruence. subst b. split; [exact K3|]. split; [exact K4|].
        exists x. rewrite K1, LD. auto.
      * destruct (G b (nth_error_In _ _ Hj)) as (B1 & B2 & (y & Y1 & Y2)). split; [exact B1|]. split; [exact B2|].
        exists y. rewrite LD. auto.
Qed.
Lemma istep_none : forall tb calls, fold_left (index_step tb) calls None = None.
Proof. induction calls; [reflexivity|exact IHcalls]. Qed.
Lemma iinv_run : forall tb calls st,
  Forall modest_index calls -> (forall call n, In call calls -> defined_index call = Some n -> n <> []) ->
  run_indexes tb calls = Some st -> iinv tb calls st.
Proof.
  intros tb calls. induction calls as [|call calls IH] using rev_ind; intros st M NE E.
  - unfold run_indexes in E. cbn [fold_left] in E. assert (X : st = (cached_new, [])) by congruence. rewrite X.
    split; [|split; [|split]].
    + intros i a Hi. destruct i; discriminate.
    + intros p n [].
    + intros n. split; [intros []|intros (x & [] & _)].
    + intros c [].
  - unfold run_indexes in *. rewrite fold_left_app in E. cbn [fold_left] in E.
    apply Forall_app in M. destruct M as [M1 M2]. inversion M2; subst.
    destruct (fold_left (index_step tb) calls (Some (cached_new, []))) as [st0|] eqn:F; [|discriminate].
    eapply iinv_step; [|eassumption| |exact E].
    + apply IH; [assumption| |reflexivity]. intros x n I. apply NE. apply in_or_app. now left.
    + intros n. apply NE. apply in_or_app. right. now left.
Qed.
