(** * PoolFacts: goroutines that keep to the discipline do not meet *)
From Coq Require Import Lia Permutation.
From Verif Require Import GoBase QuoteModel SprintModel PoolModel SpecPool.

Lemma upd_same {T} (f : nat -> T) x v : upd f x v x = v.
Proof. unfold upd. now rewrite Nat.eqb_refl. Qed.
Lemma upd_other {T} (f : nat -> T) x v y : y <> x -> upd f x v y = f y.
Proof. unfold upd. intros H. destruct (Nat.eqb_spec y x); congruence. Qed.
Lemma upd_cases {T} (f : nat -> T) x v y : (y = x /\ upd f x v y = v) \/ (y <> x /\ upd f x v y = f y).
Proof. destruct (Nat.eq_dec y x) as [->|N]; [left; split; [reflexivity|apply upd_same]|right; split; [exact N|now apply upd_other]]. Qed.

Section Ext.
  Context {Q A J R : Type}.
  Notation prog := (prog Q A J R).
  Lemma upd_ext {T} (f g : nat -> T) x v : (forall y, f y = g y) -> forall y, upd f x v y = upd g x v y.
  Proof. intros E y. unfold upd. now destruct (Nat.eqb y x). Qed.
  Lemma disciplined_ext s (p : prog) : disciplined s p -> forall s', (forall y, s y = s' y) -> disciplined s' p.
  Proof.
    induction 1; intros s' E; try (rewrite E in *).
    - constructor. intros x. now rewrite <- E.
    - constructor; [assumption|]. apply IHdisciplined. now apply upd_ext.
    - econstructor; [eassumption|]. apply IHdisciplined. now apply upd_ext.
    - econstructor; [eassumption|]. apply IHdisciplined. now apply upd_ext.
    - econstructor; [eassumption|]. now apply IHdisciplined.
    - econstructor; [eassumption|]. apply IHdisciplined. now apply upd_ext.
    - econstructor; [eassumption|]. apply IHdisciplined. now apply upd_ext.
    - constructor. intros a. now apply H0.
    - constructor. now apply IHdisciplined.
  Qed.
  Lemma lone_ext s (p : prog) t r : lone s p t r -> forall s', (forall y, s y = s' y) -> lone s' p t r.
  Proof.
    induction 1; intros s' E; try (rewrite E in *); econstructor; try eassumption; try (apply IHlone; try apply upd_ext; exact E).
  Qed.
End Ext.

Section Isolation.
  Context {Q A J R : Type}.
  Variable job : J -> prog Q A J R.
  Hypothesis jobs_disciplined : forall j, disciplined nothing_held (job j).
  Notation thread := (thread Q A J R).

  (** [owner]: which variable of which goroutine holds the object. *)
  Record inv (init : list (prog Q A J R)) (owner : nat -> option (nat * nat)) (ss : nat -> locals) (w : world) (ts : list thread) : Prop := {
    i_pool : NoDup (w_pool w);
    i_free : forall a, In a (w_pool w) -> a < w_next w /\ w_heap w a = blank /\ owner a = None;
    i_next : forall a i x, owner a = Some (i, x) -> a < w_next w;
    i_held : forall i th x o, nth_error ts i = Some th -> ss i x = Some o ->
      owner (t_vars th x) = Some (i, x) /\ w_heap w (t_vars th x) = o;
    i_disc : forall i th, nth_error ts i = Some th -> disciplined (ss i) (t_prog th);
    i_past : forall i p th t r, nth_error init i = Some p -> nth_error ts i = Some th ->
      lone (ss i) (t_prog th) t r -> lone nothing_held p (t_trace th ++ t) r;
    i_len : length init = length ts }.

  Lemma nth_mid {T} (l1 : list T) x l2 l3 i th :
    nth_error (l1 ++ x :: l2 ++ l3) i = Some th ->
    (i = length l1 /\ th = x) \/ (i <> length l1 /\ i < length (l1 ++ x :: l2) /\ (forall y, nth_error (l1 ++ y :: l2) i = Some th)) \/
    (length (l1 ++ x :: l2) <= i /\ In th l3).
  Proof.
    intros E. destruct (Nat.lt_trichotomy i (length l1)) as [L|[->|L]].
    - right. left. rewrite nth_error_app1 in E by exact L. repeat split; [lia|rewrite app_length; lia|].
      intros y. now rewrite nth_error_app1.
    - left. rewrite nth_error_app2, Nat.sub_diag in E by lia. cbn in E. now inversion E.
    - rewrite nth_error_app2 in E by lia. destruct (i - length l1) as [|m] eqn:D; [lia|]. cbn [nth_error] in E.
      destruct (Nat.lt_ge_cases m (length l2)) as [L2|L2].
      + right. left. rewrite nth_error_app1 in E by exact L2. repeat split; [lia|rewrite app_length; cbn [length]; lia|].
        intros y. rewrite nth_error_app2 by lia. rewrite D. exact E.
      + right. right. rewrite nth_error_app2 in E by exact L2. split; [rewrite app_length; cbn [length]; lia|].
        eapply nth_error_In; eauto.
  Qed.

  Lemma nth_at {T} (l1 : list T) x l2 : nth_error (l1 ++ x :: l2) (length l1) = Some x.
  Proof. rewrite nth_error_app2, Nat.sub_diag by lia. reflexivity. Qed.

  Lemma begun_jobs (es : list (event Q A J)) : begun job es = map start (map job (jobs_of es)).
  Proof. unfold begun, jobs_of. induction es as [|[q a|j] es IH]; cbn; [reflexivity|exact IH|]. now rewrite IH. Qed.

  (** One thread moves from [s] to [s']; objects of the others are untouched. *)
  Lemma inv_move init owner ss w ts1 p v tr ts2 owner' w' p' v' es s' :
    inv init owner ss w (ts1 ++ mk_thread p v tr :: ts2) ->
    NoDup (w_pool w') ->
    (forall a, In a (w_pool w') -> a < w_next w' /\ w_heap w' a = blank /\ owner' a = None) ->
    (forall a i x, owner' a = Some (i, x) -> a < w_next w') ->
    (forall x o, s' x = Some o -> owner' (v' x) = Some (length ts1, x) /\ w_heap w' (v' x) = o) ->
    (forall a i x, i <> length ts1 -> owner a = Some (i, x) -> owner' a = Some (i, x) /\ w_heap w' a = w_heap w a) ->
    disciplined s' p' ->
    (forall t r, lone s' p' t r -> lone (ss (length ts1)) p (es ++ t) r) ->
    inv (init ++ map job (jobs_of es)) owner' (fun i => if Nat.eqb i (length ts1) then s' else if Nat.ltb i (length (ts1 ++ mk_thread p v tr :: ts2)) then ss i else nothing_held)
      w' (ts1 ++ mk_thread p' v' (tr ++ es) :: ts2 ++ begun job es).
  Proof.
    intros I Pool Free Next Mine Others Disc Past.
    assert (Len : length (ts1 ++ mk_thread p' v' (tr ++ es) :: ts2) = length (ts1 ++ mk_thread p v tr :: ts2)).
    { rewrite !app_length. reflexivity. }
    split; [exact Pool|exact Free|exact Next| | | |].
    - intros i th x o E S. apply nth_mid in E. destruct E as [[-> ->]|[(N & L & E)|(L & E)]].
      + rewrite Nat.eqb_refl in S. now apply Mine.
      + destruct (Nat.eqb_spec i (length ts1)) as [|_]; [contradiction|].
        rewrite Len in L. rewrite (proj2 (Nat.ltb_lt _ _) L) in S.
        destruct (i_held _ _ _ _ _ I i th x o (E _) S) as (O1 & H1).
        destruct (Others _ _ _ N O1) as (O2 & H2). split; [exact O2|]. now rewrite H2.
      + rewrite Len in L. destruct (Nat.eqb_spec i (length ts1)) as [->|_]; [rewrite app_length in L; cbn [length] in L; lia|].
        rewrite (proj2 (Nat.ltb_ge _ _) L) in S. discriminate.
    - intros i th E. apply nth_mid in E. destruct E as [[-> ->]|[(N & L & E)|(L & E)]].
      + rewrite Nat.eqb_refl. exact Disc.
      + destruct (Nat.eqb_spec i (length ts1)) as [|_]; [contradiction|].
        rewrite Len in L. rewrite (proj2 (Nat.ltb_lt _ _) L). exact (i_disc _ _ _ _ _ I i th (E _)).
      + rewrite Len in L. destruct (Nat.eqb_spec i (length ts1)) as [->|_]; [rewrite app_length in L; cbn [length] in L; lia|].
        rewrite (proj2 (Nat.ltb_ge _ _) L). unfold begun in E. apply in_flat_map in E. destruct E as ([q a|j] & _ & E); [contradiction|].
        destruct E as [<-|[]]. cbn [start t_prog]. apply jobs_disciplined.
    - intros i q th t r E0 E L0.
      assert (E1 : i < length (ts1 ++ mk_thread p v tr :: ts2) -> nth_error init i = Some q).
      { intros L. rewrite nth_error_app1 in E0; [exact E0|]. now rewrite (i_len _ _ _ _ _ I). }
      pose proof E as E2. apply nth_mid in E. destruct E as [[-> ->]|[(N & L & E)|(L & E)]].
      + rewrite Nat.eqb_refl in L0. cbn [t_trace]. rewrite <- app_assoc.
        refine (i_past _ _ _ _ _ I _ q (mk_thread p v tr) _ r (E1 _) (nth_at _ _ _) _); [rewrite app_length; cbn [length]; lia|]. now apply Past.
      + destruct (Nat.eqb_spec i (length ts1)) as [|_]; [contradiction|].
        rewrite Len in L. rewrite (proj2 (Nat.ltb_lt _ _) L) in L0. exact (i_past _ _ _ _ _ I i q th t r (E1 L) (E _) L0).
      + rewrite Len in L. destruct (Nat.eqb_spec i (length ts1)) as [->|_]; [rewrite app_length in L; cbn [length] in L; lia|].
        rewrite (proj2 (Nat.ltb_ge _ _) L) in L0.
        pose proof L as L'. rewrite <- (i_len _ _ _ _ _ I) in L'. rewrite nth_error_app2 in E0 by exact L'. rewrite (i_len _ _ _ _ _ I) in E0.
        change (ts1 ++ mk_thread p' v' (tr ++ es) :: ts2 ++ begun job es) with (ts1 ++ (mk_thread p' v' (tr ++ es) :: ts2) ++ begun job es) in E2.
        rewrite app_assoc, nth_error_app2 in E2 by (rewrite Len; exact L). rewrite Len in E2. rewrite begun_jobs, nth_error_map, E0 in E2.
        injection E2 as <-. cbn [start t_prog t_trace app] in *. exact L0.
    - pose proof (i_len _ _ _ _ _ I) as L. rewrite app_length, begun_jobs, L, map_length. rewrite !app_length. cbn [length].
      rewrite app_length, !map_length. lia.
  Qed.

  Definition started (ts : list thread) : list J := flat_map (fun th => jobs_of (t_trace th)) ts.
  Lemma started_begun (es : list (event Q A J)) : started (begun job es) = [].
  Proof. rewrite begun_jobs. unfold started. now induction (map job (jobs_of es)). Qed.
  Lemma jobs_of_app (e1 e2 : list (event Q A J)) : jobs_of (e1 ++ e2) = jobs_of e1 ++ jobs_of e2.
  Proof. unfold jobs_of. apply flat_map_app. Qed.
  Lemma started_more ts1 p v tr ts2 p' v' es :
    Permutation (started (ts1 ++ mk_thread p' v' (tr ++ es) :: ts2 ++ begun job es))
                (started (ts1 ++ mk_thread p v tr :: ts2) ++ jobs_of es).
  Proof.
    unfold started at 1. rewrite !flat_map_app. cbn [flat_map]. rewrite flat_map_app. fold (started (begun job es)). rewrite started_begun, app_nil_r.
    unfold started. rewrite flat_map_app. cbn [flat_map t_trace]. rewrite jobs_of_app, <- !app_assoc.
    do 2 apply Permutation_app_head. apply Permutation_app_comm.
  Qed.
  Lemma inv_step init owner ss c c' : inv init owner ss (fst c) (snd c) -> step job c c' ->
    exists (es : list (event Q A J)) owner' ss', inv (init ++ map job (jobs_of es)) owner' ss' (fst c') (snd c') /\
      Permutation (started (snd c') ) (started (snd c) ++ jobs_of es).
  Proof.
    intros I St. destruct St as [ts1 p v tr ts2 w w' p' v' es Ac | h l1 a l2 n ts]; cbn [fst snd] in *.
    - exists es. cut (exists owner' ss', inv (init ++ map job (jobs_of es)) owner' ss' w' (ts1 ++ mk_thread p' v' (tr ++ es) :: ts2 ++ begun job es)); [intros (o & s0 & K); exists o, s0; split; [exact K|apply started_more]|].
      pose proof (i_disc _ _ _ _ _ I _ _ (nth_at _ _ _)) as D. cbn [t_prog] in D.
      pose proof (fun x o => i_held _ _ _ _ _ I _ _ x o (nth_at _ _ _)) as Held. cbn [t_vars] in Held.
      assert (Keep : forall a j x, j <> length ts1 -> owner a = Some (j, x) -> owner a = Some (j, x) /\ w_heap w a = w_heap w a) by auto.
      assert (Mine : forall x y o o', ss (length ts1) x = Some o -> ss (length ts1) y = Some o' -> v y = v x -> y = x).
      { intros x y o o' E1 E2 V. destruct (Held _ _ E1) as [O1 _], (Held _ _ E2) as [O2 _]. rewrite V in O2. congruence. }
      pose proof I as I0. destruct I0 as [Pool Free Next HeldAll DiscAll Past Len].
      destruct Ac; cbn [w_heap w_pool w_next] in *.
      + (* reuse *)
        inversion D as [|? ? ? N D'| | | | | | |]; subst.
        assert (Ia : In a (l1 ++ a :: l2)) by (apply in_elt).
        destruct (Free a Ia) as (La & Ha & Oa).
        exists (upd owner a (Some (length ts1, x))). eexists. eapply inv_move; [exact I|..]; cbn [w_heap w_pool w_next].
        * now apply NoDup_remove_1 in Pool.
        * intros b Ib. assert (b <> a) by (intros ->; now apply NoDup_remove_2 in Pool).
          rewrite upd_other by assumption. apply Free. apply in_app_iff in Ib. apply in_app_iff. cbn. tauto.
        * intros b j y. destruct (upd_cases owner a (Some (length ts1, x)) b) as [[-> ->]|[_ ->]]; [now intros _|apply Next].
        * intros y o. destruct (upd_cases (ss (length ts1)) x (Some blank) y) as [[-> ->]|[Ny ->]].
          -- intros [= <-]. rewrite !upd_same. now split.
          -- intros E. rewrite (upd_other v) by assumption. destruct (Held _ _ E) as (O1 & H1). split; [|exact H1].
             rewrite upd_other; [exact O1|]. congruence.
        * intros b j y Nj O1. split; [|reflexivity]. rewrite upd_other; [exact O1|congruence].
        * exact D'.
        * intros t r L. cbn. constructor. exact L.
      + (* new *)
        inversion D as [|? ? ? N D'| | | | | | |]; subst.
        exists (upd owner n (Some (length ts1, x))). eexists. eapply inv_move; [exact I|..]; cbn [w_heap w_pool w_next].
        * exact Pool.
        * intros b Ib. destruct (Free b Ib) as (Lb & Hb & Ob). rewrite !upd_other by lia. repeat split; [lia|exact Hb|exact Ob].
        * intros b j y. destruct (upd_cases owner n (Some (length ts1, x)) b) as [[-> ->]|[_ ->]]; [intros _; lia|].
          intros O1. apply Next in O1. lia.
        * intros y o. destruct (upd_cases (ss (length ts1)) x (Some blank) y) as [[-> ->]|[Ny ->]].
          -- intros [= <-]. rewrite !upd_same. now split.
          -- intros E. rewrite (upd_other v) by assumption. destruct (Held _ _ E) as (O1 & H1).
             assert (v y <> n) by (apply Next in O1; lia). rewrite !upd_other by assumption. now split.
        * intros b j y Nj O1. assert (b <> n) by (apply Next in O1; lia). rewrite !upd_other by assumption. now split.
        * exact D'.
        * intros t r L. cbn. constructor. exact L.
      + (* write a byte *)
        inversion D as [| |? ? o ? ? E D'| | | | | |]; subst.
        destruct (Held _ _ E) as (O1 & H1).
        exists owner. eexists. eapply inv_move with (s' := upd (ss (length ts1)) x (Some (fst o ++ [c], snd o))); [exact I|..]; cbn [w_heap w_pool w_next].
        * exact Pool.
        * intros b0 Ib. destruct (Free b0 Ib) as (Lb & Hb & Ob). rewrite upd_other by congruence. now repeat split.
        * exact Next.
        * intros y o'. destruct (upd_cases (ss (length ts1)) x (Some (fst o ++ [c], snd o)) y) as [[-> ->]|[Ny ->]].
          -- intros [= <-]. rewrite upd_same, H1. now split.
          -- intros E'. destruct (Held _ _ E') as (O2 & H2). rewrite upd_other by congruence. now split.
        * intros b0 j y Nj O2. split; [exact O2|]. rewrite upd_other; [reflexivity|congruence].
        * econstructor; [apply upd_same|]. eapply disciplined_ext; [exact D'|]. intros y. cbn [fst snd].
          rewrite <- app_assoc. unfold upd. now destruct (Nat.eqb y x).
        * intros t r L. inversion L as [| |? ? o2 ? ? ? ? E2 L2| | | | | |]; subst. rewrite upd_same in E2. injection E2 as <-.
          cbn. econstructor; [exact E|]. eapply lone_ext; [exact L2|]. intros y. cbn [fst snd].
          rewrite <- app_assoc. unfold upd. now destruct (Nat.eqb y x).
      + (* written *)
        inversion D as [| |? ? o ? ? E D'| | | | | |]; subst.
        exists owner. eexists. eapply inv_move with (s' := upd (ss (length ts1)) x (Some (fst o ++ [], snd o))); [exact I|..]; try assumption.
        * intros y o'. destruct (upd_cases (ss (length ts1)) x (Some (fst o ++ [], snd o)) y) as [[-> ->]|[Ny ->]]; [|now apply Held].
          intros [= <-]. rewrite app_nil_r. rewrite <- surjective_pairing. now apply Held.
        * intros t r L. cbn. econstructor; [exact E|exact L].
      + (* append *)
        inversion D as [| | |? ? o ? ? E D'| | | | |]; subst.
        destruct (Held _ _ E) as (O1 & H1).
        exists owner. eexists. eapply inv_move with (s' := upd (ss (length ts1)) x (Some (fst o, e))); [exact I|..]; cbn [w_heap w_pool w_next].
        * exact Pool.
        * intros b0 Ib. destruct (Free b0 Ib) as (Lb & Hb & Ob). rewrite upd_other by congruence. now repeat split.
        * exact Next.
        * intros y o'. destruct (upd_cases (ss (length ts1)) x (Some (fst o, e)) y) as [[-> ->]|[Ny ->]].
          -- intros [= <-]. rewrite upd_same, H1. now split.
          -- intros E'. destruct (Held _ _ E') as (O2 & H2). rewrite upd_other by congruence. now split.
        * intros b0 j y Nj O2. split; [exact O2|]. rewrite upd_other; [reflexivity|congruence].
        * exact D'.
        * intros t r L. cbn. econstructor; [exact E|exact L].
      + (* read *)
        inversion D as [| | | |? ? o ? E D'| | | |]; subst.
        destruct (Held _ _ E) as (O1 & H1).
        exists owner. eexists. eapply inv_move with (s' := ss (length ts1)); [exact I|..]; try assumption.
        * now rewrite H1.
        * intros t r L. cbn. econstructor; [exact E|]. now rewrite <- H1.
      + (* reset *)
        inversion D as [| | | | |? ? o ? E D'| | |]; subst.
        destruct (Held _ _ E) as (O1 & H1).
        exists owner. eexists. eapply inv_move with (s' := upd (ss (length ts1)) x (Some blank)); [exact I|..]; cbn [w_heap w_pool w_next].
        * exact Pool.
        * intros b0 Ib. destruct (Free b0 Ib) as (Lb & Hb & Ob). rewrite upd_other by congruence. now repeat split.
        * exact Next.
        * intros y o'. destruct (upd_cases (ss (length ts1)) x (Some blank) y) as [[-> ->]|[Ny ->]].
          -- intros [= <-]. rewrite upd_same. now split.
          -- intros E'. destruct (Held _ _ E') as (O2 & H2). rewrite upd_other by congruence. now split.
        * intros b0 j y Nj O2. split; [exact O2|]. rewrite upd_other; [reflexivity|congruence].
        * exact D'.
        * intros t r L. cbn. econstructor; [exact E|exact L].
      + (* put *)
        inversion D as [| | | | | |? ? ? E D'| |]; subst.
        destruct (Held _ _ E) as (O1 & H1).
        exists (upd owner (v x) None). eexists. eapply inv_move with (s' := upd (ss (length ts1)) x None); [exact I|..]; cbn [w_heap w_pool w_next].
        * constructor; [|exact Pool]. intros In0. apply Free in In0. destruct In0 as (_ & _ & O2). congruence.
        * intros b0 [<-|Ib].
          -- rewrite upd_same. split; [exact (Next _ _ _ O1)|]. now split.
          -- destruct (Free b0 Ib) as (Lb & Hb & Ob). destruct (upd_cases owner (v x) None b0) as [[-> ->]|[_ ->]]; now repeat split.
        * intros b0 j y. destruct (upd_cases owner (v x) None b0) as [[-> ->]|[_ ->]]; [discriminate|apply Next].
        * intros y o'. destruct (upd_cases (ss (length ts1)) x None y) as [[-> ->]|[Ny ->]]; [discriminate|].
          intros E'. destruct (Held _ _ E') as (O2 & H2). split; [|exact H2]. rewrite upd_other by congruence. exact O2.
        * intros b0 j y Nj O2. split; [|reflexivity]. rewrite upd_other; [exact O2|congruence].
        * exact D'.
        * intros t r L. cbn. econstructor; [exact E|exact L].
      + (* ask *)
        inversion D as [| | | | | | |? ? ? D'|]; subst.
        exists owner. eexists. eapply inv_move with (s' := ss (length ts1)); [exact I|..]; try assumption.
        * apply D'.
        * intros t r L. cbn. constructor. exact L.
      + (* spawn *)
        inversion D as [| | | | | | | |? ? ? D']; subst.
        exists owner. eexists. eapply inv_move with (s' := ss (length ts1)); [exact I|..]; try assumption.
        intros t r L. cbn. constructor. exact L.
    - exists [], owner, ss. cbn [jobs_of flat_map map]. rewrite !app_nil_r. split; [|reflexivity]. destruct I as [Pool Free Next Held Disc Past Len]. cbn [w_heap w_pool w_next] in *.
      split; cbn [w_heap w_pool w_next]; try assumption.
      + now apply NoDup_remove_1 in Pool.
      + intros b Ib. apply Free. apply in_app_iff in Ib. apply in_app_iff. cbn. tauto.
  Qed.

  Lemma inv_start ps w : clean w -> (forall p, In p ps -> disciplined nothing_held p) ->
    inv ps (fun _ => None) (fun _ => nothing_held) w (map start ps).
  Proof.
    intros [Pool Free] Disc. split.
    - exact Pool.
    - intros a Ia. destruct (Free a Ia). now repeat split.
    - discriminate.
    - discriminate.
    - intros i th E. rewrite nth_error_map in E. destruct (nth_error ps i) as [p|] eqn:Ep; [|discriminate]. injection E as <-.
      apply Disc. eapply nth_error_In; eauto.
    - intros i p th t r E0 E L. rewrite nth_error_map, E0 in E. injection E as <-. exact L.
    - symmetry. apply map_length.
  Qed.

  Lemma inv_steps c c' : steps job c c' -> forall init owner ss, inv init owner ss (fst c) (snd c) ->
    exists js owner' ss', inv (init ++ map job js) owner' ss' (fst c') (snd c') /\ Permutation (started (snd c')) (started (snd c) ++ js).
  Proof.
    induction 1 as [|c1 c2 c3 _ IH St]; intros init owner ss I.
    - exists [], owner, ss. cbn [map]. rewrite !app_nil_r. now split.
    - destruct (IH _ _ _ I) as (js & o2 & s2 & I2 & P2). destruct (inv_step _ _ _ _ _ I2 St) as (es & o3 & s3 & I3 & P3).
      exists (js ++ jobs_of es), o3, s3. rewrite map_app, app_assoc. split; [exact I3|]. rewrite P3, P2. now rewrite app_assoc.
  Qed.

  Lemma started_none (ps : list (prog Q A J R)) : started (map start ps) = [].
  Proof. unfold started. now induction ps. Qed.
  (** A finished call has had a run of its own; so has each goroutine started on
      the way. *)
  Lemma isolated ps w w' ts : clean w -> (forall p, In p ps -> disciplined nothing_held p) ->
    steps job (w, map start ps) (w', ts) ->
    clean w' /\
    exists js, Permutation js (flat_map (fun th => jobs_of (t_trace th)) ts) /\ length ts = length (ps ++ map job js) /\
    forall i p th r, nth_error (ps ++ map job js) i = Some p -> nth_error ts i = Some th -> t_prog th = Ret r -> lone nothing_held p (t_trace th) r.
  Proof.
    intros C D St. destruct (inv_steps _ _ St _ _ _ (inv_start ps w C D)) as (js & o & s & I & P). cbn [fst snd] in I, P. split.
    - split; [exact (i_pool _ _ _ _ _ I)|]. intros a Ia. destruct (i_free _ _ _ _ _ I a Ia) as (? & ? & _). now split.
    - exists js. rewrite started_none in P. split; [symmetry; exact P|]. split; [symmetry; exact (i_len _ _ _ _ _ I)|].
      intros i p th r E0 E Er. rewrite <- (app_nil_r (t_trace th)). eapply (i_past _ _ _ _ _ I); [eassumption..|].
      rewrite Er. constructor.
  Qed.
End Isolation.

(** ** Programs and what they do when alone *)
Section Wp.
  Context {Q A J : Type}.
  Notation prog := (prog Q A J).
  Notation event := (event Q A J).
  Fixpoint wp {R} (p : prog R) (s : locals) (P : R -> locals -> list event -> Prop) : Prop :=
    match p with
    | Ret r => P r s []
    | Get x k => s x = None /\ wp k (upd s x (Some blank)) P
    | Write x b k => exists o, s x = Some o /\ wp k (upd s x (Some (fst o ++ b, snd o))) P
    | Args x l k => exists o, s x = Some o /\ wp k (upd s x (Some (fst o, l))) P
    | Read x k => exists o, s x = Some o /\ wp (k o) s P
    | Reset x k => exists o, s x = Some o /\ wp k (upd s x (Some blank)) P
    | Put x k => s x = Some blank /\ wp k (upd s x None) P
    | Ask q k => forall a, wp (k a) s (fun r s' t => P r s' (Asked q a :: t))
    | Spawn j k => wp k s (fun r s' t => P r s' (Spawned j :: t))
    end.
  Lemma wp_mono {R} (p : prog R) : forall s (P P' : R -> locals -> list event -> Prop),
    (forall r s' t, P r s' t -> P' r s' t) -> wp p s P -> wp p s P'.
  Proof.
    induction p as [r|x k IH|x b k IH|x l k IH|x k IH|x k IH|x k IH|q k IH|j k IH]; cbn [wp]; intros s P P' M W.
    - now apply M.
    - destruct W. split; eauto.
    - destruct W as (o & E & W). eauto.
    - destruct W as (o & E & W). eauto.
    - destruct W as (o & E & W). eauto.
    - destruct W as (o & E & W). eauto.
    - destruct W. split; eauto.
    - intros a. eapply IH; [|apply W]. cbn. auto.
    - eapply IH; [|exact W]. cbn. auto.
  Qed.
  Lemma wp_bind {R S} (f : R -> prog S) (p : prog R) : forall s (P : S -> locals -> list event -> Prop),
    wp p s (fun r s' t => wp (f r) s' (fun r' s'' t' => P r' s'' (t ++ t'))) -> wp (bind p f) s P.
  Proof.
    induction p as [r|x k IH|x b k IH|x l k IH|x k IH|x k IH|x k IH|q k IH|j k IH]; cbn [wp bind]; intros s P W.
    - exact W.
    - destruct W. split; eauto.
    - destruct W as (o & E & W). eauto.
    - destruct W as (o & E & W). eauto.
    - destruct W as (o & E & W). eauto.
    - destruct W as (o & E & W). eauto.
    - destruct W. split; eauto.
    - intros a. apply IH. exact (W a).
    - apply IH. exact W.
  Qed.
  Lemma wp_disciplined {R} (p : prog R) : forall s P, wp p s P -> (forall r s' t, P r s' t -> forall x, s' x = None) -> disciplined s p.
  Proof.
    induction p as [r|x k IH|x b k IH|x l k IH|x k IH|x k IH|x k IH|q k IH|j k IH]; cbn [wp]; intros s P W E.
    - constructor. eapply E; eauto.
    - destruct W. constructor; eauto.
    - destruct W as (o & ? & W). econstructor; eauto.
    - destruct W as (o & ? & W). econstructor; eauto.
    - destruct W as (o & ? & W). econstructor; eauto.
    - destruct W as (o & ? & W). econstructor; eauto.
    - destruct W. constructor; eauto.
    - constructor. intros a. eapply IH; [apply W|]. cbn. eauto.
    - constructor. eapply IH; [apply W|]. cbn. eauto.
  Qed.
  Lemma wp_lone {R} (p : prog R) s t r : lone s p t r -> forall P, wp p s P -> exists s', P r s' t.
  Proof.
    induction 1; cbn [wp]; intros P W; try (destruct W as (o' & E' & W); replace o' with o in * by congruence); eauto.
    - destruct W as [_ W]. eauto.
    - destruct W as [E W]. eauto.
    - destruct (IHlone _ (W a)) as (s' & K). eauto.
    - destruct (IHlone _ W) as (s' & K). eauto.
  Qed.

  (** A call from depth [x] on: its own variables are [x], [x+1], ...; it leaves
      all variables as it found them. *)
  Definition helper {R} (x : nat) (p : prog R) (P : R -> list event -> Prop) : Prop :=
    forall s, (forall y, x <= y -> s y = None) -> wp p s (fun r s' t => (forall y, s' y = s y) /\ P r t).
  Lemma wp_call {R S} x (p : prog R) P (f : R -> prog S) s P' :
    helper x p P -> (forall y, x <= y -> s y = None) ->
    (forall r t s', P r t -> (forall y, s' y = s y) -> wp (f r) s' (fun r' s'' t' => P' r' s'' (t ++ t'))) ->
    wp (bind p f) s P'.
  Proof.
    intros H E K. apply wp_bind. eapply wp_mono; [|exact (H s E)]. cbn. intros r s' t [Es Pr]. now apply K.
  Qed.
  Lemma helper_ret {R} x (r : R) (P : R -> list event -> Prop) : P r [] -> helper x (Ret r) P.
  Proof. intros H s E. cbn. now split. Qed.
  Lemma helper_mono {R} x (p : prog R) (P P' : R -> list event -> Prop) : (forall r t, P r t -> P' r t) -> helper x p P -> helper x p P'.
  Proof. intros M H s E. eapply wp_mono; [|exact (H s E)]. cbn. intros r s' t [? ?]. split; auto. Qed.
  Lemma helper_bind {R S} x (p : prog R) P (f : R -> prog S) P' :
    helper x p P -> (forall r t, P r t -> helper x (f r) (fun r' t' => P' r' (t ++ t'))) -> helper x (bind p f) P'.
  Proof.
    intros H K s E. eapply wp_call; [exact H|exact E|]. intros r t s' Pr Es.
    assert (E' : forall y, x <= y -> s' y = None) by (intros y L; rewrite Es; auto).
    eapply wp_mono; [|exact (K r t Pr s' E')]. cbn. intros r' s'' t' [E2 P2]. split; [|exact P2]. intros y. now rewrite E2.
  Qed.
  (** A call that has taken an object: it works on it and, from depth [hi] on,
      calls others, and leaves all else as it was. *)
  Definition working {R} (x hi : nat) (o : obj) (p : prog R) (P : R -> obj -> list event -> Prop) : Prop :=
    forall s, s x = Some o -> (forall y, hi <= y -> s y = None) ->
      wp p s (fun r s' t => exists o', s' x = Some o' /\ (forall y, y <> x -> s' y = s y) /\ P r o' t).
  Lemma helper_pooled {R} x (p : prog R) (P : R -> list event -> Prop) :
    working x (S x) blank p (fun r _ t => P r t) -> helper x (pooled x p) P.
  Proof.
    intros W s E. unfold pooled. cbn [wp]. split; [now apply E|]. apply wp_bind.
    eapply wp_mono; [|apply W].
    - cbn. intros r s' t (o' & E1 & E2 & Pr). exists o'. split; [exact E1|]. split; [apply upd_same|]. split.
      + intros y. destruct (Nat.eq_dec y x) as [->|N]; [rewrite upd_same; symmetry; apply E; lia|].
        rewrite !upd_other by assumption. rewrite E2 by assumption. now apply upd_other.
      + now rewrite app_nil_r.
    - apply upd_same.
    - intros y L. rewrite upd_other by lia. apply E. lia.
  Qed.
  Lemma working_ret {R} x hi o (r : R) (P : R -> obj -> list event -> Prop) : P r o [] -> working x hi o (Ret r) P.
  Proof. intros H s E Z. cbn. exists o. now repeat split. Qed.
  Lemma working_write {R} x hi o b (p : prog R) P : x < hi -> working x hi (fst o ++ b, snd o) p P -> working x hi o (Write x b p) P.
  Proof.
    intros X W s E Z. cbn. exists o. split; [exact E|]. eapply wp_mono; [|apply W].
    - cbn. intros r s' t (o' & E1 & E2 & Pr). exists o'. split; [exact E1|]. split; [|exact Pr].
      intros y N. rewrite E2 by exact N. now apply upd_other.
    - apply upd_same.
    - intros y L. rewrite upd_other by lia. now apply Z.
  Qed.
  Lemma working_reset {R} x hi o (p : prog R) P : x < hi -> working x hi blank p P -> working x hi o (Reset x p) P.
  Proof.
    intros X W s E Z. cbn. exists o. split; [exact E|]. eapply wp_mono; [|apply W].
    - cbn. intros r s' t (o' & E1 & E2 & Pr). exists o'. split; [exact E1|]. split; [|exact Pr].
      intros y N. rewrite E2 by exact N. now apply upd_other.
    - apply upd_same.
    - intros y L. rewrite upd_other by lia. now apply Z.
  Qed.
  Lemma working_read {R} x hi o (p : obj -> prog R) P : working x hi o (p o) P -> working x hi o (Read x p) P.
  Proof. intros W s E Z. cbn. exists o. split; [exact E|]. now apply W. Qed.
  Lemma working_bind {R S} x hi o (p : prog R) P (f : R -> prog S) P' : x < hi ->
    working x hi o p P -> (forall r o' t, P r o' t -> working x hi o' (f r) (fun r' o'' t' => P' r' o'' (t ++ t'))) ->
    working x hi o (bind p f) P'.
  Proof.
    intros X W K s E Z. apply wp_bind. eapply wp_mono; [|exact (W s E Z)]. cbn. intros r s' t (o' & E1 & E2 & Pr).
    eapply wp_mono; [|apply (K r o' t Pr s' E1)].
    - cbn. intros r' s'' t' (o'' & E3 & E4 & Pr'). exists o''. split; [exact E3|]. split; [|exact Pr'].
      intros y N. rewrite E4 by exact N. now apply E2.
    - intros y L. rewrite E2 by lia. now apply Z.
  Qed.
  Lemma working_helper {R S} x hi o (p : prog R) P (f : R -> prog S) P' :
    helper hi p P -> (forall r t, P r t -> working x hi o (f r) (fun r' o' t' => P' r' o' (t ++ t'))) ->
    working x hi o (bind p f) P'.
  Proof.
    intros H K s E Z. eapply wp_call; [exact H|exact Z|]. intros r t s' Pr Es.
    eapply wp_mono; [|apply (K r t Pr s')].
    - cbn. intros r' s'' t' (o' & E1 & E2 & Pr'). exists o'. split; [exact E1|]. split; [|exact Pr'].
      intros y N. rewrite E2 by exact N. apply Es.
    - now rewrite Es.
    - intros y L. rewrite Es. now apply Z.
  Qed.
  Lemma working_mono {R} x hi o (p : prog R) (P P' : R -> obj -> list event -> Prop) :
    (forall r o' t, P r o' t -> P' r o' t) -> working x hi o p P -> working x hi o p P'.
  Proof.
    intros M W s E Z. eapply wp_mono; [|exact (W s E Z)]. cbn. intros r s' t (o' & E1 & E2 & Pr). exists o'. auto.
  Qed.
  Lemma helper_deeper {R} x x' (p : prog R) P : x <= x' -> helper x' p P -> helper x p P.
  Proof. intros L H s E. apply H. intros y Ly. apply E. lia. Qed.

  (** The calls of a goroutine. *)
  Lemma helper_disciplined {R} (p : prog R) P : helper 0 p P -> disciplined nothing_held p.
  Proof.
    intros H. eapply wp_disciplined; [apply H; reflexivity|]. cbn. intros r s' t [E _] x. apply E.
  Qed.
  Lemma helper_lone {R} (p : prog R) (P : R -> list event -> Prop) t r : helper 0 p P -> lone nothing_held p t r -> P r t.
  Proof.
    intros H L. destruct (wp_lone _ _ _ _ L _ (H nothing_held (fun _ _ => eq_refl))) as (s' & _ & K). exact K.
  Qed.
End Wp.
