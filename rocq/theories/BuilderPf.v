(** * BuilderPf: proofs for C28 *)
From Coq Require Import Lia.
From Verif Require Import GoBase GoBaseFacts BuilderModel SpecBuilder.

  Lemma nth_snoc : forall A (l : list A) x d i,
    (i < length l /\ nth i (l ++ [x]) d = nth i l d) \/ (i = length l /\ nth i (l ++ [x]) d = x) \/
    (length l < i /\ nth i (l ++ [x]) d = d).
  Proof.
    intros A l x d i. destruct (Nat.lt_trichotomy i (length l)) as [H|[H|H]].
    - left. split; [exact H|]. now apply app_nth1.
    - right. left. split; [exact H|]. subst i. rewrite app_nth2, Nat.sub_diag by lia. reflexivity.
    - right. right. split; [exact H|]. apply nth_overflow. rewrite app_length. cbn [length]. lia.
  Qed.
  Lemma nth_list_set : forall A (l : list A) a v d i, a < length l ->
    nth i (list_set l a v) d = if Nat.eqb i a then v else nth i l d.
  Proof.
    induction l as [|x l IH]; intros a v d i H; [cbn in H; lia|]. destruct a as [|a], i as [|i]; cbn [list_set nth Nat.eqb]; auto.
    apply IH. cbn [length] in H. lia.
  Qed.

Section Pf.
  Context {E : Type} (zero : E) (extra : nat -> nat -> nat).
  Notation heap := (@heap E). Notation value := (@value E).
  Notation run := (@run E zero extra).

  (** What the heap knows about one slice, given its value. *)
  Definition shows (h : heap) (s : slice) (v : option nat * list E) : Prop :=
    contents h s = snd v /\ sl_len s = length (snd v) /\
    match sl_array s with
    | Some a => a < length h /\ sl_len s <= length (nth a h []) /\ fst v <> None /\ 0 < sl_len s
    | None => v = (None, [])
    end.
  Section Inv.
    Variables (h : heap) (bs : list builder) (vs : list value) (used : list nat).
    Notation bat i f := (nth i bs no_builder f). Notation vat i f := (nth i vs no_value f).
    Record inv : Prop := mk_inv {
      inv_length : length bs = length vs;
      inv_shows : forall i f, shows h (bat i f) (vat i f);
      inv_older : forall i f k, fst (vat i f) = Some k -> k < length vs;
      inv_used : forall k, In k used -> k < length vs;
      inv_same : forall i f j g k, fst (vat i f) = Some k -> fst (vat j g) = Some k -> bat i f = bat j g;
      (* the slice of an array that was not yet appended to is the longest *)
      inv_tip : forall i f j g k k' a, fst (vat i f) = Some k -> fst (vat j g) = Some k' -> k <> k' -> ~ In k used ->
        sl_array (bat i f) = Some a -> sl_array (bat j g) = Some a -> sl_len (bat j g) < sl_len (bat i f) }.
  End Inv.

  Lemma inv_start : inv [] [] [] [].
  Proof.
    constructor; try reflexivity.
    - intros i f. destruct i; repeat split.
    - intros i f k H. destruct i; discriminate.
    - intros k [].
    - intros i f j g k H. destruct i; discriminate.
    - intros i f j g k k' a H. destruct i; discriminate.
  Qed.

  (** Adding a query whose slices are all there already, except perhaps [f0]. *)
  Lemma contents_app : forall (h h' : heap) s, (forall a, sl_array s = Some a -> nth a h' [] = nth a h []) -> contents h' s = contents h s.
  Proof. intros h h' s H. unfold contents, slots. destruct (sl_array s); [now rewrite H|reflexivity]. Qed.

  Lemma inv_share : forall h bs vs used (b : builder) (v : value), inv h bs vs used ->
    (forall f, exists i g, b f = nth i bs no_builder g /\ v f = nth i vs no_value g) ->
    inv h (bs ++ [b]) (vs ++ [v]) used.
  Proof.
    intros h bs vs used b v I S. destruct I as [I1 I2 I3 I4 I5 I6].
    assert (X : forall i f, exists j g, nth i (bs ++ [b]) no_builder f = nth j bs no_builder g /\ nth i (vs ++ [v]) no_value f = nth j vs no_value g).
    { intros i f. destruct (nth_snoc _ bs b no_builder i) as [[L B]|[[L B]|[L B]]]; destruct (nth_snoc _ vs v no_value i) as [[L' V]|[[L' V]|[L' V]]]; try lia; rewrite B, V.
      - now exists i, f.
      - apply S.
      - exists i, f. rewrite (nth_overflow bs), (nth_overflow vs) by lia. now split. }
    constructor.
    - rewrite !app_length. cbn [length]. lia.
    - intros i f. destruct (X i f) as (j & g & -> & ->). apply I2.
    - intros i f k H. destruct (X i f) as (j & g & B & V). rewrite V in H. rewrite app_length. apply I3 in H. lia.
    - intros k H. rewrite app_length. apply I4 in H. lia.
    - intros i f j g k H H'. destruct (X i f) as (i' & f' & B & V). destruct (X j g) as (j' & g' & B' & V').
      rewrite V in H. rewrite V' in H'. rewrite B, B'. now apply (I5 _ _ _ _ k).
    - intros i f j g k k' a H H' NE NU A A'. destruct (X i f) as (i' & f' & B & V). destruct (X j g) as (j' & g' & B' & V').
      rewrite V in H. rewrite V' in H'. rewrite B in *. rewrite B' in *. now apply (I6 i' f' j' g' k k' a).
  Qed.
  (** Adding a query with one new slice. *)
  Lemma inv_fresh : forall h h' bs vs used used' i0 f0 s l, inv h bs vs used ->
    (forall i f, shows h' (nth i bs no_builder f) (nth i vs no_value f)) ->
    shows h' s (Some (length vs), l) ->
    (forall k, In k used' -> k < length vs) -> (forall k, In k used -> In k used') ->
    (forall j g k' a, fst (nth j vs no_value g) = Some k' -> sl_array s = Some a -> sl_array (nth j bs no_builder g) = Some a ->
       sl_len (nth j bs no_builder g) < sl_len s /\ In k' used') ->
    inv h' (bs ++ [upd f0 s (nth i0 bs no_builder)]) (vs ++ [upd f0 (Some (length vs), l) (nth i0 vs no_value)]) used'.
  Proof.
    intros h h' bs vs used used' i0 f0 s l I SH SN UL UI TI. destruct I as [I1 I2 I3 I4 I5 I6].
    set (b := upd f0 s (nth i0 bs no_builder) : builder). set (v := upd f0 (Some (length vs), l) (nth i0 vs no_value) : value).
    change (inv h' (bs ++ @cons builder b nil) (vs ++ @cons value v nil) used').
    assert (X : forall i f, (nth i (bs ++ [b]) no_builder f = s /\ nth i (vs ++ [v]) no_value f = (Some (length vs), l)) \/
      exists j g, nth i (bs ++ [b]) no_builder f = nth j bs no_builder g /\ nth i (vs ++ [v]) no_value f = nth j vs no_value g).
    { intros i f. destruct (nth_snoc _ bs b no_builder i) as [[L B]|[[L B]|[L B]]]; destruct (nth_snoc _ vs v no_value i) as [[L' V]|[[L' V]|[L' V]]]; try lia; rewrite B, V.
      - right. now exists i, f.
      - unfold b, v, upd. destruct (field_eq_dec f f0); [now left|right; now exists i0, f].
      - right. exists i, f. rewrite (nth_overflow bs), (nth_overflow vs) by lia. now split. }
    constructor.
    - rewrite !app_length. cbn [length]. lia.
    - intros i f. destruct (X i f) as [[-> ->]|(j & g & -> & ->)]; [exact SN|apply SH].
    - intros i f k H. rewrite app_length. cbn [length]. destruct (X i f) as [[B V]|(j & g & B & V)]; rewrite V in H.
      + cbn [fst] in H. assert (k = length vs) by congruence. lia.
      + apply I3 in H. lia.
    - intros k H. rewrite app_length. apply UL in H. lia.
    - intros i f j g k H H'.
      destruct (X i f) as [[B V]|(i' & f' & B & V)]; destruct (X j g) as [[B' V']|(j' & g' & B' & V')];
        rewrite V in H; rewrite V' in H'; rewrite B, B'; cbn [fst] in *.
      + reflexivity.
      + apply I3 in H'. assert (k = length vs) by congruence. lia.
      + apply I3 in H. assert (k = length vs) by congruence. lia.
      + now apply (I5 _ _ _ _ k).
    - intros i f j g k k' a H H' NE NU A A'.
      destruct (X i f) as [[B V]|(i' & f' & B & V)]; destruct (X j g) as [[B' V']|(j' & g' & B' & V')];
        rewrite V in H; rewrite V' in H'; rewrite B in *; rewrite B' in *; cbn [fst] in *.
      + congruence.
      + now apply (TI j' g' k' a).
      + exfalso. apply NU. now apply (TI i' f' k a).
      + apply (I6 i' f' j' g' k k' a); auto.
  Qed.
  Lemma shows_grow : forall h arr s v, shows h s v -> shows (h ++ [arr]) s v.
  Proof.
    intros h arr s v (C & L & A). unfold shows. split; [|split; [exact L|]].
    - rewrite <- C. apply contents_app. intros a Ea. rewrite Ea in A. apply app_nth1. apply A.
    - destruct (sl_array s) as [a|]; [|exact A]. destruct A as (A1 & A2 & A3). rewrite app_length, app_nth1 by exact A1. split; [lia|auto].
  Qed.
  Lemma fresh_array : forall h bs vs used j g a, inv h bs vs used -> a = length h -> sl_array (nth j bs no_builder g) = Some a -> False.
  Proof. intros h bs vs used j g a I E0 A. pose proof (inv_shows _ _ _ _ I j g) as (_ & _ & S). rewrite A in S. lia. Qed.
  Lemma inv_alloc : forall h bs vs used used' i0 f0 arr l, inv h bs vs used -> l <> [] -> length l <= length arr -> firstn (length l) arr = l ->
    (forall k, In k used' -> k < length vs) -> (forall k, In k used -> In k used') ->
    inv (h ++ [arr]) (bs ++ [upd f0 (mk_slice (Some (length h)) (length l)) (nth i0 bs no_builder)])
      (vs ++ [upd f0 (Some (length vs), l) (nth i0 vs no_value)]) used'.
  Proof.
    intros h bs vs used used' i0 f0 arr l I NE LE FN UL UI. apply (inv_fresh h _ _ _ used); auto.
    - intros i f. apply shows_grow, (inv_shows _ _ _ _ I).
    - unfold shows, contents, slots. cbn [sl_array sl_len fst snd]. rewrite app_nth2, Nat.sub_diag by lia. cbn [nth].
      rewrite app_length. cbn [length]. repeat split; auto; try lia; try discriminate. destruct l; [congruence|cbn [length]; lia].
    - intros j g k' a _ A A'. cbn [sl_array] in A. exfalso. apply (fresh_array _ _ _ _ j g a I); auto. congruence.
  Qed.
  Lemma step_append : forall h bs vs used used' i f x xs, inv h bs vs used ->
    (forall k, fst (nth i vs no_value f) = Some k -> ~ In k used /\ In k used') ->
    (forall k, In k used' -> k < length vs) -> (forall k, In k used -> In k used') ->
    let (h', s) := go_append zero extra h (nth i bs no_builder f) (x :: xs) in
    inv h' (bs ++ [upd f s (nth i bs no_builder)])
      (vs ++ [upd f (Some (length vs), snd (nth i vs no_value f) ++ x :: xs) (nth i vs no_value)]) used'.
  Proof.
    intros h bs vs used used' i f x xs I TIP UL UI. unfold go_append. set (ys := x :: xs).
    pose proof (inv_shows _ _ _ _ I i f) as S. set (s := nth i bs no_builder f) in *. set (v := nth i vs no_value f) in *.
    destruct S as (C & L & A).
    assert (NE : snd v ++ ys <> []) by (intros Z; apply app_eq_nil in Z; destruct Z; discriminate).
    destruct (sl_array s) as [a|] eqn:SA.
    - destruct A as (A1 & A2 & A3 & A4). unfold slots, contents, slots in *. rewrite SA in *.
      assert (FL : length (firstn (sl_len s) (nth a h [])) = sl_len s) by (rewrite firstn_length; lia).
      destruct (Nat.leb (sl_len s + length ys) (length (nth a h []))) eqn:LE.
      + apply Nat.leb_le in LE. set (arr := firstn (sl_len s) (nth a h []) ++ ys ++ skipn (sl_len s + length ys) (nth a h [])).
        assert (AL : length arr = length (nth a h [])) by (unfold arr; rewrite !app_length, FL, skipn_length; lia).
        destruct (fst v) as [k0|] eqn:FV; [|congruence]. destruct (TIP k0 eq_refl) as [NU IU].
        assert (SHORT : forall j g a', sl_array (nth j bs no_builder g) = Some a' -> a' = a -> sl_len (nth j bs no_builder g) <= sl_len s /\
          (forall k', fst (nth j vs no_value g) = Some k' -> In k' used')).
        { intros j g a' Aj Ea. subst a'. pose proof (inv_shows _ _ _ _ I j g) as (_ & _ & Sj). rewrite Aj in Sj.
          destruct (fst (nth j vs no_value g)) as [k'|] eqn:Fj; [|exfalso; now apply Sj].
          destruct (Nat.eq_dec k0 k') as [<-|N].
          - split; [unfold s; now rewrite (inv_same _ _ _ _ I j g i f k0 Fj FV)|]. intros k' K. assert (k0 = k') by congruence. now subst.
          - pose proof (inv_tip _ _ _ _ I i f j g k0 k' a FV Fj N NU SA Aj) as T. split; [unfold s in *; lia|].
            intros k'' K. assert (k' = k'') by congruence. subst k''.
            destruct (in_dec Nat.eq_dec k' used) as [U|U]; [now apply UI|].
            pose proof (inv_tip _ _ _ _ I j g i f k' k0 a Fj FV (not_eq_sym N) U Aj SA). unfold s in *. lia. }
        apply (inv_fresh h _ _ _ used); auto.
        * intros j g. pose proof (inv_shows _ _ _ _ I j g) as (Cj & Lj & Aj). unfold shows. split; [|split; [exact Lj|]].
          -- rewrite <- Cj. destruct (sl_array (nth j bs no_builder g)) as [a'|] eqn:SJ.
             2:{ unfold contents, slots. now rewrite SJ. }
             destruct (Nat.eq_dec a' a) as [->|N].
             ++ destruct (SHORT j g a SJ eq_refl) as [SL _]. unfold contents, slots. rewrite SJ, nth_list_set, Nat.eqb_refl by exact A1.
                unfold arr. rewrite firstn_app, FL, firstn_firstn. replace (Nat.min (sl_len (nth j bs no_builder g)) (sl_len s)) with (sl_len (nth j bs no_builder g)) by lia.
                replace (sl_len (nth j bs no_builder g) - sl_len s) with 0 by lia. now rewrite app_nil_r.
             ++ apply contents_app. intros b Eb. assert (b = a') by congruence. subst b. rewrite nth_list_set by exact A1.
                destruct (Nat.eqb a' a) eqn:Q; [apply Nat.eqb_eq in Q; congruence|reflexivity].
          -- destruct (sl_array (nth j bs no_builder g)) as [a'|]; [|exact Aj]. rewrite list_set_length, nth_list_set by exact A1.
             destruct (Nat.eqb a' a) eqn:Q; [apply Nat.eqb_eq in Q; subst a'; rewrite AL; exact Aj|exact Aj].
        * unfold shows, contents, slots. cbn [sl_array sl_len fst snd]. rewrite nth_list_set, Nat.eqb_refl, list_set_length by exact A1.
          rewrite AL. unfold arr. rewrite firstn_app, FL, firstn_firstn. replace (Nat.min (sl_len s + length ys) (sl_len s)) with (sl_len s) by lia.
          replace (sl_len s + length ys - sl_len s) with (length ys) by lia. rewrite firstn_app, Nat.sub_diag, firstn_all. cbn [firstn].
          rewrite app_nil_r, C, app_length, <- L. split; [reflexivity|]. split; [reflexivity|]. split; [exact A1|]. split; [lia|]. split; [discriminate|lia].
        * intros j g k' a' Fj As Aj. cbn [sl_array sl_len] in *. destruct (SHORT j g a' Aj) as [S1 S2]; [congruence|].
          split; [cbn [length ys]; unfold ys; cbn [length]; lia|]. now apply S2.
      + rewrite C. replace (sl_len s + length ys) with (length (snd v ++ ys)) by (rewrite app_length; lia). unfold alloc.
        apply (inv_alloc h bs vs used used'); auto.
        * rewrite !app_length. lia.
        * rewrite app_assoc, firstn_app, Nat.sub_diag, firstn_all. cbn [firstn]. now rewrite app_nil_r.
    - rewrite A in *. cbn [snd app] in *. rewrite L. cbn [length Nat.add].
      change (S (length xs)) with (length ys). unfold alloc. apply (inv_alloc h bs vs used used'); auto.
      * rewrite !app_length. lia.
      * rewrite firstn_app, Nat.sub_diag, firstn_all. cbn [firstn]. now rewrite app_nil_r.
  Qed.
  Lemma upd_same : forall T (b : field -> T) f f', upd f (b f) b f' = b f'.
  Proof. intros. unfold upd. destruct (field_eq_dec f' f); congruence. Qed.

  Lemma inv_run : forall p used, linear p used -> inv (fst (run p)) (snd (run p)) (values p) used.
  Proof.
    induction 1 as [|p used s L IH R A|p used s k L IH A U].
    - apply inv_start.
    - unfold BuilderModel.run, values in *. rewrite !fold_left_app. cbn [fold_left].
      destruct (fold_left (run_step zero extra) p ([], [])) as [h bs]. cbn [fst snd] in IH.
      set (vs := fold_left vstep p []) in *. pose proof (inv_length _ _ _ _ IH) as LEN.
      destruct s as [|i m|i f j g]; cbn [run_step vstep fst snd].
      + apply inv_share; [exact IH|]. intros f. exists (length bs), f. rewrite (nth_overflow bs), (nth_overflow vs) by lia. now split.
      + destruct m as [f [|x xs]|f [|x xs]|x]; cbn [call variadic vcall].
        * cbn [go_append fst snd]. apply inv_share; [exact IH|]. intros g. exists i, g. split; [apply upd_same|reflexivity].
        * cbn [appends_to] in A. pose proof (step_append h bs vs used used i f x xs IH) as Q.
          destruct (go_append zero extra h (nth i bs no_builder f) (x :: xs)) as [h' s']. cbn [fst snd]. apply Q; auto.
          -- intros k K. congruence.
          -- apply (inv_used _ _ _ _ IH).
        * cbn [fst snd]. apply inv_share; [exact IH|]. intros g. unfold upd. destruct (field_eq_dec g f).
          -- exists (length bs), g. rewrite (nth_overflow bs), (nth_overflow vs) by lia. now split.
          -- now exists i, g.
        * cbn [alloc fst snd]. apply (inv_alloc h bs vs used used i f (x :: xs) (x :: xs)); auto; try discriminate.
          -- now rewrite firstn_all.
          -- apply (inv_used _ _ _ _ IH).
        * cbn [replaces_table] in R. pose proof (inv_shows _ _ _ _ IH i FFromTables) as (C & LL & S).
          assert (Z : snd (nth i vs no_value FFromTables) = []) by (destruct (snd (nth i vs no_value FFromTables)); [reflexivity|exfalso; apply R; discriminate]).
          rewrite Z in LL. cbn [length] in LL. rewrite LL. cbn [Nat.eqb].
          (* an empty slice: nil *)
          destruct (sl_array (nth i bs no_builder FFromTables)) as [a|] eqn:SA.
          -- exfalso. (* slices with an array are not empty *)
             lia.
          -- pose proof (step_append h bs vs used used i FFromTables x [] IH) as Q. rewrite Z in Q. cbn [app] in Q.
             destruct (go_append zero extra h (nth i bs no_builder FFromTables) [x]) as [h' s']. cbn [fst snd]. apply Q; auto.
             ++ intros k K. rewrite S in K. discriminate.
             ++ apply (inv_used _ _ _ _ IH).
      + apply inv_share; [exact IH|]. intros f'. unfold upd. destruct (field_eq_dec f' f); [now exists j, g|now exists i, f'].
    - unfold BuilderModel.run, values in *. rewrite !fold_left_app. cbn [fold_left].
      destruct (fold_left (run_step zero extra) p ([], [])) as [h bs]. cbn [fst snd] in IH.
      set (vs := fold_left vstep p []) in *.
      destruct s as [|i m|i f j g]; try discriminate. destruct m as [f [|x xs]|f xs|x]; try discriminate.
      cbn [appends_to] in A. cbn [run_step call vstep vcall].
      pose proof (step_append h bs vs used (k :: used) i f x xs IH) as Q.
      destruct (go_append zero extra h (nth i bs no_builder f) (x :: xs)) as [h' s']. cbn [fst snd]. apply Q.
      + intros k' K. assert (k' = k) by congruence. subst k'. split; [exact U|now left].
      + intros k' [<-|K]; [now apply (inv_older _ _ _ _ IH i f)|now apply (inv_used _ _ _ _ IH)].
      + intros k' K. now right.
  Qed.

  Lemma run_snoc : forall p s, run (p ++ [s]) = run_step zero extra (run p) s.
  Proof. intros p s. unfold BuilderModel.run. now rewrite fold_left_app. Qed.
  Lemma values_snoc : forall (p : list (@step E)) s, values (p ++ [s]) = vstep (values p) s.
  Proof. intros p s. unfold values. now rewrite fold_left_app. Qed.

  (** Appending to full arrays only. *)
  Definition inv2 (st : heap * list builder) (vs : list value) : Prop :=
    length (snd st) = length vs /\
    forall i f, shows (fst st) (nth i (snd st) no_builder f) (nth i vs no_value f).
  Lemma inv2_add : forall h h' bs vs (b : builder) (v : value), inv2 (h, bs) vs ->
    (forall s w, shows h s w -> shows h' s w) -> (forall f, shows h' (b f) (v f)) -> inv2 (h', bs ++ [b]) (vs ++ [v]).
  Proof.
    intros h h' bs vs b v (L & S) G N. cbn [fst snd] in *. split; cbn [fst snd]; [rewrite !app_length; cbn [length]; lia|].
    intros i f.
    destruct (nth_snoc _ bs b no_builder i) as [[L1 B]|[[L1 B]|[L1 B]]]; destruct (nth_snoc _ vs v no_value i) as [[L' V]|[[L' V]|[L' V]]]; try lia; rewrite B, V.
    - apply G, S.
    - apply N.
    - repeat split.
  Qed.
  Lemma shows_nil : forall h, shows h nil_slice (None, []).
  Proof. intros h. repeat split. Qed.
  Lemma shows_alloc : forall (h : heap) arr l k, l <> [] -> length l <= length arr -> firstn (length l) arr = l ->
    shows (h ++ [arr]) (mk_slice (Some (length h)) (length l)) (Some k, l).
  Proof.
    intros h arr l k NE LE FN. unfold shows, contents, slots. cbn [sl_array sl_len fst snd].
    rewrite app_nth2, Nat.sub_diag by lia. cbn [nth]. rewrite app_length. cbn [length].
    repeat split; auto; try lia; try discriminate. destruct l; [congruence|cbn [length]; lia].
  Qed.
  Lemma full_append : forall h s v x xs k, shows h s v -> sl_len s = length (slots h s) ->
    exists arr, go_append zero extra h s (x :: xs) = (h ++ [arr], mk_slice (Some (length h)) (length (snd v ++ x :: xs))) /\
      shows (h ++ [arr]) (mk_slice (Some (length h)) (length (snd v ++ x :: xs))) (Some k, snd v ++ x :: xs).
  Proof.
    intros h s v x xs k (C & L & A) F. unfold go_append. set (ys := x :: xs).
    assert (NE : snd v ++ ys <> []) by (intros Z; apply app_eq_nil in Z; destruct Z; discriminate).
    destruct (sl_array s) as [a|] eqn:SA.
    - rewrite <- F. assert (Q : Nat.leb (sl_len s + length ys) (sl_len s) = false) by (apply Nat.leb_gt; unfold ys; cbn [length]; lia).
      rewrite Q, C. eexists. split.
      + unfold alloc. now rewrite app_length, <- L.
      + apply shows_alloc; auto; [rewrite !app_length; lia|].
        rewrite app_assoc, firstn_app, Nat.sub_diag, firstn_all. cbn [firstn]. now rewrite app_nil_r.
    - rewrite A in *. cbn [snd app] in *. rewrite L. cbn [length Nat.add]. eexists. split; [reflexivity|].
      change (S (length xs)) with (length ys). apply shows_alloc; auto; [rewrite !app_length; lia|].
      rewrite firstn_app, Nat.sub_diag, firstn_all. cbn [firstn]. now rewrite app_nil_r.
  Qed.
  Lemma inv2_run : forall p, full zero extra p -> inv2 (run p) (values p).
  Proof.
    induction 1 as [|p s FU IH R F].
    - split; [reflexivity|]. intros i f. destruct i; repeat split.
    - rewrite run_snoc, values_snoc. destruct (run p) as [h bs]. set (vs := values p) in *. destruct IH as (L & S). cbn [fst snd] in *.
      assert (KEEP : inv2 (h, bs) vs) by now split.
      destruct s as [|i m|i f j g]; cbn [run_step vstep].
      + apply (inv2_add h); auto. intros f. apply shows_nil.
      + destruct m as [f [|x xs]|f [|x xs]|x]; cbn [call variadic vcall].
        * cbn [go_append]. apply (inv2_add h); auto. intros g. rewrite upd_same. apply S.
        * destruct (full_append h (nth i bs no_builder f) (nth i vs no_value f) x xs (length vs)) as (arr & E1 & S1); [apply S|apply F|].
          rewrite E1. apply (inv2_add h); auto; [intros; now apply shows_grow|].
          intros g. unfold upd. destruct (field_eq_dec g f); [exact S1|apply shows_grow, S].
        * apply (inv2_add h); auto. intros g. unfold upd. destruct (field_eq_dec g f); [apply shows_nil|apply S].
        * unfold alloc. apply (inv2_add h); auto; [intros; now apply shows_grow|].
          intros g. unfold upd. destruct (field_eq_dec g f); [|apply shows_grow, S].
          apply shows_alloc; [discriminate|lia|apply firstn_all].
        * cbn [replaces_table] in R. pose proof (S i FFromTables) as S0. destruct S0 as (C & LL & A).
          assert (Z : snd (nth i vs no_value FFromTables) = []) by (destruct (snd (nth i vs no_value FFromTables)); [reflexivity|exfalso; apply R; discriminate]).
          rewrite Z in LL. cbn [length] in LL. rewrite LL. cbn [Nat.eqb].
          destruct (sl_array (nth i bs no_builder FFromTables)) as [a|] eqn:SA; [exfalso; lia|].
          destruct (full_append h (nth i bs no_builder FFromTables) (nth i vs no_value FFromTables) x [] (length vs)) as (arr & E1 & S1).
          { apply S. } { unfold slots. now rewrite SA, LL. }
          rewrite E1. rewrite Z in *. cbn [app] in *. apply (inv2_add h); auto; [intros; now apply shows_grow|].
          intros g. unfold upd. destruct (field_eq_dec g FFromTables); [exact S1|apply shows_grow, S].
      + apply (inv2_add h); auto. intros f'. unfold upd. destruct (field_eq_dec f' f); apply S.
  Qed.
End Pf.

(** With no spare slots, arrays are always full. *)
Section Full.
  Context {E : Type} (zero : E).
  Definition all_full (st : @heap E * list builder) : Prop :=
    forall i f, let s := nth i (snd st) no_builder f in
      sl_len s = length (slots (fst st) s) /\ match sl_array s with Some a => a < length (fst st) | None => True end.
  Lemma all_full_add : forall (h h' : @heap E) bs (b : builder), all_full (h, bs) ->
    (forall a, a < length h -> nth a h' [] = nth a h [] /\ a < length h') ->
    (forall f, sl_len (b f) = length (slots h' (b f)) /\ match sl_array (b f) with Some a => a < length h' | None => True end) ->
    all_full (h', bs ++ [b]).
  Proof.
    intros h h' bs b F K N i f. cbn [fst snd]. destruct (nth_snoc _ bs b no_builder i) as [[L1 B]|[[L1 B]|[L1 B]]]; rewrite B.
    - destruct (F i f) as [F1 F2]. cbn [fst snd] in *. unfold slots in *. destruct (sl_array (nth i bs no_builder f)) as [a|]; [|auto].
      destruct (K a F2) as [K1 K2]. now rewrite K1.
    - apply N.
    - split; reflexivity || exact I.
  Qed.
  Lemma grow_same : forall (h : @heap E) arr a, a < length h -> nth a (h ++ [arr]) [] = nth a h [] /\ a < length (h ++ [arr]).
  Proof. intros h arr a L. rewrite app_nth1, app_length by exact L. split; [reflexivity|lia]. Qed.
  Lemma all_full_run : forall p : list (@step E), keeps_tables p ->
    full zero (fun _ _ => 0) p /\ all_full (run zero (fun _ _ => 0) p).
  Proof.
    induction 1 as [|p s K [IH1 IH2] R].
    - split; [constructor|]. intros i f. destruct i; split; reflexivity || exact I.
    - assert (P : full zero (fun _ _ => 0) (p ++ [s])).
      { constructor; auto. destruct s as [|i [f [|x xs]|f xs|x]|]; try exact I. apply IH2. }
      split; [exact P|]. pose proof (inv2_run zero (fun _ _ => 0) p IH1) as (VL & VS).
      rewrite run_snoc. destruct (run zero (fun _ _ => 0) p) as [h bs]. cbn [fst snd] in *.
      assert (SAME : forall a, a < length h -> nth a h [] = nth a h [] /\ a < length h) by auto.
      assert (OLD : forall arr i f, let s := nth i bs no_builder f in
        sl_len s = length (slots (h ++ [arr]) s) /\ match sl_array s with Some a => a < length (h ++ [arr]) | None => True end).
      { intros arr i f. destruct (IH2 i f) as [F1 F2]. cbn [fst snd] in *. unfold slots in *. destruct (sl_array (nth i bs no_builder f)) as [a|]; [|auto].
        destruct (grow_same h arr a F2) as [K1 K2]. now rewrite K1. }
      assert (NEW : forall arr n, n = length arr ->
        n = length (slots (h ++ [arr]) (mk_slice (Some (length h)) n)) /\ length h < length (h ++ [arr])).
      { intros arr n ->. unfold slots. cbn [sl_array sl_len]. rewrite app_nth2, Nat.sub_diag, app_length by lia. cbn [nth length]. split; [reflexivity|lia]. }
      assert (APP : forall i f x xs, let (h', s) := go_append zero (fun _ _ => 0) h (nth i bs no_builder f) (x :: xs) in
        all_full (h', bs ++ [upd f s (nth i bs no_builder)])).
      { intros i f x xs. destruct (IH2 i f) as [F1 F2]. cbn [fst snd] in F1.
        destruct (VS i f) as (C & L & A). unfold go_append. set (ys := x :: xs).
        destruct (sl_array (nth i bs no_builder f)) as [a|] eqn:SA.
        - rewrite <- F1. assert (Q : Nat.leb (sl_len (nth i bs no_builder f) + length ys) (sl_len (nth i bs no_builder f)) = false) by (apply Nat.leb_gt; unfold ys; cbn [length]; lia).
          rewrite Q. unfold alloc. apply (all_full_add h); auto; [intros; now apply grow_same|].
          intros g. unfold upd. destruct (field_eq_dec g f); [|apply OLD]. cbn [sl_len sl_array]. apply NEW.
          rewrite C, app_nil_r, app_length. lia.
        - unfold alloc. apply (all_full_add h); auto; [intros; now apply grow_same|].
          intros g. unfold upd. destruct (field_eq_dec g f); [|apply OLD]. cbn [sl_len sl_array]. apply NEW.
          rewrite A in L. cbn [snd length] in L. rewrite app_nil_r. lia. }
      destruct s as [|i m|i f j g]; cbn [run_step].
      + apply (all_full_add h); auto. intros f. split; reflexivity || exact I.
      + destruct m as [f [|x xs]|f [|x xs]|x]; cbn [call variadic].
        * cbn [go_append]. apply (all_full_add h); auto. intros g. rewrite upd_same. apply (IH2 i g).
        * pose proof (APP i f x xs) as Q. destruct (go_append zero (fun _ _ => 0) h (nth i bs no_builder f) (x :: xs)). exact Q.
        * apply (all_full_add h); auto. intros g. unfold upd. destruct (field_eq_dec g f); [split; reflexivity || exact I|apply (IH2 i g)].
        * unfold alloc. apply (all_full_add h); auto; [intros; now apply grow_same|].
          intros g. unfold upd. destruct (field_eq_dec g f); [|apply OLD]. cbn [sl_len sl_array]. now apply NEW.
        * cbn [replaces_table] in R. destruct (VS i FFromTables) as (C & LL & A).
          assert (Z : snd (nth i (values p) no_value FFromTables) = []) by (destruct (snd (nth i (values p) no_value FFromTables)); [reflexivity|exfalso; apply R; discriminate]).
          rewrite Z in LL. cbn [length] in LL. rewrite LL. cbn [Nat.eqb].
          pose proof (APP i FFromTables x []) as Q. destruct (go_append zero (fun _ _ => 0) h (nth i bs no_builder FFromTables) [x]). exact Q.
      + apply (all_full_add h); auto. intros f'. unfold upd. destruct (field_eq_dec f' f); [apply (IH2 j g)|apply (IH2 i f')].
  Qed.
End Full.

(** ** What a call returns *)
Section Call.
  Context {E : Type} (zero : E) (extra : nat -> nat -> nat).
  Definition wf_slice (h : @heap E) (s : slice) : Prop :=
    match sl_array s with
    | Some a => a < length h /\ sl_len s <= length (nth a h [])
    | None => sl_len s = 0
    end.
  Definition grows (h h' : @heap E) : Prop :=
    length h <= length h' /\ forall a, a < length h -> length (nth a h []) <= length (nth a h' []).
  Lemma wf_grows : forall h h' s, grows h h' -> wf_slice h s -> wf_slice h' s.
  Proof.
    intros h h' s [G1 G2] W. unfold wf_slice in *. destruct (sl_array s) as [a|]; [|exact W].
    destruct W as [W1 W2]. specialize (G2 a W1). lia.
  Qed.
  Lemma grows_alloc : forall h arr, grows h (h ++ [arr]).
  Proof. intros h arr. split; [rewrite app_length; lia|]. intros a A. now rewrite app_nth1. Qed.
  Lemma grows_set : forall h a arr, a < length h -> length (nth a h []) <= length arr -> grows h (list_set h a arr).
  Proof.
    intros h a arr A L. split; [now rewrite list_set_length|]. intros b Bl. rewrite nth_list_set by exact A.
    destruct (Nat.eqb b a) eqn:Q; [apply Nat.eqb_eq in Q; now subst|lia].
  Qed.
  Lemma alloc_contents : forall (h : @heap E) arr n l, n = length l -> (exists r, arr = l ++ r) ->
    contents (h ++ [arr]) (mk_slice (Some (length h)) n) = l /\ wf_slice (h ++ [arr]) (mk_slice (Some (length h)) n).
  Proof.
    intros h arr n l -> [r ->]. unfold contents, slots, wf_slice. cbn [sl_array sl_len].
    rewrite app_nth2, Nat.sub_diag by lia. cbn [nth]. rewrite firstn_app, Nat.sub_diag, firstn_all. cbn [firstn].
    rewrite app_nil_r, !app_length. cbn [length]. repeat split; lia.
  Qed.
  Lemma append_result : forall h s xs, wf_slice h s -> let (h', s') := go_append zero extra h s xs in
    contents h' s' = contents h s ++ xs /\ wf_slice h' s' /\ grows h h'.
  Proof.
    intros h s xs W. destruct xs as [|x xs]; cbn [go_append].
    - rewrite app_nil_r. split; [reflexivity|]. split; [exact W|]. split; auto.
    - set (ys := x :: xs). unfold wf_slice in W. destruct (sl_array s) as [a|] eqn:SA.
      + destruct W as [W1 W2]. unfold slots. rewrite SA.
        destruct (Nat.leb (sl_len s + length ys) (length (nth a h []))) eqn:LE.
        * apply Nat.leb_le in LE. unfold contents at 1, slots at 1. cbn [sl_array sl_len].
          rewrite nth_list_set, Nat.eqb_refl by exact W1. unfold contents, slots, wf_slice. rewrite SA. cbn [sl_array sl_len].
          rewrite list_set_length, nth_list_set, Nat.eqb_refl by exact W1.
          assert (FL : length (firstn (sl_len s) (nth a h [])) = sl_len s) by (rewrite firstn_length; lia).
          split.
          -- rewrite firstn_app, FL, firstn_firstn. replace (Nat.min (sl_len s + length ys) (sl_len s)) with (sl_len s) by lia.
             replace (sl_len s + length ys - sl_len s) with (length ys) by lia. rewrite firstn_app, Nat.sub_diag, firstn_all.
             cbn [firstn]. now rewrite app_nil_r.
          -- split; [split; [exact W1|]|apply grows_set; [exact W1|]]; rewrite !app_length, FL, skipn_length; lia.
        * unfold alloc, contents, slots. rewrite SA.
          assert (FL : length (firstn (sl_len s) (nth a h [])) = sl_len s) by (rewrite firstn_length; lia).
          destruct (alloc_contents h (firstn (sl_len s) (nth a h []) ++ ys ++ repeat zero (extra (length (nth a h [])) (sl_len s + length ys)))
            (sl_len s + length ys) (firstn (sl_len s) (nth a h []) ++ ys)) as [C W'].
          -- rewrite app_length, FL. reflexivity.
          -- eexists. now rewrite <- app_assoc.
          -- unfold contents, slots in C. split; [exact C|]. split; [exact W'|apply grows_alloc].
      + rewrite W. cbn [Nat.add]. unfold alloc, contents, slots. rewrite SA.
        destruct (alloc_contents h (ys ++ repeat zero (extra 0 (length ys))) (length ys) ys) as [C W']; [reflexivity|eexists; reflexivity|].
        unfold contents, slots in C. split; [rewrite W; exact C|]. split; [exact W'|apply grows_alloc].
  Qed.
  Lemma call_wf : forall h b m, (forall f, wf_slice h (b f)) -> let (h', b') := call zero extra h b m in
    contents h' (b' (changes m)) = changed m (contents h (b (changes m))) /\ (forall f, wf_slice h' (b' f)) /\ grows h h'.
  Proof.
    intros h b m W. assert (U : forall T f (v : T) (g : field -> T), upd f v g f = v).
    { intros T f v g. unfold upd. destruct (field_eq_dec f f); congruence. }
    assert (K : forall h' f s, grows h h' -> wf_slice h' s -> forall g, wf_slice h' (upd f s b g)).
    { intros h' f s G S g. unfold upd. destruct (field_eq_dec g f); [exact S|]. now apply (wf_grows h). }
    destruct m as [f xs|f xs|x]; cbn [call changes changed].
    - pose proof (append_result h (b f) xs (W f)) as A. destruct (go_append zero extra h (b f) xs) as [h' s].
      destruct A as (A1 & A2 & A3). rewrite U. split; [exact A1|]. split; [now apply K|exact A3].
    - destruct xs as [|x xs]; cbn [variadic].
      + rewrite U. assert (G : grows h h) by (split; auto). split; [reflexivity|]. split; [|exact G]. apply K; [exact G|reflexivity].
      + unfold alloc. rewrite U. destruct (alloc_contents h (x :: xs) (length (x :: xs)) (x :: xs)) as [C W']; [reflexivity|exists []; now rewrite app_nil_r|].
        split; [exact C|]. split; [|apply grows_alloc]. apply K; [apply grows_alloc|exact W'].
    - destruct (Nat.eqb (sl_len (b FFromTables)) 0) eqn:Z.
      + apply Nat.eqb_eq in Z. pose proof (append_result h (b FFromTables) [x] (W FFromTables)) as A.
        destruct (go_append zero extra h (b FFromTables) [x]) as [h' s].
        destruct A as (A1 & A2 & A3). rewrite U. unfold contents in A1 at 2. rewrite Z in A1. split; [exact A1|]. split; [now apply K|exact A3].
      + apply Nat.eqb_neq in Z. pose proof (W FFromTables) as S. unfold wf_slice in S.
        destruct (sl_array (b FFromTables)) as [a|] eqn:SA; [|congruence]. destruct S as [S1 S2]. rewrite U. unfold slots. rewrite SA.
        assert (G : grows h (list_set h a (x :: skipn 1 (nth a h [])))).
        { apply grows_set; [exact S1|]. cbn [length]. rewrite skipn_length. lia. }
        split; [|split; [|exact G]].
        * unfold contents, slots. cbn [sl_array sl_len]. rewrite nth_list_set, Nat.eqb_refl by exact S1. reflexivity.
        * apply K; [exact G|]. unfold wf_slice. cbn [sl_array sl_len]. rewrite list_set_length, nth_list_set, Nat.eqb_refl by exact S1.
          cbn [length]. split; [exact S1|lia].
  Qed.
  Lemma run_wf : forall p i f, wf_slice (fst (run zero extra p)) (nth i (snd (run zero extra p)) no_builder f).
  Proof.
    induction p as [|s p IH] using rev_ind.
    - intros i f. destruct i; reflexivity.
    - unfold run in *. rewrite fold_left_app. cbn [fold_left]. destruct (fold_left (run_step zero extra) p ([], [])) as [h bs].
      cbn [fst snd] in IH. destruct s as [|i0 m|i0 f0 j g]; cbn [run_step].
      + cbn [fst snd]. intros i f. destruct (nth_snoc _ bs no_builder no_builder i) as [[_ ->]|[[_ ->]|[_ ->]]]; [apply IH|reflexivity|reflexivity].
      + pose proof (call_wf h (nth i0 bs no_builder) m (IH i0)) as C. destruct (call zero extra h (nth i0 bs no_builder) m) as [h' b].
        destruct C as (_ & C2 & C3). cbn [fst snd]. intros i f. destruct (nth_snoc _ bs b no_builder i) as [[_ ->]|[[_ ->]|[_ ->]]].
        * now apply (wf_grows h).
        * apply C2.
        * reflexivity.
      + cbn [fst snd]. intros i f. pose proof (nth_snoc builder bs (upd f0 (nth j bs no_builder g) (nth i0 bs no_builder)) no_builder i) as X.
        unfold builder in *. destruct X as [[_ X]|[[_ X]|[_ X]]]; rewrite X.
        * apply IH.
        * unfold upd. destruct (field_eq_dec f f0); apply IH.
        * reflexivity.
  Qed.
End Call.
