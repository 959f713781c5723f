(** * Row accessors: C72 *)
From Coq Require Import Lia.
From Verif Require Import GoBase QuoteModel SprintModel TokenModel EffectModel RenderModel BuildModel FetchModel
  SpecFetch FetchPf PropertiesClauses PropertiesFetch RowModel SpecRow.

Lemma part_means a c v : scanned (dest_kind a) c = Some v -> part a v = means a c.
Proof.
  destruct a; destruct c; cbn [dest_kind scanned]; intros E; try discriminate;
    try match type of E with (if ?b then _ else _) = _ => destruct b; [|discriminate] end; injection E as <-; reflexivity.
Qed.
Lemma json_bytes c v : scanned KBytes c = Some v -> v = GBytes (as_bytes c).
Proof. destruct c; cbn; intros E; try discriminate; now injection E as <-. Qed.

(** In the passive phase the accessors register their columns. *)
Lemma accesses_passive {A} js : forall (l : list (accessor * node)) got (k : list result -> prog A) r h, r_active r = false ->
  exists rs ds, run (accesses js l got k) r h
  = run (k (got ++ rs)) (mk_row false (r_index r) (r_cols r ++ map (fun af => (dest_kind (fst af), snd af)) l)
      (r_dest r ++ ds) (r_err r) (r_processed r) (r_closed r)) h.
Proof.
  induction l as [|[a f] l IH]; intros got k r h Ac.
  - exists [], []. cbn [accesses map]. rewrite !app_nil_r. destruct r; cbn in Ac |- *. now subst.
  - cbn [accesses access run]. rewrite Ac. cbn [negb].
    match goal with |- context [run (accesses js l (got ++ [?x]) k) ?r1 h] =>
      destruct (IH (got ++ [x]) k r1 h eq_refl) as (rs & ds & E) end.
    eexists. eexists. rewrite E. cbn [r_index r_cols r_dest r_err r_processed r_closed map].
    rewrite <- !app_assoc. reflexivity.
Qed.

(** In the active phase each gets its column. *)
Lemma accesses_active {A} js : forall (l : list (accessor * node)) cells vs got (k : list result -> prog A) h pre_c pre_v post_c post_v,
  row_of cells (map (fun af => dest_kind (fst af)) l) vs -> length pre_v = length pre_c ->
  (forall f c, In ((AJSON, f), c) (combine l cells) -> js (as_bytes c) = None) ->
  let cols := map (fun af => (dest_kind (fst af), snd af)) l in
  run (accesses js l got k) (mk_row true (length pre_c) (pre_c ++ cols ++ post_c) (pre_v ++ vs ++ post_v) None false false) h
  = run (k (got ++ map (fun ac => means (fst (fst ac)) (snd ac)) (combine l cells)))
      (mk_row true (length pre_c + length l) (pre_c ++ cols ++ post_c) (pre_v ++ vs ++ post_v) None false false) h.
Proof.
  induction l as [|[a f] l IH]; intros cells vs got k h pre_c pre_v post_c post_v [R L] Lp J cols.
  - destruct cells; [|discriminate]. cbn [accesses combine map length]. rewrite (app_nil_r got), Nat.add_0_r. reflexivity.
  - destruct cells as [|c cells]; [discriminate|]. cbn [map combine] in R. inversion R as [|x v y vs' Sc R']; subst x y vs.
    cbn [fst snd] in Sc. cbn [length] in L. injection L as L.
    assert (G : exists k', run (accesses js ((a, f) :: l) got k)
        (mk_row true (length pre_c) (pre_c ++ cols ++ post_c) (pre_v ++ (v :: vs') ++ post_v) None false false) h
      = run (accesses js l (got ++ [k']) k) (mk_row true (S (length pre_c)) (pre_c ++ cols ++ post_c) (pre_v ++ (v :: vs') ++ post_v) None false false) h
      /\ k' = means a c).
    { exists (part a v). split; [|now apply part_means]. cbn [accesses access run r_active negb r_cols r_dest r_index].
      unfold cols. cbn [map fst snd app]. rewrite nth_error_mid. rewrite <- Lp, nth_error_mid, Lp.
      rewrite kind_eqb_refl. cbn [r_err r_processed r_closed].
      destruct a; try reflexivity. cbn [dest_kind] in Sc. rewrite (json_bytes c v Sc).
      rewrite (J f c) by (now left). reflexivity. }
    destruct G as (k' & -> & ->).
    specialize (IH cells vs' (got ++ [means a c]) k h (pre_c ++ [(dest_kind a, f)]) (pre_v ++ [v]) post_c post_v).
    rewrite !app_length in IH. cbn [length] in IH. rewrite !Nat.add_1_r in IH. rewrite <- !app_assoc in IH. cbn [app] in IH.
    unfold cols. cbn [map fst snd app]. rewrite IH.
    + cbn [combine map fst snd length]. rewrite ?(Nat.add_succ_r (length pre_c) (length l)), ?Nat.add_succ_l.
      rewrite <- ?app_assoc. cbn [app]. reflexivity.
    + split; [exact R'|exact L].
    + lia.
    + intros g c' I. apply (J g c'). now right.
Qed.
Lemma accesses_app {A} js : forall (l1 l2 : list (accessor * node)) got (k : list result -> prog A) r h,
  run (accesses js (l1 ++ l2) got k) r h = run (accesses js l1 got (fun rs => accesses js l2 rs k)) r h.
Proof.
  induction l1 as [|[a f] l1 IH]; intros; [reflexivity|]. cbn [app accesses access run].
  destruct (r_active r); cbn [negb].
  - destruct (nth_error (r_cols r) (r_index r)) as [[k0 n0]|]; [|reflexivity].
    destruct (nth_error (r_dest r) (r_index r)); [|reflexivity].
    match goal with |- context [if ?b then _ else _] => destruct b end; [|reflexivity].
    destruct a; try apply IH. destruct g as [|?|bs|?|?|?|?|?|? ?|? ?|? ?|? ?|? ?|? ?|?|?|?| | |?]; try apply IH. destruct (js bs); [reflexivity|apply IH].
  - apply IH.
Qed.

Lemma row_length cells kinds vs : row_of cells kinds vs -> length vs = length kinds.
Proof.
  intros [R L]. assert (E : length (combine kinds cells) = length vs) by (induction R; cbn [length]; congruence).
  rewrite <- E, combine_length. lia.
Qed.
Lemma scan_row cols cells vs (d : dbrow) : d (map fst cols) = inr vs -> row_of cells (map fst cols) vs -> scan d cols = inr vs.
Proof.
  intros E R. unfold scan. rewrite E. apply row_length in R. rewrite map_length in R. now rewrite R, Nat.eqb_refl.
Qed.

Section Typed.
  Context {A : Type} (js : bytes -> option nat) (m : typed_mapping A).
  Lemma asked_kinds : map fst (asked m) = map (fun af => dest_kind (fst af)) (tm_calls m).
  Proof. unfold asked. rewrite map_map. reflexivity. Qed.
  Lemma run_typed h0 h cells vs : row_of cells (map fst (asked m)) vs -> json_fine js m cells ->
    run (typed_mapper js m h0) (fresh_row (asked m) vs) h =
    (XDone None,
     mk_row true (length (tm_calls m)) (asked m) vs
       (match snd (tm_body m h0 (row_means m cells)) with Fail e => Some e | _ => None end) true
       (match snd (tm_body m h0 (row_means m cells)) with Stop => true | _ => false end),
     h ++ fst (tm_body m h0 (row_means m cells))).
  Proof.
    intros R J. rewrite asked_kinds in R. unfold typed_mapper, fresh_row.
    pose proof (accesses_active js (tm_calls m) cells vs []
      (fun rs => PProcess true (body_prog (tm_body m h0 rs)) (fun _ => PEnd None)) h [] [] [] [] R eq_refl J) as E.
    cbn [app length Nat.add] in E. rewrite !app_nil_r in E. fold (asked m) in E. fold (row_means m cells) in E.
    refine (eq_trans E _). cbn -[body_prog row_means asked].
    unfold body_prog. rewrite run_acts. destruct (snd (tm_body m h0 (row_means m cells))); reflexivity.
  Qed.
  Lemma run_typed_passive h0 h :
    exists r, run (typed_mapper js m h0) row_new h = (XDone None, r, h) /\ r_cols r = asked m /\ r_closed r = false.
  Proof.
    unfold typed_mapper.
    destruct (accesses_passive js (tm_calls m) [] (fun rs => PProcess true (body_prog (tm_body m h0 rs)) (fun _ => PEnd None))
      row_new h eq_refl) as (rs & ds & E). rewrite E. cbn. eexists. split; [reflexivity|]. now split.
  Qed.
  Lemma typed_visits dl : forall rows cells h, 
    Forall2 (fun (d : dbrow) cs => exists vs, d (map fst (asked m)) = inr vs /\ row_of cs (map fst (asked m)) vs /\ json_fine js m cs) rows cells ->
    typed_continue m h cells ->
    forall rest n o h2, visits dl (typed_mapper js m) (asked m) rest (typed_after m h cells) n o h2 ->
    visits dl (typed_mapper js m) (asked m) (rows ++ rest) h (length rows + n) o h2.
  Proof.
    induction rows as [|d rows IH]; intros cells h F Co rest n o h2 V; inversion F as [|? cs ? cells' (vs & D & R & J) F']; subst.
    - exact V.
    - cbn [typed_continue] in Co. destruct Co as [C1 C2]. cbn [app length Nat.add].
      eapply V_next; [eapply scan_row; eauto|apply run_typed; eauto| | |].
      + cbn [r_err]. now rewrite C1.
      + cbn [r_closed]. now rewrite C1.
      + eapply IH; eauto.
  Qed.
End Typed.

(** For every row, in order, the mapper's work gets what its accessors mean for
    the cells of the row. *)
Theorem typed_rows : forall (A : Type) (js : bytes -> option nat) (ctx : nat) (db : database) (q q1 : node) (m : typed_mapping A)
    (h : list A) (rows : list dbrow) (cells : list (list cell)) (close iter : option nat),
  tm_calls m <> [] -> set_fetchable q (map snd (tm_calls m)) = Some q1 ->
  let out := to_sql (get_dialect q) q1 in
  BuildModel.r_status out = SOk ->
  db (ctx, r_query out, r_args out) = QRows rows close iter ->
  Forall2 (fun (d : dbrow) cs => exists vs, d (map fst (asked m)) = inr vs /\ row_of cs (map fst (asked m)) vs /\ json_fine js m cs) rows cells ->
  typed_continue m h cells ->
  fetch ctx (Some db) (Some q) (Some (typed_mapper js m)) h
  = mk_fetched (length rows) (reported Finished close iter) false (typed_after m h cells) (Some (ctx, r_query out, r_args out)).
Proof.
  intros A js ctx db q q1 m h rows cells close iter Nn Sf out St Q F Co.
  destruct (run_typed_passive js m h h) as (r & Er & Hc & Hcl).
  assert (Sf' : set_fetchable q (map snd (r_cols r)) = Some q1).
  { rewrite Hc. unfold asked. rewrite map_map. exact Sf. }
  assert (Cn : r_cols r <> []).
  { rewrite Hc. unfold asked. destruct (tm_calls m); [congruence|discriminate]. }
  destruct (fetch_visits_pf ctx db q (typed_mapper js m) h _ r h q1 Er Hcl Cn Sf' St rows close iter Q) as (n & o & h2 & V & Fe).
  assert (V' : visits (dialect_of (get_dialect q)) (typed_mapper js m) (asked m) rows h (length rows) Finished (typed_after m h cells)).
  { rewrite <- (app_nil_r rows) at 1. rewrite <- (Nat.add_0_r (length rows)). eapply typed_visits; eauto. constructor. }
  rewrite Hc in V. destruct (visits_fun _ _ _ _ _ _ _ _ V _ _ _ V') as (E1 & E2 & E3); subst n o h2. exact Fe.
Qed.
Print Assumptions typed_rows.

(** Scan accepts a cell in the destination of an accessor exactly if the cell
    fits the type of the accessor; 32-bit integers must fit in 32 bits. *)
Theorem accessor_fits : forall a c, scanned (dest_kind a) c <> None <-> fits a c.
Proof.
  intros a c. destruct a; destruct c; cbn [dest_kind scanned fits]; try (split; [intros H; try exact I; now apply H|intros H; try discriminate; contradiction]);
    destruct (Z.leb_spec (- 2 ^ 31) z); destruct (Z.ltb_spec z (2 ^ 31)); cbn [andb]; (split; [intros X; try lia; now elim X|intros X; try discriminate; lia]).
Qed.
Print Assumptions accessor_fits.
Example fits_ex : fits AIntoInt32 (CInt 7) /\ ~ fits AIntoInt32 (CInt (2 ^ 31)) /\ fits AIntoInt64 (CInt (2 ^ 31)) /\ ~ fits ABool (CInt 1).
Proof. cbn. repeat split; try lia; tauto. Qed.
(** While the fields are collected, a variable given to an accessor is left
    alone; the others give the value they give for NULL. *)
Theorem passive_accessor : forall (A : Type) (js : bytes -> option nat) a f (k : result -> prog A) r h, r_active r = false ->
  exists r', run (access js a f k) r h = run (k (if has_variable a then RNothing else means a CNull)) r' h /\
    r_active r' = false /\ map snd (r_cols r') = map snd (r_cols r) ++ [f].
Proof.
  intros A js a f k r h Ac. cbn [access run]. rewrite Ac. cbn [negb]. eexists. split; [destruct a; reflexivity|].
  split; [reflexivity|]. cbn [r_cols]. now rewrite map_app.
Qed.
Print Assumptions passive_accessor.

(** A row whose JSON document is not accepted: Fetch returns the error, and the
    rows before it have been mapped. *)
Theorem bad_json_reported : forall (A : Type) (js : bytes -> option nat) (ctx : nat) (db : database) (q q1 : node) (m : typed_mapping A)
    (h : list A) (rows : list dbrow) (cells : list (list cell)) (close iter : option nat)
    (d : dbrow) (rest : list dbrow) (l1 l2 : list (accessor * node)) (f : node) (c1 c2 : list cell) (c : cell) (vs : list gval) (e : nat),
  tm_calls m = l1 ++ (AJSON, f) :: l2 -> set_fetchable q (map snd (tm_calls m)) = Some q1 ->
  let out := to_sql (get_dialect q) q1 in
  BuildModel.r_status out = SOk ->
  db (ctx, r_query out, r_args out) = QRows (rows ++ d :: rest) close iter ->
  Forall2 (fun (d : dbrow) cs => exists vs, d (map fst (asked m)) = inr vs /\ row_of cs (map fst (asked m)) vs /\ json_fine js m cs) rows cells ->
  typed_continue m h cells ->
  d (map fst (asked m)) = inr vs -> row_of (c1 ++ c :: c2) (map fst (asked m)) vs -> length c1 = length l1 ->
  (forall g c', In ((AJSON, g), c') (combine l1 c1) -> js (as_bytes c') = None) ->
  js (as_bytes c) = Some e ->
  fetch ctx (Some db) (Some q) (Some (typed_mapper js m)) h
  = mk_fetched (S (length rows)) (Some (EUser e)) false (typed_after m h cells) (Some (ctx, r_query out, r_args out)).
Proof.
  intros A js ctx db q q1 m h rows cells close iter d rest l1 l2 f c1 c2 c vs e Ca Sf out St Q F Co D R L1 J1 Bad.
  destruct (run_typed_passive js m h h) as (r & Er & Hc & Hcl).
  assert (Sf' : set_fetchable q (map snd (r_cols r)) = Some q1).
  { rewrite Hc. unfold asked. rewrite map_map. exact Sf. }
  assert (Cn : r_cols r <> []).
  { rewrite Hc. unfold asked. rewrite Ca. destruct l1; discriminate. }
  destruct (fetch_visits_pf ctx db q (typed_mapper js m) h _ r h q1 Er Hcl Cn Sf' St (rows ++ d :: rest) close iter Q) as (n & o & h2 & V & Fe).
  assert (B1 : exists r1 h1, run (typed_mapper js m (typed_after m h cells)) (fresh_row (asked m) vs) (typed_after m h cells)
     = (XErr (EUser e), r1, h1) /\ h1 = typed_after m h cells).
  { destruct R as [R Lk]. rewrite asked_kinds in R, Lk. rewrite Ca, map_app in R, Lk. cbn [map fst] in R, Lk.
    assert (Cb : combine (map (fun af : accessor * node => dest_kind (fst af)) l1 ++ KBytes :: map (fun af => dest_kind (fst af)) l2) (c1 ++ c :: c2)
      = combine (map (fun af => dest_kind (fst af)) l1) c1 ++ (KBytes, c) :: combine (map (fun af => dest_kind (fst af)) l2) c2).
    { clear -L1. revert l1 L1. induction c1 as [|x c1 IH]; intros [|y l1] L1; try discriminate; [reflexivity|].
      cbn. f_equal. apply IH. now injection L1. }
    cbn [dest_kind] in R. rewrite Cb in R. apply Forall2_app_inv_l in R. destruct R as (v1 & v2 & R1 & R2 & ->).
    inversion R2 as [|? v ? v2' Sc R2']; subst. cbn [fst snd] in Sc. rewrite (json_bytes c v Sc) in *.
    assert (Rl : row_of c1 (map (fun af => dest_kind (fst af)) l1) v1).
    { split; [exact R1|]. now rewrite map_length. }
    assert (Lv : length v1 = length l1) by (rewrite (row_length _ _ _ Rl); apply map_length).
    eexists. eexists. split; [|reflexivity]. unfold typed_mapper, fresh_row. rewrite Ca. rewrite accesses_app.
    unfold asked. rewrite Ca, map_app.
    match goal with |- run (accesses js l1 [] ?k) _ ?hh = _ =>
      pose proof (accesses_active js l1 c1 v1 [] k hh [] [] (map (fun af => (dest_kind (fst af), snd af)) ((AJSON, f) :: l2)) (GBytes (as_bytes c) :: v2') Rl eq_refl J1) as E end.
    cbn [app length Nat.add] in E. refine (eq_trans E _). clear E.
    cbn [accesses access run r_active negb r_cols r_dest r_index map fst snd dest_kind].
    rewrite <- (map_length (fun af : accessor * node => (dest_kind (fst af), snd af)) l1) at 1.
    rewrite nth_error_mid. rewrite <- Lv. rewrite nth_error_mid. cbn [kind_eqb]. rewrite Bad. reflexivity. }
  destruct B1 as (r1 & h1 & B1 & ->).
  assert (V' : visits (dialect_of (get_dialect q)) (typed_mapper js m) (asked m) (rows ++ d :: rest) h (length rows + 1) (Failed (EUser e)) (typed_after m h cells)).
  { eapply typed_visits; eauto. eapply V_err; [eapply scan_row; eauto|exact B1]. }
  rewrite Hc in V. destruct (visits_fun _ _ _ _ _ _ _ _ V _ _ _ V') as (E1 & E2 & E3); subst n o h2. rewrite Nat.add_1_r in Fe. exact Fe.
Qed.
Print Assumptions bad_json_reported.

(** Example: an id, whether the name is there, and a JSON document; the mapper
    keeps the id of the rows with a name. *)
Definition ex_typed : typed_mapping Z :=
  mk_typed [(AInt, fld (B "t") (B "a")); (AStringValid, fld (B "t") (B "b")); (AJSON, fld (B "t") (B "c"))]
    (fun h rs => match rs with
                 | [RInt z; RBool true; RJSON _] => ([z], Continue)
                 | _ => ([], Continue)
                 end).
Definition ex_json (d : bytes) : option nat := if beqb d [] then Some 6 else None.
Definition ex_tdb (rows : list dbrow) : database :=
  fun req => match req with (0, sql, []) => if beqb sql (B "SELECT t.a, t.b, t.c FROM t") then QRows rows None None else QFail 1
                       | _ => QFail 2 end.
Definition ex_trow (id name doc : cell) : dbrow := fun ks =>
  match scanned (nth 0 ks KBool) id, scanned (nth 1 ks KBool) name, scanned (nth 2 ks KBool) doc with
  | Some a, Some b, Some c => inr [a; b; c]
  | _, _, _ => inl 5
  end.
Definition ex_tsent : request := (0, B "SELECT t.a, t.b, t.c FROM t", []).
Definition ex_cells : list (list cell) :=
  [[CInt 1; CString (B "x"); CBytes (B "{}")]; [CInt 2; CNull; CBytes (B "{}")]; [CNull; CString (B "y"); CBytes (B "{}")]].
Example typed_example :
  fetch 0 (Some (ex_tdb (map (fun cs => ex_trow (nth 0 cs CNull) (nth 1 cs CNull) (nth 2 cs CNull)) ex_cells))) (Some ex_query)
    (Some (typed_mapper ex_json ex_typed)) []
  = mk_fetched 3 None false [1; 0]%Z (Some ex_tsent).
Proof. vm_compute. reflexivity. Qed.
Example typed_hypotheses :
  Forall2 (fun (d : dbrow) cs => exists vs, d (map fst (asked ex_typed)) = inr vs /\ row_of cs (map fst (asked ex_typed)) vs /\ json_fine ex_json ex_typed cs)
    (map (fun cs => ex_trow (nth 0 cs CNull) (nth 1 cs CNull) (nth 2 cs CNull)) ex_cells) ex_cells /\
  typed_continue ex_typed [] ex_cells.
Proof.
  split.
  - unfold ex_cells. cbn [map].
    repeat (apply Forall2_cons; [eexists; split; [reflexivity|split; [split; [repeat constructor|reflexivity]|]];
      intros f c I; cbn in I; destruct I as [E|[E|[E|[]]]]; try discriminate E; injection E as <- <-; reflexivity|]).
    apply Forall2_nil.
  - vm_compute. repeat split.
Qed.

(** ScanJSON of a NULL column is not a no-op: it fails the whole Fetch (the
    empty document is not valid JSON). *)
Theorem null_json_fails_refuted :
  fetch 0 (Some (ex_tdb [ex_trow (CInt 1) (CString (B "x")) CNull])) (Some ex_query) (Some (typed_mapper ex_json ex_typed)) []
  = mk_fetched 1 (Some (EUser 6)) false [] (Some ex_tsent).
Proof. vm_compute. reflexivity. Qed.
Print Assumptions null_json_fails_refuted.
