(** * FormatFacts: BufferPrintf expands formats as specified *)
From Coq Require Import Lia.
From Verif Require Import GoBase GoBaseFacts QuoteModel SprintModel TokenModel EffectModel RenderModel
  NodeInd SpecSim RenderRel RenderInst ExecFacts SpecFormat.
Local Open Scope m_scope.

Definition hole_items (h : hole) : list fitem :=
  match h with
  | HBrace => [FText (B "{")]
  | _ => [FRef (reference h)]
  end.

Lemma itoa_nonempty' n : itoa n <> [].
Proof. unfold itoa. apply format_uint_nonempty. Qed.
Lemma itoa_no c n : in_range 48 57 (ord c) = false -> ~ In c (itoa n).
Proof.
  intros H I. pose proof (format_uint_digits (N.of_nat n)) as F. rewrite Forall_forall in F.
  apply F in I. congruence.
Qed.

Lemma firstn_app_len {A} (l r : list A) : firstn (length l) (l ++ r) = l.
Proof. rewrite firstn_app, Nat.sub_diag, firstn_all. cbn. now rewrite app_nil_r. Qed.
Lemma skipn_app_len {A} (l r : list A) : skipn (length l) (l ++ r) = r.
Proof. rewrite skipn_app, Nat.sub_diag, skipn_all. reflexivity. Qed.

Lemma format_items_brace fuel t rest : good_text t -> 
  format_items (S fuel) (t ++ B "{{" ++ rest) = FText t :: FText (B "{") :: format_items fuel rest.
Proof.
  intros H. cbn [format_items].
  change (B "{{" ++ rest) with ("{"%char :: "{"%char :: rest).
  rewrite index_byte_app by auto.
  rewrite nth_error_app2 by lia. replace (S (length t) - length t) with 1 by lia. cbn [nth_error].
  rewrite Ascii.eqb_refl, firstn_app_len.
  replace (length t + 2) with (length (t ++ ["{"; "{"]%char)) by (rewrite app_length; reflexivity).
  change ("{"%char :: "{"%char :: rest) with (["{"; "{"]%char ++ rest).
  now rewrite app_assoc, skipn_app_len.
Qed.
Lemma format_items_ref fuel t body rest : good_text t -> ~ In "}"%char body -> hd "a"%char body <> "{"%char ->
  format_items (S fuel) (t ++ (B "{" ++ body ++ B "}") ++ rest) = FText t :: FRef body :: format_items fuel rest.
Proof.
  intros H Hb Hh. cbn [format_items].
  change ((B "{" ++ body ++ B "}") ++ rest) with ("{"%char :: (body ++ ["}"%char]) ++ rest).
  rewrite <- (app_assoc body). cbn [app].
  rewrite index_byte_app by auto.
  rewrite nth_error_app2 by lia. replace (S (length t) - length t) with 1 by lia. cbn [nth_error].
  rewrite firstn_app_len, skipn_app_len.
  assert (E : match body ++ "}"%char :: rest with [] => None | c :: _ => Some c end =
              Some (match body with [] => "}"%char | c :: _ => c end)) by now destruct body.
  destruct body as [|c body]; cbn [app].
  - cbn [Ascii.eqb index_byte option_map]. reflexivity.
  - cbn [hd] in Hh. destruct (Ascii.eqb c "{") eqn:EC; [apply Ascii.eqb_eq in EC; contradiction|].
    set (b := c :: body) in *.
    change ("{"%char :: c :: body ++ "}"%char :: rest) with (("{"%char :: b) ++ "}"%char :: rest).
    rewrite index_byte_app.
    2: { intros [X|X]; [discriminate|now apply Hb]. }
    replace (length ("{"%char :: b) - 1) with (length b) by (cbn; lia).
    change (skipn 1 (("{"%char :: b) ++ "}"%char :: rest)) with (b ++ "}"%char :: rest).
    rewrite firstn_app_len.
    replace (S (length ("{"%char :: b))) with (length ("{"%char :: b ++ ["}"%char])) by (cbn; rewrite app_length; cbn; lia).
    replace (("{"%char :: b) ++ "}"%char :: rest) with (("{"%char :: b ++ ["}"%char]) ++ rest)
      by (cbn [app]; now rewrite <- app_assoc).
    now rewrite skipn_app_len.
Qed.
Lemma format_items_end fuel t : good_text t -> format_items fuel t = [FEnd t].
Proof.
  intros H. destruct fuel; cbn [format_items]; rewrite (proj2 (index_byte_none _ _) H); reflexivity.
Qed.

Lemma hole_text_len h : 2 <= length (hole_text h).
Proof. destruct h; unfold hole_text; [cbn; lia|..]; rewrite !app_length; change (length (B "{")) with 1; change (length (B "}")) with 1; lia. Qed.
(** What stands in good braces: no brace, and (without a modifier) no colon. *)
Lemma reference_ok h : good_hole h -> match h with HBrace | HBare _ => True | _ => ~ In "}"%char (reference h) /\ hd "a"%char (reference h) <> "{"%char /\ ~ In ":"%char (reference h) end.
Proof.
  destruct h as [| |n|name|h]; cbn [good_hole reference]; try exact (fun _ => I).
  - intros _. split; [intros []|]. split; [discriminate|intros []].
  - intros _. split; [now apply itoa_no|]. split; [|now apply itoa_no]. destruct (itoa n) eqn:E; [discriminate|]. intros X. cbn in X. subst.
    apply (itoa_no "{"%char n); auto. rewrite E. now left.
  - tauto.
Qed.
Lemma reference_bare h : good_hole h -> h <> HBrace -> ~ In "}"%char (reference h) /\ hd "a"%char (reference h) <> "{"%char.
Proof.
  intros G N. pose proof (reference_ok h G) as R. destruct h as [| |n|name|h]; try tauto. cbn [good_hole] in G.
  assert (G' : good_hole h /\ match h with HBrace | HBare _ => False | _ => True end) by (destruct h; tauto). destruct G' as (G' & K).
  pose proof (reference_ok h G') as R'. assert (R2 : ~ In "}"%char (reference h) /\ hd "a"%char (reference h) <> "{"%char) by (destruct h; tauto).
  destruct R2 as (A & C). cbn [reference]. split.
  - intros X. apply in_app_or in X. destruct X as [X|X]; [now apply A|]. cbn in X. intuition discriminate.
  - destruct (reference h); [discriminate|exact C].
Qed.

Lemma format_items_text hs fin : good_holes hs fin ->
  forall fuel, length hs <= fuel ->
  format_items fuel (format_text hs fin) = flat_map (fun th => FText (fst th) :: hole_items (snd th)) hs ++ [FEnd fin].
Proof.
  intros [H Hf]. induction H as [|[t h] hs [Ht Hh] _ IH]; intros fuel Hl.
  - now apply format_items_end.
  - cbn [length] in Hl. destruct fuel as [|fuel]; [lia|].
    unfold format_text. cbn [flat_map fst snd]. rewrite <- !app_assoc.
    fold (format_text hs fin). cbn [fst snd] in *.
    destruct h as [| |n|name|h]; [cbn [hole_text hole_items]; rewrite format_items_brace by auto; rewrite IH by lia; reflexivity|..];
      unfold hole_text, hole_items;
      (match goal with |- context [reference ?h] => destruct (reference_bare h Hh) as (A & C); [discriminate|] end);
      rewrite format_items_ref by auto; rewrite IH by lia; reflexivity.
Qed.

Lemma values_lookup_last name vals : forall i m,
  mget name (values_lookup_from i vals m) =
  match last_named name vals with Some j => Some (i + j) | None => mget name m end.
Proof.
  induction vals as [|v vals IH]; intros i m; cbn [values_lookup_from last_named]; auto.
  rewrite IH. destruct (last_named name vals) as [j|]; [f_equal; lia|].
  destruct (value_name v) as [n|]; auto. cbn. destruct (beqb name n); auto; f_equal; lia.
Qed.
Lemma last_named_lt name vals j : last_named name vals = Some j -> j < length vals.
Proof.
  revert j. induction vals as [|v vals IH]; cbn; intros j E; [discriminate|].
  destruct (last_named name vals) as [i|]; [inversion E; specialize (IH i eq_refl); lia|].
  destruct (value_name v); [|discriminate]. destruct (beqb name b); [|discriminate]. inversion E. lia.
Qed.

Lemma no_colon body : ~ In ":"%char body -> ref_name body = body /\ ref_nameonly body = LOk false.
Proof.
  intros H. unfold ref_name, ref_nameonly. now rewrite (proj2 (index_byte_none _ _) H).
Qed.

Lemma bare_colon body : ~ In ":"%char body -> ref_name (body ++ B ":nameonly") = body /\ ref_nameonly (body ++ B ":nameonly") = LOk true.
Proof.
  intros H. unfold ref_name, ref_nameonly. change (B ":nameonly") with (":"%char :: B "nameonly"). rewrite index_byte_app by auto. split; [apply firstn_app_len|].
  replace (skipn (S (length body)) (body ++ ":"%char :: B "nameonly")) with (B "nameonly"); [vm_compute; reflexivity|].
  change (":"%char :: B "nameonly") with ([":"%char] ++ B "nameonly"). rewrite app_assoc.
  replace (S (length body)) with (length (body ++ [":"%char])) by (rewrite app_length; cbn; lia). now rewrite skipn_app_len.
Qed.

Section Expand.
  Context (vals : list kid) (e : option env) (x : list bytes).
  Definition kid_print (i : nat) (name : bytes) : M :=
    match nth_error vals i with Some k => k_run k (mk_ctx None name e x) | None => crash end.

  Lemma run_items_expand hs fin : good_holes hs fin -> forall running ords,
    run_items vals e x running ords (flat_map (fun th => FText (fst th) :: hole_items (snd th)) hs ++ [FEnd fin])
    = expand kid_print (map k_node vals) running ords hs fin.
  Proof.
    intros [H Hf]. induction H as [|[t h] hs [Ht Hh] _ IH]; intros running ords; [reflexivity|].
    cbn [flat_map fst snd expand app run_items]. f_equal. cbn [snd] in Hh. rewrite map_length.
    assert (NE : forall i, i < length vals -> exists k, nth_error vals i = Some k).
    { intros i L. destruct (nth_error vals i) eqn:E; eauto. apply nth_error_None in E. lia. }
    destruct h as [| |n|name|h]; cbn [hole_items reference app run_items].
    - f_equal. apply IH.
    - destruct (no_colon []) as [-> ->]; [intros []|]. unfold resolve. cbn [is_empty]. rewrite map_length.
      destruct (Nat.leb_spec (length vals) running), (Nat.ltb_spec running (length vals)); try lia; auto.
      destruct (NE running) as [k E]; auto. unfold kid_print. rewrite E. cbn [andb].
      f_equal. apply IH.
    - destruct (no_colon (itoa n)) as [-> ->]; [now apply itoa_no|]. unfold resolve.
      rewrite atoi_itoa by auto. pose proof (itoa_nonempty' n) as NE'.
      destruct (itoa n) as [|a l] eqn:EI; [contradiction|]. cbn [is_empty]. rewrite <- EI. rewrite map_length.
      destruct (Nat.leb_spec 1 n), (Nat.leb_spec n (length vals)); cbn [andb].
      + replace ((Z.of_nat n - 1 <? 0) || (Z.of_nat (length vals) <=? Z.of_nat n - 1))%Z with false.
        2: { symmetry. apply orb_false_iff. split; [apply Z.ltb_ge|apply Z.leb_gt]; lia. }
        replace (Z.to_nat (Z.of_nat n - 1)) with (n - 1) by lia.
        destruct (NE (n - 1)) as [k E]; [lia|]. unfold kid_print. rewrite E. cbn [andb].
        f_equal. apply IH.
      + replace ((Z.of_nat n - 1 <? 0) || (Z.of_nat (length vals) <=? Z.of_nat n - 1))%Z with true; auto.
        symmetry. apply orb_true_iff. right. apply Z.leb_le. lia.
      + replace ((Z.of_nat n - 1 <? 0) || (Z.of_nat (length vals) <=? Z.of_nat n - 1))%Z with true; auto.
        symmetry. apply orb_true_iff. left. apply Z.ltb_lt. lia.
      + lia.
    - destruct Hh as (N1 & N2 & N3 & N4 & N5). destruct (no_colon name) as [-> ->]; auto. unfold resolve.
      destruct name as [|a l]; [contradiction|]. cbn [is_empty]. rewrite N5.
      unfold values_lookup. rewrite values_lookup_last. cbn [mget plus].
      destruct (last_named (a :: l) (map k_node vals)) as [j|] eqn:EL; auto.
      apply last_named_lt in EL. rewrite map_length in EL. destruct (NE j EL) as [k E]. unfold kid_print.
      rewrite E. cbn [andb]. f_equal. apply IH.
    - assert (BN : forall i k, nth_error vals i = Some k -> forall name,
        match bare_name (map k_node vals) i with Some n => emit n | None => kid_print i name end =
        (if true && is_field_or_table (k_node k) then emit (get_name (k_node k)) else k_run k (mk_ctx None name e x))).
      { intros i k E name. unfold bare_name, kid_print. rewrite nth_error_map, E. cbn [option_map andb]. now destruct (is_field_or_table (k_node k)). }
      cbn [good_hole] in Hh. destruct h as [| |n|name|h]; try contradiction; cbn [reference].
      + destruct (bare_colon []) as [-> ->]; [intros []|]. unfold resolve. cbn [is_empty]. rewrite map_length.
        destruct (Nat.leb_spec (length vals) running), (Nat.ltb_spec running (length vals)); try lia; auto.
        destruct (NE running) as [k E]; auto. rewrite (BN _ _ E), E. f_equal. apply IH.
      + destruct (bare_colon (itoa n)) as [-> ->]; [now apply itoa_no|]. unfold resolve. cbn [good_hole] in Hh.
        rewrite atoi_itoa by auto. pose proof (itoa_nonempty' n) as NE'.
        destruct (itoa n) as [|a l] eqn:EI; [contradiction|]. cbn [is_empty]. rewrite <- EI. rewrite map_length.
        destruct (Nat.leb_spec 1 n), (Nat.leb_spec n (length vals)); cbn [andb].
        * replace ((Z.of_nat n - 1 <? 0) || (Z.of_nat (length vals) <=? Z.of_nat n - 1))%Z with false.
          2: { symmetry. apply orb_false_iff. split; [apply Z.ltb_ge|apply Z.leb_gt]; lia. }
          replace (Z.to_nat (Z.of_nat n - 1)) with (n - 1) by lia.
          destruct (NE (n - 1)) as [k E]; [lia|]. rewrite (BN _ _ E), E. f_equal. apply IH.
        * replace ((Z.of_nat n - 1 <? 0) || (Z.of_nat (length vals) <=? Z.of_nat n - 1))%Z with true; auto.
          symmetry. apply orb_true_iff. right. apply Z.leb_le. lia.
        * replace ((Z.of_nat n - 1 <? 0) || (Z.of_nat (length vals) <=? Z.of_nat n - 1))%Z with true; auto.
          symmetry. apply orb_true_iff. left. apply Z.ltb_lt. lia.
        * lia.
      + destruct Hh as (N1 & N2 & N3 & N4 & N5). destruct (bare_colon name) as [-> ->]; auto. unfold resolve.
        destruct name as [|a l]; [contradiction|]. cbn [is_empty]. rewrite N5.
        unfold values_lookup. rewrite values_lookup_last. cbn [mget plus].
        destruct (last_named (a :: l) (map k_node vals)) as [j|] eqn:EL; auto.
        apply last_named_lt in EL. rewrite map_length in EL. destruct (NE j EL) as [k E]. rewrite (BN _ _ E), E. f_equal. apply IH.
  Qed.

  Lemma format_text_len hs fin : length hs <= length (format_text hs fin).
  Proof.
    unfold format_text. induction hs as [|[t h] hs IH]; cbn [flat_map length fst snd]; [lia|].
    rewrite !app_length in *. pose proof (hole_text_len h). lia.
  Qed.
  Lemma bufprintf_expand hs fin : good_holes hs fin ->
    bufprintf vals e x (format_text hs fin) = expand kid_print (map k_node vals) 0 [] hs fin.
  Proof.
    intros H. unfold bufprintf. rewrite format_items_text by (auto using format_text_len).
    now apply run_items_expand.
  Qed.
End Expand.

Lemma seq_not_ok m k : snd k <> SOk -> snd (m ;; k) <> SOk.
Proof. intros H. unfold seq. destruct (snd m) eqn:E; cbn; congruence. Qed.
Lemma seq_not_ok_l m k : snd m <> SOk -> snd (m ;; k) <> SOk.
Proof. intros H. unfold seq. destruct (snd m) eqn:E; cbn; congruence. Qed.

Lemma last_named_none name vals : (forall v, In v vals -> value_name v <> Some name) -> last_named name vals = None.
Proof.
  induction vals as [|v vals IH]; intros H; cbn; auto. rewrite IH by (intros w I; apply H; now right).
  destruct (value_name v) as [n|] eqn:E; auto. destruct (beqb name n) eqn:EB; auto.
  apply beqb_eq in EB. subst. exfalso. now apply (H v (or_introl eq_refl)).
Qed.
Lemma expand_missing print vals h1 t h h2 fin : forall next ords,
  no_value vals (next + nexts h1) h -> snd (expand print vals next ords (h1 ++ (t, h) :: h2) fin) <> SOk.
Proof.
  induction h1 as [|[t1 k] h1 IH]; intros next ords HV; cbn [app expand].
  - apply seq_not_ok. unfold nexts in HV. cbn in HV. rewrite Nat.add_0_r in HV.
    assert (HV' : match h with HBare h' => no_value vals next h' | _ => no_value vals next h end) by (destruct h; exact HV).
    destruct h as [| |n|name|h]; [| | | |destruct h as [| |n|name|h]]; try discriminate; cbn [no_value] in HV.
    + contradiction.
    + destruct (Nat.ltb_spec next (length vals)); [lia|]. discriminate.
    + destruct (Nat.leb_spec 1 n), (Nat.leb_spec n (length vals)); cbn; try lia; discriminate.
    + rewrite last_named_none by auto. discriminate.
    + destruct (Nat.ltb_spec next (length vals)); [lia|]. discriminate.
    + destruct (Nat.leb_spec 1 n), (Nat.leb_spec n (length vals)); cbn; try lia; discriminate.
    + rewrite last_named_none by auto. discriminate.
  - apply seq_not_ok. unfold nexts in *. cbn [filter] in HV.
    destruct k as [| |n|name|k]; [| | | |destruct k as [| |n|name|k]; try discriminate]; unfold is_next at 1 in HV; cbn [snd length] in HV;
      try rewrite Nat.add_succ_r in HV.
    + apply seq_not_ok. apply IH. exact HV.
    + destruct (next <? length vals); [|discriminate]. apply seq_not_ok. apply IH. exact HV.
    + destruct (_ && _); [|discriminate]. apply seq_not_ok. apply IH. exact HV.
    + destruct (last_named name vals); [|discriminate]. apply seq_not_ok. apply IH. exact HV.
    + destruct (next <? length vals); [|discriminate]. apply seq_not_ok. apply IH. exact HV.
    + destruct (_ && _); [|discriminate]. apply seq_not_ok. apply IH. exact HV.
    + destruct (last_named name vals); [|discriminate]. apply seq_not_ok. apply IH. exact HV.
Qed.

(** Formats of this form never make BufferPrintf panic. *)
Lemma good_format_safe hs fin : good_holes hs fin -> fmt_safe (format_text hs fin).
Proof.
  intros H. unfold fmt_safe. rewrite format_items_text by (auto using format_text_len).
  destruct H as [H Hf]. apply Forall_app. split; [|repeat constructor].
  induction H as [|[t h] hs [Ht Hh] _ IH]; cbn [flat_map fst snd]; [constructor|].
  constructor; [exact I|]. apply Forall_app. split; auto.
  destruct h as [| |n|name|h]; cbn [hole_items reference snd good_hole] in *; constructor; auto; cbn [item_safe].
  - destruct (no_colon (itoa n)) as [_ ->]; [now apply itoa_no|]. exact I.
  - destruct (no_colon name) as [_ ->]; [tauto|]. exact I.
  - destruct h as [| |n|name|h]; try contradiction; cbn [reference good_hole] in *.
    + exact I.
    + destruct (bare_colon (itoa n)) as [_ ->]; [now apply itoa_no|]. exact I.
    + destruct (bare_colon name) as [_ ->]; [tauto|]. exact I.
Qed.
