(** * DdlIndex: indexes read back *)
From Coq Require Import Lia.
From Verif Require Import GoBase GoBaseFacts QuoteModel SpecLex SpecIdent SpecSql EffectModel SpecText QuoteFacts QuotePf SqlFacts
  CacheModel UpsertModel DdlModel SpecDdl DdlToks DdlRead DdlConstraint.
Local Open Scope m_scope.

(** ** Which commands have a text *)
Definition succ (m : M) : Prop := exists s, text_of m = Some s.
Lemma texts_app_some : forall a b x y, texts a = Some x -> texts b = Some y -> exists z, texts (a ++ b) = Some z.
Proof.
  induction a as [|c a IH]; intros b x y X Y; cbn [app texts] in *; [now exists y|].
  destruct c; try discriminate. destruct (texts a) as [t|] eqn:E; [|discriminate]. destruct (IH b t y eq_refl Y) as [z Z]. rewrite Z. eexists. reflexivity.
Qed.
Lemma succ_seq : forall m k, succ (m ;; k) <-> succ m /\ succ k.
Proof.
  intros m k. split.
  - intros [s H]. apply text_seq in H. destruct H as (x & y & X & Y & _). split; eexists; eassumption.
  - intros [[x X] [y Y]]. destruct m as [ca sa], k as [cb sb]. unfold text_of, succ, seq in *. cbn [fst snd] in *.
    destruct sa; try discriminate. destruct sb; try discriminate. cbn [fst snd]. eapply texts_app_some; eassumption.
Qed.
Lemma succ_emit : forall b, succ (emit b) <-> True.
Proof. intros b. split; [tauto|]. intros _. unfold succ, text_of, emit. cbn. eexists. reflexivity. Qed.
Lemma succ_ret : succ ret <-> True.
Proof. split; [tauto|]. intros _. now exists []. Qed.
Lemma succ_fail : succ fail <-> False.
Proof. split; [intros [s H]; discriminate|tauto]. Qed.
Lemma succ_crash : succ crash <-> False.
Proof. split; [intros [s H]; discriminate|tauto]. Qed.
Lemma succ_when : forall b m, succ (when b m) <-> (b = true -> succ m).
Proof. intros [|] m; cbn [when]; [tauto|]. rewrite succ_ret. split; [discriminate|tauto]. Qed.
Lemma succ_if : forall (b : bool) m k, succ (if b then m else k) <-> (b = true -> succ m) /\ (b = false -> succ k).
Proof. intros [|] m k; split; intros H; try (split; [auto|discriminate]); try (split; [discriminate|auto]); destruct H; auto. Qed.
Lemma succ_seqs : forall ms, succ (seqs ms) <-> Forall succ ms.
Proof.
  induction ms as [|m ms IH]; cbn [seqs]; [rewrite succ_ret; split; auto|]. rewrite succ_seq, IH. split; [intros [A B0]; now constructor|intros H; now inversion H].
Qed.
Lemma succ_elements : forall ms b, succ (elements_from b ms) <-> Forall succ ms.
Proof.
  induction ms as [|m ms IH]; intros b; cbn [elements_from]; [rewrite succ_ret; split; auto|]. rewrite !succ_seq, IH, succ_emit.
  split; [intros (_ & A & B0); now constructor|intros H; inversion H; auto].
Qed.
Lemma succ_sep_by : forall sep ms, succ (sep_by sep ms) <-> Forall succ ms.
Proof.
  intros sep [|m ms]; cbn [sep_by]; [rewrite succ_ret; split; auto|]. rewrite succ_seq, succ_seqs. split.
  - intros [A B0]. constructor; [exact A|]. rewrite Forall_map in B0. eapply Forall_impl; [|exact B0]. intros x H. cbn beta in H. now apply succ_seq in H.
  - intros H. inversion H; subst. split; [assumption|]. rewrite Forall_map. eapply Forall_impl; [|eassumption]. intros x X. cbn beta. apply succ_seq. split; [now apply succ_emit|exact X].
Qed.
#[global] Hint Rewrite succ_seq succ_emit succ_ret succ_fail succ_crash succ_when succ_if : succ.

(** ** Names *)
Lemma name_token_tok : forall d n, name_token n = name_tok d n.
Proof. intros d n. unfold name_token, name_tok. rewrite needs_quoting_is_bare. now destruct (is_bare n). Qed.
Definition qual_toks (d : dialect) (s n : bytes) : list tok := (if is_empty s then [] else [name_tok d s; dot]) ++ [name_tok d n].
Lemma toks_qualified : forall d s n, good_name d s -> good_name d n -> tokens d (qualified d s n) = Some (qual_toks d s n).
Proof.
  intros d s n S N. unfold qualified, qual_toks. destruct (is_empty s); [now apply toks_name|].
  apply pre_toks; [|now apply toks_name]. apply (pre_lit d _ [name_tok d s] "."%char [dot]); [now apply toks_name|reflexivity|]. apply pre_sym. cbn; tauto.
Qed.
Lemma read_qual_toks : forall d s n r, match r with t :: _ => sym "." t = false | [] => True end ->
  read_qualified (qual_toks d s n ++ r) = Some (s, n, r).
Proof.
  intros d s n r H. unfold qual_toks, read_qualified. destruct s as [|a s]; cbn [is_empty app].
  - rewrite read_name_tok. destruct r as [|t r]; [reflexivity|]. now rewrite H.
  - rewrite read_name_tok. change (sym "." dot) with true. cbn match. now rewrite read_name_tok.
Qed.
Lemma closed_qual : forall d stop s n, (forall t, sym "." t = true -> stop t = false) -> (forall x, stop (name_tok d x) = false) -> closed stop 0 (qual_toks d s n) = true.
Proof.
  intros d stop s n H1 H2. unfold qual_toks. destruct (is_empty s); cbn [app]; repeat (apply closed_cons; try apply name_tok_sym; auto; try reflexivity).
Qed.

(** ** Upper and lower case *)
Lemma fold_lower : forall c, fold_case (lower c) = fold_case c.
Proof. intros [[] [] [] [] [] [] [] []]; vm_compute; reflexivity. Qed.
Lemma lower_fold : forall c, lower (fold_case c) = lower c.
Proof. intros [[] [] [] [] [] [] [] []]; vm_compute; reflexivity. Qed.
Lemma equal_fold_spec : forall a b, equal_fold a b = beqb (map fold_case a) (map fold_case b).
Proof.
  intros a b. unfold equal_fold. destruct (beqb (map lower a) (map lower b)) eqn:E; symmetry.
  - apply beqb_eq in E. apply beqb_eq. apply (f_equal (map fold_case)) in E. rewrite !map_map in E. erewrite (map_ext (fun x => fold_case (lower x)) fold_case) in E by apply fold_lower.
    erewrite (map_ext (fun x => fold_case (lower x)) fold_case) in E by apply fold_lower. exact E.
  - destruct (beqb (map fold_case a) (map fold_case b)) eqn:F; [|reflexivity]. apply beqb_eq in F. apply (f_equal (map lower)) in F. rewrite !map_map in F.
    erewrite (map_ext (fun x => lower (fold_case x)) lower) in F by apply lower_fold. erewrite (map_ext (fun x => lower (fold_case x)) lower) in F by apply lower_fold.
    apply beqb_eq in F. congruence.
Qed.

(** ** Tokens *)
Section Index.
  Context (d : dialect) (c : create_index).
  Let x := ci_index c.
  Let special := special_type (x_type x).
  Definition part_toks (i : nat) : list tok :=
    match nth i (x_columns x) [] with [] => frag d (nth i (x_exprs x) []) | n => [name_tok d n] end.
  Lemma part_said : forall i, part_toks i = said_part d x i.
  Proof. intros i. unfold part_toks, said_part. destruct (nth i (x_columns x) []); [reflexivity|]. now rewrite (name_token_tok d). Qed.
  Definition using_toks : list tok := match method_of (x_type x) with Some m => [W "USING"; TWord m] | None => [] end.
  Definition index_toks : list tok :=
    (if is_mysql d && special then [TWord (x_type x)] else if x_unique x then [W "UNIQUE"] else []) ++ [W "INDEX"] ++
    (if ci_concurrently c then [W "CONCURRENTLY"] else []) ++
    (if ci_if_not_exists c then [W "IF"; W "NOT"; W "EXISTS"] else []) ++
    [name_tok d (x_name x)] ++
    (if is_mysql d then using_toks else []) ++
    (if is_mysql d then [] else [W "ON"] ++ qual_toks d (x_schema x) (x_table x)) ++
    (if is_postgres d then using_toks else []) ++
    [lp] ++ commas (map part_toks (List.seq 0 (length (x_columns x)))) ++ [rp] ++
    (if match x_include x with [] => false | _ => true end then [W "INCLUDE"; lp] ++ commas (map (fun n => [name_tok d n]) (x_include x)) ++ [rp] else []) ++
    (if negb (is_empty (x_predicate x)) then [W "WHERE"] ++ frag d (x_predicate x) else []).
  Definition create_index_toks : list tok := (if negb (is_mysql d) then [W "CREATE"] else []) ++ index_toks.
  Hypothesis OK : index_ok d x.
  Lemma part_starts : forall i n, nth_error (x_columns x) i = Some n -> forall k t, writes d k t ->
    starts d ((if negb (is_empty n) then emit (quote_identifier d n)
      else match nth_error (x_exprs x) i with None => crash | Some e => emit e end) ;; k) (part_toks i ++ t).
  Proof.
    intros i n N k t K. apply starts_seq; [|exact K]. unfold part_toks. rewrite (nth_error_nth _ _ _ N).
    pose proof (okx_parts _ _ OK i n N) as P. destruct n as [|a n]; cbn [is_empty negb].
    - destruct P as [P NE]. destruct (nth_error (x_exprs x) i) as [e|] eqn:E; [|intros s H; discriminate].
      rewrite (nth_error_nth _ _ _ E) in *. apply starts_emit. now apply (plain_frag _ comma_stop).
    - apply starts_emit, toks_name, P.
  Qed.
  Lemma parts_rest : forall cols i, skipn i (x_columns x) = cols -> 0 < i ->
    writes d (index_elements d i cols (x_exprs x)) (flat_map (cons comma) (map part_toks (List.seq i (length cols)))).
  Proof.
    induction cols as [|n cols IH]; intros i E P; cbn [index_elements length List.seq map flat_map]; [apply writes_ret|].
    destruct (skipn_next _ _ _ _ _ E) as (N & E2 & L). assert (NZ : Nat.ltb 0 i = true) by (apply Nat.ltb_lt; lia). rewrite NZ. cbn [when].
    apply starts_writes; [|apply sepm_seq, sepm_emit; reflexivity]. change ((comma :: ?x) ++ ?y) with ([comma] ++ (x ++ y)).
    apply opens_starts; [apply opens_emit, pre_comma|]. apply part_starts; [exact N|]. apply IH; [exact E2|lia].
  Qed.
  Lemma parts_toks : starts d (index_elements d 0 (x_columns x) (x_exprs x)) (commas (map part_toks (List.seq 0 (length (x_columns x))))).
  Proof.
    remember (x_columns x) as cs eqn:E in |- *. destruct cs as [|n cols]; [apply writes_starts, writes_ret|]. cbn [index_elements]. cbn [Nat.ltb Nat.leb when].
    change (List.seq 0 (length (n :: cols))) with (0 :: List.seq 1 (length cols)). cbn [map commas].
    change (part_toks 0 ++ ?r) with ([] ++ part_toks 0 ++ r). apply opens_starts; [apply opens_ret|].
    apply part_starts; [rewrite <- E; reflexivity|]. apply parts_rest; [rewrite <- E; reflexivity|lia].
  Qed.
  Lemma toks_names : forall ns, Forall (good_name d) ns -> starts d (sep_by (B ", ") (map (fun l => emit (quote_identifier d l)) ns)) (commas (map (fun n => [name_tok d n]) ns)).
  Proof.
    intros ns H. destruct H as [|n ns N H]; [apply writes_starts, writes_ret|]. cbn [map sep_by commas]. apply starts_seq; [now apply starts_emit, toks_name|].
    induction H as [|m ns M0 H IH]; [apply writes_ret|]. cbn [map seqs flat_map]. apply writes_seq; [|exact IH].
    apply starts_writes; [|apply sepm_seq, sepm_emit; reflexivity]. change [comma; ?a] with ([comma] ++ [a]). change (comma :: [name_tok d m]) with ([comma] ++ [name_tok d m]).
    apply opens_starts; [apply opens_emit, pre_comma|now apply starts_emit, toks_name].
  Qed.
  (** The index type as the command computes it. *)
  Lemma model_special : equal_fold (x_type x) (B "FULLTEXT") || equal_fold (x_type x) (B "SPATIAL") = special.
  Proof. now rewrite !equal_fold_spec. Qed.
  Lemma model_method : (if negb (is_empty (x_type x)) && negb special && negb (equal_fold (x_type x) (B "BTREE")) then x_type x else [])
    = match method_of (x_type x) with Some m => m | None => [] end.
  Proof.
    rewrite equal_fold_spec. change (map fold_case (B "BTREE")) with (B "BTREE"). unfold method_of. fold special. destruct (is_empty (x_type x)); [reflexivity|].
    cbn [negb orb andb]. destruct special; [reflexivity|]. cbn [negb orb andb]. now destruct (beqb _ (B "BTREE")).
  Qed.
  Lemma writes_using : forall b, writes d (when (b && negb (is_empty (match method_of (x_type x) with Some m => m | None => [] end)))
      (emit (B " USING " ++ match method_of (x_type x) with Some m => m | None => [] end))) (if b then using_toks else []).
  Proof.
    intros b. unfold using_toks. destruct b; [|apply writes_ret]. cbn [andb]. unfold method_of. destruct (x_type x) as [|a t] eqn:E; [apply writes_ret|].
    cbn [is_empty orb]. rewrite <- E in *. destruct (special_type (x_type x) || beqb (map fold_case (x_type x)) (B "BTREE")); [apply writes_ret|].
    rewrite E at 1. cbn [is_empty negb when]. apply writes_emit; [|reflexivity]. change [W "USING"; TWord (x_type x)] with ([W "USING"] ++ [TWord (x_type x)]).
    apply pre_toks; [prelit|]. destruct (okx_type _ _ OK) as [Z|Z]; [congruence|exact Z].
  Qed.
  Lemma create_index_starts : ci_ignore c = false -> starts d (create_index_sql d c) create_index_toks.
  Proof.
    intros IG. unfold create_index_sql. fold x. rewrite IG. cbn zeta. rewrite model_special. rewrite model_method. unfold create_index_toks, index_toks.
    apply opens_starts; [apply opens_when; intros _; apply opens_emit; prelit|].
    apply opens_starts.
    { destruct (is_mysql d && special) eqn:SP.
      - apply opens_emit. apply (pre_lit d _ [TWord (x_type x)] " "%char []); [|reflexivity|now apply pre_blank].
        destruct (okx_type _ _ OK) as [Z|Z]; [|exact Z]. unfold special in SP. rewrite Z in SP. destruct d; discriminate.
      - apply opens_when. intros _. apply opens_emit. prelit. }
    apply opens_starts; [apply opens_emit; prelit|].
    apply opens_starts.
    { apply opens_when. intros _. destruct (is_postgres d); [apply opens_emit; prelit|apply opens_fail]. }
    apply opens_starts.
    { apply opens_when. intros _. destruct (is_mysql d); [apply opens_fail|apply opens_emit; prelit]. }
    apply starts_seq; [apply starts_emit, toks_name, (okx_name _ _ OK)|].
    apply writes_seq; [apply writes_using|].
    apply writes_seq.
    { destruct (is_mysql d); [apply writes_ret|]. cbn [negb when]. apply starts_writes; [|apply sepm_seq, sepm_emit; reflexivity].
      apply opens_starts; [apply opens_emit; prelit|]. apply starts_emit, toks_qualified; [apply (okx_schema _ _ OK)|apply (okx_table _ _ OK)]. }
    apply writes_seq; [apply writes_using|].
    apply starts_writes; [|apply sepm_seq, sepm_emit; reflexivity].
    apply opens_starts; [apply opens_emit; lpre (@nil tok)|]. apply starts_seq; [apply parts_toks|].
    apply writes_seq; [apply writes_emit; [lit|reflexivity]|].
    apply writes_seq.
    { apply writes_when. intros _. change ([W "INCLUDE"; lp] ++ ?r) with ([] ++ ([W "INCLUDE"; lp] ++ r)).
      apply writes_seq; [destruct (negb (is_postgres d)); [apply writes_fail|apply writes_ret]|].
      apply starts_writes; [|apply sepm_seq, sepm_emit; reflexivity]. apply opens_starts; [apply opens_emit; lpre [W "INCLUDE"]|].
      apply starts_seq; [apply toks_names, (okx_include _ _ OK)|apply writes_emit; [lit|reflexivity]]. }
    apply writes_when. intros _. destruct (is_postgres d || is_sqlite d); [|apply writes_fail].
    eapply (writes_clause d _ _ _ no_stop); [discriminate|reflexivity|prelit|apply (okx_predicate _ _ OK)].
  Qed.

  (** ** Reading *)
  Lemma parts_closed : Forall (fun e => e <> [] /\ closed comma_stop 0 e = true) (map part_toks (List.seq 0 (length (x_columns x)))).
  Proof.
    apply Forall_forall. intros e H. apply in_map_iff in H. destruct H as (i & <- & H). apply in_seq in H.
    destruct (nth_error (x_columns x) i) as [n|] eqn:N; [|apply nth_error_None in N; lia]. pose proof (okx_parts _ _ OK i n N) as P.
    unfold part_toks. rewrite (nth_error_nth _ _ _ N). destruct n as [|a n].
    - destruct P as [P NE]. split; [exact NE|now apply plain_closed].
    - split; [discriminate|]. apply closed_cons; try reflexivity; apply name_tok_sym.
  Qed.
  Lemma kw_special : special = true -> kw "FULLTEXT" (TWord (x_type x)) || kw "SPATIAL" (TWord (x_type x)) = true.
  Proof. intros H. exact H. Qed.
  Lemma special_not_unique : special = true -> kw "UNIQUE" (TWord (x_type x)) = false.
  Proof.
    intros H. unfold special, special_type in H. cbn [kw]. apply orb_true_iff in H. destruct H as [H|H]; apply beqb_eq in H; rewrite H; reflexivity.
  Qed.
  Lemma index_reads : index_supported d c -> read_index index_toks = Some (said_index d c).
  Proof.
    intros (S1 & S2 & S3 & S4 & S5). unfold read_index, index_toks.
    set (tl5 := if negb (is_empty (x_predicate x)) then [W "WHERE"] ++ frag d (x_predicate x) else []).
    set (tl4 := (if match x_include x with [] => false | _ => true end then _ else []) ++ tl5).
    set (parts := commas _).
    set (tl3 := (if is_postgres d then using_toks else []) ++ [lp] ++ parts ++ [rp] ++ tl4).
    set (tl2 := (if is_mysql d then using_toks else []) ++ (if is_mysql d then [] else [W "ON"] ++ qual_toks d (x_schema x) (x_table x)) ++ tl3).
    set (tl1 := (if ci_concurrently c then [W "CONCURRENTLY"] else []) ++ (if ci_if_not_exists c then [W "IF"; W "NOT"; W "EXISTS"] else []) ++ [name_tok d (x_name x)] ++ tl2).
    set (un := x_unique x && negb (is_mysql d && special)).
    set (kind := if is_mysql d && special then [TWord (x_type x)] else []).
    assert (H1 : forall (F : bool -> list tok -> list tok -> option index_def) ,
      (let (un, r) := option_words ["UNIQUE"]%string ((if is_mysql d && special then [TWord (x_type x)] else if x_unique x then [W "UNIQUE"] else []) ++ [W "INDEX"] ++ tl1) in
       let (kind, r) := match r with
                   | t :: r' => if kw "FULLTEXT" t || kw "SPATIAL" t then ([t], r') else ([], r)
                   | [] => ([], r)
                   end in F un kind r) = F un kind (W "INDEX" :: tl1)).
    { intros F. unfold un, kind, option_words. destruct (is_mysql d && special) eqn:SP.
      - apply andb_true_iff in SP. destruct SP as [_ SP]. cbn [app words]. rewrite (special_not_unique SP). pose proof (kw_special SP) as KS. cbn match. rewrite KS.
        rewrite andb_false_r. reflexivity.
      - rewrite andb_true_r. destruct (x_unique x); reflexivity. }
    rewrite H1. change (words ["INDEX"]%string (W "INDEX" :: tl1)) with (Some tl1). cbn match.
    assert (H2 : forall (F : bool -> bool -> list tok -> option index_def),
      (let (cc, r) := option_words ["CONCURRENTLY"]%string tl1 in let (ine, r) := option_words ["IF"; "NOT"; "EXISTS"]%string r in F cc ine r)
      = F (ci_concurrently c) (ci_if_not_exists c) (name_tok d (x_name x) :: tl2)).
    { intros F. unfold tl1, option_words.
      assert (NC : kw "CONCURRENTLY" (name_tok d (x_name x)) = false).
      { rewrite <- (name_token_tok d). unfold name_token. destruct (is_bare (x_name x)) eqn:BR; [|reflexivity]. cbn [kw]. destruct (beqb _ _) eqn:Q; [|reflexivity].
        apply beqb_eq in Q. now apply (okx_not_word _ _ OK) in BR. }
      assert (NI : words ["IF"; "NOT"; "EXISTS"]%string (name_tok d (x_name x) :: tl2) = None).
      { cbn [words]. destruct (kw "IF" _); [|reflexivity]. destruct tl2 as [|t tl] eqn:T; [reflexivity|].
        assert (N2 : kw "NOT" t = false).
        { unfold tl2, tl3, using_toks in T. clear - T. destruct (is_mysql d), (is_postgres d), (method_of (x_type x)); cbn [app] in T;
          (assert (X : hd t (t :: tl) = t) by reflexivity); rewrite <- T in X; cbn [hd] in X; rewrite <- X; reflexivity. }
        now rewrite N2. }
      destruct (ci_concurrently c) eqn:CC.
      - change (words ["CONCURRENTLY"]%string ([W "CONCURRENTLY"] ++ ?r)) with (Some r). cbn match. destruct (ci_if_not_exists c); [reflexivity|]. cbn [app]. now rewrite NI.
      - cbn [app]. destruct (ci_if_not_exists c); [reflexivity|]. cbn [app]. assert (NW : words ["CONCURRENTLY"]%string (name_tok d (x_name x) :: tl2) = None) by (cbn [words]; now rewrite NC).
        rewrite NW. now rewrite NI. }
    rewrite H2. rewrite read_name_tok.
    assert (U : forall r, read_using (using_toks ++ lp :: r) = Some (method_of (x_type x), lp :: r)).
    { intros r. unfold using_toks. destruct (method_of (x_type x)); reflexivity. }
    assert (GR : forall r, read_group (lp :: parts ++ rp :: r) = Some (parts, r)).
    { intros r. apply (read_group_closed no_stop). unfold parts. apply closed_commas. eapply Forall_impl; [|exact parts_closed]. intros e [_ C]. now apply (no_stop_weaken comma_stop). }
    assert (EL : elements parts = map (said_part d x) (List.seq 0 (length (x_columns x)))).
    { unfold parts. rewrite elements_commas by exact parts_closed. apply map_ext. apply part_said. }
    assert (T4 : match words ["INCLUDE"]%string tl4 with
               | Some r0 => match read_group r0 with Some (h, r1) => match read_names h with Some ns => Some (ns, r1) | None => None end | None => None end
               | None => Some ([], tl4)
               end = Some (x_include x, tl5)).
    { unfold tl4. destruct (x_include x) as [|a inc] eqn:IN.
      - cbn [app]. unfold tl5. destruct (x_predicate x); reflexivity.
      - rewrite <- app_assoc. change (words ["INCLUDE"]%string ([W "INCLUDE"; lp] ++ ?r)) with (Some (lp :: r)). cbn match.
        rewrite <- app_assoc. cbn [app]. rewrite (read_group_closed no_stop _ _ (closed_names d (a :: inc))). now rewrite read_names_toks. }
    assert (T5 : forall tb us, match words ["WHERE"]%string tl5 with
      | Some w => Some (mk_index_def un kind (ci_concurrently c) (ci_if_not_exists c) (x_name x) tb us (elements parts) (x_include x) w)
      | None => match tl5 with [] => Some (mk_index_def un kind (ci_concurrently c) (ci_if_not_exists c) (x_name x) tb us (elements parts) (x_include x) []) | _ => None end
      end = Some (mk_index_def un kind (ci_concurrently c) (ci_if_not_exists c) (x_name x) tb us (map (said_part d x) (List.seq 0 (length (x_columns x)))) (x_include x) (frag d (x_predicate x)))).
    { intros tb us. rewrite EL. unfold tl5. destruct (x_predicate x); reflexivity. }
    assert (RT : read_using tl2 = Some (if is_mysql d then method_of (x_type x) else None, (if is_mysql d then [] else [W "ON"] ++ qual_toks d (x_schema x) (x_table x)) ++ tl3)).
    { unfold tl2. destruct (is_mysql d) eqn:MY; cbn [app]; [|reflexivity]. unfold tl3. destruct d; try discriminate. cbn [is_postgres app]. apply U. }
    rewrite RT.
    assert (ON : match words ["ON"]%string ((if is_mysql d then [] else [W "ON"] ++ qual_toks d (x_schema x) (x_table x)) ++ tl3) with
               | Some r => match read_qualified r with Some (s, t, r) => Some (Some (s, t), r) | None => None end
               | None => Some (None, (if is_mysql d then [] else [W "ON"] ++ qual_toks d (x_schema x) (x_table x)) ++ tl3)
               end = Some (if is_mysql d then None else Some (x_schema x, x_table x), tl3)).
    { destruct (is_mysql d) eqn:MY.
      - destruct d; try discriminate. reflexivity.
      - rewrite <- app_assoc. change (words ["ON"]%string ([W "ON"] ++ ?r)) with (Some r). cbn match. rewrite read_qual_toks; [reflexivity|].
        unfold tl3, using_toks. destruct (is_postgres d); [destruct (method_of (x_type x))|]; reflexivity. }
    rewrite ON.
    assert (U2 : read_using tl3 = Some (if is_postgres d then method_of (x_type x) else None, lp :: parts ++ rp :: tl4)).
    { unfold tl3. destruct (is_postgres d); cbn [app]; [|reflexivity]. apply U. }
    rewrite U2, GR, T4, T5. unfold said_index. fold x. fold special. f_equal. f_equal.
    destruct d; cbn [is_mysql is_postgres orb]; try reflexivity. now destruct (method_of (x_type x)).
  Qed.
  Lemma index_succ : ci_ignore c = false -> (succ (create_index_sql d c) <-> index_supported d c).
  Proof.
    clear OK. intros IG. unfold create_index_sql, index_supported. fold x. rewrite IG. cbn zeta. autorewrite with succ.
    assert (PE : forall cols i, skipn i (x_columns x) = cols ->
      (succ (index_elements d i cols (x_exprs x)) <-> forall j, i <= j -> nth_error (x_columns x) j = Some [] -> j < length (x_exprs x))).
    { induction cols as [|n cols IH]; intros i E; cbn [index_elements].
      - rewrite succ_ret. split; [|auto]. intros _ j L N. assert (length (x_columns x) <= i) by (apply (f_equal (@length _)) in E; rewrite skipn_length in E; cbn in E; lia).
        assert (j < length (x_columns x)) by (apply nth_error_Some; congruence). lia.
      - destruct (skipn_next _ _ _ _ _ E) as (N & E2 & L). autorewrite with succ. rewrite (IH (S i) E2). split.
        + intros (_ & [_ A] & B0) j LJ NJ. destruct (Nat.eq_dec i j) as [<-|NE]; [|apply B0; [lia|exact NJ]].
          assert (n = []) by congruence. subst n. specialize (A eq_refl). apply nth_error_Some. intros Z. rewrite Z in A. now apply succ_crash in A.
        + intros H. split; [tauto|]. split.
          * split; [tauto|]. intros Z. destruct n; [|discriminate]. specialize (H i (le_n _) N). apply nth_error_Some in H. destruct (nth_error (x_exprs x) i); [now apply succ_emit|congruence].
          * intros j LJ NJ. apply H; [lia|exact NJ]. }
    specialize (PE (x_columns x) 0 eq_refl). rewrite PE. rewrite succ_sep_by.
    assert (FA : Forall succ (map (fun l => emit (quote_identifier d l)) (x_include x)) <-> True).
    { split; [tauto|]. intros _. apply Forall_forall. intros m H. apply in_map_iff in H. destruct H as (l & <- & _). now apply succ_emit. }
    rewrite FA.
    assert (IN : (match x_include x with [] => false | _ => true end) = true <-> x_include x <> []) by (destruct (x_include x); split; congruence).
    assert (PR : negb (is_empty (x_predicate x)) = true <-> x_predicate x <> []) by (destruct (x_predicate x); cbn; split; congruence).
    rewrite IN, PR. rewrite orb_true_iff, orb_false_iff. split.
    - intros H. decompose [and] H. clear H. split; [|split; [|split; [|split]]].
      + intros Z. destruct d; cbn in *; try reflexivity; exfalso; tauto.
      + intros Z. destruct d; cbn in *; try congruence; exfalso; tauto.
      + intros Z. destruct d; cbn in *; try reflexivity; exfalso; tauto.
      + intros Z. destruct d; cbn in *; try tauto; exfalso; tauto.
      + intros i N. match goal with X : forall j, 0 <= j -> _ |- _ => exact (X i (Nat.le_0_l i) N) end.
    - intros (A1 & A2 & A3 & A4 & A5). clear PE FA IN PR.
      repeat split; auto; intros; try tauto; try (match goal with A : ?P -> _, H : ?P |- _ => specialize (A H) end); destruct d; cbn in *; try discriminate; try congruence; intuition congruence.
  Qed.
End Index.
