From Verif Require Import GoBase GoBaseFacts QuoteModel SpecSprintf Utf8Facts CacheModel CacheFacts TokenModel SpecToken TokenFacts DdlModel MigrateModel TrimPf TriggerModel SpecTrigger.
From Coq Require Import Lia ZifyBool ZifyNat ZifyN.
Ltac Zify.zify_post_hook ::= idtac.

Ltac len := repeat (progress (cbn [length app] in *; rewrite ?app_length in *)); lia.
Lemma ident_fuel d : forall f g suf quote i split, length suf <= f -> length suf <= g ->
  ident_loop f d quote i split suf = ident_loop g d quote i split suf.
Proof.
  induction f as [|f IH]; intros g suf quote i split Hf Hg.
  - destruct suf; [|cbn in Hf; lia]. now destruct g.
  - destruct suf as [|c suf]; [now destruct g|]. destruct g as [|g]; [cbn in Hg; lia|].
    cbn [ident_loop]. pose proof (decode_cases c suf) as D. destruct (decode_rune (c :: suf)) as [r size].
    assert (S1 : 1 <= size) by lia. assert (L : length (skipn size (c :: suf)) <= f /\ length (skipn size (c :: suf)) <= g).
    { rewrite skipn_length. cbn [length] in *. lia. }
    destruct L as (L1 & L2). destruct (skipn size (c :: suf)) as [|c' rest'].
    + destruct quote as [q|].
      * destruct (r =? ord q)%N; [reflexivity|]. apply IH; cbn; lia.
      * destruct (opens d r); [apply IH; cbn; lia|]. destruct (is_space r); [reflexivity|apply IH; cbn; lia].
    + cbn [length] in L1, L2. destruct quote as [q|].
      * destruct (r =? ord q)%N; [|apply IH; cbn [length]; lia].
        destruct (Ascii.eqb c' q); apply IH; cbn [length]; lia.
      * destruct (opens d r); [apply IH; cbn [length]; lia|]. destruct (is_space r); [reflexivity|apply IH; cbn [length]; lia].
Qed.

Lemma quote_peel q chunk : forall b s rest, (ord q < 128)%N -> Forall high chunk -> quote_body q b ->
  b ++ q :: s = chunk ++ rest -> exists b', b = chunk ++ b' /\ rest = b' ++ q :: s /\ quote_body q b'.
Proof.
  induction chunk as [|c chunk IH]; intros b s rest A H Q E.
  - exists b. auto.
  - inversion H as [|? ? Hc H']; subst. unfold high in Hc. destruct Q as [|c' b' N Q|b' Q]; cbn [app] in E; injection E as -> E.
    + lia.
    + destruct (IH _ _ _ A H' Q E) as (b'' & -> & -> & Q'). exists b''. auto.
    + lia.
Qed.

Lemma ident_inside d q : (ord q < 128)%N -> forall n b s f g i split, length b <= n -> quote_body q b -> ~ starts_with q s ->
  length (b ++ q :: s) <= f -> length s <= g ->
  ident_loop f d (Some q) i split (b ++ q :: s) = ident_loop g d None (i + length b + 1) (i + length b + 1) s.
Proof.
  intros A. induction n as [n IH] using lt_wf_ind. intros b s f g i split L Q N Hf Hg.
  destruct f as [|f]; [rewrite app_length in Hf; cbn in Hf; lia|]. destruct Q as [|c b Nc Q|b Q].
  - cbn [app length] in *. cbn [ident_loop decode_rune]. apply N.ltb_lt in A. rewrite A. rewrite N.eqb_refl. cbn [skipn].
    replace (i + 0 + 1) with (i + 1) by lia. destruct s as [|c s].
    + now destruct g.
    + destruct (Ascii.eqb_spec c q) as [->|Nq]; [exfalso; apply N; eexists; reflexivity|]. apply ident_fuel; cbn [length] in *; lia.
  - cbn [app]. destruct (rune_at_exists c (b ++ q :: s)) as (r & chunk & rest & R0).
    destruct R0 as [c0 rest0 E A0 D|r c0 chunk rest0 E A0 Hr D].
    + cbn [ident_loop]. rewrite D. injection E as <- <-. cbn [skipn].
      assert (X : (ord c =? ord q)%N = false).
      { apply N.eqb_neq. intros X. apply Nc. unfold ord in X. rewrite <- (ascii_N_embedding c), <- (ascii_N_embedding q). congruence. }
      rewrite X. rewrite (IH (length b)) with (g := g); cbn [length app] in *; auto; try lia. f_equal; lia.
    + cbn [ident_loop]. rewrite D. injection E as <- E. assert (X : (r =? ord q)%N = false) by (apply N.eqb_neq; lia). rewrite X.
      inversion A0 as [|? ? A1 A2]; subst. destruct (quote_peel q chunk b s rest0 A A2 Q E) as (b' & -> & -> & Q').
      cbn [length skipn]. replace (skipn (length chunk) ((chunk ++ b') ++ q :: s)) with (b' ++ q :: s).
      2: { rewrite <- app_assoc. rewrite skipn_app, skipn_all, Nat.sub_diag. reflexivity. }
      cbn [length app] in *. rewrite !app_length in *. rewrite (IH (length b')) with (g := g); auto; cbn [length] in *; try (rewrite ?app_length in *; cbn [length] in *; lia).
      f_equal; lia.
  - cbn [app ident_loop decode_rune]. pose proof A as A'. apply N.ltb_lt in A'. rewrite A', N.eqb_refl. cbn [skipn].
    rewrite Ascii.eqb_refl. cbn [length app] in *. rewrite (IH (length b)) with (g := g); auto; try lia. f_equal; lia.
Qed.

Lemma opens_spec d r : opens d r = match find (fun p => (r =? ord (fst p))%N) (ident_quotes d) with Some p => Some (snd p) | None => None end.
Proof.
  unfold opens, R. destruct d; cbn [ident_quotes find fst snd is_mysql is_sqlserver]; rewrite ?andb_false_r, ?andb_true_r;
    repeat match goal with |- context [(r =? ?x)%N] => destruct (r =? x)%N end; reflexivity.
Qed.
Lemma opens_none d r : ~ In r (map (fun p => ord (fst p)) (ident_quotes d)) -> opens d r = None.
Proof.
  intros H. rewrite opens_spec. destruct (find _ _) as [p|] eqn:E; [|reflexivity].
  apply find_some in E. destruct E as (I & E). apply N.eqb_eq in E. exfalso. apply H. rewrite E. now apply (in_map (fun p => ord (fst p))).
Qed.
Lemma opens_quote d o c : In (o, c) (ident_quotes d) -> opens d (ord o) = Some c /\ (ord o < 128)%N /\ (ord c < 128)%N /\ is_space (ord o) = false.
Proof.
  destruct d; cbn [ident_quotes In]; intros H; repeat destruct H as [H|H]; try contradiction; injection H as <- <-; repeat split; reflexivity.
Qed.

Lemma ident_end d rest i f : after_word rest -> length rest <= f -> ident_loop f d None i i rest = i.
Proof.
  intros [->|(r & t & -> & Hs & Hsp)] L; [now destruct f|].
  pose proof (encode_rune_nonempty r) as N. destruct f as [|f].
  { destruct (encode_rune r); [congruence|cbn in L; lia]. }
  destruct (encode_rune r ++ t) as [|c e] eqn:E; [destruct (encode_rune r); [congruence|discriminate]|]. cbn [ident_loop]. rewrite <- E.
  rewrite decode_encode by assumption. replace (opens d r) with (@None ascii); [now rewrite Hsp|].
  symmetry. apply opens_none. intros I. apply in_map_iff in I. destruct I as ([o c0] & <- & I). cbn [fst] in Hsp.
  destruct (opens_quote _ _ _ I) as (_ & _ & _ & X). congruence.
Qed.

Lemma ident_word d w rest : ident d w -> after_word rest -> forall f i, length (w ++ rest) <= f ->
  ident_loop f d None i i (w ++ rest) = i + length w.
Proof.
  intros H A. induction H as [|r s Hs Hsp Hq H IH|o c b s I Q N H IH]; intros f i L.
  - cbn [app length] in *. rewrite ident_end; auto.
  - rewrite <- app_assoc in *. pose proof (encode_rune_nonempty r) as Ne. destruct f as [|f].
    { destruct (encode_rune r); [congruence|cbn in L; lia]. }
    destruct (encode_rune r ++ s ++ rest) as [|c0 e] eqn:E; [destruct (encode_rune r); [congruence|discriminate]|]. cbn [ident_loop]. rewrite <- E.
    rewrite decode_encode by assumption. rewrite opens_none by assumption. rewrite Hsp.
    rewrite skipn_app, skipn_all, Nat.sub_diag. cbn [skipn app]. rewrite IH; [rewrite app_length; lia|].
    rewrite <- E in L. rewrite app_length in L. pose proof (encode_rune_length r). lia.
  - destruct f as [|f]; [cbn in L; lia|]. cbn [app ident_loop]. destruct (opens_quote _ _ _ I) as (O & Ao & Ac & _).
    cbn [decode_rune]. apply N.ltb_lt in Ao. rewrite Ao, O. cbn [skipn]. rewrite <- app_assoc. cbn [app].
    rewrite (ident_inside d c Ac (length b)) with (g := f).
    + rewrite IH; [clear IH; len|clear IH; len].
    + lia.
    + exact Q.
    + intros (t & E). destruct s as [|x s]; [cbn in E; subst rest; destruct A as [A|(r & t' & A & As & Asp)]; [discriminate|]|].
      * destruct (opens_quote _ _ _ I) as (_ & _ & _ & X).
        assert (r = ord c).
        { pose proof (decode_encode r t' As) as D. rewrite <- A in D. cbn [decode_rune] in D. apply N.ltb_lt in Ac. rewrite Ac in D. congruence. }
        subst r. clear -I Asp. destruct d; cbn [ident_quotes In] in I; repeat destruct I as [I|I]; try contradiction; injection I as <- <-; discriminate.
      * injection E as -> E. apply N. eexists. reflexivity.
    + clear IH; len.
    + clear IH; len.
Qed.

Lemma ident_first d w rest : ident d w -> w <> [] -> TokenModel.trim_left (w ++ rest) = w ++ rest.
Proof.
  intros H N. destruct H as [|r s Hs Hsp Hq H|o c b s I Q N' H]; [congruence|..].
  - rewrite <- app_assoc, trim_encode, (trimmable_space _ Hsp) by assumption. reflexivity.
  - destruct (opens_quote _ _ _ I) as (_ & A & _ & S). cbn [app].
    assert (X : rune_at (o :: (b ++ c :: s) ++ rest) (ord o) [o] ((b ++ c :: s) ++ rest)).
    { apply ra_ascii; auto. cbn [decode_rune]. apply N.ltb_lt in A. now rewrite A. }
    rewrite (trim_rune _ _ _ _ X). now rewrite (trimmable_space _ S).
Qed.

Lemma pop_word d b w rest : blanks b -> ident d w -> w <> [] -> after_word rest ->
  pop_identifier d (b ++ w ++ rest) = (w, rest).
Proof.
  intros Hb H N A. unfold pop_identifier. rewrite trim_blanks by assumption. rewrite (ident_first d) by assumption.
  rewrite ident_word by auto. cbn [plus]. rewrite firstn_app, skipn_app, Nat.sub_diag, firstn_all, skipn_all. cbn [firstn skipn app].
  now rewrite app_nil_r.
Qed.
Lemma pop_blank d b s : blanks b -> pop_identifier d (b ++ s) = pop_identifier d s.
Proof. intros H. unfold pop_identifier. now rewrite trim_blanks. Qed.

Lemma words_after d ws rest s : words_text d ws rest s -> after_word s.
Proof.
  intros [rest' A|b w ws' rest' s' (rs & -> & Hb) N _ _ _]; [exact A|]. right.
  destruct rs as [|r rs]; [now destruct N|]. inversion Hb as [|? ? Hr Hrs]; subst. destruct (blank_scalar _ Hr) as (A1 & _ & A2).
  exists r, (string_of_runes rs ++ w ++ s'). rewrite string_of_runes_cons, <- app_assoc. auto.
Qed.
Lemma pop_words d w ws rest s : words_text d (w :: ws) rest s -> exists s', pop_identifier d s = (w, s') /\ words_text d ws rest s' /\ length s' < length s /\ s <> [].
Proof.
  intros H. inversion H as [|b w' ws' rest' s' Hb Nb Hw Nw H']; subst. exists s'. split; [|split; [exact H'|]].
  - apply pop_word; auto. now apply (words_after d ws rest).
  - rewrite !app_length. destruct b; [congruence|]. split; [cbn; lia|discriminate].
Qed.

(** ** Triggers *)
Lemma loop_step f d st name rest : rest <> [] -> trigger_loop (S f) d st name rest =
  match st with
  | PreTrigger => let (w, rest') := pop_identifier d rest in trigger_loop f d (if equal_fold w (B "TRIGGER") then AtTrigger else PreTrigger) name rest'
  | AtTrigger => let (n, rest') := pop_identifier d (skip_if_not_exists d rest) in trigger_loop f d PreOn n rest'
  | PreOn => let (w, rest') := pop_identifier d rest in trigger_loop f d (if equal_fold w (B "ON") then AtOn else PreOn) name rest'
  | AtOn => let (n, _) := pop_identifier d rest in match split_dot n with Some (s, t) => LOk (name, s, t) | None => LOk (name, [], n) end
  end.
Proof. destruct rest; [congruence|reflexivity]. Qed.

Lemma loop_words d k st : (st = PreTrigger /\ k = B "TRIGGER") \/ (st = PreOn /\ k = B "ON") ->
  forall pre w ws rest s f name, words_text d (pre ++ w :: ws) rest s -> Forall (not_keyword k) pre -> keyword k w -> length s <= f ->
  exists s' f', words_text d ws rest s' /\ length s' <= f' /\
    trigger_loop f d st name s = trigger_loop f' d (match st with PreTrigger => AtTrigger | _ => AtOn end) name s'.
Proof.
  intros K. induction pre as [|p pre IH]; intros w ws rest s f name H F W L; cbn [app] in H;
    destruct (pop_words _ _ _ _ _ H) as (s' & E & H' & L' & N); (destruct f as [|f]; [lia|]); rewrite loop_step by exact N.
  - exists s', f. split; [exact H'|]. split; [lia|]. destruct K as [(-> & ->)|(-> & ->)]; rewrite E, W; reflexivity.
  - inversion F as [|? ? F1 F2]; subst. unfold not_keyword in F1.
    destruct (IH w ws rest s' f name H' F2 W) as (s2 & f2 & A1 & A2 & A3); [lia|]. exists s2, f2. split; [exact A1|]. split; [exact A2|].
    rewrite <- A3. destruct K as [(-> & ->)|(-> & ->)]; rewrite E, F1; reflexivity.
Qed.

Lemma pops_words d : forall n ws rest s, words_text d ws rest s -> n <= length ws -> exists s', pop_identifiers d n s = (firstn n ws, s') /\ words_text d (skipn n ws) rest s' /\ length s' <= length s.
Proof.
  induction n as [|n IH]; intros ws rest s H L.
  - exists s. destruct s; cbn; auto.
  - destruct ws as [|w ws]; [cbn in L; lia|]. destruct (pop_words _ _ _ _ _ H) as (s' & E & H' & L' & N).
    destruct (IH ws rest s' H') as (s2 & E2 & H2 & L2); [cbn in L; lia|]. exists s2.
    destruct s as [|c s]; [congruence|]. cbn [pop_identifiers]. rewrite E. assert (Nw : w <> []) by (inversion H; assumption).
    destruct w as [|c0 w0]; [congruence|]. cbn [is_empty andb]. rewrite E2. cbn [firstn skipn]. split; [reflexivity|]. split; [exact H2|lia].
Qed.

Lemma skip_no d ws rest s : words_text d ws rest s -> (is_sqlite d = true -> exists w ws', ws = w :: ws' /\ not_keyword (B "IF") w) ->
  skip_if_not_exists d s = s.
Proof.
  intros H K. unfold skip_if_not_exists. destruct (is_sqlite d); [|reflexivity]. destruct (K eq_refl) as (w & ws' & -> & N).
  destruct (pop_words _ _ _ _ _ H) as (s' & E & _ & _ & Ne). destruct s as [|c s]; [congruence|]. cbn [pop_identifiers]. rewrite E.
  destruct (is_empty w && is_empty s'); [reflexivity|].
  destruct (match s' with [] => ([], s') | _ => _ end) as [toks r]. destruct toks as [|a [|b [|? ?]]]; try reflexivity.
  unfold not_keyword in N. rewrite N. reflexivity.
Qed.
Lemma skip_yes d a b c ws rest s : d = DSQLite -> words_text d (a :: b :: c :: ws) rest s ->
  keyword (B "IF") a -> keyword (B "NOT") b -> keyword (B "EXISTS") c ->
  words_text d ws rest (skip_if_not_exists d s) /\ length (skip_if_not_exists d s) <= length s.
Proof.
  intros -> H A B0 C. unfold skip_if_not_exists. cbn [is_sqlite]. destruct (pops_words _ 3 _ _ _ H) as (s' & E & H' & L); [cbn; lia|].
  rewrite E. cbn [firstn]. unfold keyword in *. rewrite A, B0, C. auto.
Qed.

Lemma split_dot_spec schema t w : qualified_text schema t w -> split_dot w = match split_dot w with Some _ => Some (schema, t) | None => None end /\
  (split_dot w = None -> schema = [] /\ t = w).
Proof.
  intros [t' N|s t' N].
  - unfold split_dot. apply index_byte_none in N. rewrite N. auto.
  - unfold split_dot. assert (E : index_byte "." (s ++ B "." ++ t') = Some (length s)) by (apply index_byte_app; exact N).
    rewrite E. split; [|discriminate]. rewrite firstn_app, Nat.sub_diag, firstn_all. cbn [firstn]. rewrite app_nil_r. do 2 f_equal.
    rewrite skipn_app, skipn_all2 by lia. replace (S (length s) - length s) with 1 by lia. reflexivity.
Qed.

Lemma words_long d w ws rest s : words_text d (w :: ws) rest s -> 2 <= length s.
Proof. intros H. inversion H as [|b w' ws' r s' Hb Nb Hw Nw H']; subst. rewrite !app_length. destruct b; [congruence|]. destruct w; [congruence|]. cbn. lia. Qed.
Lemma trigger_info_found d pre kw ine name mid on tab rest sql schema table :
  words_text d (pre ++ kw :: ine ++ name :: mid ++ on :: [tab]) rest (B " " ++ sql) ->
  Forall (not_keyword (B "TRIGGER")) pre -> keyword (B "TRIGGER") kw ->
  (ine = [] /\ (d = DSQLite -> not_keyword (B "IF") name) \/
   exists a b c, d = DSQLite /\ ine = [a; b; c] /\ keyword (B "IF") a /\ keyword (B "NOT") b /\ keyword (B "EXISTS") c) ->
  Forall (not_keyword (B "ON")) mid -> keyword (B "ON") on -> qualified_text schema table tab -> table <> [] ->
  trigger_info (S (length sql)) d sql = LOk (mk_trigger schema table name sql false).
Proof.
  intros H P K I M O Q T. unfold trigger_info.
  assert (E0 : trigger_loop (S (length sql)) d PreTrigger [] sql = trigger_loop (S (length sql)) d PreTrigger [] (B " " ++ sql)).
  { assert (Bl : blanks (B " ")) by (exists [32%N]; split; [reflexivity|constructor; [right; left; reflexivity|constructor]]).
    destruct sql as [|c0 sql].
    - exfalso. destruct pre as [|p pre]; cbn [app] in H; apply words_long in H; cbn in H; lia.
    - rewrite !loop_step by discriminate. rewrite (pop_blank d (B " ")) by exact Bl. reflexivity. }
  rewrite E0. destruct (loop_words d (B "TRIGGER") PreTrigger (or_introl (conj eq_refl eq_refl)) pre kw _ rest (B " " ++ sql) (S (length sql)) [] H P K) as (s1 & f1 & H1 & L1 & ->); [cbn; lia|].
  assert (S0 : exists s2, skip_if_not_exists d s1 = s2 /\ words_text d (name :: mid ++ on :: [tab]) rest s2 /\ length s2 <= length s1 /\ s1 <> []).
  { destruct I as [(-> & I)|(a & b & c & -> & -> & Ka & Kb & Kc)]; cbn [app] in H1.
    - exists s1. split; [|split; [exact H1|split; [lia|]]].
      + eapply skip_no; [exact H1|]. intros D. exists name. eexists. split; [reflexivity|]. apply I. now destruct d.
      + now destruct (pop_words _ _ _ _ _ H1) as (? & _ & _ & _ & N).
    - exists (skip_if_not_exists DSQLite s1). split; [reflexivity|]. destruct (skip_yes DSQLite a b c _ rest s1 eq_refl H1 Ka Kb Kc) as (A1 & A2).
      split; [exact A1|]. split; [exact A2|]. now destruct (pop_words _ _ _ _ _ H1) as (? & _ & _ & _ & N). }
  destruct S0 as (s2 & E2 & H2 & L2 & N1). destruct f1 as [|f1]; [destruct s1; [congruence|cbn in L1; lia]|].
  rewrite loop_step by exact N1. rewrite E2. destruct (pop_words _ _ _ _ _ H2) as (s3 & E3 & H3 & L3 & N3). rewrite E3.
  assert (Nn : name <> []) by (inversion H2; subst; assumption).
  destruct (loop_words d (B "ON") PreOn (or_intror (conj eq_refl eq_refl)) mid on _ rest s3 f1 name H3 M O) as (s4 & f4 & H4 & L4 & ->); [lia|].
  destruct (pop_words _ _ _ _ _ H4) as (s5 & E5 & H5 & L5 & N5). destruct f4 as [|f4]; [lia|]. rewrite loop_step by exact N5. rewrite E5.
  assert (Nq : negb (is_empty sql) && (is_empty name || is_empty table) = false).
  { destruct name; [congruence|]. destruct table; [congruence|]. apply andb_false_r. }
  destruct (split_dot_spec _ _ _ Q) as (A1 & A2). destruct (split_dot tab) as [p|].
  - injection A1 as ->. rewrite Nq. reflexivity.
  - destruct (A2 eq_refl) as (-> & ->). rewrite Nq. reflexivity.
Qed.
(** ** Termination *)
Lemma only_suffix a b : only_blanks (a ++ b) -> only_blanks b.
Proof. intros H pre t E. apply (H (a ++ pre) t). now rewrite E, app_assoc. Qed.
Lemma blank_trimmable r : trimmable r = true <-> blank r.
Proof. unfold trimmable, blank, in_range. split; lia. Qed.
Lemma trim_first s : TokenModel.trim_left s <> [] -> trimmable (fst (decode_rune (TokenModel.trim_left s))) = false.
Proof.
  induction s as [|s r chunk rest H IH] using rune_ind; [intros N; now destruct N|].
  rewrite (trim_rune _ _ _ _ H). destruct (trimmable r) eqn:E; [exact IH|]. intros _.
  destruct (rune_at_split _ _ _ _ H) as (_ & _ & D). now rewrite D.
Qed.
Lemma ident_ge d : forall f q at_ split suf, split <= at_ -> split <= ident_loop f d q at_ split suf.
Proof.
  induction f as [|f IH]; intros q at_ split suf L; [cbn; lia|]. destruct suf as [|c suf]; [cbn; lia|].
  cbn [ident_loop]. destruct (decode_rune (c :: suf)) as [r size]. destruct q as [q|].
  - destruct (r =? ord q)%N.
    + destruct (skipn size (c :: suf)) as [|c' rest']; [lia|]. destruct (Ascii.eqb c' q);
        (etransitivity; [|apply IH]; lia).
    + etransitivity; [|apply IH]; lia.
  - destruct (opens d r); [etransitivity; [|apply IH]; lia|]. destruct (is_space r); [lia|]. etransitivity; [|apply IH]; lia.
Qed.
Lemma ident_advances d f c suf : is_space (fst (decode_rune (c :: suf))) = false -> 1 <= ident_loop (S f) d None 0 0 (c :: suf).
Proof.
  intros H. cbn [ident_loop]. pose proof (decode_cases c suf) as D. destruct (decode_rune (c :: suf)) as [r size]. cbn [fst] in H.
  assert (1 <= size) by lia. rewrite H. destruct (opens d r); (etransitivity; [|apply ident_ge; lia]; lia).
Qed.
Lemma pop_suffix d s : exists pre, s = pre ++ snd (pop_identifier d s).
Proof.
  unfold pop_identifier. cbn [snd]. destruct (trim_suffix s) as (p & E). exists (p ++ firstn (ident_loop (length (TokenModel.trim_left s)) d None 0 0 (TokenModel.trim_left s)) (TokenModel.trim_left s)).
  rewrite <- app_assoc, firstn_skipn. exact E.
Qed.
Lemma suffix_le (s pre t : bytes) : s = pre ++ t -> length t <= length s.
Proof. intros ->. rewrite app_length. lia. Qed.
Lemma pop_shorter d s : only_blanks s -> s <> [] -> length (snd (pop_identifier d s)) < length s.
Proof.
  intros H N. unfold pop_identifier. cbn [snd]. destruct (trim_suffix s) as (p & E). pose proof (suffix_le _ _ _ E) as L.
  rewrite skipn_length. destruct (TokenModel.trim_left s) as [|c t] eqn:T.
  - cbn. destruct s; [congruence|cbn; lia].
  - assert (X : is_space (fst (decode_rune (c :: t))) = false).
    { destruct (is_space (fst (decode_rune (c :: t)))) eqn:S; [|reflexivity]. apply (H p _ E), blank_trimmable in S. rewrite <- T in S.
      rewrite trim_first in S; [discriminate|congruence]. }
    pose proof (ident_advances d (length t) c t X). cbn [length] in *. lia.
Qed.
Lemma pops_suffix d : forall n s, exists pre, s = pre ++ snd (pop_identifiers d n s).
Proof.
  induction n as [|n IH]; intros s; [exists []; now destruct s|]. destruct s as [|c s]; [exists []; reflexivity|]. cbn [pop_identifiers].
  destruct (pop_suffix d (c :: s)) as (p & E). destruct (pop_identifier d (c :: s)) as [tok r]. cbn [snd] in E.
  destruct (is_empty tok && is_empty r); [exists p; exact E|]. destruct (IH r) as (p2 & E2). destruct (pop_identifiers d n r) as [toks r2]. cbn [snd] in *.
  exists (p ++ p2). rewrite <- app_assoc, <- E2. exact E.
Qed.
Lemma skip_suffix d s : exists pre, s = pre ++ skip_if_not_exists d s.
Proof.
  unfold skip_if_not_exists. destruct (is_sqlite d); [|exists []; reflexivity]. destruct (pops_suffix d 3 s) as (p & E).
  destruct (pop_identifiers d 3 s) as [toks r]. cbn [snd] in E. destruct toks as [|a [|b [|c [|? ?]]]]; try (exists []; reflexivity).
  destruct (equal_fold a (B "IF") && equal_fold b (B "NOT") && equal_fold c (B "EXISTS")); [exists p; exact E|exists []; reflexivity].
Qed.
Lemma trigger_loop_ends d : forall f st name s, only_blanks s -> length s <= f -> trigger_loop f d st name s <> LDiverge /\ trigger_loop f d st name s <> LErr.
Proof.
  induction f as [|f IH]; intros st name s H L.
  - destruct s; [cbn; split; discriminate|cbn in L; lia].
  - destruct s as [|c s]; [cbn; split; discriminate|]. set (t := c :: s) in *. assert (N : t <> []) by discriminate. rewrite (loop_step f d st name t N).
    pose proof (pop_shorter d t H N) as P. destruct (pop_suffix d t) as (p & E).
    assert (G : forall st' name', trigger_loop f d st' name' (snd (pop_identifier d t)) <> LDiverge /\ trigger_loop f d st' name' (snd (pop_identifier d t)) <> LErr).
    { intros st' name'. apply IH; [|lia]. rewrite E in H. now apply only_suffix in H. }
    destruct st.
    + destruct (pop_identifier d t) as [w r]. apply G.
    + destruct (skip_suffix d t) as (p2 & E2). assert (H2 : only_blanks (skip_if_not_exists d t)) by (rewrite E2 in H; now apply only_suffix in H).
      pose proof (suffix_le _ _ _ E2) as L2. destruct (pop_suffix d (skip_if_not_exists d t)) as (p3 & E3).
      assert (X : length (snd (pop_identifier d (skip_if_not_exists d t))) <= f).
      { destruct (skip_if_not_exists d t) as [|c2 s2] eqn:Q; [cbn; lia|]. pose proof (pop_shorter d (c2 :: s2) H2 ltac:(discriminate)). lia. }
      destruct (pop_identifier d (skip_if_not_exists d t)) as [n r]. cbn [snd] in *. apply IH; [|exact X]. rewrite E3 in H2. now apply only_suffix in H2.
    + destruct (pop_identifier d t) as [w r]. apply G.
    + destruct (pop_identifier d t) as [n r]. destruct (split_dot n) as [[? ?]|]; split; discriminate.
Qed.

(** ** Errors *)
Lemma loop_misses d k st : (st = PreTrigger /\ k = B "TRIGGER") \/ (st = PreOn /\ k = B "ON") ->
  forall ws rest s f name, words_text d ws rest s -> blanks rest -> Forall (not_keyword k) ws -> length s <= f ->
  trigger_loop f d st name s = LOk (name, [], []).
Proof.
  intros K. induction ws as [|w ws IH]; intros rest s f name H Hb F L.
  - inversion H; subst. destruct s as [|c s]; [now destruct f|]. destruct f as [|f]; [cbn in L; lia|].
    assert (P : pop_identifier d (c :: s) = ([], [])).
    { rewrite <- (app_nil_r (c :: s)). rewrite pop_blank by exact Hb. reflexivity. }
    rewrite loop_step by discriminate. rewrite P. destruct K as [(-> & ->)|(-> & ->)]; (destruct f; reflexivity).
  - destruct (pop_words _ _ _ _ _ H) as (s' & E & H' & L' & N). destruct f as [|f]; [lia|]. rewrite loop_step by exact N. inversion F as [|? ? F1 F2]; subst.
    unfold not_keyword in F1. destruct K as [(-> & ->)|(-> & ->)]; rewrite E, F1; eapply IH; eauto; lia.
Qed.
Lemma start_blank f d name sql : trigger_loop (S f) d PreTrigger name (B " " ++ sql) = trigger_loop (S f) d PreTrigger name sql \/ sql = [].
Proof.
  destruct sql as [|c sql]; [now right|left]. rewrite !loop_step by discriminate. rewrite (pop_blank d (B " ")); [reflexivity|].
  exists [32%N]. split; [reflexivity|]. constructor; [right; left; reflexivity|constructor].
Qed.
Lemma trigger_info_misses d ws rest sql : words_text d ws rest (B " " ++ sql) -> blanks rest -> sql <> [] ->
  Forall (not_keyword (B "TRIGGER")) ws -> trigger_info (S (length sql)) d sql = LErr.
Proof.
  intros H Hb N F. unfold trigger_info. destruct (start_blank (length sql) d [] sql) as [E|E]; [|congruence]. rewrite <- E.
  rewrite (loop_misses d (B "TRIGGER") PreTrigger (or_introl (conj eq_refl eq_refl)) ws rest _ _ _ H Hb F) by (cbn; lia).
  destruct sql; [congruence|reflexivity].
Qed.
Lemma trigger_info_no_on d pre kw name ws rest sql : d <> DSQLite -> words_text d (pre ++ kw :: name :: ws) rest (B " " ++ sql) -> blanks rest ->
  Forall (not_keyword (B "TRIGGER")) pre -> keyword (B "TRIGGER") kw ->
  Forall (not_keyword (B "ON")) ws -> trigger_info (S (length sql)) d sql = LErr.
Proof.
  intros D H Hb F K M. unfold trigger_info. assert (N : sql <> []).
  { intros ->. destruct pre; cbn [app] in H; apply words_long in H; cbn in H; lia. }
  destruct (start_blank (length sql) d [] sql) as [E|E]; [|congruence]. rewrite <- E.
  destruct (loop_words d (B "TRIGGER") PreTrigger (or_introl (conj eq_refl eq_refl)) pre kw _ rest (B " " ++ sql) (S (length sql)) [] H F K) as (s1 & f1 & H1 & L1 & ->); [cbn; lia|].
  destruct (pop_words _ _ _ _ _ H1) as (s2 & E2 & H2 & L2 & N2). destruct f1 as [|f1]; [lia|]. rewrite loop_step by exact N2.
  replace (skip_if_not_exists d s1) with s1 by (destruct d; (reflexivity || congruence)). rewrite E2.
  rewrite (loop_misses d (B "ON") PreOn (or_intror (conj eq_refl eq_refl)) ws rest _ _ _ H2 Hb M) by lia.
  destruct sql; [congruence|]. cbn [is_empty negb andb]. rewrite orb_true_r. reflexivity.
Qed.
