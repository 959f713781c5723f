(** * IntroPf: reading the rows of a database *)
From Coq Require Import Lia.
From Verif Require Import GoBase GoBaseFacts Utf8Facts QuoteModel BuildModel CacheModel SpecSprintf SpecToken UpsertModel TokenModel TokenFacts DdlModel MigrateModel TrimPf LoadModel LoadFacts SpecLoad SpecT
  TriggerModel SpecTrigger TriggerPf TriggerStore ViewModel DbModel SpecDb IntroModel SpecIntro PropertiesToken PropertiesLoad PropertiesDb.

(** ** Lists of names *)
Lemma join_commas_join l : join_commas l = join (B ",") l.
Proof. induction l as [|x l IH]; [reflexivity|]. destruct l; [reflexivity|]. cbn [join_commas join]. f_equal. f_equal. exact IH. Qed.
Lemma split_byte_none c s : ~ In c s -> split_byte c s = [s].
Proof.
  induction s as [|a s IH]; intros N; [reflexivity|]. cbn [split_byte]. destruct (Ascii.eqb_spec a c) as [->|_]; [exfalso; apply N; now left|].
  rewrite IH; [reflexivity|]. intros X. apply N. now right.
Qed.
Lemma split_byte_app c s t : ~ In c s -> split_byte c (s ++ c :: t) = s :: split_byte c t.
Proof.
  induction s as [|a s IH]; intros N.
  - cbn [app split_byte]. now rewrite Ascii.eqb_refl.
  - cbn [app split_byte]. destruct (Ascii.eqb_spec a c) as [->|_]; [exfalso; apply N; now left|]. rewrite IH; [reflexivity|]. intros X. apply N. now right.
Qed.
Lemma split_byte_join c l : l <> [] -> Forall (fun n => ~ In c n) l -> split_byte c (join [c] l) = l.
Proof.
  induction l as [|x l IH]; intros N F; [congruence|]. inversion F as [|? ? F1 F2]; subst. destruct l as [|y l]; [now apply split_byte_none|].
  cbn [join]. cbn [app]. rewrite split_byte_app by exact F1. f_equal. apply IH; [discriminate|exact F2].
Qed.
Lemma split_list_join l : Forall (fun n => ~ In ","%char n) l -> l <> [[]] -> split_list (join_commas l) = l.
Proof.
  intros F N. unfold split_list. rewrite join_commas_join. destruct l as [|x l]; [reflexivity|].
  replace (is_empty (join (B ",") (x :: l))) with false.
  - apply split_byte_join; [discriminate|exact F].
  - destruct l as [|y l]; [destruct x; [congruence|reflexivity]|]. cbn [join]. destruct x; reflexivity.
Qed.
Lemma plain_list_split l : plain_list l -> split_list (join_commas l) = l.
Proof.
  intros H. apply split_list_join.
  - eapply Forall_impl; [|exact H]. now intros n (_ & X).
  - intros ->. inversion H as [|? ? (X & _)]; subst. congruence.
Qed.
Lemma parts_split ps includes : Forall part_ok ps -> plain_list includes -> visible ps includes ->
  split_list (join_commas (map part_column ps ++ includes)) = map part_column ps ++ includes.
Proof.
  intros P I V. apply split_list_join.
  - apply Forall_app. split.
    + apply Forall_forall. intros n H. apply in_map_iff in H. destruct H as (p & <- & H). rewrite Forall_forall in P. specialize (P p H). destruct p; [apply P|auto].
    + eapply Forall_impl; [|exact I]. now intros n (_ & X).
  - intros E. destruct ps as [|p ps].
    + cbn in E. subst includes. inversion I as [|? ? (X & _)]; subst. congruence.
    + destruct ps as [|q ps]; [|destruct p; discriminate]. cbn in E. injection E as E1 E2. subst includes. destruct V as [V|V]; [now destruct V|]. destruct p as [n|e]; [|now apply (V e)].
      inversion P as [|? ? P1 _]; subst. destruct P1 as (X & _). now apply X.
Qed.
Lemma nothing_map {A B} (f : A -> B) l : map (fun _ => []) (map f l) = nothing l.
Proof. unfold nothing. now rewrite map_map. Qed.

(** ** Texts *)
Lemma unescape_escaped s : unescape (escaped s) = s.
Proof.
  induction s as [|c s IH]; [reflexivity|]. unfold escaped in *. cbn [flat_map]. destruct (Ascii.eqb_spec c "'") as [->|N].
  - cbn [app unescape]. cbn [Ascii.eqb Bool.eqb andb]. now rewrite IH.
  - cbn [app]. destruct s as [|q s]; [reflexivity|]. change (flat_map ?f (q :: s)) with (f q ++ flat_map f s) in *. cbv beta in *.
    destruct (Ascii.eqb_spec q "'") as [->|N'].
    + cbn [app] in *. cbn [unescape] in *. replace (Ascii.eqb "\" "'") with false by reflexivity. rewrite andb_false_r. now rewrite IH.
    + cbn [app] in *. cbn [unescape] in *. rewrite (proj2 (Ascii.eqb_neq q "'") N'), andb_false_r. f_equal. exact IH.
Qed.
Lemma trim_suffix_app suf s : trim_suffix suf (s ++ suf) = s.
Proof.
  unfold trim_suffix. rewrite app_length. replace (length s + length suf - length suf) with (length s) by lia.
  replace (length suf <=? length s + length suf) with true by (symmetry; apply Nat.leb_le; lia).
  rewrite skipn_app, skipn_all, Nat.sub_diag. cbn [skipn app]. rewrite beqb_refl. cbn [andb]. rewrite firstn_app, firstn_all, Nat.sub_diag. cbn [firstn]. now rewrite app_nil_r.
Qed.
Lemma trim_suffix_none suf s : (forall t, s <> t ++ suf) -> trim_suffix suf s = s.
Proof.
  intros N. unfold trim_suffix. destruct (_ && _) eqn:E; [|reflexivity]. exfalso. apply andb_true_iff in E. destruct E as (L & E). apply beqb_eq in E.
  apply (N (firstn (length s - length suf) s)). pose proof (firstn_skipn (length s - length suf) s) as Q. rewrite E in Q. now rewrite Q.
Qed.
Lemma without_brackets_app c : c <> [] -> without_brackets (B "(" ++ c ++ B ")") = c.
Proof.
  intros N. unfold without_brackets. change (B "(" ++ c ++ B ")") with ("("%char :: (c ++ [")"%char])).
  replace (Nat.ltb 2 (length ("("%char :: c ++ [")"%char]))) with true.
  - replace (last_byte ("("%char :: c ++ [")"%char])) with ")"%char.
    + replace (Ascii.eqb "(" "(" && Ascii.eqb ")" ")") with true by reflexivity. cbn [Ascii.eqb Bool.eqb andb]. apply removelast_last.
    + unfold last_byte. change ("("%char :: c ++ [")"%char]) with (("("%char :: c) ++ [")"%char]). symmetry. first [apply last_last | now rewrite last_last].
  - symmetry. apply Nat.ltb_lt. cbn [length]. rewrite app_length. cbn [length]. destruct c; [congruence|cbn; lia].
Qed.
Lemma check_row_postgres w c : check_row (B "CHECK ") w c -> without_brackets (trim_prefix (B "CHECK ") w) = c.
Proof.
  intros [(-> & ->)|(N & ->)]; [reflexivity|]. unfold trim_prefix. replace (GoBase.has_prefix (B "CHECK ") (B "CHECK " ++ B "(" ++ c ++ B ")")) with true by reflexivity.
  change (skipn (length (B "CHECK ")) (B "CHECK " ++ B "(" ++ c ++ B ")")) with (B "(" ++ c ++ B ")"). now apply without_brackets_app.
Qed.
Lemma check_row_mysql w c : check_row [] w c -> without_brackets w = c.
Proof. intros [(-> & ->)|(N & ->)]; [reflexivity|]. cbn [app]. now apply without_brackets_app. Qed.

(** ** Expressions *)
Lemma bare_space e : bare e -> trim_space e = e.
Proof. apply trimmed_space. Qed.
Lemma bare_after_blank e : bare e -> trim_space (B " " ++ e) = e.
Proof.
  intros (a & c & b & E & E' & S & Ha & Hb & F & L). apply trimmed_space. exists (32%N :: a), c, b. repeat split; auto.
  rewrite E. reflexivity.
Qed.
Lemma arg_after_blank e : arg e -> arg (B " " ++ e).
Proof. intros H. apply arg_char; [|exact H]. intros [X|[X|[X|[X|[]]]]]; discriminate. Qed.
(** What [splitArgs] makes of expressions joined by ", ". *)
Definition spaced (es : list bytes) : list bytes := match es with [] => [[]] | e :: es => e :: map (fun e => B " " ++ e) es end.
Lemma spaced_join es : join (B ", ") es = join_commas (spaced es).
Proof.
  destruct es as [|e es]; [reflexivity|]. revert e. induction es as [|e' es IH]; intros e; [reflexivity|].
  change (e ++ B ", " ++ join (B ", ") (e' :: es) = e ++ B "," ++ join_commas (map (fun e => B " " ++ e) (e' :: es))). rewrite IH. f_equal.
  change (B ", ") with (B "," ++ B " "). rewrite <- app_assoc. f_equal. cbn [spaced map]. destruct es; [reflexivity|]. cbn [map join_commas]. now rewrite app_assoc.
Qed.
Lemma spaced_split es : Forall arg es -> split_args (join (B ", ") es) = spaced es.
Proof.
  intros H. rewrite spaced_join. apply split_args_of_joined; [destruct es; discriminate|]. destruct es as [|e es]; [repeat constructor|].
  inversion H; subst. constructor; [assumption|]. apply Forall_forall. intros x X. apply in_map_iff in X. destruct X as (y & <- & Y). apply arg_after_blank. rewrite Forall_forall in *. auto.
Qed.
Lemma take_none wrap columns es : Forall (fun n => n <> []) columns -> take_exprs wrap columns es = nothing columns.
Proof. intros H. induction H as [|n l H _ IH]; [reflexivity|]. cbn [take_exprs nothing map]. destruct n; [congruence|]. cbn [is_empty]. now rewrite IH. Qed.
Lemma take_spaced wrap includes : Forall (fun n => n <> []) includes -> forall ps es, Forall part_ok ps -> Forall2 (fun e a => trim_space a = e) (exprs_of ps) es ->
  take_exprs wrap (map part_column ps ++ includes) es = map (fun p => match p with Col _ => [] | Expr e => wrap e end) ps ++ nothing includes.
Proof.
  intros I. induction ps as [|p ps IH]; intros es P F; [now apply take_none|]. inversion P as [|? ? P1 P2]; subst. destruct p as [n|e]; cbn [map app take_exprs part_column exprs_of flat_map] in *.
  - destruct P1 as (P1 & _). destruct n; [congruence|]. cbn [is_empty]. f_equal. now apply IH.
  - cbn [is_empty]. inversion F as [|? a ? es' F1 F2]; subst. f_equal. now apply IH.
Qed.
Lemma exprs_ok ps : Forall part_ok ps -> Forall (fun e => arg e /\ bare e) (exprs_of ps).
Proof. intros H. induction H as [|p ps H _ IH]; [constructor|]. destruct p; cbn [exprs_of flat_map app] in *; [exact IH|now constructor]. Qed.
Lemma spaced_bare es : Forall (fun e => arg e /\ bare e) es -> es <> [] -> Forall2 (fun e a => trim_space a = e) es (spaced es).
Proof.
  intros H N. destruct es as [|e es]; [congruence|]. inversion H as [|? ? H1 H2]; subst. cbn [spaced]. constructor; [now apply bare_space|].
  clear H H1 N. induction H2 as [|x l H _ IH]; constructor; [now apply bare_after_blank|exact IH].
Qed.
Lemma no_exprs ps : Forall part_ok ps -> exprs_of ps = [] -> Forall (fun n => n <> []) (map part_column ps) /\ map part_expr ps = nothing ps /\ forall wrap, map (fun p => match p with Col _ => [] | Expr e => wrap e end) ps = nothing ps.
Proof.
  intros P E. induction P as [|p ps H _ IH]; [repeat constructor|]. destruct p as [n|e]; [|discriminate]. cbn [exprs_of flat_map app] in E. destruct (IH E) as (A1 & A2 & A3). cbn [map part_column part_expr nothing]. split; [constructor; [apply H|exact A1]|].
  split; [f_equal; exact A2|]. intros wrap. f_equal. apply A3.
Qed.
Lemma take_exact wrap ps includes : Forall part_ok ps -> plain_list includes ->
  take_exprs wrap (map part_column ps ++ includes) (split_args (join (B ", ") (exprs_of ps))) =
  map (fun p => match p with Col _ => [] | Expr e => wrap e end) ps ++ nothing includes.
Proof.
  intros P I. pose proof (exprs_ok ps P) as E. rewrite spaced_split by (eapply Forall_impl; [|exact E]; now intros e (X & _)).
  assert (I' : Forall (fun n => n <> []) includes) by (eapply Forall_impl; [|exact I]; now intros n (X & _)).
  destruct (exprs_of ps) as [|e es] eqn:Q.
  - destruct (no_exprs ps P Q) as (A1 & _ & A3). rewrite A3. rewrite take_none by (apply Forall_app; auto). unfold nothing. rewrite map_app, map_map. reflexivity.
  - apply take_spaced; auto. rewrite Q. apply spaced_bare; [exact E|discriminate].
Qed.

(** MySQL: one expression for each column. *)
Definition bare_shape (e : bytes) : Prop := exists rs, e = string_of_runes rs /\ forallb scalar rs = true /\
  (forall r, hd_error rs = Some r -> is_space r = false) /\ (forall r, hd_error (rev rs) = Some r -> is_space r = false).
Lemma bare_is e : bare e -> bare_shape e.
Proof.
  intros (a & c & b & E & E' & S & Ha & Hb & F & L). exists c. repeat split; auto.
  rewrite !forallb_app in S. apply andb_true_iff in S. destruct S as (_ & S). apply andb_true_iff in S. apply S.
Qed.
Lemma shape_is e : bare_shape e -> bare e.
Proof. intros (rs & E & S & F & L). exists [], rs, []. cbn [app]. rewrite app_nil_r. repeat split; auto. Qed.
Lemma shape_comma a b : bare_shape a -> bare_shape b -> bare_shape (a ++ B "," ++ b).
Proof.
  intros (x & -> & Sx & Fx & Lx) (y & -> & Sy & Fy & Ly). exists (x ++ [44%N] ++ y). split; [|split; [|split]].
  - now rewrite !string_of_runes_app.
  - rewrite forallb_app, Sx. cbn [app forallb]. rewrite Sy. reflexivity.
  - intros r H. destruct x as [|x0 x]; [cbn in H; assert (X : r = 44%N) by congruence; now rewrite X|exact (Fx r H)].
  - intros r H. change ([44%N] ++ y) with (44%N :: y) in H. rewrite rev_app_distr in H. cbn [rev] in H. rewrite <- app_assoc in H. destruct (rev y) as [|y0 z]; [cbn in H; assert (X : r = 44%N) by congruence; now rewrite X|exact (Ly r H)].
Qed.
Lemma bare_nil : bare_shape [].
Proof. exists []. repeat split; intros; discriminate. Qed.
Lemma parts_bare ps : Forall part_ok ps -> bare_shape (join_commas (map part_expr ps)).
Proof.
  intros H. induction H as [|p ps H _ IH]; [exact bare_nil|]. assert (X : bare_shape (part_expr p)) by (destruct p; [exact bare_nil|apply bare_is; apply H]).
  cbn [map]. destruct (map part_expr ps) as [|e es] eqn:E; [exact X|]. change (join_commas (part_expr p :: e :: es)) with (part_expr p ++ B "," ++ join_commas (e :: es)). now apply shape_comma.
Qed.
Lemma pair_exact ps : Forall part_ok ps -> pair_exprs (map part_column ps) (map part_expr ps) = LOk (map part_bracketed ps).
Proof.
  intros H. induction H as [|p ps H _ IH]; [reflexivity|]. cbn [map pair_exprs]. rewrite IH. cbn [lbind]. destruct p as [n|e]; cbn [part_column part_expr part_bracketed].
  - destruct n; [now destruct H|reflexivity].
  - cbn [is_empty]. destruct H as (_ & H). now rewrite (bare_space e H).
Qed.

(** SQLite: the statement. *)
Lemma last_index_last c s t : ~ In c t -> last_index_byte c (s ++ c :: t) = Some (length s).
Proof.
  intros N. assert (X : last_index_byte c t = None).
  { clear s. induction t as [|a t IH]; [reflexivity|]. cbn [last_index_byte]. rewrite IH by (intros X; apply N; now right). destruct (Ascii.eqb_spec a c) as [->|_]; [|reflexivity]. exfalso. apply N. now left. }
  induction s as [|a s IH]; cbn [app last_index_byte length]; [now rewrite X, Ascii.eqb_refl|]. now rewrite IH.
Qed.
Lemma index_byte_first c s t : ~ In c s -> index_byte c (s ++ c :: t) = Some (length s).
Proof.
  induction s as [|a s IH]; intros N; cbn [app index_byte length].
  - now rewrite Ascii.eqb_refl.
  - destruct (Ascii.eqb_spec a c) as [->|_]; [exfalso; apply N; now left|]. rewrite IH; [reflexivity|]. intros X. apply N. now right.
Qed.
Lemma compare_exact ps args : Forall part_ok ps ->
  Forall2 (fun p a => arg a /\ trimmed a (match p with Col n => n | Expr e => e end)) ps args -> compare_args (map part_column ps) args = LOk (map part_expr ps).
Proof.
  intros P F. induction F as [|p a ps args (A & T) F IH]; [reflexivity|]. inversion P as [|? ? P1 P2]; subst. cbn [map compare_args]. rewrite (trimmed_space _ _ T), IH by exact P2. cbn [lbind].
  destruct p as [n|e]; cbn [part_column part_expr is_empty]; [|reflexivity]. destruct n; [now destruct P1|]. cbn [is_empty]. now rewrite beqb_refl.
Qed.
Lemma pop_nothing d tail : blanks tail -> pop_identifier d tail = ([], []).
Proof. intros H. rewrite <- (app_nil_r tail). rewrite pop_blank by exact H. reflexivity. Qed.
Lemma sqlite_exact ps predicate sql : ps <> [] -> Forall part_ok ps -> index_statement ps predicate sql ->
  sqlite_index_parts (map part_column ps) sql = LOk (map part_expr ps, predicate).
Proof.
  intros N P (pre & args & tail & E & N1 & N2 & F & T). unfold sqlite_index_parts.
  assert (I1 : index_byte "(" sql = Some (length pre)) by (rewrite E; now apply index_byte_first).
  assert (E' : sql = (pre ++ B "(" ++ join_commas args) ++ ")"%char :: tail) by (rewrite E, <- !app_assoc; reflexivity).
  assert (I2 : last_index_byte ")" sql = Some (length (pre ++ B "(" ++ join_commas args))) by (rewrite E'; now apply last_index_last).
  replace (is_empty sql) with false by (rewrite E; destruct pre; reflexivity). rewrite I1, I2.
  assert (L : length (pre ++ B "(" ++ join_commas args) = length pre + S (length (join_commas args))) by (rewrite !app_length; cbn; lia).
  rewrite L. replace (Nat.ltb (length pre) (length pre + S (length (join_commas args)))) with true by (symmetry; apply Nat.ltb_lt; lia).
  replace (firstn (length pre + S (length (join_commas args)) - S (length pre)) (skipn (S (length pre)) sql)) with (join_commas args).
  2:{ rewrite E. replace (skipn (S (length pre)) (pre ++ B "(" ++ join_commas args ++ B ")" ++ tail)) with (join_commas args ++ B ")" ++ tail).
      - replace (length pre + S (length (join_commas args)) - S (length pre)) with (length (join_commas args)) by lia. rewrite firstn_app, firstn_all, Nat.sub_diag. cbn [firstn]. now rewrite app_nil_r.
      - replace (S (length pre)) with (length (pre ++ B "(")) by (rewrite app_length; cbn; lia). rewrite (app_assoc pre). now rewrite skipn_app, skipn_all, Nat.sub_diag. }
  rewrite split_args_of_joined.
  2:{ intros ->. inversion F; subst. congruence. }
  2:{ clear -F. induction F as [|? ? ? ? (A & _)]; constructor; auto. }
  rewrite (compare_exact ps args P F). cbn [lbind].
  replace (skipn (S (length pre + S (length (join_commas args)))) sql) with tail.
  2:{ rewrite E', <- L. generalize (pre ++ B "(" ++ join_commas args). intros X. clear. induction X as [|y X IH]; [reflexivity|exact IH]. }
  destruct T as [(T & ->)|(w & rest & K & W & T)].
  - rewrite (pop_nothing DSQLite tail T). reflexivity.
  - destruct (pop_words _ _ _ _ _ W) as (s' & Q & W' & _). rewrite Q. inversion W'; subst. rewrite K. now rewrite (trimmed_space _ _ T).
Qed.

(** ** Rows *)
Lemma table_row_ok d t r : table_row d t r -> decode_table d r = LOk t.
Proof. intros (E & N & S). unfold decode_table. rewrite E, S, N. now destruct d. Qed.
Lemma default_row_ok numeric w s : default_row numeric w s -> (if is_empty w then [] else to_expr numeric DSQLite w : bytes) = s.
Proof.
  destruct (default_reported numeric DSQLite w) as (K & U).
  intros [(-> & ->)|[(N & C & ->)|(N & C & ->)]]; [reflexivity|..]; (destruct w as [|a w]; [congruence|]); cbn [is_empty]; [apply K; now right|now apply U].
Qed.
Lemma column_row_ok numeric d l r : introspectable d -> column_row numeric d l r -> decode_column numeric d r = LOk l.
Proof.
  intros D (E1 & E2 & E3 & E4 & E5 & E6 & H). unfold decode_column. destruct l as [ls lt ln lty li la lnn lu lpk lou lg lst lc ldf lig].
  cbn [l_schema l_table l_name l_type l_identity l_autoincrement l_not_null l_unique l_primary_key l_on_update l_generated l_stored l_collation l_default l_ignore] in *. destruct D as [->|[->| ->]].
  - destruct H as (-> & -> & -> & -> & -> & -> & -> & T & Df). subst. f_equal. f_equal; [|exact (default_row_ok _ _ _ Df)].
    destruct T as [->|(-> & T)]; [apply trim_suffix_app|now apply trim_suffix_none].
  - destruct H as (? & ? & ? & ? & ? & ? & ? & ? & ?). subst. reflexivity.
  - destruct H as (? & ? & ? & ? & ? & G & ? & ? & ?). rewrite G, unescape_escaped. subst. reflexivity.
Qed.
Lemma constraint_row_ok d c r : introspectable d -> constraint_row d c r -> decode_constraint d r = LOk c.
Proof.
  intros D (E1 & E2 & E3 & E4 & E5 & E6 & E7 & E8 & E9 & H). unfold decode_constraint. rewrite E5, (plain_list_split _ E4).
  destruct c as [cs ct cn cty cc ce crs crt crc cu cd cm cch co cit cp cdf cdd cco cig].
  cbn [c_schema c_table c_name c_type c_columns c_exprs c_ref_schema c_ref_table c_ref_columns c_update c_delete c_match c_check c_operators c_index_type c_predicate c_deferrable c_deferred c_comment c_ignore] in *. destruct D as [->|[->| ->]].
  - destruct H as (P & C & X & ? & ? & ? & ? & ? & ? & ? & ? & ? & ?). rewrite C, (plain_list_split _ P). subst. reflexivity.
  - destruct H as ((ps & P & V & C & X & RC & RX) & ? & ? & ? & ? & Ch & O1 & O2 & ? & ? & ? & ?).
    pose proof (parts_split ps [] P (Forall_nil _) V) as S. rewrite app_nil_r in S. rewrite RC, S, RX, O2, (plain_list_split _ O1), (check_row_postgres _ _ Ch).
    pose proof (take_exact (fun e => e) ps [] P (Forall_nil _)) as Tk. cbn [nothing map] in Tk. rewrite !app_nil_r in Tk. rewrite Tk. subst. reflexivity.
  - destruct H as (P & C & X & ? & ? & ? & ? & Ch & ? & ? & ? & ? & ?). rewrite C, (plain_list_split _ P), (check_row_mysql _ _ Ch). subst. reflexivity.
Qed.
Lemma index_row_ok d x r : introspectable d -> index_row d x r -> decode_index d r = LOk x.
Proof.
  intros D (E1 & E2 & E3 & E4 & E5 & ps & includes & N & P & V & I & C & Ic & RC & H). unfold decode_index. pose proof (parts_split ps includes P I V) as S. rewrite RC, S.
  destruct x as [xs xt xn xty xu xc xe xi xp xq xco xig].
  cbn [x_schema x_table x_name x_type x_unique x_columns x_exprs x_include x_predicate x_sql x_comment x_ignore] in *. destruct D as [->|[->| ->]].
  - destruct H as (-> & ? & ? & ? & ? & St). rewrite app_nil_r. rewrite (sqlite_exact ps _ _ N P St). cbn [lbind fst snd]. subst. reflexivity.
  - destruct H as (? & ? & K & Ex & RX & ? & ?). rewrite K, app_length, map_length. replace (length ps <=? length ps + length includes) with true by (symmetry; apply Nat.leb_le; lia).
    rewrite RX, (take_exact _ ps includes P I). pose proof (map_length part_column ps) as L. rewrite firstn_app, skipn_app, L, Nat.sub_diag, <- L, firstn_all, skipn_all. cbn [firstn skipn app]. rewrite app_nil_r.
    subst. reflexivity.
  - destruct H as (-> & ? & ? & Ex & RX & ? & ?). rewrite RX, unescape_escaped, app_nil_r, (bare_space _ (shape_is _ (parts_bare ps P))).
    rewrite split_args_of_joined; [|destruct ps; [congruence|discriminate]|].
    + rewrite (pair_exact ps P). cbn [lbind]. subst. reflexivity.
    + apply Forall_forall. intros e He. apply in_map_iff in He. destruct He as (p & <- & He). rewrite Forall_forall in P. specialize (P p He). destruct p; [constructor|apply P].
Qed.
Lemma trigger_row_ok d g r : introspectable d -> trigger_row d g r -> decode_trigger d r = LOk g.
Proof.
  intros D (E1 & E2 & E3 & H). unfold decode_trigger. destruct g as [gs gt gn gq gi]. cbn [g_schema g_table g_name g_sql g_ignore] in *. subst. destruct D as [->|[->| ->]]; destruct H as (-> & ->); try reflexivity. now destruct gs.
Qed.
Lemma index_sub_none sub s : (forall a b, s <> a ++ sub ++ b) -> index_sub sub s = None.
Proof.
  assert (X : forall t, (exists b, t = sub ++ b) \/ GoBase.has_prefix sub t = false).
  { intros t. destruct (GoBase.has_prefix sub t) eqn:E; [left|now right]. revert t E. induction sub as [|c sub IH]; intros t E; [now exists t|]. destruct t as [|a t]; [discriminate|]. cbn [GoBase.has_prefix] in E. apply andb_true_iff in E. destruct E as (E1 & E2).
    apply Ascii.eqb_eq in E1. subst. destruct (IH t E2) as (b & ->). now exists b. }
  induction s as [|c s IH]; intros N.
  - cbn [index_sub]. destruct (X []) as [(b & E)|E]; [now destruct (N [] b)|now rewrite E].
  - cbn [index_sub]. destruct (X (c :: s)) as [(b & E)|E]; [now destruct (N [] b)|]. rewrite E. rewrite IH; [reflexivity|]. intros a b Q. apply (N (c :: a) b). cbn. now rewrite Q.
Qed.
Lemma has_prefix_app sub b : GoBase.has_prefix sub (sub ++ b) = true.
Proof. induction sub as [|c sub IH]; [reflexivity|]. cbn [app GoBase.has_prefix]. now rewrite Ascii.eqb_refl. Qed.
Lemma index_sub_first sub pre b : (forall a b', pre ++ sub ++ b = a ++ sub ++ b' -> length pre <= length a) -> index_sub sub (pre ++ sub ++ b) = Some (length pre).
Proof.
  induction pre as [|c pre IH]; intros H.
  - cbn [app length]. destruct (sub ++ b) eqn:E; cbn [index_sub]; rewrite <- E, has_prefix_app; reflexivity.
  - cbn [app index_sub length]. destruct (GoBase.has_prefix sub (c :: pre ++ sub ++ b)) eqn:E.
    + exfalso. assert (X : exists t, c :: pre ++ sub ++ b = sub ++ t).
      { clear -E. remember (c :: pre ++ sub ++ b) as s eqn:Q. clear Q. revert s E. induction sub as [|a sub IH]; intros s E; [now exists s|]. destruct s as [|a' s]; [discriminate|]. cbn [GoBase.has_prefix] in E.
        apply andb_true_iff in E. destruct E as (E1 & E2). apply Ascii.eqb_eq in E1. subst. destruct (IH s E2) as (t & ->). now exists t. }
      destruct X as (t & X). pose proof (H [] t X) as L. cbn in L. lia.
    + rewrite IH; [reflexivity|]. intros a b' Q. pose proof (H (c :: a) b') as L. cbn [app length] in L. rewrite Q in L. specialize (L eq_refl). lia.
Qed.
Lemma view_row_ok d v r : introspectable d -> view_row d v r -> decode_view d r = LOk v.
Proof.
  intros D ((Nn & Bv) & E & H). unfold decode_view. rewrite Bv. destruct D as [->|[->| ->]].
  - destruct H as (-> & -> & H). rewrite E. f_equal. f_equal. destruct H as [(H & ->)|(pre & Q & H)].
    + now rewrite index_sub_none.
    + rewrite Q. rewrite Q in H. rewrite index_sub_first by exact H. rewrite app_assoc. change 4 with (length (B " AS ")). rewrite <- app_length. now rewrite skipn_app, skipn_all, Nat.sub_diag.
  - destruct H as (? & ? & ?). congruence.
  - destruct H as (? & ? & ?). congruence.
Qed.
Lemma function_row_ok f r : function_row f r -> decode_function r = LOk f.
Proof. intros (? & ? & ? & ? & ?). unfold decode_function. destruct f. cbn in *. now subst. Qed.

(** ** Result sets *)
Lemma read_rows_ok {A R} (row : A -> R -> Prop) decode l rs : (forall a r, row a r -> decode r = LOk a) -> Forall2 row l rs -> read_rows decode (map Some rs) = LOk l.
Proof. intros D F. induction F as [|a r l rs H F IH]; [reflexivity|]. cbn [map read_rows]. rewrite (D a r H). cbn [lbind]. now rewrite IH. Qed.
Lemma read_ok {A R} (row : A -> R -> Prop) decode l res : (forall a r, row a r -> decode r = LOk a) -> listed row l res -> read decode res = LOk l.
Proof. intros D (rs & -> & F). unfold read. now rewrite (read_rows_ok row decode l rs D F). Qed.
Definition complete {R} (res : result R) : Prop := exists rs, res = Result (map Some rs) true.
Lemma read_rows_complete {A R} (decode : R -> lexres A) rs l : read_rows decode rs = LOk l -> exists rs', rs = map Some rs' /\ Forall2 (fun r a => decode r = LOk a) rs' l.
Proof.
  revert l. induction rs as [|o rs IH]; intros l H; [injection H as <-; now exists []|]. cbn [read_rows] in H. destruct o as [r|]; [|discriminate].
  destruct (decode r) as [a| | |] eqn:E; try discriminate. cbn [lbind] in H. destruct (read_rows decode rs) as [l'| | |]; try discriminate. injection H as <-.
  destruct (IH l' eq_refl) as (rs' & -> & F). exists (r :: rs'). split; [reflexivity|]. now constructor.
Qed.
Lemma read_complete {A R} (decode : R -> lexres A) res l : read decode res = LOk l -> exists rs, res = Result (map Some rs) true /\ Forall2 (fun r a => decode r = LOk a) rs l.
Proof.
  unfold read. destruct res as [|rs e]; [discriminate|]. destruct (read_rows decode rs) as [l'| | |] eqn:E; try discriminate. cbn [lbind]. destruct e; [|discriminate]. intros [= <-].
  destruct (read_rows_complete decode rs l' E) as (rs' & -> & F). now exists rs'.
Qed.

(** ** Versions *)
Lemma itoa_no_dot n c : (ord c < 48)%N -> ~ In c (itoa n).
Proof.
  intros L I. unfold itoa in I. pose proof (format_uint_digits (N.of_nat n)) as F. rewrite Forall_forall in F. specialize (F c I). unfold in_range in F. apply andb_true_iff in F. destruct F as (F & _). apply N.leb_le in F. lia.
Qed.
Lemma version_nums_ok nums : Forall (fun n => (Z.of_nat n <= max_int64)%Z) nums -> version_nums (map itoa nums) = LOk (map Z.of_nat nums).
Proof. intros H. induction H as [|n l H _ IH]; [reflexivity|]. cbn [map version_nums]. rewrite atoi_itoa by exact H. now rewrite IH. Qed.
Lemma version_split nums : nums <> [] -> split_byte "." (join (B ".") (map itoa nums)) = map itoa nums.
Proof.
  intros N. apply split_byte_join; [destruct nums; [congruence|discriminate]|]. apply Forall_forall. intros s H. apply in_map_iff in H. destruct H as (n & <- & _). now apply itoa_no_dot.
Qed.
Lemma version_no_blank nums : ~ In " "%char (join (B ".") (map itoa nums)).
Proof.
  induction nums as [|n nums IH]; [intros []|]. intros H. cbn [map] in H. destruct (map itoa nums) as [|s l] eqn:E.
  - cbn in H. revert H. now apply itoa_no_dot.
  - change (join (B ".") (itoa n :: s :: l)) with (itoa n ++ B "." ++ join (B ".") (s :: l)) in H. apply in_app_iff in H. destruct H as [H|H]; [revert H; now apply itoa_no_dot|]. destruct H as [H|H]; [discriminate|]. now apply IH.
Qed.
Lemma index_byte_absent c s : ~ In c s -> index_byte c s = None.
Proof.
  induction s as [|a s IH]; intros N; [reflexivity|]. cbn [index_byte]. destruct (Ascii.eqb_spec a c) as [->|_]; [exfalso; apply N; now left|]. rewrite IH; [reflexivity|]. intros X. apply N. now right.
Qed.
Lemma get_version_ok d nums s res : version_text d nums s -> says s res -> get_version d res = LOk (map Z.of_nat nums).
Proof.
  intros (N & M & V) (more & ->). cbn zeta in V. unfold get_version. cbn [first_row lbind].
  assert (X : (if is_postgres d then match index_byte " " s with Some i => firstn i s | None => s end else s) = join (B ".") (map itoa nums)).
  { destruct V as [->|(-> & m & ->)].
    - destruct (is_postgres d); [|reflexivity]. now rewrite (index_byte_absent _ _ (version_no_blank nums)).
    - cbn [is_postgres]. change (B " " ++ m) with (" "%char :: m). rewrite (index_byte_first _ _ _ (version_no_blank nums)). rewrite firstn_app, firstn_all, Nat.sub_diag. cbn [firstn]. now rewrite app_nil_r. }
  rewrite X, version_split by exact N. now apply version_nums_ok.
Qed.
