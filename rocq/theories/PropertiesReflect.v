(** * ReflectTable: C68 *)
From Coq Require Import Lia.
From Verif Require Import GoBase GoBaseFacts SpecSprintf SpecText TokenModel TokenFacts PropertiesToken QuoteModel SprintModel
  EffectModel RenderModel BuildModel FieldFacts PropertiesPred UpsertModel CacheModel NameModel DdlModel LoadModel
  SpecLoad SpecT LoadFacts PropertiesLoad FieldModel ReflectModel SpecToken SpecReflect.

(** ** Tags *)
Lemma read_tag_text ms s : tag_text ms s -> read_tag s = LOk (map mod_pair ms).
Proof.
  intros [|b m ms' s' Hb Hm Ht]; [reflexivity|].
  destruct (mod_text_word m Hm) as (W1 & W2 & W3). unfold read_tag.
  assert (N : b ++ mod_text m ++ s' <> []).
  { intros E. apply app_eq_nil in E. destruct E as [_ E]. apply app_eq_nil in E. now destruct E. }
  destruct (b ++ mod_text m ++ s') as [|c r] eqn:E; [congruence|]. rewrite <- E.
  assert (L : length s' <= length (b ++ mod_text m ++ s')) by (rewrite !app_length; lia).
  generalize dependent (length (b ++ mod_text m ++ s')). intros fuel L.
  cbn [lex_modifiers]. rewrite E. rewrite <- E at 1.
  rewrite cut_blanks by assumption. rewrite cut_unquoted by (auto; eapply mods_after; eauto).
  rewrite split_modifier_pf by assumption. rewrite (lex_modifiers_pf ms' s' Ht fuel) by exact L. reflexivity.
Qed.
Lemma modifier_value_last k ms : modifier_value k (map mod_pair ms) = last_value k ms.
Proof.
  unfold modifier_value.
  assert (G : forall r, fold_left (fun r m => if beqb (fst m) k then Some (snd m) else r) (map mod_pair ms) r
    = match last_value k ms with Some v => Some v | None => r end).
  { induction ms as [|m ms IH]; intros r; [reflexivity|]. cbn [map fold_left last_value]. rewrite IH.
    destruct (last_value k ms); [reflexivity|]. destruct (beqb (fst (mod_pair m)) k); reflexivity. }
  rewrite G. now destruct (last_value k ms).
Qed.

(** ** C68 *)

(** Lower case: capital letters become the small letter at the same place of
    the alphabet, all else stays. *)
Definition capitals : bytes := B "ABCDEFGHIJKLMNOPQRSTUVWXYZ".
Definition small_letters : bytes := B "abcdefghijklmnopqrstuvwxyz".
Theorem names_in_lower_case :
  (forall s, length (to_lower s) = length s) /\
  (forall s i k c, nth_error s i = Some c -> nth_error capitals k = Some c -> nth_error (to_lower s) i = nth_error small_letters k) /\
  (forall s i c, nth_error s i = Some c -> ~ In c capitals -> nth_error (to_lower s) i = Some c).
Proof.
  assert (H1 : forall k c, nth_error capitals k = Some c -> nth_error small_letters k = Some (lower c)).
  { intros k c. do 26 (destruct k as [|k]; [vm_compute; intros [= <-]; reflexivity|]). destruct k; discriminate. }
  assert (H2 : forall c, ~ In c capitals -> lower c = c).
  { intros [[] [] [] [] [] [] [] []] H; try reflexivity; exfalso; apply H; vm_compute; repeat (left; reflexivity) || tauto. }
  split; [|split].
  - intros s. apply map_length.
  - intros s i k c E K. unfold to_lower. rewrite nth_error_map, E. symmetry. exact (H1 k c K).
  - intros s i c E N. unfold to_lower. rewrite nth_error_map, E. cbn. f_equal. exact (H2 c N).
Qed.
Print Assumptions names_in_lower_case.

(** The name, schema and alias of the table. *)
Definition table_schema (s : bytes) (tag : list modifier) : bytes := first_nonempty [s; said (B "schema") tag].
Definition table_name (n ty : bytes) (tag : list modifier) : bytes := first_nonempty [n; said (B "name") tag; to_lower ty].
(** The name of a column: the tag's, else the Go name in lower case. *)
Definition column_name (f : go_field) (tag : list modifier) : bytes := first_nonempty [said (B "name") tag; to_lower (gf_name f)].
Definition named_field (s n a : bytes) (f : go_field) (tag : list modifier) : go_field :=
  if to_be_named f
  then match gf_value f with
       | VField k _ => set_value f (VField k (new_field (column_name f tag) s n a))
       | _ => f
       end
  else f.
(** The tags are readable; those of fields that keep their names need not be. *)
Definition readable (f : go_field) (tag : list modifier) : Prop :=
  match gf_value f with
  | VField _ n => gf_exported f = true -> get_name n = [] -> tag_text tag (gf_sq f)
  | _ => True
  end.

Lemma name_choice v b : (if is_empty (match v with Some x => x | None => [] end) then b
  else match v with Some x => x | None => [] end) = first_nonempty [match v with Some x => x | None => [] end; b].
Proof. destruct v as [[|c v]|]; destruct b; reflexivity. Qed.
Fixpoint map2 {A C R} (f : A -> C -> R) (l : list A) (m : list C) : list R :=
  match l, m with a :: l, c :: m => f a c :: map2 f l m | _, _ => [] end.
Lemma reflect_fields_eq s n a : forall fs tags, Forall2 readable fs tags ->
  reflect_fields s n a fs = (map2 (named_field s n a) fs tags, LOk tt).
Proof.
  induction 1 as [|f tag fs tags R H IH]; [reflexivity|].
  cbn [reflect_fields map2]. rewrite IH. cbn [fst snd].
  generalize (map2 (named_field s n a) fs tags). intros l.
  unfold named_field, to_be_named. unfold readable in R.
  destruct (gf_exported f) eqn:X; cbn [negb andb]; [|reflexivity].
  destruct (gf_value f) as [? ? ?|k nd|] eqn:V; [reflexivity| |reflexivity].
  destruct (get_name nd) as [|c nm] eqn:N; cbn [is_empty negb].
  - rewrite (read_tag_text _ _ (R eq_refl eq_refl)), modifier_value_last.
    rewrite name_choice. fold (said (B "name") tag). fold (column_name f tag).
    destruct k; reflexivity.
  - destruct k; reflexivity.
Qed.

(** A pointer to a struct with an embedded TableInfo and readable tags: all
    fields that are to be named are columns of that table, nothing else changes. *)
Theorem reflected : forall (alias ty : bytes) (f : go_field) (fs : list go_field) (s n a : bytes)
    (tag : list modifier) (tags : list (list modifier)),
  gf_value f = VTableInfo s n a -> gf_exported f = true -> gf_embedded f = true ->
  (s = [] \/ n = [] -> tag_text tag (gf_sq f)) -> Forall2 readable fs tags ->
  let tag' := if is_empty s || is_empty n then tag else [] in
  let s' := table_schema s tag' in
  let n' := table_name n ty tag' in
  reflect_table alias (TStruct ty (f :: fs))
  = (TStruct ty (set_value f (VTableInfo s' n' alias) :: map2 (named_field s' n' alias) fs tags), LOk tt).
Proof.
  intros alias ty f fs s n a tag tags V X Em T R tag' s' n'.
  unfold reflect_table. rewrite X, V, Em. cbn [negb].
  assert (E : (if is_empty s || is_empty n then read_tag (gf_sq f) else LOk []) = LOk (map mod_pair tag')).
  { unfold tag'. destruct s; [cbn [is_empty orb]; apply read_tag_text; auto|].
    destruct n; cbn [is_empty orb]; [apply read_tag_text; auto|reflexivity]. }
  rewrite E, !modifier_value_last.
  assert (Es : (if is_empty s then match last_value (B "schema") tag' with Some v => v | None => s end else s) = s').
  { unfold s', table_schema, said. destruct s as [|c s]; [|reflexivity]. cbn [is_empty first_nonempty].
    destruct (last_value (B "schema") tag') as [[|]|]; reflexivity. }
  rewrite Es.
  assert (En : (let n1 := if is_empty n then match last_value (B "name") tag' with Some v => v | None => n end else n in
    if is_empty n1 then to_lower ty else n1) = n').
  { unfold n', table_name, said. destruct n as [|c n]; [|reflexivity]. cbn [is_empty first_nonempty].
    destruct (last_value (B "name") tag') as [[|]|]; cbn [is_empty first_nonempty]; destruct (to_lower ty); reflexivity. }
  cbv zeta in En. cbv zeta. rewrite En. rewrite (reflect_fields_eq s' n' alias fs tags R). reflexivity.
Qed.
Print Assumptions reflected.

(** So each column is written as the table's alias (or name), a dot, and its name. *)
Lemma new_field_text d name s t a x : ascending x ->
  let q := if is_empty a then t else a in
  text_of (render d (new_field name s t a) (ctx None x))
  = Some ((if is_empty q || existsb (beqb q) x then [] else quote_identifier d q ++ B ".") ++ quote_identifier d name).
Proof.
  intros As q.
  destruct (qualifier_dropped_iff_excluded d false (mk_finfo s t a name [] [] [] None None false) [] None [] None x
    eq_refl eq_refl As) as [P1 P2].
  cbn [fi_talias fi_table fi_collation fi_desc fi_nulls fi_name is_empty app] in P1, P2. fold q in P1, P2.
  rewrite !app_nil_r in P1. rewrite !app_nil_r in P2.
  change (render d (new_field name s t a) (ctx None x)) with
    (render d (NField false false (mk_finfo s t a name [] [] [] None None false) []) (mk_ctx None [] None x)).
  destruct (is_empty q || existsb (beqb q) x) eqn:E.
  - cbn [app]. apply P1. apply orb_true_iff in E. destruct E as [E|E].
    + left. destruct q; [reflexivity|discriminate].
    + right. apply existsb_exists in E. destruct E as (y & I & E). apply beqb_eq in E. now subst.
  - rewrite <- app_assoc. apply P2. apply orb_false_iff in E. destruct E as [E1 E2]. split.
    + intros Q. rewrite Q in E1. discriminate.
    + intros I. assert (existsb (beqb q) x = true); [|congruence].
      apply existsb_exists. exists q. split; [exact I|apply beqb_refl].
Qed.

(** From struct to database and query: the columns that LoadTable declares for a
    reflected struct are, in order, exactly the names the struct's fields are
    written with, and table and schema are those the fields are qualified with. *)
Theorem reflected_struct_is_the_table : forall (numeric : bytes -> bool) (d : dialect) (alias ty : bytes) (f : go_field)
    (fs : list go_field) (s n a : bytes) (tag : list modifier) (tags : list (list modifier)) (ddl : list t_call)
    (g : list go_field) (s' n' : bytes) (t : table) (x : list bytes),
  gf_value f = VTableInfo s n a -> gf_exported f = true -> gf_embedded f = true ->
  (s = [] \/ n = [] -> tag_text tag (gf_sq f)) -> Forall2 readable fs tags -> Forall fresh_field fs ->
  reflect_table alias (TStruct ty (f :: fs)) = (TStruct ty g, LOk tt) ->
  (exists f0, nth_error g 0 = Some f0 /\ gf_value f0 = VTableInfo s' n' alias) ->
  let columns := map load_field g in
  load_table numeric d s' n' columns ddl (empty_table [] []) = LOk t ->
  table_ignored d columns = false -> NoDup (flat_map field_columns columns) -> Forall keeps_ignored ddl ->
  ascending x ->
  t_schema t = s' /\ t_name t = n' /\
  let q := if is_empty alias then n' else alias in
  Forall2 (fun nd c => text_of (render d nd (ctx None x))
             = Some ((if is_empty q || existsb (beqb q) x then [] else quote_identifier d q ++ B ".") ++ quote_identifier d c))
    (column_nodes g) (map l_name (objects (t_columns t))).
Proof.
  intros numeric d alias ty f fs s n a tag tags ddl g s' n' t x V X Em T R Fr Rf (f0 & N0 & V0) columns L I ND K As.
  destruct (table_columns numeric d s' n' columns ddl t L I ND K) as (S & N & _).
  split; [exact S|]. split; [exact N|]. intros q.
  rewrite (table_column_names numeric d s' n' columns ddl t L I ND K).
  rewrite (reflected alias ty f fs s n a tag tags V X Em T R) in Rf.
  set (tag' := if is_empty s || is_empty n then tag else []) in *.
  set (s1 := table_schema s tag') in *. set (n1 := table_name n ty tag') in *.
  apply (f_equal fst) in Rf. cbn [fst] in Rf. injection Rf as Rf. subst g.
  cbn [nth_error] in N0. injection N0 as N0. subst f0. cbn [set_value gf_value] in V0. injection V0 as E1 E2.
  unfold columns. cbn [map flat_map column_nodes].
  unfold load_field at 1. cbn [set_value gf_value field_columns app].
  clear - Fr R As E1 E2. induction R as [|h tg fs tags Rh R IH]; cbn [map2 map flat_map]; [constructor|].
  inversion Fr as [|? ? Fh Fr']; subst.
  apply Forall2_app; [|now apply IH].
  unfold named_field, to_be_named, load_field, fresh_field in *.
  destruct (gf_exported h) eqn:X; destruct (gf_value h) as [| k nd |] eqn:V; cbn [andb]; rewrite ?V, ?X;
    try (cbn [field_columns]; constructor; fail).
  destruct (Fh eq_refl) as [F1 F2]. rewrite F2. cbn [is_empty].
  assert (G : forall k', match gf_value (set_value h (VField k' (new_field (column_name h tg) s1 n1 alias))) with
    | VField _ n => if gf_exported (set_value h (VField k' (new_field (column_name h tg) s1 n1 alias))) then [n] else [] | _ => [] end
    = [new_field (column_name h tg) s1 n1 alias]).
  { intros k'. cbn [set_value gf_value gf_exported]. now rewrite X. }
  destruct k as [k| |]; [| |congruence]; rewrite G; cbn [set_value gf_value gf_exported]; rewrite X;
    cbn [field_columns]; (apply Forall2_cons; [|apply Forall2_nil]);
    cbn [new_field get_name fi_name]; rewrite new_field_text by exact As; reflexivity.
Qed.
Print Assumptions reflected_struct_is_the_table.

(** A struct that was reflected: reflecting it again only sets the alias of its
    TableInfo.  With the same alias nothing changes; with another one the
    columns keep the old alias (see [realiased_table_refuted]). *)
Definition with_alias (b : bytes) (f : go_field) : go_field :=
  match gf_value f with VTableInfo s n _ => set_value f (VTableInfo s n b) | _ => f end.
Lemma lower_nonempty s : s <> [] -> to_lower s <> [].
Proof. now destruct s. Qed.
Lemma reflect_fields_again s n a s2 n2 b : forall fs, Forall (fun f => gf_name f <> []) fs ->
  snd (reflect_fields s n a fs) = LOk tt ->
  reflect_fields s2 n2 b (fst (reflect_fields s n a fs)) = (fst (reflect_fields s n a fs), LOk tt).
Proof.
  induction fs as [|f fs IH]; intros F; [reflexivity|]. inversion F as [|? ? F1 F2]; subst. specialize (IH F2).
  cbn [reflect_fields]. destruct (gf_exported f) eqn:X; cbn [negb].
  - destruct (gf_value f) as [? ? ?|k nd|] eqn:V; cbn [fst snd].
    + intros L. cbn [reflect_fields]. rewrite X, V, (IH L). reflexivity.
    + destruct (get_name nd) as [|c nm] eqn:N; cbn [is_empty negb fst snd].
      * destruct (read_tag (gf_sq f)) as [ms| | |] eqn:Tg; cbn [fst snd]; try discriminate. intros L.
        set (name := if is_empty (match modifier_value (B "name") ms with Some v => v | None => [] end)
          then to_lower (gf_name f) else match modifier_value (B "name") ms with Some v => v | None => [] end).
        assert (Nn : name <> []).
        { unfold name. destruct (match modifier_value (B "name") ms with Some v => v | None => [] end); [|discriminate].
          now apply lower_nonempty. }
        destruct k as [k| |]; cbn [reflect_fields set_value gf_exported gf_value gf_sq]; rewrite X, (IH L);
          try rewrite V; try rewrite N; try rewrite Tg; cbn [negb is_empty fst snd];
          cbn [new_field get_name fi_name]; try (destruct name; [congruence|reflexivity]); reflexivity.
      * intros L. cbn [reflect_fields]. rewrite X, V, N, (IH L). reflexivity.
    + intros L. cbn [reflect_fields]. rewrite X, V, (IH L). reflexivity.
  - cbn [fst snd]. intros L. cbn [reflect_fields]. rewrite X, (IH L). reflexivity.
Qed.
Theorem reflected_again : forall (a b ty : bytes) (fs g : list go_field),
  Forall (fun f => gf_name f <> []) fs ->
  reflect_table a (TStruct ty fs) = (TStruct ty g, LOk tt) ->
  reflect_table b (TStruct ty g) = (TStruct ty (match g with f :: g' => with_alias b f :: g' | [] => [] end), LOk tt).
Proof.
  intros a b ty [|f fs] g F E; [discriminate|]. inversion F as [|? ? F1 F2]; subst. clear F. revert E.
  unfold reflect_table at 1. destruct (gf_exported f) eqn:X; [|discriminate]. cbn [negb].
  destruct (gf_value f) as [s n a0|k nd|] eqn:V; try discriminate.
  destruct (gf_embedded f) eqn:Em; [|discriminate]. cbn [negb].
  destruct (if is_empty s || is_empty n then read_tag (gf_sq f) else LOk []) as [ms| | |] eqn:Tg; try discriminate.
  cbv zeta.
  set (s1 := if is_empty s then match modifier_value (B "schema") ms with Some v => v | None => s end else s).
  set (n0 := if is_empty n then match modifier_value (B "name") ms with Some v => v | None => n end else n).
  set (n1 := if is_empty n0 then to_lower ty else n0).
  intros E.
  assert (L : snd (reflect_fields s1 n1 a fs) = LOk tt) by (exact (f_equal snd E)).
  apply (f_equal fst) in E. cbn [fst] in E. injection E as E. subst g.
  unfold reflect_table. cbn [set_value gf_exported gf_value gf_embedded gf_sq]. rewrite X, Em. cbn [negb].
  assert (Q : exists ms', (if is_empty s1 || is_empty n1 then read_tag (gf_sq f) else LOk []) = LOk ms' /\
    (if is_empty s1 then match modifier_value (B "schema") ms' with Some v => v | None => s1 end else s1) = s1 /\
    (if is_empty (if is_empty n1 then match modifier_value (B "name") ms' with Some v => v | None => n1 end else n1)
     then to_lower ty else (if is_empty n1 then match modifier_value (B "name") ms' with Some v => v | None => n1 end else n1)) = n1).
  { destruct (is_empty s1 || is_empty n1) eqn:O.
    - assert (O' : is_empty s || is_empty n = true).
      { apply orb_true_iff in O. apply orb_true_iff. destruct O as [O|O].
        - left. unfold s1 in O. destruct s; [reflexivity|discriminate].
        - right. unfold n1, n0 in O. destruct n; [reflexivity|discriminate]. }
      rewrite O' in Tg. exists ms. split; [exact Tg|]. split.
      + unfold s1. destruct s as [|c s]; cbn [is_empty]; [|reflexivity].
        destruct (modifier_value (B "schema") ms) as [[|]|]; reflexivity.
      + unfold n1, n0. destruct n as [|c n]; cbn [is_empty]; [|reflexivity].
        destruct (modifier_value (B "name") ms) as [[|]|]; cbn [is_empty]; destruct (to_lower ty); reflexivity.
    - exists []. split; [reflexivity|]. apply orb_false_iff in O. destruct O as [O1 O2]. rewrite O1, O2. rewrite O2. now split. }
  destruct Q as (ms' & Q1 & Q2 & Q3). rewrite Q1. cbv zeta. rewrite Q2, Q3.
  rewrite (reflect_fields_again s1 n1 a s1 n1 b fs F2 L). unfold with_alias. cbn [set_value gf_value fst snd].
  reflexivity.
Qed.
Print Assumptions reflected_again.

(** A tag that cannot be read stops ReflectTable at that field: the fields before
    it are named, it and those after it are not, and TableInfo is already set. *)
Theorem reflect_stops : forall (alias ty : bytes) (f g : go_field) (fs1 fs2 : list go_field) (s n a : bytes)
    (tag : list modifier) (tags : list (list modifier)) (r : lexres unit),
  gf_value f = VTableInfo s n a -> gf_exported f = true -> gf_embedded f = true ->
  (s = [] \/ n = [] -> tag_text tag (gf_sq f)) -> Forall2 readable fs1 tags -> to_be_named g = true ->
  (r = LErr /\ read_tag (gf_sq g) = LErr \/ r = LPanic /\ read_tag (gf_sq g) = LPanic) ->
  let tag' := if is_empty s || is_empty n then tag else [] in
  let s' := table_schema s tag' in
  let n' := table_name n ty tag' in
  reflect_table alias (TStruct ty (f :: fs1 ++ g :: fs2))
  = (TStruct ty (set_value f (VTableInfo s' n' alias) :: map2 (named_field s' n' alias) fs1 tags ++ g :: fs2), r).
Proof.
  intros alias ty f g fs1 fs2 s n a tag tags r V X Em T R Bn Bad tag' s' n'.
  assert (W : forall fs, reflect_table alias (TStruct ty (f :: fs))
    = (TStruct ty (set_value f (VTableInfo s' n' alias) :: fst (reflect_fields s' n' alias fs)),
       snd (reflect_fields s' n' alias fs))).
  { intros fs. unfold reflect_table. rewrite X, V, Em. cbn [negb].
    assert (E : (if is_empty s || is_empty n then read_tag (gf_sq f) else LOk []) = LOk (map mod_pair tag')).
    { unfold tag'. destruct s; [cbn [is_empty orb]; apply read_tag_text; auto|].
      destruct n; cbn [is_empty orb]; [apply read_tag_text; auto|reflexivity]. }
    rewrite E, !modifier_value_last. cbv zeta.
    assert (Es : (if is_empty s then match last_value (B "schema") tag' with Some v => v | None => s end else s) = s').
    { unfold s', table_schema, said. destruct s as [|c s]; [|reflexivity]. cbn [is_empty first_nonempty].
      destruct (last_value (B "schema") tag') as [[|]|]; reflexivity. }
    rewrite Es.
    assert (En : (if is_empty (if is_empty n then match last_value (B "name") tag' with Some v => v | None => n end else n)
      then to_lower ty else (if is_empty n then match last_value (B "name") tag' with Some v => v | None => n end else n)) = n').
    { unfold n', table_name, said. destruct n as [|c n]; [|reflexivity]. cbn [is_empty first_nonempty].
      destruct (last_value (B "name") tag') as [[|]|]; cbn [is_empty first_nonempty]; destruct (to_lower ty); reflexivity. }
    rewrite En. reflexivity. }
  rewrite W. clear W.
  assert (G : reflect_fields s' n' alias (fs1 ++ g :: fs2) = (map2 (named_field s' n' alias) fs1 tags ++ g :: fs2, r)).
  { generalize s' n'. intros s2 n2. clear - R Bn Bad. induction R as [|h tg fs tags Rh R IH]; cbn [app map2].
    - unfold to_be_named in Bn. apply andb_true_iff in Bn. destruct Bn as [X Bn].
      cbn [reflect_fields]. rewrite X. cbn [negb]. destruct (gf_value g) as [|k nd|]; try discriminate.
      assert (N : is_empty (get_name nd) = true) by (destruct k; [exact Bn|exact Bn|discriminate]).
      rewrite N. cbn [negb]. destruct Bad as [[-> ->]|[-> ->]]; reflexivity.
    - cbn [reflect_fields]. rewrite IH. cbn [fst snd].
      generalize (map2 (named_field s2 n2 alias) fs tags ++ g :: fs2). intros l.
      unfold named_field, to_be_named. unfold readable in Rh.
      destruct (gf_exported h) eqn:X; cbn [negb andb]; [|reflexivity].
      destruct (gf_value h) as [? ? ?|k nd|] eqn:V; [reflexivity| |reflexivity].
      destruct (get_name nd) as [|c nm] eqn:N; cbn [is_empty negb].
      + rewrite (read_tag_text _ _ (Rh eq_refl eq_refl)), modifier_value_last, name_choice.
        fold (said (B "name") tg). fold (column_name h tg). destruct k; reflexivity.
      + destruct k; reflexivity. }
  rewrite G. reflexivity.
Qed.
Print Assumptions reflect_stops.

(** What is not a pointer to a struct whose first field is an exported, embedded TableInfo
    is refused and left alone. *)
Theorem not_a_table_refused : forall (alias : bytes) (t : go_table),
  match t with
  | TNoPointer | TNoStruct | TStruct _ [] => True
  | TStruct _ (f :: _) => gf_embedded f = false \/ ~ exists s n a, gf_value f = VTableInfo s n a
  end ->
  fst (reflect_table alias t) = t /\ snd (reflect_table alias t) <> LOk tt.
Proof.
  intros alias [| |ty [|f fs]] H; cbn; try (split; [reflexivity|discriminate]).
  destruct (gf_exported f); cbn [negb]; [|split; [reflexivity|discriminate]].
  destruct (gf_value f) as [s n a| |] eqn:V; try (split; [reflexivity|discriminate]).
  destruct H as [H|H].
  - rewrite H. split; [reflexivity|discriminate].
  - exfalso. apply H. eauto.
Qed.
Print Assumptions not_a_table_refused.

(** A struct: type ACTOR struct { TableInfo `sq:"schema=public"`; ACTOR_ID NumberField; FIRST StringField `sq:"name=first_name"`; note string }. *)
Definition unnamed : node := new_field [] [] [] [].
Definition info_field : go_field := mk_go_field (B "TableInfo") true true (B "schema=public") [] (VTableInfo [] [] []).
Definition actor_fields : list go_field :=
  [mk_go_field (B "ACTOR_ID") true false [] [] (VField (GKind KNumber) unnamed);
   mk_go_field (B "FIRST") true false (B "name=first_name") [] (VField (GKind KString) unnamed);
   mk_go_field (B "note") false false [] [] VOther].
Definition reflected_actor (a : bytes) : list go_field :=
  [mk_go_field (B "TableInfo") true true (B "schema=public") [] (VTableInfo (B "public") (B "actor") a);
   mk_go_field (B "ACTOR_ID") true false [] [] (VField (GKind KNumber) (new_field (B "actor_id") (B "public") (B "actor") a));
   mk_go_field (B "FIRST") true false (B "name=first_name") [] (VField (GKind KString) (new_field (B "first_name") (B "public") (B "actor") a));
   mk_go_field (B "note") false false [] [] VOther].
Example ex_reflected : reflect_table (B "a") (TStruct (B "ACTOR") (info_field :: actor_fields)) = (TStruct (B "ACTOR") (reflected_actor (B "a")), LOk tt).
Proof. reflexivity. Qed.
Example ex_reflected_hypotheses :
  tag_text [MVal (B "schema") (B "public")] (gf_sq info_field) /\
  Forall2 readable actor_fields [[]; [MVal (B "name") (B "first_name")]; []] /\ Forall fresh_field actor_fields.
Proof.
  assert (K : forall k, forallb (fun c => (ord c <? 128)%N && negb (is_space (ord c)) && negb (Ascii.eqb c "{") && negb (Ascii.eqb c "}")) k = true ->
    k <> [] -> index_byte "=" k = None -> key_ok k).
  { intros k H1 H2 H3. split; [now apply word_bytes|]. split; [exact H2|]. split.
    - intros (t & ->). discriminate.
    - now apply index_byte_none. }
  assert (V : forall k v, key_ok k -> forallb (fun c => (ord c <? 128)%N && negb (is_space (ord c)) && negb (Ascii.eqb c "{") && negb (Ascii.eqb c "}")) v = true ->
    v <> [] -> tag_text [MVal k v] (k ++ B "=" ++ v)).
  { intros k v Hk H1 H2. rewrite <- (app_nil_r (k ++ B "=" ++ v)).
    apply (tt_some [] (MVal k v) [] []); [now exists []| |constructor].
    split; [exact Hk|]. split; [now apply word_bytes|]. split; [exact H2|]. intros (t & ->). discriminate. }
  split; [|split].
  - apply (V (B "schema") (B "public")); [apply K; [reflexivity|discriminate|reflexivity]|reflexivity|discriminate].
  - constructor; [intros _ _; constructor|]. constructor; [|constructor; [exact I|constructor]].
    intros _ _. apply (V (B "name") (B "first_name")); [apply K; [reflexivity|discriminate|reflexivity]|reflexivity|discriminate].
  - constructor; [intros _; split; [discriminate|reflexivity]|].
    constructor; [intros _; split; [discriminate|reflexivity]|]. constructor; [exact I|constructor].
Qed.
Example ex_reflected_loads :
  exists t, load_table (fun _ => false) DPostgres (B "public") (B "actor") (map load_field (reflected_actor (B "a"))) [] (empty_table [] []) = LOk t /\
    map l_name (objects (t_columns t)) = [B "actor_id"; B "first_name"].
Proof. eexists. split; [vm_compute; reflexivity|reflexivity]. Qed.
Example ex_reflect_stops :
  reflect_table [] (TStruct (B "T") [info_field; mk_go_field (B "A") true false [] [] (VField GCustom unnamed);
     mk_go_field (B "Z") true false (B "name=}") [] (VField GCustom unnamed); mk_go_field (B "C") true false [] [] (VField GCustom unnamed)])
  = (TStruct (B "T") [set_value info_field (VTableInfo (B "public") (B "t") []);
       mk_go_field (B "A") true false [] [] (VField GCustom (new_field (B "a") (B "public") (B "t") []));
       mk_go_field (B "Z") true false (B "name=}") [] (VField GCustom unnamed); mk_go_field (B "C") true false [] [] (VField GCustom unnamed)], LErr).
Proof. reflexivity. Qed.

(** Finding: a struct that was reflected without alias and is reflected again with
    alias "b" is written "FROM public.actor AS b", but its columns are still
    written "actor.…": the statement is invalid. *)
Theorem realiased_table_refuted :
  exists g, reflect_table (B "b") (TStruct (B "ACTOR") (reflected_actor [])) = (TStruct (B "ACTOR") g, LOk tt) /\
    option_map gf_value (nth_error g 0) = Some (VTableInfo (B "public") (B "actor") (B "b")) /\
    Forall2 (fun nd c => text_of (render DPostgres nd (ctx None [])) = Some c) (column_nodes g)
      [B "actor.actor_id"; B "actor.first_name"].
Proof.
  eexists. split; [vm_compute; reflexivity|]. split; [reflexivity|].
  constructor; [vm_compute; reflexivity|]. constructor; [vm_compute; reflexivity|constructor].
Qed.
Print Assumptions realiased_table_refuted.
(** Finding: a field of another type that implements sq.Field stays unnamed, without an error. *)
Theorem foreign_field_unnamed_refuted : forall (alias ty : bytes) (f : go_field) (n : node),
  gf_value f = VField GForeign n -> gf_exported f = true -> get_name n = [] -> gf_sq f = [] ->
  reflect_table alias (TStruct ty [info_field; f])
  = (TStruct ty [set_value info_field (VTableInfo (B "public") (to_lower ty) alias); f], LOk tt).
Proof.
  intros alias ty f n V X N Q. unfold reflect_table.
  cbn [info_field gf_exported gf_value gf_embedded gf_sq negb is_empty orb reflect_fields]. rewrite X, V, N, Q. reflexivity.
Qed.
Print Assumptions foreign_field_unnamed_refuted.
(** Finding: an unexported first field panics. *)
Theorem unexported_first_field_panics_refuted : forall (alias ty : bytes) (f : go_field) (fs : list go_field),
  gf_exported f = false -> reflect_table alias (TStruct ty (f :: fs)) = (TStruct ty (f :: fs), LPanic).
Proof. intros alias ty f fs X. unfold reflect_table. now rewrite X. Qed.
Print Assumptions unexported_first_field_panics_refuted.
