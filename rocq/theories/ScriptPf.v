(** * ScriptPf: what the introspection queries ask for (C63) *)
From Coq Require Import Lia.
From Verif Require Import GoBase GoBaseFacts QuoteModel SpecLex QuoteFacts TemplateModel ScriptText SpecScript ScriptLex.

(** ** Queries with holes: all filters of one shape *)
Definition hole (n : bytes) : tok := TIdent ("."%char :: n).
Definition is_hole (t : tok) : bool := match t with TIdent ("."%char :: _) => true | _ => false end.
Definition fill (f : filter) (t : tok) : list tok :=
  match t with TIdent ("."%char :: n) => value_tokens (map (collapse "'") (list_field f n)) | _ => [t] end.
Definition mark (l : list bytes) : list bytes := match l with [] => [] | _ => [[]] end.
Definition shape (f : filter) : filter :=
  mk_filter (f_system f) (f_comments f) (f_sort f) (mark (f_with_schemas f)) (mark (f_without_schemas f)) (mark (f_with_tables f)) (mark (f_without_tables f))
    (mark (f_with_functions f)) (mark (f_without_functions f)).
Definition ltok_sym (l : ltok) : tok := match l with LTok t => t | LVals n => hole n end.
Definition sym_item (g : filter) (i : titem) : list tok :=
  match i with KTok t => [t] | KVals n => [hole n] | KIf neg n body => if guard g neg n then map ltok_sym body else [] end.
Definition sym (g : filter) (t : list titem) : list tok := flat_map (sym_item g) t.
Definition no_holes (t : list titem) : bool :=
  forallb (fun i => match i with
                    | KTok t => negb (is_hole t)
                    | KVals _ => true
                    | KIf _ _ body => forallb (fun l => match l with LTok t => negb (is_hole t) | LVals _ => true end) body
                    end) t.
Lemma fill_plain f t : is_hole t = false -> fill f t = [t].
Proof. unfold is_hole, fill. destruct t as [w|v|v|c|]; try reflexivity. destruct v as [|c v]; [reflexivity|]. destruct c as [[] [] [] [] [] [] [] []]; intros H; try reflexivity; discriminate H. Qed.
Lemma fill_hole f n : fill f (hole n) = value_tokens (map (collapse "'") (list_field f n)).
Proof. reflexivity. Qed.
Lemma guard_shape f neg n : guard (shape f) neg n = guard f neg n.
Proof.
  unfold guard, field_of, shape. cbn [f_system f_comments f_sort f_with_schemas f_without_schemas f_with_tables f_without_tables f_with_functions f_without_functions].
  repeat (match goal with |- context [if beqb n ?x then _ else _] => destruct (beqb n x) end; [try reflexivity; f_equal; match goal with |- truth (VList (mark ?l)) = _ => now destruct l end|]). reflexivity.
Qed.
Lemma expand_sym f t : no_holes t = true -> expand f t = flat_map (fill f) (sym (shape f) t).
Proof.
  unfold expand, sym, no_holes. induction t as [|i t IH]; intros H; [reflexivity|]. cbn [forallb flat_map] in *. apply andb_true_iff in H. destruct H as (H1 & H2). rewrite flat_map_app, (IH H2). f_equal.
  destruct i as [x|n|neg n body]; cbn [expand_item sym_item].
  - cbn [flat_map]. rewrite app_nil_r. symmetry. apply fill_plain. now destruct (is_hole x).
  - cbn [flat_map]. rewrite app_nil_r. reflexivity.
  - rewrite guard_shape. destruct (guard f neg n); [|reflexivity]. clear IH H2. induction body as [|l body IHb]; [reflexivity|]. cbn [forallb flat_map map] in *. apply andb_true_iff in H1. destruct H1 as (H1 & H2). rewrite (IHb H2). f_equal.
    destruct l as [x|m]; [|reflexivity]. cbn [ltok_sym expand_leaf]. symmetry. apply fill_plain. now destruct (is_hole x).
Qed.

(** ** Filling the holes does not change the structure *)
Definition neutral (t : tok) : bool := negb (tok_eqb t OPEN) && negb (tok_eqb t CLOSE) && negb (tok_eqb t KWHERE) && negb (tok_eqb t KAND) && negb (ends_where t).
Lemma value_neutral l : forallb neutral (value_tokens l) = true.
Proof. induction l as [|v l IH]; [reflexivity|]. destruct l as [|x l]; [reflexivity|]. change (value_tokens (v :: x :: l)) with (TStr v :: TSym "," :: value_tokens (x :: l)). cbn [forallb]. rewrite IH. reflexivity. Qed.
Lemma fill_cases f t : (is_hole t = false /\ fill f t = [t]) \/ (neutral t = true /\ forallb neutral (fill f t) = true).
Proof.
  destruct (is_hole t) eqn:E; [right|left; split; [reflexivity|now apply fill_plain]]. destruct t as [w|v|v|c|]; try discriminate. destruct v as [|c v]; [discriminate|]. split; [reflexivity|].
  unfold is_hole in E. assert (Ec : c = "."%char) by (destruct c as [[] [] [] [] [] [] [] []]; try discriminate E; reflexivity). subst c. apply value_neutral.
Qed.
Lemma neutral_inv t : neutral t = true -> tok_eqb t OPEN = false /\ tok_eqb t CLOSE = false /\ tok_eqb t KWHERE = false /\ tok_eqb t KAND = false /\ ends_where t = false.
Proof. unfold neutral. rewrite !andb_true_iff, !negb_true_iff. tauto. Qed.
Lemma clause_neutral l : forall d r, forallb neutral l = true -> clause d (l ++ r) = l ++ clause d r.
Proof.
  induction l as [|t l IH]; intros d r H; [reflexivity|]. cbn [forallb] in H. apply andb_true_iff in H. destruct H as (H1 & H2). destruct (neutral_inv t H1) as (A & B0 & _ & _ & E).
  cbn [app clause]. rewrite A, B0, E, andb_false_r. f_equal. now apply IH.
Qed.
Lemma clause_fill f ts : forall d, clause d (flat_map (fill f) ts) = flat_map (fill f) (clause d ts).
Proof.
  induction ts as [|t ts IH]; intros d; [reflexivity|]. cbn [flat_map]. destruct (fill_cases f t) as [(Ht & E)|(N & E)].
  - rewrite E. cbn [app clause]. destruct (tok_eqb t OPEN); [cbn [flat_map]; rewrite E; cbn [app]; f_equal; apply IH|].
    destruct (tok_eqb t CLOSE); [destruct d as [|d]; [reflexivity|cbn [flat_map]; rewrite E; cbn [app]; f_equal; apply IH]|].
    destruct (Nat.eqb d 0 && ends_where t); [reflexivity|]. cbn [flat_map]. rewrite E. cbn [app]. f_equal. apply IH.
  - rewrite clause_neutral by exact E. rewrite IH. destruct (neutral_inv t N) as (A & B0 & _ & _ & W). cbn [clause]. rewrite A, B0, W, andb_false_r. reflexivity.
Qed.
Lemma wheres_neutral l : forall r, forallb neutral l = true -> wheres (l ++ r) = wheres r.
Proof.
  induction l as [|t l IH]; intros r H; [reflexivity|]. cbn [forallb] in H. apply andb_true_iff in H. destruct H as (H1 & H2). destruct (neutral_inv t H1) as (_ & _ & W & _). cbn [app wheres]. rewrite W. now apply IH.
Qed.
Lemma wheres_fill f ts : wheres (flat_map (fill f) ts) = map (flat_map (fill f)) (wheres ts).
Proof.
  induction ts as [|t ts IH]; [reflexivity|]. cbn [flat_map]. destruct (fill_cases f t) as [(Ht & E)|(N & E)].
  - rewrite E. cbn [app wheres]. destruct (tok_eqb t KWHERE); [|exact IH]. cbn [map]. rewrite clause_fill, IH. reflexivity.
  - rewrite wheres_neutral by exact E. destruct (neutral_inv t N) as (_ & _ & W & _). cbn [wheres]. rewrite W. exact IH.
Qed.
Lemma conditions_neutral l : forall d cur r, forallb neutral l = true -> conditions_from d cur (l ++ r) = conditions_from d (cur ++ l) r.
Proof.
  induction l as [|t l IH]; intros d cur r H; [now rewrite app_nil_r|]. cbn [forallb] in H. apply andb_true_iff in H. destruct H as (H1 & H2). destruct (neutral_inv t H1) as (A & B0 & _ & K & _).
  cbn [app conditions_from]. rewrite A, B0, K, andb_false_r. rewrite IH by exact H2. now rewrite <- app_assoc.
Qed.
Lemma conditions_fill f ts : forall d cur, conditions_from d (flat_map (fill f) cur) (flat_map (fill f) ts) = map (flat_map (fill f)) (conditions_from d cur ts).
Proof.
  induction ts as [|t ts IH]; intros d cur; [reflexivity|]. cbn [flat_map]. destruct (fill_cases f t) as [(Ht & E)|(N & E)].
  - assert (X : flat_map (fill f) cur ++ [t] = flat_map (fill f) (cur ++ [t])) by (rewrite flat_map_app; cbn [flat_map]; rewrite E; reflexivity).
    rewrite E. cbn [app conditions_from]. rewrite X.
    destruct (tok_eqb t OPEN); [apply IH|]. destruct (tok_eqb t CLOSE); [apply IH|]. destruct (Nat.eqb d 0 && tok_eqb t KAND); [|apply IH]. cbn [map]. f_equal. apply (IH 0 []).
  - rewrite conditions_neutral by exact E. destruct (neutral_inv t N) as (A & B0 & _ & K & _). cbn [conditions_from]. rewrite A, B0, K, andb_false_r. rewrite <- IH. f_equal. rewrite flat_map_app. cbn [flat_map]. now rewrite app_nil_r.
Qed.
Lemma where_conditions f w : conditions (flat_map (fill f) w) = map (flat_map (fill f)) (conditions w).
Proof. apply (conditions_fill f w 0 []). Qed.

(** ** The meaning of one condition *)
Lemma tok_eqb_eq a b : tok_eqb a b = true <-> a = b.
Proof.
  destruct a, b; cbn [tok_eqb]; try (split; [discriminate|congruence]); rewrite ?beqb_eq, ?Ascii.eqb_eq; (split; [now intros ->|now injection 1]) || (split; reflexivity) || idtac.
Qed.
Lemma tok_eqb_refl a : tok_eqb a a = true.
Proof. now apply tok_eqb_eq. Qed.
Lemma strip_app p r : strip p (p ++ r) = Some r.
Proof. induction p as [|a p IH]; [reflexivity|]. cbn [app strip]. rewrite tok_eqb_refl. exact IH. Qed.
Fixpoint clash (a b : list tok) : bool :=
  match a, b with x :: a', y :: b' => if tok_eqb x y then clash a' b' else true | _, _ => false end.
Lemma strip_clash a : forall b r, clash a b = true -> strip a (b ++ r) = None.
Proof. induction a as [|x a IH]; intros b r H; [discriminate|]. destruct b as [|y b]; [discriminate|]. cbn [clash app strip] in *. destruct (tok_eqb x y); [now apply IH|reflexivity]. Qed.
Lemma read_value_tokens v l : read_values (value_tokens (v :: l) ++ [CLOSE]) = Some (v :: l).
Proof.
  revert v. induction l as [|x l IH]; intros v; [reflexivity|]. change (value_tokens (v :: x :: l)) with (TStr v :: TSym "," :: value_tokens (x :: l)). specialize (IH x).
  destruct (value_tokens (x :: l) ++ [CLOSE]) as [|a [|b r]] eqn:E; [discriminate IH|destruct a; discriminate IH|].
  change ((TStr v :: TSym "," :: value_tokens (x :: l)) ++ [CLOSE]) with (TStr v :: TSym "," :: value_tokens (x :: l) ++ [CLOSE]). rewrite E. cbn [read_values] in *. change (tok_eqb (TSym ",") (TSym ",")) with true. cbv iota. rewrite IH. reflexivity.
Qed.
Definition in_cond (l : list bytes) : list tok := TWord (B "IN") :: OPEN :: value_tokens l ++ [CLOSE].
Definition not_in_cond (l : list bytes) : list tok := TWord (B "NOT") :: in_cond l.
Lemma says_in d v l : l <> [] -> says_of d v (in_cond l) = Some (among v l).
Proof. intros N. destruct l as [|x l]; [congruence|]. unfold says_of, in_cond. change (TWord (B "IN") :: OPEN :: ?r) with ([TWord (B "IN"); OPEN] ++ r). rewrite strip_app, read_value_tokens. reflexivity. Qed.
Lemma says_not_in d v l : l <> [] -> says_of d v (not_in_cond l) = Some (negb (among v l)).
Proof.
  intros N. destruct l as [|x l]; [congruence|]. unfold says_of, not_in_cond, in_cond. change (strip [TWord (B "IN"); OPEN] (TWord (B "NOT") :: ?r)) with (@None (list tok)). cbv iota.
  change (TWord (B "NOT") :: TWord (B "IN") :: OPEN :: ?r) with ([TWord (B "NOT"); TWord (B "IN"); OPEN] ++ r). rewrite strip_app, read_value_tokens. reflexivity.
Qed.
Definition not_like_cond (p : bytes) : list tok := [TWord (B "NOT"); TWord (B "LIKE"); TStr p].
Definition other_cond (x : bytes) : list tok := [TSym "<"; TSym ">"; TStr x].
Lemma says_not_like d v p : says_of d v (not_like_cond p) = Some (negb (like (like_fold d) p v)).
Proof. reflexivity. Qed.
Lemma says_other d v x : says_of d v (other_cond x) = Some (negb (beqb v x)).
Proof. reflexivity. Qed.
(** Which column a condition starting with [col] is about. *)
Fixpoint finds (cols : list (list tok * bytes)) (col : list tok) (v : bytes) : Prop :=
  match cols with
  | [] => False
  | (c, x) :: cols' => (c = col /\ x = v) \/ (clash c col = true /\ finds cols' col v)
  end.
Lemma holds_finds d cols col v r b : finds cols col v -> says_of d v r = Some b -> holds d cols (col ++ r) = Some b.
Proof.
  induction cols as [|(c, x) cols IH]; intros F S; [destruct F|]. cbn [holds]. destruct F as [(-> & ->)|(C & F)].
  - rewrite strip_app, S. reflexivity.
  - rewrite (strip_clash _ _ _ C). now apply IH.
Qed.
Lemma holds_none d cols c : forallb (fun p => match strip (fst p) c with None => true | _ => false end) cols = true -> holds d cols c = None.
Proof. induction cols as [|(k, x) cols IH]; [reflexivity|]. cbn [forallb holds fst]. intros H. apply andb_true_iff in H. destruct H as (H1 & H2). destruct (strip k c); [discriminate|]. now apply IH. Qed.

(** ** LIKE with a prefix *)
Lemma like_any fold s : like fold (B "%") s = true.
Proof. induction s as [|a s IH]; [reflexivity|]. exact IH. Qed.
Lemma like_prefix_any fold p : forallb (fun c => negb (Ascii.eqb c "%") && negb (Ascii.eqb c "_")) p = true -> forall s, like fold (p ++ B "%") s = starts fold p s.
Proof.
  induction p as [|c p IH]; intros H s; [apply like_any|]. cbn [forallb] in H. apply andb_true_iff in H. destruct H as (H1 & H2). apply andb_true_iff in H1. destruct H1 as (E1 & E2). apply negb_true_iff in E1, E2.
  cbn [app like]. rewrite E1. destruct s as [|x s]; [reflexivity|]. rewrite E2. cbn [orb starts]. now rewrite IH.
Qed.
Lemma like_prefix_one fold p : forallb (fun c => negb (Ascii.eqb c "%") && negb (Ascii.eqb c "_")) p = true -> forall s, like fold (p ++ B "_%") s = starts fold p s && Nat.ltb (length p) (length s).
Proof.
  induction p as [|c p IH]; intros H s.
  - cbn [app]. change (B "_%") with ("_"%char :: B "%"). cbn [like]. change (Ascii.eqb "_" "%") with false. cbv iota. destruct s as [|x s]; [reflexivity|]. change (Ascii.eqb "_" "_") with true. cbn [orb andb starts length]. apply like_any.
  - cbn [forallb] in H. apply andb_true_iff in H. destruct H as (H1 & H2). apply andb_true_iff in H1. destruct H1 as (E1 & E2). apply negb_true_iff in E1, E2.
    cbn [app like]. rewrite E1. destruct s as [|x s]; [reflexivity|]. rewrite E2. cbn [orb starts length]. rewrite IH by exact H2. change (Nat.ltb (S (length p)) (S (length s))) with (Nat.ltb (length p) (length s)). now rewrite andb_assoc.
Qed.
Lemma starts_fold_lower p q : map ascii_lower p = map ascii_lower q -> forall s, starts ascii_lower p s = starts ascii_lower q s.
Proof.
  revert q. induction p as [|a p IH]; intros q H s; destruct q as [|b q]; try discriminate; [reflexivity|]. cbn [map] in H. assert (H1 : ascii_lower a = ascii_lower b) by congruence. assert (H2 : map ascii_lower p = map ascii_lower q) by congruence.
  destruct s as [|x s]; [reflexivity|]. cbn [starts]. rewrite H1. now rewrite (IH q H2).
Qed.

(** ** What a clause should say, for a shape *)
Definition in_list (neg : bool) (col : list tok) (field : bytes) : list tok :=
  col ++ (if neg then [TWord (B "NOT")] else []) ++ [TWord (B "IN"); OPEN; hole field; CLOSE].
Definition when (b : bool) (c : list tok) : list (list tok) := if b then [c] else [].
Definition is_nil {A} (l : list A) : bool := match l with [] => true | _ => false end.
Definition schema_col (p : list bytes * bytes) : list tok := lex false (hd [] (fst p)).
Definition system_col (p : list bytes * bytes) : list tok := lex false (last (fst p) []).
Definition name_col (p : list bytes * bytes) : list tok := lex false (snd p).
Definition wanted_system (d : dialect) (p : list bytes * bytes) : list (list tok) :=
  match d with
  | DPostgres => [system_col p ++ other_cond (B "information_schema"); system_col p ++ not_like_cond (B "pg_%")]
  | DMySQL => [system_col p ++ not_in_cond [B "mysql"; B "information_schema"; B "performance_schema"; B "sys"]]
  | _ => [name_col p ++ not_like_cond (B "sqlite_%"); lex false (B "sql") ++ not_like_cond (B "CREATE TABLE '%")]
  end.
Definition wanted_lists (d : dialect) (k : object_kind) (g : filter) (p : list bytes * bytes) : list (list tok) :=
  match d with
  | DSQLite => []
  | _ => when (negb (is_nil (f_with_schemas g))) (in_list false (schema_col p) (B "WithSchemas")) ++
         when (negb (is_nil (f_without_schemas g))) (in_list true (schema_col p) (B "WithoutSchemas"))
  end ++
  match k with
  | OTables => when (negb (is_nil (f_with_tables g))) (in_list false (name_col p) (B "WithTables")) ++
               when (negb (is_nil (f_without_tables g))) (in_list true (name_col p) (B "WithoutTables"))
  | OFunctions => when (negb (is_nil (f_with_functions g))) (in_list false (name_col p) (B "WithFunctions")) ++
                  when (negb (is_nil (f_without_functions g))) (in_list true (name_col p) (B "WithoutFunctions"))
  end.
Definition wanted (d : dialect) (k : object_kind) (g : filter) (p : list bytes * bytes) : list (list tok) :=
  (if f_system g then [] else wanted_system d p) ++ wanted_lists d k g p.
Fixpoint toks_eqb (a b : list tok) : bool :=
  match a, b with [], [] => true | x :: a, y :: b => tok_eqb x y && toks_eqb a b | _, _ => false end.
Fixpoint conds_eqb (a b : list (list tok)) : bool :=
  match a, b with [], [] => true | x :: a, y :: b => toks_eqb x y && conds_eqb a b | _, _ => false end.
(** The columns of a place (without values). *)
Definition place_cols (d : dialect) (p : list bytes * bytes) : list (list tok) :=
  match d with DSQLite => [name_col p; lex false (B "sql")] | _ => name_col p :: map (lex false) (fst p) end.
Definition plain_cond (c : list tok) : bool := negb (is_nil c) && negb (has_empty_in c) && forallb (fun t => negb (is_hole t)) c.
Definition base_cond (cols : list (list tok)) (c : list tok) : bool :=
  plain_cond c && forallb (fun k => match strip k c with None => true | _ => false end) cols.
Definition place_check (d : dialect) (k : object_kind) (g : filter) (p : option (list bytes * bytes)) (w : list tok) : bool :=
  let cs := conditions w in
  match p with
  | None => forallb plain_cond cs
  | Some p =>
    let ws := wanted d k g p in
    let n := length cs - length ws in
    forallb (base_cond (place_cols d p)) (firstn n cs) && conds_eqb (skipn n cs) ws
  end.
Fixpoint places_check (d : dialect) (k : object_kind) (g : filter) (ps : list (option (list bytes * bytes))) (ws : list (list tok)) : bool :=
  match ps, ws with
  | [], [] => true
  | p :: ps, w :: ws => place_check d k g p w && places_check d k g ps ws
  | _, _ => false
  end.
(** Columns that can be told apart. *)
Definition cols_check (d : dialect) (p : option (list bytes * bytes)) : bool :=
  match p with
  | None => true
  | Some p =>
    match d with
    | DSQLite => clash (name_col p) (lex false (B "sql"))
    | _ => clash (name_col p) (schema_col p) && clash (name_col p) (system_col p) &&
           (toks_eqb (schema_col p) (system_col p) || clash (schema_col p) (system_col p)) &&
           match fst p with [_] => true | [_; _] => true | _ => false end
    end && forallb (fun t => negb (is_hole t) && negb (tok_eqb t CLOSE)) (name_col p ++ schema_col p ++ system_col p)
  end.
(** All shapes. *)
Definition bools : list bool := [false; true].
Definition marks : list (list bytes) := [[]; [[]]].
Definition shapes : list filter :=
  flat_map (fun s => flat_map (fun c => flat_map (fun o => flat_map (fun a => flat_map (fun b => flat_map (fun t => flat_map (fun u => flat_map (fun x => map (fun y =>
    mk_filter s c o a b t u x y) marks) marks) marks) marks) marks) marks) bools) bools) bools.
Lemma shapes_all f : In (shape f) shapes.
Proof.
  assert (Bo : forall b, In b bools) by (intros []; cbn; auto). assert (Ma : forall l, In (mark l) marks) by (intros []; cbn; auto).
  unfold shapes, shape. repeat (apply in_flat_map; eexists; split; [apply Bo || apply Ma|]). apply in_map. apply Ma.
Qed.
(** The two defects in the scripts (see PropertiesScript). *)
Definition excluded (s : script) (g : filter) : bool :=
  (beqb (s_text s) postgres_columns && negb (is_nil (f_without_tables g))) || (beqb (s_text s) mysql_constraints && f_system g).
Definition template_of (d : dialect) (script : bytes) : option (list titem) :=
  match parse_template script with
  | Some ns => match nodes_check (backslashes d) [CNorm] ns with Some _ => Some (flat_map (node_tokens (backslashes d)) ns) | None => None end
  | None => None
  end.
Definition script_check (s : script) : bool :=
  match template_of (s_dialect s) (s_text s) with
  | None => false
  | Some t =>
    no_holes t && forallb (cols_check (s_dialect s)) (s_places s) &&
    forallb (fun g => excluded s g || places_check (s_dialect s) (s_kind s) g (s_places s) (wheres (sym g t))) shapes
  end.
Lemma scripts_checked : forallb script_check scripts = true.
Proof. vm_compute. reflexivity. Qed.
