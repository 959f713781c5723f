(** * Statements: C38.  See SpecUpsert. *)
From Verif Require Import GoBase GoBaseFacts QuoteModel CacheModel UpsertModel SpecUpsert UpsertPf.

(** After any sequence of calls that define constraints (with non-empty names)
    and set their attributes: there is exactly one constraint for each name
    used, it belongs to the table, is not ignored and is as the last call for
    that name says. *)
Theorem constraints_unique : forall (d : dialect) (tb : table_id) (calls : list constraint_call)
    (s : cached constraint) (handles : list (nat * bytes)),
  run_constraints d tb calls = Some (s, handles) ->
  Forall modest calls -> (forall call n, In call calls -> defined_name call = Some n -> n <> []) ->
  NoDup (map c_name (objects s)) /\
  (forall n, In n (map c_name (objects s)) <-> exists call, In call calls /\ defined_name call = Some n) /\
  (forall c, In c (objects s) -> c_schema c = tb_schema tb /\ c_table c = tb_name tb /\ c_ignore c = false /\
     exists call, last_definition calls (c_name c) call /\ as_called call c).
Proof.
  intros d tb calls s hs E M NE. destruct (cinv_run d tb calls _ M NE E) as (T & _ & N & G).
  split; [eapply tidy_nodup; exact T|]. split; [exact N|]. intros c I. destruct (G c I) as (S1 & S2 & S3).
  repeat split; auto. apply In_nth_error in I. destruct I as [i Hi]. now destruct (T i c Hi).
Qed.
Print Assumptions constraints_unique.
(** Outside sqlite the names need not be checked: a call with an empty name panics. *)
Theorem empty_name_rejected : forall (d : dialect) (tb : table_id) (calls : list constraint_call),
  d <> DSQLite -> (exists call, In call calls /\ defined_name call = Some []) -> run_constraints d tb calls = None.
Proof.
  intros d tb calls D (call & I & E). apply in_split in I. destruct I as (b & a & ->).
  unfold run_constraints. rewrite fold_left_app. cbn [fold_left].
  assert (X : constraint_step d tb (fold_left (constraint_step d tb) b (Some (cached_new, []))) call = None).
  { destruct (fold_left _ b _) as [[s hs]|]; [|reflexivity]. destruct call as [ty n cs ck|n ix cs es os|]; cbn [defined_name] in E; try discriminate;
      assert (n = []) by congruence; subst n; cbn [constraint_step]; unfold put_constraint, put_exclusion; cbn [is_empty].
    - destruct d; try reflexivity. congruence.
    - now rewrite Bool.orb_true_r. }
  rewrite X. apply step_none.
Qed.
Print Assumptions empty_name_rejected.
Theorem indexes_unique : forall (tb : table_id) (calls : list index_call) (s : cached index) (handles : list (nat * bytes)),
  run_indexes tb calls = Some (s, handles) -> Forall modest_index calls ->
  NoDup (map x_name (objects s)) /\
  (forall n, In n (map x_name (objects s)) <-> exists call, In call calls /\ defined_index call = Some n) /\
  (forall x, In x (objects s) -> x_schema x = tb_schema tb /\ x_table x = tb_name tb /\ x_ignore x = false /\
     exists call, last_index_definition calls (x_name x) call /\ index_as_called call x).
Proof.
  intros tb calls s hs E M.
  assert (NE : forall call n, In call calls -> defined_index call = Some n -> n <> []).
  { intros call n I D ->. apply in_split in I. destruct I as (b & a & ->). unfold run_indexes in E. rewrite fold_left_app in E.
    cbn [fold_left] in E. assert (X : index_step tb (fold_left (index_step tb) b (Some (cached_new, []))) call = None).
    { destruct (fold_left _ b _) as [[s' hs']|]; [|reflexivity]. destruct call as [n cs es|]; [|discriminate].
      cbn [defined_index] in D. assert (n = []) by congruence. subst n. reflexivity. }
    rewrite X, istep_none in E. discriminate. }
  destruct (iinv_run tb calls _ M NE E) as (T & _ & N & G).
  split; [eapply tidy_nodup; exact T|]. split; [exact N|]. intros c I. destruct (G c I) as (S1 & S2 & S3).
  repeat split; auto. apply In_nth_error in I. destruct I as [i Hi]. now destruct (T i c Hi).
Qed.
Print Assumptions indexes_unique.

Definition ex_tb : table_id := mk_table_id [] (B "film").
Definition ex_calls : list constraint_call :=
  [CDefine (B "UNIQUE") (B "film_a_key") [B "a"] []; CDefine (B "FOREIGN KEY") (B "film_b_fkey") [B "b"] [];
   CAttr 1 (AReferences (B "other") [B "id"]); CAttr 0 AInitiallyDeferred;
   CDefine (B "UNIQUE") (B "film_a_key") [B "a"; B "c"] []; CAttr 0 (AOnUpdate (B "CASCADE"))].
Example upsert_example :
  Forall modest ex_calls /\
  exists s hs, run_constraints DPostgres ex_tb ex_calls = Some (s, hs) /\
    map (fun c => (c_name c, c_columns c, c_ref_table c, c_deferred c, c_update c)) (objects s) =
      [(B "film_a_key", [B "a"; B "c"], [], true, B "CASCADE"); (B "film_b_fkey", [B "b"], B "other", false, [])] /\
    hs = [(0, B "film_a_key"); (1, B "film_b_fkey"); (0, B "film_a_key")].
Proof. split; [repeat constructor|]. do 2 eexists. repeat split; reflexivity. Qed.
Example upsert_index_example :
  exists s hs, run_indexes ex_tb [IDefine (B "i") [B "a"] [[]]; IAttr 0 IUnique; IDefine (B "i") [B "b"] [[]]] = Some (s, hs) /\
    map (fun x => (x_name x, x_columns x, x_unique x)) (objects s) = [(B "i", [B "b"], true)].
Proof. do 2 eexists. split; reflexivity. Qed.

(** ** Findings *)
(** Redefining keeps what the earlier definition left: an exclusion constraint
    redefined as UNIQUE keeps its expressions and operators, a foreign key
    redefined as CHECK keeps its references, and a redefined index stays UNIQUE. *)
Theorem redefinition_keeps_attributes_refuted :
  exists s hs, run_constraints DPostgres ex_tb
    [CExclude (B "k") (B "gist") [B "a"] [[]] [B "&&"]; CDefine (B "UNIQUE") (B "k") [B "a"] [];
     CDefine (B "FOREIGN KEY") (B "f") [B "b"] []; CAttr 2 (AReferences (B "t") [B "id"]); CDefine (B "CHECK") (B "f") [] (B "TRUE")]
    = Some (s, hs) /\
    map (fun c => (c_type c, c_operators c, c_index_type c, c_ref_table c)) (objects s) =
      [(B "UNIQUE", [B "&&"], B "gist", []); (B "CHECK", [], [], B "t")].
Proof. do 2 eexists. split; reflexivity. Qed.
Print Assumptions redefinition_keeps_attributes_refuted.
(** sqlite accepts empty names, and each call adds another constraint. *)
Theorem sqlite_empty_names_refuted :
  exists s hs, run_constraints DSQLite ex_tb [CDefine (B "CHECK") [] [] (B "a > 0"); CDefine (B "CHECK") [] [] (B "a > 0")] = Some (s, hs) /\
    length (objects s) = 2.
Proof. do 2 eexists. split; reflexivity. Qed.
Print Assumptions sqlite_empty_names_refuted.
(** A Config that ignores the constraint makes the next definition a second
    constraint of the same name. *)
Theorem ignored_constraint_duplicated_refuted :
  exists s hs, run_constraints DPostgres ex_tb
    [CDefine (B "UNIQUE") (B "k") [B "a"] [];
     CAttr 0 (AConfig (fun c => mk_constraint [] [] [] (c_type c) (c_columns c) [] [] [] [] [] [] [] [] [] [] [] false false [] true));
     CDefine (B "UNIQUE") (B "k") [B "a"] []] = Some (s, hs) /\
    map c_name (objects s) = [B "k"; B "k"].
Proof. do 2 eexists. split; reflexivity. Qed.
Print Assumptions ignored_constraint_duplicated_refuted.
