(** * ServerText: DDL commands write nothing but text *)
From Verif Require Import GoBase GoBaseFacts QuoteModel EffectModel SpecText.
From Verif Require Import CacheModel UpsertModel DdlModel MigrateModel SpecExec.
Local Open Scope m_scope.

Definition is_text (c : cmd) : Prop := match c with CText _ => True | _ => False end.
Definition only_text (m : M) : Prop := Forall is_text (fst m).
Lemma ot_ret : only_text ret. Proof. constructor. Qed.
Lemma ot_fail : only_text fail. Proof. constructor. Qed.
Lemma ot_crash : only_text crash. Proof. constructor. Qed.
Lemma ot_emit : forall b, only_text (emit b). Proof. intros b. constructor; [exact I|constructor]. Qed.
Lemma ot_seq : forall m k, only_text m -> only_text k -> only_text (seq m k).
Proof. intros m k A X. unfold only_text, seq in *. destruct (snd m); cbn [fst]; try exact A. apply Forall_app. now split. Qed.
Lemma ot_when : forall b m, only_text m -> only_text (when b m).
Proof. intros [] m H; [exact H|apply ot_ret]. Qed.
Lemma ot_seqs : forall ms, Forall only_text ms -> only_text (seqs ms).
Proof. intros ms F. induction F; cbn [seqs]; [apply ot_ret|now apply ot_seq]. Qed.
Lemma ot_map : forall A (f : A -> M) l, (forall a, only_text (f a)) -> Forall only_text (map f l).
Proof. intros A f l H. apply Forall_forall. intros m I. apply in_map_iff in I. destruct I as (a & <- & _). apply H. Qed.
Lemma ot_seqs_map : forall A (f : A -> M) l, (forall a, only_text (f a)) -> only_text (seqs (map f l)).
Proof. intros A f l H. now apply ot_seqs, ot_map. Qed.
Lemma ot_sep_by : forall sep ms, Forall only_text ms -> only_text (sep_by sep ms).
Proof.
  intros sep ms F. destruct F as [|m ms A F]; cbn [sep_by]; [apply ot_ret|]. apply ot_seq; [exact A|]. apply ot_seqs.
  apply Forall_forall. intros x I. apply in_map_iff in I. destruct I as (y & <- & I). rewrite Forall_forall in F. apply ot_seq; [apply ot_emit|now apply F].
Qed.
Lemma only_text_of : forall m, only_text m -> snd m = SOk -> text_of m = Some (written_text m).
Proof.
  intros m O E. unfold text_of, written_text. rewrite E. clear E. unfold only_text in O. induction O as [|c cs H O IH]; [reflexivity|].
  destruct c; try contradiction. cbn [texts flat_map cmd_text]. now rewrite IH.
Qed.
Create HintDb ot.
#[export] Hint Resolve ot_ret ot_fail ot_crash ot_emit : ot.
Ltac ot := repeat first
  [ solve [auto with ot]
  | apply ot_seq | apply ot_when | apply ot_seqs_map; intros | apply ot_sep_by, ot_map; intros
  | match goal with |- only_text (match ?x with _ => _ end) => destruct x end
  | progress cbv zeta | progress cbv beta ].
Lemma ot_elements : forall ms b, Forall only_text ms -> only_text (elements_from b ms).
Proof. intros ms b F. revert b. induction F as [|m ms H F IH]; intros b; cbn [elements_from]; [apply ot_ret|]. repeat apply ot_seq; auto with ot. Qed.
Lemma ot_newline : forall ms, Forall only_text ms -> only_text (newline_before ms).
Proof. intros ms F. destruct ms; cbn [newline_before]; [apply ot_ret|]. apply ot_seq; [apply ot_emit|now apply ot_seqs]. Qed.
Lemma ot_column : forall d l, only_text (column_definition d l).
Proof. intros. unfold column_definition. ot. Qed.
Lemma ot_add_column : forall d l, only_text (add_column_sql d l).
Proof. intros. unfold add_column_sql. pose proof ot_column. ot. Qed.
Lemma ot_alter_column : forall d l, only_text (alter_column_sql d l).
Proof. intros. unfold alter_column_sql. pose proof ot_column. ot. Qed.
Lemma ot_drop : forall d w a n b, only_text (drop_sql d w a n b).
Proof. intros. unfold drop_sql. ot. Qed.
Lemma ot_drop_column : forall d l, only_text (drop_column_sql d l).
Proof. intros. unfold drop_column_sql. pose proof ot_drop. ot. Qed.
Lemma ot_exclusions : forall cs i es os, only_text (exclusion_elements i cs es os).
Proof. intros cs. induction cs as [|c cs IH]; intros; cbn [exclusion_elements]; ot. Qed.
Lemma ot_constraint : forall d c, only_text (constraint_definition d c).
Proof. intros. unfold constraint_definition. pose proof ot_exclusions. ot. Qed.
Lemma ot_add_constraint : forall d l, only_text (add_constraint_sql d l).
Proof. intros. unfold add_constraint_sql. pose proof ot_constraint. ot. Qed.
Lemma ot_alter_constraint : forall d l, only_text (alter_constraint_sql d l).
Proof. intros. unfold alter_constraint_sql. ot. Qed.
Lemma ot_drop_constraint : forall d l, only_text (drop_constraint_sql d l).
Proof. intros. unfold drop_constraint_sql. pose proof ot_drop. ot. Qed.
Lemma ot_index_elements : forall d cs i es, only_text (index_elements d i cs es).
Proof. intros d cs. induction cs as [|c cs IH]; intros; cbn [index_elements]; ot. Qed.
Lemma ot_create_index : forall d l, only_text (create_index_sql d l).
Proof. intros. unfold create_index_sql. pose proof ot_index_elements. ot. Qed.
Lemma ot_drop_index : forall d l, only_text (drop_index_sql d l).
Proof. intros. unfold drop_index_sql. ot. Qed.
Lemma ot_table_constraint : forall d l, only_text (table_constraint d l).
Proof. intros. unfold table_constraint. pose proof ot_constraint. ot. Qed.
Lemma ot_create_table : forall d c, only_text (create_table_sql d c).
Proof.
  intros d c. unfold create_table_sql. cbv zeta. destruct (ct_ignore c); [apply ot_ret|]. destruct (is_empty _); [apply ot_fail|].
  set (ks := if ct_constraints c then _ else _).
  assert (K : Forall only_text ks). { unfold ks. destruct (ct_constraints c); [|constructor]. apply ot_map. intros. apply ot_table_constraint. }
  clearbody ks.
  set (xs := map _ (filter (fun x => negb (ci_ignore x)) (ct_indexes c))).
  assert (X : Forall only_text xs). { unfold xs. apply ot_map. intros. apply ot_seq; [apply ot_emit|apply ot_create_index]. }
  clearbody xs. repeat apply ot_seq; try solve [ot].
  - apply ot_elements. destruct (negb _); [constructor|]. apply ot_map. intros. apply ot_column.
  - apply ot_elements. match goal with |- Forall _ (if ?b then _ else _) => destruct b end; [|constructor]. apply ot_map. intros. apply ot_emit.
  - now apply ot_newline.
  - apply ot_when, ot_seq; [ot|]. destruct ks; [now apply ot_newline|now apply ot_seqs].
Qed.
Lemma ot_alter_table : forall d c, only_text (alter_table_sql d c).
Proof.
  intros d c. unfold alter_table_sql. cbv zeta. destruct (a_ignore c); [apply ot_ret|]. repeat apply ot_seq; try solve [ot].
  apply ot_elements. repeat (apply Forall_app; split); apply ot_map; intros;
    auto using ot_add_column, ot_alter_column, ot_drop_column, ot_drop_constraint, ot_add_constraint, ot_alter_constraint, ot_drop_index.
  apply ot_seq; [ot|apply ot_create_index].
Qed.
Lemma ot_drop_list : forall d ns, only_text (drop_list d ns).
Proof.
  intros d ns. unfold drop_list. cbv zeta. generalize (Nat.ltb 1 (length ns)) as many. intros many. generalize true at 2 as first.
  induction ns as [|[s n] ns IH]; intros first; [apply ot_ret|]. repeat apply ot_seq; [apply ot_emit|apply ot_emit|apply IH].
Qed.
Lemma command_only_text : forall d c, only_text (command_sql d c).
Proof.
  intros d c. pose proof ot_drop_list. destruct c; cbn [command_sql]; auto using ot_create_table, ot_alter_table, ot_create_index, ot_drop_index.
  - unfold create_schema_sql. ot.
  - unfold create_extension_sql. ot.
  - unfold create_function_sql. ot.
  - unfold create_view_sql. ot.
  - unfold create_trigger_sql. ot.
  - unfold drop_view_sql. ot.
  - unfold drop_table_sql. ot.
  - unfold drop_trigger_sql. ot.
  - unfold drop_function_sql. ot.
  - unfold drop_extension_sql. ot.
Qed.
Lemma writable_text : forall d c, writable d c -> text_of (command_sql d c) = Some (text d c).
Proof. intros d c H. apply only_text_of; [apply command_only_text|exact H]. Qed.
