(** * SprintPf: proofs of the statements in PropertiesSprint *)
From Verif Require Import GoBase QuoteModel SpecLex SprintModel SpecSprint SpecSprintf
  SprintFacts SprintfFacts SprintfSafety.

Lemma nil_valuer_no_panic d args :
  (forall v, In v args -> has_nil_valuer v = false) ->
  forall v, In v args -> sprint d v <> Panic.
Proof. intros H v Hv E. apply sprint_panic_pf in E. rewrite (H v Hv) in E. discriminate. Qed.

Lemma sprintf_safe_pf d query args :
  d <> DSQLite -> (forall v, In v args -> has_nil_valuer v = false) ->
  sprintf d query args <> Panic.
Proof. intros Hd H. apply sprintf_no_panic_nonsqlite; [assumption|]. now apply nil_valuer_no_panic. Qed.

Lemma sprintf_safe_enough_args_pf d query args :
  (forall v, In v args -> has_nil_valuer v = false) ->
  count_occ N.eq_dec (runes_of query) (R "?") <= length args ->
  sprintf d query args <> Panic.
Proof. intros H Hc. apply sprintf_no_panic_quota; [|assumption]. now apply nil_valuer_no_panic. Qed.
