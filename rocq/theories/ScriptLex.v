(** * ScriptLex: the tokens of a query made from a script (C63) *)
From Coq Require Import Lia.
From Verif Require Import GoBase GoBaseFacts QuoteModel SpecLex QuoteFacts TemplateModel SpecScript.

Lemma last_cons {A} (l : list A) : forall a d, last (a :: l) d = last l a.
Proof. induction l as [|x l IH]; intros a d; [reflexivity|]. change (last (a :: x :: l) d) with (last (x :: l) d). rewrite IH. symmetry. apply IH. Qed.

Section Lex.
  Context (bs : bool).
  Definition state (s : bytes) : lex_state := fst (lex_run bs LNorm s).
  Lemma run_app st a b : lex_run bs st (a ++ b) = let (s1, t1) := lex_run bs st a in let (s2, t2) := lex_run bs s1 b in (s2, t1 ++ t2).
  Proof.
    revert st. induction a as [|c a IH]; intros st; cbn [app lex_run]; [destruct (lex_run bs st b); reflexivity|].
    destruct (lex_step bs st c) as [s1 t1]. rewrite IH. destruct (lex_run bs s1 a) as [s2 t2]. destruct (lex_run bs s2 b) as [s3 t3]. now rewrite app_assoc.
  Qed.
  Inductive cls := CNorm | CWord | CStr | CIdent | CBad.
  Definition class_of (st : lex_state) : cls :=
    match st with LNorm => CNorm | LWord _ => CWord | LStrQ _ => CStr | LIdentQ _ => CIdent | _ => CBad end.
  Definition joins (k : cls) (c : ascii) : bool :=
    match k with CNorm => true | CWord => negb (word_char c) | CStr => negb (Ascii.eqb c "'") | CIdent => negb (Ascii.eqb c """") | CBad => false end.
  Lemma step_join st c : joins (class_of st) c = true -> lex_step bs st c = (fst (lex_norm c), lex_end st ++ snd (lex_norm c)).
  Proof.
    destruct st; cbn [class_of joins lex_step lex_end]; intros H; try discriminate.
    - now destruct (lex_norm c).
    - apply negb_true_iff in H. rewrite H. reflexivity.
    - apply negb_true_iff in H. rewrite H. reflexivity.
    - apply negb_true_iff in H. rewrite H. reflexivity.
  Qed.
  Lemma run_join st c s : joins (class_of st) c = true -> lex_run bs st (c :: s) = (state (c :: s), lex_end st ++ snd (lex_run bs LNorm (c :: s))).
  Proof.
    intros H. unfold state. cbn [lex_run]. rewrite (step_join st c H). change (lex_step bs LNorm c) with (lex_norm c). destruct (lex_norm c) as [s1 t1]. cbn [fst snd]. destruct (lex_run bs s1 s) as [s2 t2]. cbn [fst snd]. now rewrite app_assoc.
  Qed.
  Definition joined (k : cls) (s : bytes) : bool := match s with [] => true | c :: _ => joins k c end.
  Lemma lex_join a b : joined (class_of (state a)) b = true -> lex bs (a ++ b) = lex bs a ++ lex bs b /\ (b <> [] -> state (a ++ b) = state b).
  Proof.
    intros H. unfold lex, state in *. rewrite run_app. destruct (lex_run bs LNorm a) as [s1 t1] eqn:E. cbn [fst] in H. destruct b as [|c b].
    - cbn [lex_run lex_end]. rewrite !app_nil_r. split; [reflexivity|congruence].
    - cbn [joined] in H. rewrite (run_join s1 c b H). unfold state. destruct (lex_run bs LNorm (c :: b)) as [s2 t2]. cbn [fst snd]. split; [now rewrite !app_assoc|reflexivity].
  Qed.

  (** ** printList *)
  Definition silent_slash (s : bytes) : Prop := bs = true -> ~ In "\"%char s.
  Lemma run_quoted s : forall v acc, silent_slash s -> lex_quoted "'" s = Some (v, []) -> lex_run bs (LStr acc) s = (LStrQ (rev v ++ acc), []).
  Proof.
    remember (length s) as n eqn:Ln. assert (Le : length s <= n) by lia. clear Ln. revert s Le. induction n as [|n IH]; intros s Le v acc Sl H.
    - destruct s; [discriminate|cbn in Le; lia].
    - destruct s as [|c s]; [discriminate|]. cbn [lex_quoted] in H. cbn [lex_run lex_step]. destruct (Ascii.eqb c "'") eqn:E.
      + destruct s as [|c2 s]; [injection H as <-; reflexivity|]. destruct (Ascii.eqb c2 "'") eqn:E2.
        * destruct (lex_quoted "'" s) as [[v' r]|] eqn:Q; [|discriminate]. injection H as <- ->. cbn [lex_run lex_step]. rewrite E2.
          rewrite (IH s) with (v := v'); [|cbn in Le; lia|intros X Y; apply (Sl X); right; now right|exact Q]. cbn [rev]. rewrite <- app_assoc. reflexivity.
        * discriminate.
      + destruct (lex_quoted "'" s) as [[v' r]|] eqn:Q; [|discriminate]. injection H as <- ->.
        assert (X : bs && Ascii.eqb c "\" = false). { destruct bs eqn:Y; [|reflexivity]. cbn [andb]. destruct (Ascii.eqb_spec c "\") as [->|_]; [|reflexivity]. exfalso. apply (Sl Y). now left. }
        rewrite X. rewrite (IH s) with (v := v'); [|cbn in Le; lia|intros Z Y; apply (Sl Z); now right|exact Q]. cbn [rev]. rewrite <- app_assoc. reflexivity.
  Qed.
  Lemma escape_chars q s r : In r (escape q s) -> r = q \/ In r s.
  Proof.
    remember (length s) as n eqn:Ln. assert (Le : length s <= n) by lia. clear Ln. revert s Le. induction n as [|n IH]; intros s Le H.
    - destruct s; [destruct H|cbn in Le; lia].
    - destruct s as [|c s]; [destruct H|]. cbn [escape] in H. destruct (Ascii.eqb c q).
      + destruct H as [H|[H|H]]; [now left|now left|]. destruct s as [|c2 [|c3 s]]; [destruct H| |].
        * apply IH in H; [|cbn in *; lia]. destruct H as [H|H]; [now left|right; now right].
        * destruct (Ascii.eqb c2 q); apply IH in H; try (cbn in *; lia); (destruct H as [H|H]; [now left|right; cbn [In] in *; tauto]).
      + destruct H as [H|H]; [right; now left|]. apply IH in H; [|cbn in Le; lia]. destruct H as [H|H]; [now left|right; now right].
  Qed.
  Definition quoted (v : bytes) : bytes := "'"%char :: escape_quote v "'" ++ ["'"%char].
  Lemma run_value v : silent_slash v -> lex_run bs LNorm (quoted v) = (LStrQ (rev (collapse "'" v)), []).
  Proof.
    intros Sl. unfold quoted. cbn [lex_run]. change (lex_step bs LNorm "'") with (LStr [], @nil tok). cbv beta iota.
    rewrite run_quoted with (v := collapse "'" v); [now rewrite app_nil_r| |apply lex_quoted_escape; exact I].
    intros X Y. rewrite escape_quote_unfold in Y. apply in_app_iff in Y. destruct Y as [Y|[Y|[]]]; [|discriminate Y]. apply escape_chars in Y. destruct Y as [Y|Y]; [discriminate Y|]. now apply (Sl X).
  Qed.
  (** 'a', 'b' *)
  Fixpoint value_tokens (l : list bytes) : list tok :=
    match l with [] => [] | [v] => [TStr v] | v :: l' => TStr v :: TSym "," :: value_tokens l' end.
  Lemma print_from_cons i v l : print_list_from (S i) (v :: l) = ","%char :: " "%char :: quoted v ++ print_list_from (S (S i)) l.
  Proof. cbn [print_list_from]. change (Nat.ltb 0 (S i)) with true. cbv iota. unfold quoted. cbn [app]. rewrite <- app_assoc. reflexivity. Qed.
  Lemma print_zero_cons v l : print_list (v :: l) = quoted v ++ print_list_from 1 l.
  Proof. unfold print_list. cbn [print_list_from]. change (Nat.ltb 0 0) with false. cbv iota. unfold quoted. cbn [app]. rewrite <- app_assoc. reflexivity. Qed.
  Lemma run_rest l : forall i w, Forall silent_slash l ->
    exists w', lex_run bs (LStrQ w) (print_list_from (S i) l) = (LStrQ w', removelast (value_tokens (rev w :: map (collapse "'") l))) /\ rev w' = last (map (collapse "'") l) (rev w).
  Proof.
    induction l as [|v l IH]; intros i w Sl; [exists w; split; reflexivity|]. inversion Sl as [|? ? S1 S2]; subst. rewrite print_from_cons.
    cbn [lex_run]. change (lex_step bs (LStrQ w) ",") with (LNorm, [TStr (rev w); TSym ","]). cbv beta iota. change (lex_step bs LNorm " ") with (LNorm, @nil tok). cbv beta iota.
    rewrite run_app, (run_value v S1). destruct (IH (S i) (rev (collapse "'" v)) S2) as (w' & E & L). rewrite E. exists w'. split.
    - cbn [app]. f_equal. cbn [map]. rewrite rev_involutive. destruct (map (collapse "'") l); reflexivity.
    - rewrite L, rev_involutive. cbn [map]. symmetry. apply last_cons.
  Qed.
  Lemma value_tokens_split v l : value_tokens (v :: l) = removelast (value_tokens (v :: l)) ++ [TStr (last l v)].
  Proof.
    revert v. induction l as [|x l IH]; intros v; [reflexivity|]. change (value_tokens (v :: x :: l)) with (TStr v :: TSym "," :: value_tokens (x :: l)).
    assert (N : value_tokens (x :: l) <> []) by (destruct l; discriminate).
    rewrite last_cons. rewrite (IH x) at 1. destruct (value_tokens (x :: l)) as [|t ts] eqn:E; [congruence|]. cbn [removelast app]. destruct ts; reflexivity.
  Qed.
  Lemma lex_list l : Forall silent_slash l -> lex bs (print_list l) = value_tokens (map (collapse "'") l) /\ (l <> [] -> class_of (state (print_list l)) = CStr).
  Proof.
    intros Sl. destruct l as [|v l]; [split; [reflexivity|congruence]|]. inversion Sl as [|? ? S1 S2]; subst. unfold lex, state. rewrite print_zero_cons, run_app, (run_value v S1).
    destruct (run_rest l 0 (rev (collapse "'" v)) S2) as (w' & E & L). rewrite E. rewrite rev_involutive in *. cbn [fst app lex_end map class_of]. split; [|reflexivity]. rewrite L. symmetry. apply value_tokens_split.
  Qed.

  (** ** Templates of tokens *)
  Inductive ltok := LTok (t : tok) | LVals (field : bytes).
  Inductive titem := KTok (t : tok) | KVals (field : bytes) | KIf (neg : bool) (field : bytes) (body : list ltok).
  Definition list_field (f : filter) (n : bytes) : list bytes := match field_of f n with Some (VList l) => l | _ => [] end.
  Definition guard (f : filter) (neg : bool) (n : bytes) : bool := match field_of f n with Some v => xorb neg (truth v) | None => false end.
  Definition expand_leaf (f : filter) (l : ltok) : list tok := match l with LTok t => [t] | LVals n => value_tokens (map (collapse "'") (list_field f n)) end.
  Definition expand_item (f : filter) (i : titem) : list tok :=
    match i with KTok t => [t] | KVals n => value_tokens (map (collapse "'") (list_field f n)) | KIf neg n body => if guard f neg n then flat_map (expand_leaf f) body else [] end.
  Definition expand (f : filter) (t : list titem) : list tok := flat_map (expand_item f) t.
  Definition leaf_tokens (l : leaf) : list ltok := match l with LText t => map LTok (lex bs t) | LList n => [LVals n] end.
  Definition node_tokens (n : node) : list titem :=
    match n with NLeaf (LText t) => map KTok (lex bs t) | NLeaf (LList n) => [KVals n] | NIf neg n body => [KIf neg n (flat_map leaf_tokens body)] end.
  (** The classes of states in which the text so far may end. *)
  Definition leaf_check (ks : list cls) (l : leaf) : option (list cls) :=
    match l with
    | LText t => if forallb (fun k => joined k t) ks then Some (match t with [] => ks | _ => [class_of (state t)] end) else None
    | LList n => match field_of no_filter n with
                 | Some (VList _) => if forallb (fun k => joins k "'") ks then Some (CStr :: ks) else None
                 | _ => None
                 end
    end.
  Fixpoint leaves_check (ks : list cls) (ls : list leaf) : option (list cls) :=
    match ls with [] => Some ks | l :: ls => match leaf_check ks l with Some ks' => leaves_check ks' ls | None => None end end.
  Definition node_check (ks : list cls) (n : node) : option (list cls) :=
    match n with
    | NLeaf l => leaf_check ks l
    | NIf _ n body => match field_of no_filter n, leaves_check ks body with Some _, Some ks' => Some (ks ++ ks') | _, _ => None end
    end.
  Fixpoint nodes_check (ks : list cls) (ns : list node) : option (list cls) :=
    match ns with [] => Some ks | n :: ns => match node_check ks n with Some ks' => nodes_check ks' ns | None => None end end.
  Definition filter_silent (f : filter) : Prop := Forall (Forall silent_slash) (lists_of f).
  Lemma field_kind f n : match field_of no_filter n with
    | Some (VList _) => exists l, field_of f n = Some (VList l) /\ In l (lists_of f)
    | Some (VBool _) => exists b, field_of f n = Some (VBool b)
    | None => field_of f n = None end.
  Proof.
    unfold field_of, lists_of.
    repeat (match goal with |- context [if beqb n ?x then _ else _] => destruct (beqb n x) end; [cbn [In]; eauto 12|]). reflexivity.
  Qed.
  Definition extends (f : filter) (ks ks' : list cls) (q : option bytes) (ts : list tok) : Prop :=
    forall a, In (class_of (state a)) ks -> exists s, q = Some s /\ lex bs (a ++ s) = lex bs a ++ ts /\ In (class_of (state (a ++ s))) ks'.
  Lemma leaf_sound f ks l ks' : filter_silent f -> leaf_check ks l = Some ks' -> extends f ks ks' (exec_leaf f l) (flat_map (expand_leaf f) (leaf_tokens l)).
  Proof.
    intros Fs H a I. destruct l as [t|n]; cbn [leaf_check exec_leaf leaf_tokens] in *.
    - destruct (forallb _ ks) eqn:F; [|discriminate]. rewrite forallb_forall in F. specialize (F _ I). injection H as <-. destruct (lex_join a t F) as (L & S). exists t. split; [reflexivity|].
      assert (E : flat_map (expand_leaf f) (map LTok (lex bs t)) = lex bs t). { clear. induction (lex bs t) as [|x l IH]; [reflexivity|]. cbn [map flat_map expand_leaf app]. now rewrite IH. }
      rewrite E. split; [exact L|]. destruct t as [|c t]; [rewrite app_nil_r; exact I|]. rewrite S by discriminate. now left.
    - pose proof (field_kind f n) as K. destruct (field_of no_filter n) as [[|l0]|]; try discriminate. destruct K as (l & E & Il). destruct (forallb _ ks) eqn:F; [|discriminate]. rewrite forallb_forall in F. specialize (F _ I). injection H as <-.
      unfold expand_leaf, list_field. cbn [flat_map]. rewrite E, app_nil_r. assert (Sl : Forall silent_slash l) by (unfold filter_silent in Fs; rewrite Forall_forall in Fs; apply Fs; exact Il).
      destruct (lex_list l Sl) as (L1 & L2). exists (print_list l). split; [reflexivity|]. destruct l as [|v l].
      + change (print_list []) with (@nil ascii). rewrite app_nil_r. cbn [map value_tokens]. rewrite app_nil_r. split; [reflexivity|now right].
      + assert (J : joined (class_of (state a)) (print_list (v :: l)) = true) by (rewrite print_zero_cons; exact F). destruct (lex_join a _ J) as (L & S). rewrite L, L1. split; [reflexivity|].
        rewrite S by (rewrite print_zero_cons; discriminate). rewrite L2 by discriminate. now left.
  Qed.
  Lemma extends_then f k1 k2 k3 q1 q2 t1 t2 : extends f k1 k2 q1 t1 -> extends f k2 k3 q2 t2 -> extends f k1 k3 (match q1, q2 with Some a, Some b => Some (a ++ b) | _, _ => None end) (t1 ++ t2).
  Proof.
    intros E1 E2 a I. destruct (E1 a I) as (s1 & -> & L1 & I1). destruct (E2 _ I1) as (s2 & -> & L2 & I2). exists (s1 ++ s2). split; [reflexivity|]. rewrite app_assoc. split; [|exact I2]. now rewrite L2, L1, app_assoc.
  Qed.
  Lemma leaves_sound f ls : forall ks ks', filter_silent f -> leaves_check ks ls = Some ks' -> extends f ks ks' (exec_leaves f ls) (flat_map (expand_leaf f) (flat_map leaf_tokens ls)).
  Proof.
    induction ls as [|l ls IH]; intros ks ks' Fs H; cbn [leaves_check exec_leaves flat_map] in *.
    - injection H as <-. intros a I. exists []. rewrite !app_nil_r. auto.
    - destruct (leaf_check ks l) as [k|] eqn:E; [|discriminate]. rewrite flat_map_app. eapply extends_then; [apply leaf_sound; eassumption|now apply IH].
  Qed.
  Lemma nodes_sound f ns : forall ks ks', filter_silent f -> nodes_check ks ns = Some ks' -> extends f ks ks' (exec_nodes f ns) (expand f (flat_map node_tokens ns)).
  Proof.
    induction ns as [|n ns IH]; intros ks ks' Fs H; cbn [nodes_check exec_nodes flat_map] in *.
    - injection H as <-. intros a I. exists []. rewrite !app_nil_r. auto.
    - destruct (node_check ks n) as [k|] eqn:E; [|discriminate]. unfold expand. rewrite flat_map_app. eapply extends_then; [|exact (IH _ _ Fs H)]. clear IH H. destruct n as [l|neg n body]; cbn [node_check exec_node node_tokens] in *.
      + assert (X : flat_map (expand_item f) (match l with LText t => map KTok (lex bs t) | LList m => [KVals m] end) = flat_map (expand_leaf f) (leaf_tokens l)).
        { destruct l as [t|m]; [|reflexivity]. cbn [leaf_tokens]. induction (lex bs t) as [|x r IHr]; [reflexivity|]. cbn [map flat_map expand_item expand_leaf app]. now rewrite IHr. }
        rewrite X. now apply leaf_sound.
      + pose proof (field_kind f n) as K. cbn [flat_map expand_item]. rewrite app_nil_r. unfold guard.
        destruct (field_of no_filter n) as [v0|] eqn:N0; [|discriminate]. destruct (leaves_check ks body) as [kb|] eqn:B; [|discriminate]. injection E as <-.
        assert (G : exists v, field_of f n = Some v) by (destruct v0 as [b0|l0]; [destruct K as (b1 & K)|destruct K as (b1 & K & _)]; eauto). destruct G as (v & G). rewrite G.
        destruct (xorb neg (truth v)).
        * intros a I. destruct (leaves_sound f body ks kb Fs B a I) as (s & S1 & S2 & S3). exists s. split; [exact S1|]. split; [exact S2|]. apply in_app_iff. now right.
        * intros a I. exists []. rewrite !app_nil_r. split; [reflexivity|]. split; [reflexivity|]. apply in_app_iff. now left.
  Qed.
  Lemma query_lexed f script ns ks : filter_silent f -> parse_template script = Some ns -> nodes_check [CNorm] ns = Some ks ->
    forall dflt, exists q, query_text dflt (Some f) script = Some q /\ lex bs q = expand f (flat_map node_tokens ns).
  Proof.
    intros Fs P C dflt. unfold query_text. rewrite P. destruct (nodes_sound f ns [CNorm] ks Fs C [] (or_introl eq_refl)) as (q & E & L & _). exists q. split; [exact E|exact L].
  Qed.
End Lex.
