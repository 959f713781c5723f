From Verif Require Import GoBase GoBaseFacts QuoteModel SpecSprintf Utf8Facts CacheModel TokenModel SpecToken TokenFacts DdlModel MigrateModel TrimPf TriggerModel SpecTrigger TriggerPf.
From Coq Require Import Lia ZifyBool ZifyNat ZifyN.
Ltac Zify.zify_post_hook ::= idtac.

Lemma function_step n d at_f rest f ret : rest <> [] -> function_loop (S n) d at_f rest f ret =
  if at_f then function_at d rest f ret
  else let (token, rest') := pop_identifier d rest in function_loop n d (equal_fold token (B "FUNCTION")) rest' f ret.
Proof. destruct rest; [congruence|reflexivity]. Qed.
Lemma function_words d f ret : forall pre w ws rest s n, words_text d (pre ++ w :: ws) rest s -> Forall (not_keyword (B "FUNCTION")) pre ->
  keyword (B "FUNCTION") w -> length s <= n ->
  exists s' n', words_text d ws rest s' /\ length s' <= n' /\ function_loop n d false s f ret = function_loop n' d true s' f ret.
Proof.
  induction pre as [|p pre IH]; intros w ws rest s n H F W L; cbn [app] in H;
    destruct (pop_words _ _ _ _ _ H) as (s' & E & H' & L' & N); (destruct n as [|n]; [lia|]); rewrite function_step by exact N; rewrite E.
  - exists s', n. split; [exact H'|]. split; [lia|]. unfold keyword in W. now rewrite W.
  - inversion F as [|? ? F1 F2]; subst. unfold not_keyword in F1. destruct (IH w ws rest s' n H' F2 W) as (s2 & n2 & A1 & A2 & A3); [lia|].
    exists s2, n2. split; [exact A1|]. split; [exact A2|]. rewrite <- A3. now rewrite F1.
Qed.

Lemma in_runes c rs : (ord c < 128)%N -> forallb scalar rs = true -> In c (string_of_runes rs) -> In (ord c) rs.
Proof.
  intros A. induction rs as [|r rs IH]; cbn [forallb]; intros S I; [destruct I|]. apply andb_true_iff in S. destruct S as (S1 & S2).
  rewrite string_of_runes_cons in I. apply in_app_or in I. destruct I as [I|I]; [left|right; auto].
  unfold encode_rune in I. unfold scalar in S1. destruct (r <? 128)%N eqn:E.
  { destruct I as [<-|[]]. rewrite ord_chr; lia. }
  assert (M : forall x, (128 <= ord (chr (128 + x mod 64)))%N).
  { intros x. pose proof (N.mod_upper_bound x 64 ltac:(lia)). rewrite ord_chr; lia. }
  exfalso. destruct (r <? 2048)%N eqn:E2.
  { assert (r / 64 < 32)%N by (apply N.div_lt_upper_bound; lia). destruct I as [I|[I|[]]]; subst c; [rewrite ord_chr in A; lia|specialize (M r); lia]. }
  destruct (in_range 55296 57343 r || (1114111 <? r)%N) eqn:E3.
  { destruct I as [I|[I|[I|[]]]]; subst c; rewrite ord_chr in A; lia. }
  destruct (r <? 65536)%N eqn:E4.
  { assert (r / 4096 < 16)%N by (apply N.div_lt_upper_bound; lia). destruct I as [I|[I|[I|[]]]]; subst c; [rewrite ord_chr in A; lia|specialize (M (r / 64)%N); lia|specialize (M r); lia]. }
  assert (r / 262144 < 8)%N by (apply N.div_lt_upper_bound; [lia|]; unfold in_range in E3; lia).
  destruct I as [I|[I|[I|[I|[]]]]]; subst c; [rewrite ord_chr in A; lia|specialize (M (r / 4096)%N); lia|specialize (M (r / 64)%N); lia|specialize (M r); lia].
Qed.
Lemma forall_scalar P rs : Forall (fun r => scalar r = true /\ P r) rs -> forallb scalar rs = true.
Proof. intros H. apply forallb_forall. intros r I. rewrite Forall_forall in H. now apply H. Qed.
Lemma ident_runes rs : Forall (fun r => scalar r = true /\ is_space r = false /\ r <> ord """") rs -> ident DPostgres (string_of_runes rs).
Proof.
  induction 1 as [|r rs (A & B0 & C) H IH]; [constructor|]. rewrite string_of_runes_cons. constructor; auto.
  intros [I|[]]. cbn [fst] in I. congruence.
Qed.
Lemma name_plain n c : plain_name n -> In c [""""; "("; ")"; "."]%char -> ~ In c n.
Proof.
  intros (rs & -> & F) I J. apply in_runes in J.
  - rewrite Forall_forall in F. destruct (F _ J) as (_ & _ & K). apply K. now apply in_map.
  - cbn [In] in I. repeat destruct I as [<-|I]; try reflexivity. destruct I.
  - now apply forall_scalar in F.
Qed.
Lemma blanks_plain b c : blanks b -> In c ["("; ")"; "."]%char -> ~ In c b.
Proof.
  intros (rs & -> & F) I J. apply in_runes in J.
  - rewrite Forall_forall in F. specialize (F _ J). cbn [In] in I. unfold blank in F. repeat destruct I as [<-|I]; try (vm_compute in F; intuition discriminate); try contradiction;
      revert F; vm_compute; intuition congruence.
  - cbn [In] in I. repeat destruct I as [<-|I]; try reflexivity. destruct I.
  - apply forallb_forall. intros r Ir. rewrite Forall_forall in F. specialize (F _ Ir). now destruct (blank_scalar _ F).
Qed.
Lemma args_plain a c : plain_args a -> In c [""""; ")"]%char -> ~ In c a.
Proof.
  intros (rs & -> & F) I J. apply in_runes in J.
  - rewrite Forall_forall in F. destruct (F _ J) as (_ & K). apply K. now apply in_map.
  - cbn [In] in I. repeat destruct I as [<-|I]; try reflexivity. destruct I.
  - now apply forall_scalar in F.
Qed.
Lemma blanks_after b s : blanks b -> b <> [] -> after_word (b ++ s).
Proof.
  intros (rs & -> & F) N. destruct rs as [|r rs]; [now destruct N|]. inversion F as [|? ? Hr Hrs]; subst. destruct (blank_scalar _ Hr) as (A1 & _ & A2).
  right. exists r, (string_of_runes rs ++ s). rewrite string_of_runes_cons, <- app_assoc. auto.
Qed.
Lemma returns_after ty s : returns_text ty s -> after_word s.
Proof.
  intros [k ty' rest s' K W|w rest s' K W|s' Hb].
  - now apply words_after in W.
  - now apply words_after in W.
  - destruct s' as [|c s']; [now left|]. rewrite <- (app_nil_r (c :: s')). apply blanks_after; [exact Hb|discriminate].
Qed.

(** The word that begins with the name. *)
Lemma pop_name b qname b1 args tail : blanks b -> b <> [] -> (exists rs, qname = string_of_runes rs /\ Forall (fun r => scalar r = true /\ is_space r = false /\ r <> ord """") rs) ->
  qname <> [] -> blanks b1 -> plain_args args -> after_word tail ->
  exists junk, fst (pop_identifier DPostgres (b ++ qname ++ b1 ++ B "(" ++ args ++ B ")" ++ tail)) = qname ++ junk /\
    (junk = [] \/ b1 = [] /\ exists j', junk = "("%char :: j' /\ incl j' (args ++ B ")")).
Proof.
  intros Hb Nb (qs & -> & Fq) Nq Hb1 (rs & -> & Fa) Ha.
  destruct b1 as [|c1 b1].
  - cbn [app].
    assert (D : (exists r1 sp r2, rs = r1 ++ sp :: r2 /\ is_space sp = true /\ Forall (fun r => is_space r = false) r1) \/ Forall (fun r => is_space r = false) rs).
    { clear. induction rs as [|r rs IH]; [right; constructor|]. destruct (is_space r) eqn:S.
      - left. exists [], r, rs. auto.
      - destruct IH as [(r1 & sp & r2 & -> & A & F)|F]; [left; exists (r :: r1), sp, r2|right]; auto. }
    destruct D as [(r1 & sp & r2 & -> & S & F)|F].
    + exists ("("%char :: string_of_runes r1). split.
      * replace (string_of_runes qs ++ B "(" ++ string_of_runes (r1 ++ sp :: r2) ++ B ")" ++ tail)
          with (string_of_runes (qs ++ [40%N] ++ r1) ++ encode_rune sp ++ string_of_runes r2 ++ B ")" ++ tail).
        2: { rewrite !string_of_runes_app, string_of_runes_cons. cbn [string_of_runes flat_map encode_rune]. rewrite <- !app_assoc. reflexivity. }
        rewrite pop_word.
        -- cbn [fst]. rewrite !string_of_runes_app. reflexivity.
        -- exact Hb.
        -- apply ident_runes. apply Forall_app. split; [exact Fq|]. cbn [app]. constructor; [repeat split; discriminate|].
           apply Forall_forall. intros r I. rewrite Forall_forall in F, Fa. destruct (Fa r) as (A & B0); [apply in_or_app; now left|].
           split; [exact A|]. split; [now apply F|]. intros ->. apply B0. now left.
        -- destruct qs; [now destruct Nq|]. rewrite !string_of_runes_app, string_of_runes_cons. pose proof (encode_rune_nonempty r). destruct (encode_rune r); [congruence|discriminate].
        -- right. exists sp, (string_of_runes r2 ++ B ")" ++ tail). split; [reflexivity|]. split; [|exact S].
           apply Forall_app in Fa. destruct Fa as (_ & Fa). inversion Fa as [|? ? X Y]; subst. apply X.
      * right. split; [reflexivity|]. eexists. split; [reflexivity|]. intros x I. apply in_or_app. left. rewrite string_of_runes_app. apply in_or_app. now left.
    + exists ("("%char :: string_of_runes rs ++ B ")"). split.
      * replace (string_of_runes qs ++ B "(" ++ string_of_runes rs ++ B ")" ++ tail)
          with (string_of_runes (qs ++ [40%N] ++ rs ++ [41%N]) ++ tail).
        2: { rewrite !string_of_runes_app. cbn [string_of_runes flat_map encode_rune]. rewrite <- !app_assoc. reflexivity. }
        rewrite pop_word; auto.
        -- cbn [fst]. rewrite !string_of_runes_app. reflexivity.
        -- apply ident_runes. apply Forall_app. split; [exact Fq|]. cbn [app]. constructor; [repeat split; discriminate|].
           apply Forall_app. split; [|constructor; [repeat split; discriminate|constructor]].
           apply Forall_forall. intros r I. rewrite Forall_forall in F, Fa. destruct (Fa r I) as (A & B0).
           split; [exact A|]. split; [now apply F|]. intros ->. apply B0. now left.
        -- destruct qs; [now destruct Nq|]. rewrite !string_of_runes_app, string_of_runes_cons. pose proof (encode_rune_nonempty r). destruct (encode_rune r); [congruence|discriminate].
      * right. split; [reflexivity|]. eexists. split; [reflexivity|]. intros x I. exact I.
  - exists []. split; [|now left]. rewrite app_nil_r. rewrite pop_word; [reflexivity|exact Hb|now apply ident_runes|exact Nq|].
    apply blanks_after; [exact Hb1|discriminate].
Qed.

Lemma index_first c a s : ~ In c a -> index_byte c (a ++ c :: s) = Some (length a).
Proof. intros H. apply index_byte_app. exact H. Qed.

Lemma qualified_plain schema name q : (schema = [] \/ plain_name schema) -> plain_name name -> qualified_text schema name q -> name <> [] ->
  q <> [] /\ (exists rs, q = string_of_runes rs /\ Forall (fun r => scalar r = true /\ is_space r = false /\ r <> ord """") rs) /\
  ~ In "("%char q /\ ~ In ")"%char q.
Proof.
  intros S N Q Nn.
  assert (P : forall n, n = [] \/ plain_name n -> exists rs, n = string_of_runes rs /\ Forall (fun r => scalar r = true /\ is_space r = false /\ r <> ord """") rs).
  { intros n [->|(rs & -> & F)]; [exists []; split; [reflexivity|constructor]|]. exists rs. split; [reflexivity|]. apply Forall_forall. intros r I. rewrite Forall_forall in F.
    destruct (F r I) as (A & B0 & C). split; [exact A|]. split; [exact B0|]. intros ->. apply C. now left. }
  assert (E : forall n c, n = [] \/ plain_name n -> In c ["("; ")"]%char -> ~ In c n).
  { intros n c [->|H] I; [auto|]. apply name_plain; [exact H|]. cbn [In] in *. tauto. }
  destruct Q as [t D|s t D].
  - split; [exact Nn|]. split; [apply P; now right|]. split; (apply E; [now right|cbn; tauto]).
  - destruct (P s S) as (r1 & E1 & F1), (P t (or_intror N)) as (r2 & E2 & F2). split; [destruct s; discriminate|]. split.
    + exists (r1 ++ [46%N] ++ r2). split; [rewrite !string_of_runes_app, <- E1, <- E2; reflexivity|]. apply Forall_app. split; [exact F1|].
      cbn [app]. constructor; [repeat split; discriminate|exact F2].
    + split; intros I; apply in_app_or in I; destruct I as [I|I]; try (revert I; apply E; [exact S|cbn; tauto]);
        apply in_app_or in I; (destruct I as [[I|[]]|I]; [discriminate|revert I; apply E; [now right|cbn; tauto]]).
Qed.

Lemma split_dot_none q : ~ In "."%char q -> split_dot q = None.
Proof. intros H. unfold split_dot. apply index_byte_none in H. now rewrite H. Qed.
Lemma split_dot_some s t : ~ In "."%char s -> split_dot (s ++ B "." ++ t) = Some (s, t).
Proof.
  intros H. unfold split_dot. change (B "." ++ t) with ("."%char :: t). rewrite index_first by exact H.
  rewrite firstn_app, Nat.sub_diag, firstn_all. cbn [firstn]. rewrite app_nil_r. do 2 f_equal.
  rewrite skipn_app, skipn_all2 by lia. replace (S (length s) - length s) with 1 by lia. reflexivity.
Qed.
Lemma cut_paren n junk : ~ In "("%char n -> (junk = [] \/ exists j, junk = "("%char :: j) ->
  match index_byte "(" (n ++ junk) with Some i => firstn i (n ++ junk) | None => n ++ junk end = n.
Proof.
  intros H [->|(j & ->)].
  - rewrite app_nil_r. apply index_byte_none in H. now rewrite H.
  - rewrite index_first by exact H. rewrite firstn_app, Nat.sub_diag, firstn_all. cbn [firstn]. apply app_nil_r.
Qed.

Lemma function_at_found b schema name q b1 args tail ty core f ret : blanks b -> b <> [] -> (schema = [] \/ plain_name schema) -> plain_name name -> name <> [] ->
  qualified_text schema name q -> blanks b1 -> plain_args args -> returns_text ty tail -> trimmed args core -> f_schema f = [] -> ret = [] ->
  (schema <> [] \/ b1 <> [] \/ ~ In "."%char args) ->
  function_at DPostgres (b ++ q ++ b1 ++ B "(" ++ args ++ B ")" ++ tail) f ret = LOk (mk_func schema name core (f_sql f) (f_ignore f), ty).
Proof.
  intros Hb Nb Ps Pn Nn Q Hb1 Pa Rt Tr Fs -> Dot. destruct (qualified_plain _ _ _ Ps Pn Q Nn) as (Nq & Rq & Lq & Cq).
  destruct (pop_name b q b1 args tail Hb Nb Rq Nq Hb1 Pa (returns_after _ _ Rt)) as (junk & E & J).
  unfold function_at. destruct (pop_identifier DPostgres (b ++ q ++ b1 ++ B "(" ++ args ++ B ")" ++ tail)) as [tok r0]. cbn [fst] in E. subst tok. clear r0.
  assert (J' : junk = [] \/ exists j, junk = "("%char :: j) by (destruct J as [J|(_ & j & J & _)]; eauto).
  assert (X : (match split_dot (q ++ junk) with Some p => p | None => (f_schema f, q ++ junk) end) = (schema, name ++ junk)).
  { destruct Q as [t D|s t D].
    - rewrite split_dot_none; [now rewrite Fs|]. intros I. apply in_app_or in I. destruct I as [I|I]; [contradiction|].
      destruct J as [->|(-> & j & -> & In0)]; [destruct I|]. destruct I as [I|I]; [discriminate|]. apply In0, in_app_or in I.
      destruct Dot as [Dot|[Dot|Dot]]; [congruence|congruence|]. destruct I as [I|[I|[]]]; [contradiction|discriminate].
    - rewrite <- !app_assoc. rewrite split_dot_some by exact D. reflexivity. }
  match goal with |- (let (_, _) := ?e in _) = _ => replace e with (schema, name ++ junk) by (symmetry; exact X) end. cbv zeta. rewrite cut_paren; [|apply name_plain; [exact Pn|cbn; tauto]|exact J'].
  assert (I1 : index_byte "(" (b ++ q ++ b1 ++ B "(" ++ args ++ B ")" ++ tail) = Some (length (b ++ q ++ b1))).
  { replace (b ++ q ++ b1 ++ B "(" ++ args ++ B ")" ++ tail) with ((b ++ q ++ b1) ++ "("%char :: args ++ B ")" ++ tail) by (rewrite <- !app_assoc; reflexivity).
    apply index_first. intros I. apply in_app_or in I. destruct I as [I|I]; [revert I; apply blanks_plain; [exact Hb|cbn; tauto]|].
    apply in_app_or in I. destruct I as [I|I]; [contradiction|]. revert I. apply blanks_plain; [exact Hb1|cbn; tauto]. }
  assert (I2 : index_byte ")" (b ++ q ++ b1 ++ B "(" ++ args ++ B ")" ++ tail) = Some (length (b ++ q ++ b1) + 1 + length args)).
  { replace (b ++ q ++ b1 ++ B "(" ++ args ++ B ")" ++ tail) with (((b ++ q ++ b1) ++ B "(" ++ args) ++ ")"%char :: tail) by (rewrite <- !app_assoc; reflexivity).
    rewrite index_first; [f_equal; rewrite !app_length; cbn [length]; change (length (B "(")) with 1; lia|].
    intros I. apply in_app_or in I. destruct I as [I|I].
    - apply in_app_or in I. destruct I as [I|I]; [revert I; apply blanks_plain; [exact Hb|cbn; tauto]|].
      apply in_app_or in I. destruct I as [I|I]; [contradiction|]. revert I. apply blanks_plain; [exact Hb1|cbn; tauto].
    - apply in_app_or in I. destruct I as [[I|[]]|I]; [discriminate|]. revert I. apply args_plain; [exact Pa|cbn; tauto]. }
  rewrite I1, I2. set (k := length (b ++ q ++ b1)) in *.
  replace (Nat.ltb (k + 1 + length args) (S k)) with false by (symmetry; apply Nat.ltb_ge; lia).
  replace (b ++ q ++ b1 ++ B "(" ++ args ++ B ")" ++ tail) with (((b ++ q ++ b1) ++ B "(") ++ args ++ B ")" ++ tail) by (rewrite <- !app_assoc; reflexivity).
  assert (K1 : S k = length ((b ++ q ++ b1) ++ B "(")) by (rewrite app_length; change (length (B "(")) with 1; unfold k; lia).
  replace (skipn (S (k + 1 + length args)) (((b ++ q ++ b1) ++ B "(") ++ args ++ B ")" ++ tail)) with tail.
  2: { replace (((b ++ q ++ b1) ++ B "(") ++ args ++ B ")" ++ tail) with ((((b ++ q ++ b1) ++ B "(") ++ args ++ B ")") ++ tail) by (rewrite <- !app_assoc; reflexivity).
       replace (S (k + 1 + length args)) with (length (((b ++ q ++ b1) ++ B "(") ++ args ++ B ")")).
       - rewrite skipn_app, skipn_all, Nat.sub_diag. reflexivity.
       - rewrite app_length, <- K1, app_length. change (length (B ")")) with 1. lia. }
  rewrite K1. rewrite (skipn_app (length ((b ++ q ++ b1) ++ B "("))), skipn_all, Nat.sub_diag. cbn [skipn app]. replace (k + 1 + length args - length ((b ++ q ++ b1) ++ B "(")) with (length args) by lia.
  rewrite firstn_app, Nat.sub_diag, firstn_all. cbn [firstn]. rewrite app_nil_r.
  replace (trim_space args) with core.
  2: { destruct Tr as (a & c & b' & -> & -> & S & A1 & A2 & A3 & A4). symmetry. now apply trim_space_spec. }
  destruct Rt as [kw ty' rest s' K W|w rest s' K W|s' Hs].
  - destruct (pop_words _ _ _ _ _ W) as (s1 & E1 & W1 & _). rewrite E1. unfold keyword in K. rewrite K.
    destruct (pop_words _ _ _ _ _ W1) as (s2 & E2 & _). rewrite E2. reflexivity.
  - destruct (pop_words _ _ _ _ _ W) as (s1 & E1 & W1 & _). rewrite E1. unfold not_keyword in K. rewrite K. reflexivity.
  - assert (P : pop_identifier DPostgres s' = ([], [])) by (rewrite <- (app_nil_r s'), pop_blank by exact Hs; reflexivity).
    rewrite P. reflexivity.
Qed.

Lemma function_info_found pre kw b schema name q b1 args tail ty core sql ig : 
  words_text DPostgres (pre ++ [kw]) (b ++ q ++ b1 ++ B "(" ++ args ++ B ")" ++ tail) (B " " ++ sql) ->
  Forall (not_keyword (B "FUNCTION")) pre -> keyword (B "FUNCTION") kw ->
  blanks b -> b <> [] -> (schema = [] \/ plain_name schema) -> plain_name name -> name <> [] ->
  qualified_text schema name q -> blanks b1 -> plain_args args -> returns_text ty tail -> trimmed args core ->
  (schema <> [] \/ b1 <> [] \/ ~ In "."%char args) ->
  function_info (S (length sql)) DPostgres (mk_func [] [] [] sql ig) [] = LOk (mk_func schema name core sql ig, ty).
Proof.
  intros H F K Hb Nb Ps Pn Nn Q Hb1 Pa Rt Tr Dot. unfold function_info. cbn [is_postgres negb f_sql].
  assert (N : sql <> []) by (intros ->; destruct pre; cbn [app] in H; apply words_long in H; cbn in H; lia).
  assert (E : function_loop (S (length sql)) DPostgres false sql (mk_func [] [] [] sql ig) [] = function_loop (S (length sql)) DPostgres false (B " " ++ sql) (mk_func [] [] [] sql ig) []).
  { rewrite !function_step by (auto; discriminate). rewrite (pop_blank DPostgres (B " ")); [reflexivity|].
    exists [32%N]. split; [reflexivity|]. constructor; [right; left; reflexivity|constructor]. }
  rewrite E. destruct (function_words DPostgres (mk_func [] [] [] sql ig) [] pre kw [] _ (B " " ++ sql) (S (length sql)) H F K) as (s1 & n1 & H1 & L1 & ->); [cbn; lia|].
  inversion H1; subst. assert (N1 : b ++ q ++ b1 ++ B "(" ++ args ++ B ")" ++ tail <> []) by (destruct b; [congruence|discriminate]).
  destruct n1 as [|n1]; [destruct (b ++ q ++ b1 ++ B "(" ++ args ++ B ")" ++ tail); [congruence|cbn in L1; lia]|].
  rewrite function_step by exact N1. rewrite (function_at_found b schema name q b1 args tail ty core); auto.
  cbn [f_sql f_ignore f_name]. destruct name; [congruence|]. cbn [is_empty]. rewrite andb_false_r. reflexivity.
Qed.
