(** [parse] as a whole. *)
From Coq Require Import String Ascii List NArith Lia.
From Verif Require Import Base Erd Chumsky Parser SpecLex SpecGrammar
  ChumskyFacts LexFacts SpanFacts GrammarFacts.
Import ListNotations.

Lemma erd_module_returns ts :
  (exists m, parse_recovery erd_module_parser ts = Ret (Some m, [])) \/
  parse_recovery erd_module_parser ts = Ret (None, [EUnexpected]).
Proof.
  unfold parse_recovery. pose proof (adv_erd_module (mkStream ts 0)) as K.
  destruct (erd_module_parser (mkStream ts 0)) as [e m s| |x] eqn:E.
  - apply sound_erd_module in E as (-> & _). eauto.
  - auto.
  - destruct K.
Qed.

(** What [parse] does, in terms of its two passes. *)
Lemma parse_passes src :
  exists toks errs mp,
    parse_recovery tokenizer src = Ret (Some toks, errs) /\
    parse_recovery erd_module_parser (map fst toks) = Ret mp /\
    parse src = Ret (mkParse (fst mp) errs (snd mp)) /\
    ((exists m, mp = (Some m, [])) \/ mp = (None, [EUnexpected])).
Proof.
  destruct (tokenizer_scans src) as (toks & errs & r & E & _).
  exists toks, errs. unfold parse. rewrite E. simpl.
  destruct (erd_module_returns (map fst toks)) as [(m & ->)| ->]; eexists; simpl; repeat split; eauto.
Qed.

Theorem parse_returns src : exists r, parse src = Ret r.
Proof. destruct (parse_passes src) as (? & ? & ? & _ & _ & -> & _). eauto. Qed.

Theorem parse_shape src r : parse src = Ret r ->
  (exists m, pr_ast r = Some m /\ pr_parse_errs r = []) \/
  (pr_ast r = None /\ pr_parse_errs r = [EUnexpected]).
Proof.
  destruct (parse_passes src) as (? & ? & ? & _ & _ & -> & H). intros [= <-].
  destruct H as [(m & ->)| ->]; simpl; eauto.
Qed.

(** C05 *)
Theorem parse_sound src r m : parse src = Ret r -> pr_ast r = Some m ->
  exists toks ts rest,
    parse_recovery tokenizer src = Ret (Some toks, pr_lex_errs r) /\
    map fst toks = ts ++ rest /\ g_module ts m.
Proof.
  destruct (parse_passes src) as (toks & errs & mp & E1 & E2 & -> & H).
  intros [= <-]. simpl. intros Em.
  unfold parse_recovery in E2.
  destruct (erd_module_parser _) as [e m' s| |x] eqn:E; [|injection E2 as <-; discriminate|discriminate].
  injection E2 as <-. simpl in Em. injection Em as ->.
  apply sound_erd_module in E as (_ & ts & Es & Hm). cbn [s_rest] in Es.
  exists toks, ts, (s_rest s). auto.
Qed.

(** C06 *)
Lemma recovery_complete ts m rest : g_module ts m ->
  parse_recovery erd_module_parser (ts ++ rest) = Ret (Some m, []).
Proof.
  intros H. unfold parse_recovery. destruct (complete_erd_module _ _ rest 0 H) as (s & ->). auto.
Qed.

Theorem module_unique ts us m n r1 r2 :
  g_module ts m -> g_module us n -> ts ++ r1 = us ++ r2 -> m = n.
Proof.
  intros H1 H2 E. apply (recovery_complete _ _ r1) in H1. apply (recovery_complete _ _ r2) in H2.
  rewrite E in H1. congruence.
Qed.

Theorem parse_complete src toks rest ts us m :
  reads 0 src toks rest -> barren rest ->
  map fst toks = ts ++ us -> g_module ts m ->
  parse src = Ret (mkParse (Some m) [] []).
Proof.
  intros R B E G. unfold parse.
  rewrite (proj2 (tokenizer_reads src toks)) by eauto. simpl.
  rewrite E, recovery_complete with (m := m); auto.
Qed.

Lemma parse_tokens src toks errs ts us m :
  parse_recovery tokenizer src = Ret (Some toks, errs) -> map fst toks = ts ++ us -> g_module ts m ->
  parse src = Ret (mkParse (Some m) errs []).
Proof.
  intros R E G. unfold parse. rewrite R. simpl. rewrite E, recovery_complete with (m := m); auto.
Qed.

(** ** What follows the closing brace *)

Lemma tokenizer_prefix o l toks r :
  reads o l toks r -> exists e toks' s', tokenizer (mkStream l o) = POk e (toks ++ toks') s'.
Proof.
  induction 1 as [o s|o s s1 u t r r' ts start stop Sk St -> -> _ IH].
  - destruct (tokenizer_ok (mkStream s o)) as (e & toks & s' & E). exists e, toks, s'. auto.
  - destruct IH as (e0 & toks' & s' & E).
    unfold tokenizer; rewrite repeated_eq by apply adv_lex_item.
    pose proof (skips_unpadded _ _ Sk (starts_unpadded _ _ _ _ St)) as Eg.
    rewrite lex_item_eq, <- Eg, (lex_token_complete _ _ _ _ _ St). cbn [s_rest s_off].
    change (p_repeated lex_item) with tokenizer.
    assert (goff o s = (o + (length s - length s1))%nat) as G by (unfold goff; rewrite <- Eg; auto).
    rewrite G in *. set (stop := (o + (length s - length s1) + length u)%nat) in *.
    destruct (tokenizer_ok (mkStream (gap r) (goff stop r))) as (e & toks2 & s2 & E2).
    rewrite E2. apply tokenizer_gap in E2 as [s3 E3]. rewrite E3 in E. injection E as -> -> ->.
    cbn [app]. eauto.
Qed.

Lemma reads_split o s a b r : reads o s (a ++ b) r -> exists m, reads o s a m.
Proof.
  revert o s. induction a as [|x a IH]; intros o s H.
  - exists s. constructor.
  - cbn [app] in H. inversion H as [|? ? s' u t r1 ? ? start stop Sk St Es Ep Hr]; subst.
    apply IH in Hr as (m & Hm). exists m. eapply reads_cons; eauto.
Qed.

Lemma skips_swap s c l : skips s (c :: l) ->
  exists q, s = q ++ c :: l /\ forall l', skips (q ++ c :: l') (c :: l').
Proof.
  intros H. remember (c :: l) as r eqn:E. induction H as [s|d s r Hd _ IH|txt r Ht Hr]; subst.
  - exists []. split; auto. intros. constructor.
  - destruct (IH eq_refl) as (q & -> & Hq). exists (d :: q). split; auto. intros l'. now constructor.
  - exists (lit "//" ++ txt). rewrite app_assoc. split; auto.
    intros l'. rewrite <- app_assoc. apply skips_comment; auto. right. exists l'.
    destruct Hr as [Hr|(r' & Hr)]; congruence.
Qed.

Lemma close_spelling u : lexeme u Close -> u = lit "}".
Proof.
  intros H. inversion H as [|w t K| | |c Hc E| |]; subst; auto. inversion K.
Qed.

Definition ends_in_close (toks : list (token * span)) : Prop :=
  exists l sp, toks = l ++ [(Close, sp)].

Local Ltac lens := repeat (cbn [app length]; rewrite ?app_length);
  change (length (lit "}")) with 1; unfold str, char in *; lia.

Lemma reads_swap o s toks r : reads o s toks r -> ends_in_close toks ->
  exists x, s = x ++ lit "}" ++ r /\ forall r', reads o (x ++ lit "}" ++ r') toks r'.
Proof.
  induction 1 as [o s|o s s1 u t r r1 ts start stop Sk (-> & L & D) -> -> Hr IH]; intros (l & sp & El).
  - destruct l; discriminate.
  - destruct (lexeme_head _ _ L) as (c & u' & Eu & _).
    pose proof Sk as Sk'. rewrite Eu in Sk'. cbn [app] in Sk'.
    apply skips_swap in Sk' as (q & -> & Hq).
    destruct l as [|y l].
    + injection El as -> _ ->. apply close_spelling in L as ->. injection Eu as <- <-.
      inversion Hr; subst. exists q. split; auto. intros r'.
      apply reads_cons with (s' := lit "}" ++ r') (u := lit "}") (r := r'); [apply (Hq r')| | | |apply reads_nil].
      * split; [reflexivity|]. split; [apply (lx_punct (ch "}")); simpl; auto|].
        apply not_word_delimited, not_word_cons. reflexivity.
      * lens.
      * reflexivity.
    + injection El as <- ->.
      destruct IH as (x & -> & Hx); [exists l, sp; auto|].
      exists (q ++ u ++ x). split; [rewrite Eu; cbn [app]; rewrite <- !app_assoc; cbn [app]; now rewrite <- !app_assoc|].
      intros r'. eapply reads_cons with (s' := u ++ x ++ lit "}" ++ r') (r := x ++ lit "}" ++ r').
      * rewrite Eu. cbn [app]. rewrite <- !app_assoc. cbn [app]. rewrite <- app_assoc. apply Hq.
      * split; auto. split; eauto. intros W. specialize (D W) as [D1 D2]. split.
        -- intros d r'' E. destruct x as [|x0 x]; cbn [app] in *; injection E as <- <-;
             eapply D1; reflexivity.
        -- intros r'' E.
           replace (u ++ x ++ lit "}" ++ r') with ((u ++ x ++ lit "}") ++ r') in E
             by (now rewrite <- !app_assoc).
           apply app_eq_app in E as (k & [[E1 E2]|[E1 E2]]).
           ++ apply (D2 (k ++ r1)).
              replace (u ++ x ++ lit "}" ++ r1) with ((u ++ x ++ lit "}") ++ r1)
                by (now rewrite <- !app_assoc).
              rewrite E1, <- app_assoc. auto.
           ++ assert (In (ch "}") (lit "o--o")) as B.
              { rewrite E1. apply in_or_app. left. apply in_or_app. right. apply in_or_app. right. simpl. auto. }
              simpl in B. decompose [or] B; discriminate || contradiction.
      * rewrite Eu. lens.
      * reflexivity.
      * match goal with |- reads ?o1 _ _ _ => match type of Hr with reads ?o2 _ _ _ => replace o1 with o2 end end; auto.
Qed.

Lemma map_app_inv {A B} (f : A -> B) l x y : map f l = x ++ y ->
  exists a b, l = a ++ b /\ map f a = x /\ map f b = y.
Proof.
  revert x. induction l as [|z l IH]; intros x E.
  - cbn in E. symmetry in E. apply app_eq_nil in E as [-> ->]. exists [], []. auto.
  - destruct x as [|w x]; cbn [app map] in E.
    + exists [], (z :: l). auto.
    + injection E as <- E. apply IH in E as (a & b & -> & <- & <-). exists (z :: a), b. auto.
Qed.

(** A module phrase ends with a brace, up to separators. *)
Lemma module_close ts m : g_module ts m ->
  exists ts' p, ts = (ts' ++ [Close]) ++ p /\ g_module (ts' ++ [Close]) m.
Proof.
  intros [p1 p2 nts n p3 ets es p4 p5 H1 H2 Hn H3 He H4 H5].
  exists (p1 ++ KErd :: p2 ++ nts ++ Open :: p3 ++ ets ++ p4), p5. split.
  - repeat (rewrite <- !app_assoc; cbn [app]). reflexivity.
  - replace ((p1 ++ KErd :: p2 ++ nts ++ Open :: p3 ++ ets ++ p4) ++ [Close])
      with (p1 ++ KErd :: p2 ++ nts ++ Open :: p3 ++ ets ++ p4 ++ Close :: [])
      by (repeat (rewrite <- !app_assoc; cbn [app]); reflexivity).
    constructor; auto. constructor.
Qed.

(** C12: the text can be cut after a closing brace, and whatever is written there
    instead, the module is the same. *)
Lemma tail_reads src m pe :
  parse src = Ret (mkParse (Some m) [] pe) ->
  exists x rest tk, src = x ++ lit "}" ++ rest /\ g_module (map fst tk) m /\
    forall tail, reads 0 (x ++ lit "}" ++ tail) tk tail.
Proof.
  intros H. destruct (parse_sound _ _ m H eq_refl) as (toks & ts & us & E & Et & Hm).
  cbn [pr_lex_errs] in E. apply tokenizer_reads in E as (rest & R & _).
  apply module_close in Hm as (ts' & p & -> & Hm).
  rewrite <- app_assoc in Et. apply map_app_inv in Et as (ta & tb & -> & Ea & Eb).
  apply reads_split in R as (mid & R).
  pose proof Ea as Ea'. apply map_app_inv in Ea as (t1 & t2 & -> & E1 & E2).
  destruct t2 as [|[t sp] [|]]; try discriminate. injection E2 as ->.
  destruct (reads_swap _ _ _ _ R) as (x & -> & Hx); [eexists _, _; eauto|].
  exists x, mid, (t1 ++ [(Close, sp)]). split; auto. now rewrite Ea'.
Qed.

Theorem tail_ignored src m pe :
  parse src = Ret (mkParse (Some m) [] pe) ->
  exists x rest, src = x ++ lit "}" ++ rest /\
    forall tail, exists errs, parse (x ++ lit "}" ++ tail) = Ret (mkParse (Some m) errs []).
Proof.
  intros H. apply tail_reads in H as (x & rest & tk & -> & G & Hx).
  exists x, rest. split; auto. intros tail.
  destruct (tokenizer_prefix _ _ _ _ (Hx tail)) as (errs & toks' & s' & E).
  exists errs. eapply parse_tokens with (ts := map fst tk) (us := map fst toks'); eauto.
  - unfold parse_recovery. rewrite E. reflexivity.
  - now rewrite map_app.
Qed.

Theorem appended_ignored src m pe tail :
  parse src = Ret (mkParse (Some m) [] pe) ->
  exists errs, parse (src ++ tail) = Ret (mkParse (Some m) errs []).
Proof.
  intros H. apply tail_ignored in H as (x & rest & -> & H).
  destruct (H (rest ++ tail)) as (errs & E). exists errs. rewrite <- E, <- !app_assoc. auto.
Qed.
