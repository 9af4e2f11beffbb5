(** The layout of the source text: blanks, comments, separators. *)
From Coq Require Import String Ascii List Arith NArith Lia.
From Verif Require Import Base Chumsky Erd Parser Svg Render Cli SpecLex SpecGrammar LexFacts ParseFacts SpanFacts SepFacts.
Import ListNotations.

Lemma skips_trans s r q : skips s r -> skips r q -> skips s q.
Proof.
  induction 1 as [s|c s r B _ IH|txt r Ht Hr]; intros Q; auto.
  - constructor; auto.
  - replace q with r; [now constructor|].
    destruct Hr as [->|(r' & ->)]; inversion Q; subst; auto.
    match goal with H : blank newline_char |- _ => destruct H; discriminate end.
Qed.

Lemma skips_first w y : skips (w ++ y) y -> w = [] \/ exists c w', w = c :: w' /\ (blank c \/ c = 47%N).
Proof.
  destruct w as [|c w]; [auto|]. intros H. right. exists c, w. split; [reflexivity|]. cbn [app] in H.
  inversion H as [s E E'|c' s r B _ E E'|txt r Ht Hr E E']; subst; auto.
  exfalso. apply (f_equal (@length char)) in E'. cbn [length] in E'. rewrite app_length in E'. lia.
Qed.

Lemma reads_app o s a m : reads o s a m -> forall (b : list (token * span)) r, (forall k, exists b', map fst b' = map fst b /\ reads k m b' r) ->
  exists t, map fst t = map fst a ++ map fst b /\ reads o s t r.
Proof.
  induction 1 as [o s|o s s1 u t r r1 ts start stop Sk St -> -> Hr IH]; intros b q H.
  - destruct (H o) as (b' & E & Rd). now exists b'.
  - destruct (IH b q H) as (t' & E & Rd). exists ((t, (o + (length s - length s1), o + (length s - length s1) + length u)) :: t').
    split; [cbn [map fst app]; now rewrite E|]. eapply reads_cons; eauto.
Qed.

Lemma reads_shift o s ts r : reads o s ts r -> forall k, exists ts', map fst ts' = map fst ts /\ reads k s ts' r.
Proof.
  induction 1 as [o s|o s s1 u t r r1 ts start stop Sk St -> -> Hr IH]; intros k.
  - exists []. split; constructor.
  - destruct (IH (k + (length s - length s1) + length u)) as (ts' & E & Rd).
    eexists (_ :: ts'). split; [|eapply reads_cons; eauto]. cbn [map fst]. now rewrite E.
Qed.

Lemma reads_widen o s ts y : reads o s ts y -> exists x, s = x ++ y /\
  forall w, skips (w ++ y) y -> exists ts', map fst ts' = map fst ts /\ reads o (x ++ w ++ y) ts' (w ++ y).
Proof.
  induction 1 as [o s|o s s1 u t r y ts start stop Sk (-> & L & D) -> -> Hr IH].
  - exists []. split; [reflexivity|]. intros w _. exists []. split; constructor.
  - destruct IH as (x & -> & Hx).
    destruct (lexeme_head _ _ L) as (c & u' & Eu & _).
    pose proof Sk as Sk'. rewrite Eu in Sk'. cbn [app] in Sk'. apply skips_swap in Sk' as (q & -> & Hq).
    exists (q ++ u ++ x). split; [rewrite Eu; cbn [app]; rewrite <- !app_assoc; cbn [app]; now rewrite <- !app_assoc|].
    intros w Hw. destruct (Hx w Hw) as (ts' & E & Rd).
    set (st := o + (length (q ++ u ++ x ++ w ++ y) - length (u ++ x ++ w ++ y))).
    destruct (reads_shift _ _ _ _ Rd (st + length u)) as (ts2 & E2 & Rd2).
    exists ((t, (st, st + length u)) :: ts2). split; [cbn [map fst]; now rewrite E2, E|].
    rewrite <- !app_assoc.
    eapply reads_cons with (s' := u ++ x ++ w ++ y) (r := x ++ w ++ y); [| | reflexivity|reflexivity|exact Rd2].
    + rewrite Eu. cbn [app]. apply Hq.
    + split; [reflexivity|]. split; [exact L|]. intros W. specialize (D W) as [D1 D2].
      apply skips_first in Hw as [->|(a & w' & -> & Ha)]; [auto|]. split.
      * intros b r'' E0. destruct x as [|x0 x]; cbn [app] in *; injection E0 as <- <-.
        -- unfold word_char, letter, digit, blank in *. unfold char in *. lia.
        -- eapply D1. reflexivity.
      * intros r'' E0. rewrite app_assoc in E0. apply app_eq_app in E0 as (k & [[E1 E2']|[E1 E2']]).
        -- apply (D2 (k ++ y)). rewrite app_assoc, E1, <- app_assoc. reflexivity.
        -- destruct k as [|k0 k].
           ++ apply (D2 y). rewrite app_assoc. rewrite app_nil_r in E1. now rewrite <- E1.
           ++ cbn [app] in E2'. injection E2' as <- _.
              assert (I : In a (lit "o--o")) by (rewrite E1; apply in_or_app; right; now left).
              cbn in I. unfold blank in Ha. unfold char in *.
              destruct I as [I|[I|[I|[I|[]]]]]; rewrite <- I in Ha; destruct Ha as [[Ha|Ha]|Ha]; discriminate.
Qed.

(** Only the kinds of the tokens matter. *)
Lemma parse_kinds src toks rest : reads 0 src toks rest -> barren rest ->
  parse src = (do mp <- parse_recovery erd_module_parser (map fst toks); Ret (mkParse (fst mp) [] (snd mp))).
Proof. intros Rd B. unfold parse. now rewrite (proj2 (tokenizer_reads src toks)) by eauto. Qed.

Theorem layout_irrelevant src src' toks toks' rest rest' :
  reads 0 src toks rest -> barren rest -> reads 0 src' toks' rest' -> barren rest' ->
  respaced (map fst toks) (map fst toks') -> forall fmt, main fmt src' = main fmt src.
Proof.
  intros R1 B1 R2 B2 H fmt. unfold main.
  now rewrite (parse_kinds _ _ _ R1 B1), (parse_kinds _ _ _ R2 B2), (respaced_parse _ _ H).
Qed.

Lemma respaced_refl l : respaced l l.
Proof. induction l; constructor; auto. Qed.

Theorem gap_irrelevant x y w ts1 ts2 rest :
  reads 0 (x ++ y) ts1 y -> reads (length x) y ts2 rest -> barren rest -> skips (w ++ y) y ->
  forall fmt, main fmt (x ++ w ++ y) = main fmt (x ++ y).
Proof.
  intros R1 R2 B W.
  destruct (reads_app _ _ _ _ R1 ts2 rest (reads_shift _ _ _ _ R2)) as (t & E & Rt).
  destruct (reads_widen _ _ _ _ R1) as (x' & Ex & Hx). apply app_inv_tail in Ex as <-.
  destruct (Hx w W) as (t1 & E1 & Rt1).
  destruct ts2 as [|a ts2].
  - inversion R2; subst. apply (layout_irrelevant _ _ t t1 rest (w ++ rest)); auto.
    + destruct B as (r & Sk & U). exists r. split; [now apply skips_trans with rest|exact U].
    + rewrite E1, E, app_nil_r. apply respaced_refl.
  - assert (exists b, map fst b = map fst (a :: ts2) /\ reads (length x) (w ++ y) b rest) as (b & Eb & Rb).
    { inversion R2 as [|? ? s' u k r ? ? start stop Sk St Es Ep Hr]; subst.
      destruct (reads_shift _ _ _ _ Hr (length x + (length (w ++ y) - length s') + length u)) as (ts3 & E3 & Rd3).
      exists ((k, (length x + (length (w ++ y) - length s'), length x + (length (w ++ y) - length s') + length u)) :: ts3).
      split; [cbn [map fst]; now rewrite E3|].
      eapply reads_cons; [apply (skips_trans _ _ _ W Sk)|exact St|reflexivity|reflexivity|exact Rd3]. }
    destruct (reads_app _ _ _ _ Rt1 b rest (reads_shift _ _ _ _ Rb)) as (t2 & E2 & Rt2).
    apply (layout_irrelevant _ _ t t2 rest rest); auto.
    rewrite E2, E1, Eb, E. apply respaced_refl.
Qed.

(** Two texts of one module. *)
Definition tidy_text : str := lit "erd {" ++ [10%N] ++ lit "a { x int; y int }" ++ [10%N] ++ lit "b { z text }; a.x o--o b.z }".
Definition loose_text : str :=
  lit "  erd{ // the shop" ++ [10; 10]%N ++ lit " ; a{x   int // first" ++ [10%N] ++ lit "y int}" ++ [59; 9; 59]%N ++
  lit "`b` {z text} ;" ++ [10%N] ++ lit "a . x o--o b.z}// end".

Lemma loose_reads : exists toks toks' rest rest',
  reads 0 tidy_text toks rest /\ barren rest /\ reads 0 loose_text toks' rest' /\ barren rest' /\
  respaced (map fst toks) (map fst toks') /\ tidy_text <> loose_text.
Proof.
  destruct (parse_recovery tokenizer tidy_text) as [[[t|] []]|] eqn:E; try (vm_compute in E; discriminate).
  destruct (parse_recovery tokenizer loose_text) as [[[t'|] []]|] eqn:E'; try (vm_compute in E'; discriminate).
  destruct (proj1 (tokenizer_reads _ _) E) as (r & R & B). destruct (proj1 (tokenizer_reads _ _) E') as (r' & R' & B').
  exists t, t', r, r'. do 4 (split; [assumption|]). split; [|discriminate].
  vm_compute in E. injection E as <-. vm_compute in E'. injection E' as <-. cbn [map fst]. clear.
  change (KCtrl 59%N) with Semi. change (KCtrl 123%N) with Open. change (KCtrl 125%N) with Close.
  do 2 apply rs_same. apply (rs_run KNewline [] KNewline [KNewline; Semi]); try (repeat constructor; fail).
  do 4 apply rs_same. apply (rs_run Semi [] KNewline []); try (repeat constructor; fail).
  do 3 apply rs_same. apply (rs_run KNewline [] Semi [Semi]); try (repeat constructor; fail).
  do 5 apply rs_same. apply (rs_run Semi [] Semi [KNewline]); try (repeat constructor; fail).
Qed.

(** A gap inside a text. *)
Lemma gap_sample : exists ts1 ts2 rest,
  reads 0 (lit "erd" ++ lit "{}") ts1 (lit "{}") /\
  reads (length (lit "erd")) (lit "{}") ts2 rest /\ barren rest /\
  skips ([32; 9; 32]%N ++ lit "{}") (lit "{}").
Proof.
  assert (P : forall c r, In c (lit "{};.") -> starts_with (c :: r) [c] (KCtrl c) r).
  { intros c r I. split; [reflexivity|]. split; [now constructor|]. intros W. exfalso. inversion W as [c' w S F]; subst.
    destruct I as [<-|[<-|[<-|[<-|[]]]]]; destruct S as [[S|S]|S]; try discriminate S; destruct S as [S1 S2];
      cbv in S1, S2; congruence. }
  exists [(KErd, (0, 3))], [(KCtrl 123%N, (3, 4)); (KCtrl 125%N, (4, 5))], [].
  split; [|split; [|split; [apply barren_nil|]]].
  - apply (reads_cons 0 _ (lit "erd{}") (lit "erd") KErd (lit "{}") (lit "{}") [] 0 3); [constructor| |reflexivity|reflexivity|constructor].
    split; [reflexivity|]. split; [repeat constructor|]. intros _. split.
    + intros c r [= <- <-] [[H|H]|[H|H]]; try discriminate H; destruct H as [H1 H2]; cbv in H1, H2; congruence.
    + intros r. discriminate.
  - apply (reads_cons 3 _ (lit "{}") [123%N] (KCtrl 123%N) (lit "}") [] _ 3 4); [constructor|apply P; now left|reflexivity|reflexivity|].
    apply (reads_cons 4 _ (lit "}") [125%N] (KCtrl 125%N) [] [] [] 4 5); [constructor|apply P; right; now left|reflexivity|reflexivity|constructor].
  - apply skips_blank; [now left|]. apply skips_blank; [now right|]. apply skips_blank; [now left|]. constructor.
Qed.

(** ** C12: what follows the closing brace *)

(** Text that can be read without error is not reported, either. *)
Theorem tail_quiet src m pe :
  parse src = Ret (mkParse (Some m) [] pe) ->
  exists x rest, src = x ++ lit "}" ++ rest /\
    forall tail, exists errs, parse (x ++ lit "}" ++ tail) = Ret (mkParse (Some m) errs []) /\
      ((exists toks left, reads 0 tail toks left /\ barren left) -> errs = []).
Proof.
  intros H. apply tail_reads in H as (x & rest & tk & -> & G & Hx).
  exists x, rest. split; auto. intros tail.
  destruct (tokenizer_prefix _ _ _ _ (Hx tail)) as (errs & toks' & s' & E).
  exists errs. split.
  - eapply parse_tokens with (ts := map fst tk) (us := map fst toks'); eauto.
    + unfold parse_recovery. rewrite E. reflexivity.
    + now rewrite map_app.
  - intros (toks & left & R & B). destruct (reads_app _ _ _ _ (Hx tail) toks left (reads_shift _ _ _ _ R)) as (t & _ & Rt).
    destruct (tokenizer_complete _ _ _ _ Rt B) as (s'' & E'). rewrite E in E'. now injection E'.
Qed.

(** After lexical errors it is different: a back quote that was skipped may be closed
    by what is appended. *)
Theorem tail_joins : exists src tail m errs, parse src = Ret (mkParse (Some m) errs []) /\
  parse (src ++ tail) = Ret (mkParse None [] [EUnexpected]).
Proof.
  exists (lit "erd { ` }"), (lit "`"). eexists _, _. split; vm_compute; reflexivity.
Qed.
