(** The automaton of SyntaxFacts.v against the grammar: the states it can be in
    are the beginnings of modules. *)
From Coq Require Import String Ascii List Arith NArith Bool Lia.
From Verif Require Import Base Chumsky ChumskyFacts Erd Parser Diag SpecLex SpecGrammar
  GrammarFacts DiagFacts SpecDiag SyntaxFacts.
Import ListNotations.

(** ** Classes of tokens *)

Lemma class_cases t :
  match classify t with
  | CSep => g_sep t | COpen => t = Open | CClose => t = Close | CDot => t = Dot
  | CIdent => exists n, t = KIdent n | CErd => t = KErd | CType => exists ty, g_type t ty
  | CKey => exists k, g_key t k | CEdge => t = KEdge | CNone => True
  end.
Proof.
  destruct t; cbn [classify]; try (eexists; constructor); try reflexivity; try (now constructor).
  destruct (N.eqb_spec c (ch ";")) as [->|]; [constructor|].
  destruct (N.eqb_spec c (ch "{")) as [->|]; [reflexivity|].
  destruct (N.eqb_spec c (ch "}")) as [->|]; [reflexivity|].
  destruct (N.eqb_spec c (ch ".")) as [->|]; [reflexivity|exact I].
Qed.
Lemma class_sep t : g_sep t -> classify t = CSep.
Proof. intros []; auto. Qed.
Lemma class_type t ty : g_type t ty -> classify t = CType.
Proof. intros []; auto. Qed.
Lemma class_key t k : g_key t k -> classify t = CKey.
Proof. intros []; auto. Qed.

(** ** Modules lead to the final state *)

Lemma run_pad q p : g_pad p -> move q CSep = Some q -> run q p = Some q.
Proof.
  intros H E. induction H as [|s p Hs _ IH]; simpl; auto.
  unfold delta. rewrite (class_sep s Hs), E. auto.
Qed.
Lemma run_pad_from q q' s p : g_sep s -> g_pad p -> move q CSep = Some q' -> move q' CSep = Some q' ->
  run q (s :: p) = Some q'.
Proof. intros Hs Hp E E'. cbn [run]. unfold delta. rewrite (class_sep s Hs), E. now apply run_pad. Qed.

Lemma run_field ts f : g_field ts f -> exists q, run D0 ts = Some q /\ In q [F2; F3].
Proof.
  intros [n t ty Ht|n t ty k key Ht Hk]; cbn [run]; unfold delta; cbn [classify move];
    rewrite (class_type _ _ Ht); cbn [move]; rewrite ?(class_key _ _ Hk); simpl; eauto.
Qed.
Lemma run_list {A} (R : list token -> A -> Prop) q P :
  (forall ts a, R ts a -> exists q', run q ts = Some q' /\ In q' P) ->
  (forall q', In q' P -> move q' CSep = Some q) -> move q CSep = Some q ->
  forall ts l, g_list R ts l -> exists q', run q ts = Some q' /\ In q' P.
Proof.
  intros H H1 H2 ts l. induction 1 as [ts a Ha|ts a s p us l Ha Hs Hp _ (q' & IH & Q')]; eauto.
  destruct (H _ _ Ha) as (q1 & R1 & Q1). exists q'. split; auto.
  change (ts ++ s :: p ++ us) with (ts ++ (s :: p) ++ us).
  rewrite run_app, R1, run_app, (run_pad_from q1 q) by auto. auto.
Qed.
Lemma run_pad_in q q' p : g_pad p -> move q CSep = Some q' -> move q' CSep = Some q' ->
  exists q2, run q p = Some q2 /\ (q2 = q \/ q2 = q').
Proof.
  intros [|s p' Hs Hp] E E'; [exists q; auto|]. exists q'. split; auto. now apply run_pad_from.
Qed.
Lemma run_def ts d : g_def ts d -> run M0 ts = Some M1.
Proof.
  intros [n p1 p2 fts fs p3 H1 H2 Hf H3].
  change (KIdent n :: p1 ++ Open :: p2 ++ fts ++ p3 ++ [Close])
    with ([KIdent n] ++ p1 ++ [Open] ++ p2 ++ fts ++ p3 ++ [Close]).
  rewrite run_app. change (run M0 [KIdent n]) with (Some E1). cbv iota beta.
  rewrite run_app. destruct (run_pad_in E1 E2 p1) as (q1 & -> & Q1); auto.
  assert (run q1 [Open] = Some D0) as Ro by (destruct Q1; subst; reflexivity).
  rewrite run_app, Ro, run_app, (run_pad D0 p2), run_app by auto.
  assert (exists q, run D0 fts = Some q /\ In q [D0; F2; F3]) as (q & -> & Hq).
  { destruct Hf as [|fts fs Hl]; [exists D0; simpl; auto|].
    destruct (run_list g_field D0 [F2; F3] run_field) with (ts := fts) (l := fs) as (q & Rq & Hq); auto.
    - intros q' [<-|[<-|[]]]; auto.
    - exists q. simpl in *. tauto. }
  rewrite run_app. destruct (run_pad_in q D0 p3) as (q2 & -> & Q2); auto.
  { destruct Hq as [<-|[<-|[<-|[]]]]; auto. }
  destruct Q2; subst q2; [destruct Hq as [<-|[<-|[<-|[]]]]|]; reflexivity.
Qed.
Lemma run_rel ts r : g_rel ts r -> exists q, run M0 ts = Some q /\ In q [M1; R5].
Proof.
  intros [us a p1 p2 vs b Ha H1 H2 Hb].
  change (us ++ p1 ++ KEdge :: p2 ++ vs) with (us ++ p1 ++ [KEdge] ++ p2 ++ vs).
  assert (exists q, run M0 us = Some q /\ (q = R1 \/ q = R2)) as (q & Rq & Q).
  { destruct Ha; [exists R1|exists R2]; auto. }
  rewrite run_app, Rq, run_app. destruct (run_pad_in q R2 p1) as (q1 & -> & Q1); auto.
  { destruct Q as [-> | ->]; auto. }
  assert (run q1 [KEdge] = Some R3) as Re by (destruct Q as [-> | ->], Q1 as [-> | ->]; reflexivity).
  rewrite run_app, Re, run_app, (run_pad R3 p2) by auto.
  destruct Hb; [exists R5|exists M1]; simpl; auto.
Qed.
Lemma run_entry ts e : g_entry ts e -> exists q, run M0 ts = Some q /\ In q [M1; R5].
Proof.
  intros [ts' d Hd|ts' r Hr]; [|now apply run_rel with (r := r)].
  exists M1. split; [eapply run_def; eauto|simpl; auto].
Qed.
Lemma run_module ts m : g_module ts m -> run S0 ts = Some Fin.
Proof.
  intros [p1 p2 nts n p3 ets es p4 p5 H1 H2 Hn H3 He H4 H5].
  change (p1 ++ KErd :: p2 ++ nts ++ Open :: p3 ++ ets ++ p4 ++ Close :: p5)
    with (p1 ++ [KErd] ++ p2 ++ nts ++ [Open] ++ p3 ++ ets ++ p4 ++ [Close] ++ p5).
  rewrite run_app, (run_pad S0 p1), run_app by auto. change (run S0 [KErd]) with (Some S1). cbv iota beta.
  rewrite run_app, (run_pad S1 p2), run_app by auto.
  assert (exists q, run S1 nts = Some q /\ (q = S1 \/ q = S2)) as (q & -> & Q).
  { destruct Hn as [|n p Hp]; [exists S1; auto|]. exists S2. split; auto.
    cbn [run]. change (delta S1 (KIdent n)) with (Some S2). now apply run_pad. }
  rewrite run_app. assert (run q [Open] = Some M0) as -> by (destruct Q as [-> | ->]; reflexivity).
  rewrite run_app, (run_pad M0 p3), run_app by auto.
  assert (exists q, run M0 ets = Some q /\ In q [M0; M1; R5]) as (q1 & -> & Q1).
  { destruct He as [|ets es Hl]; [exists M0; simpl; auto|].
    destruct (run_list g_entry M0 [M1; R5] run_entry) with (ts := ets) (l := es) as (q1 & Rq & Hq); auto.
    - intros q' [<-|[<-|[]]]; auto.
    - exists q1. simpl in *. tauto. }
  rewrite run_app. destruct (run_pad_in q1 M0 p4) as (q2 & -> & Q2); auto.
  { destruct Q1 as [<-|[<-|[<-|[]]]]; auto. }
  rewrite run_app. assert (run q2 [Close] = Some Fin) as ->.
  { destruct Q2; subst q2; [destruct Q1 as [<-|[<-|[<-|[]]]]|]; reflexivity. }
  now apply run_pad.
Qed.

(** ** The texts that lead to each state *)

Inductive before {A} (R : list token -> A -> Prop) : list token -> Prop :=
| bef_none : before R []
| bef_some ts l s p : g_list R ts l -> g_sep s -> g_pad p -> before R (ts ++ s :: p).

Definition opening (m : list token) : Prop :=
  exists p1 p2 nts n p3, g_pad p1 /\ g_pad p2 /\ g_name nts n /\ g_pad p3 /\
    m = p1 ++ KErd :: p2 ++ nts ++ Open :: p3.
Definition inside (u : list token) : Prop :=
  exists m pre, opening m /\ before g_entry pre /\ u = m ++ pre.
Definition def_open (w : list token) : Prop :=
  exists n p1 p2, g_pad p1 /\ g_pad p2 /\ w = KIdent n :: p1 ++ Open :: p2.
Definition in_def (u : list token) : Prop :=
  exists x w pre, inside x /\ def_open w /\ before g_field pre /\ u = x ++ w ++ pre.
Definition rel_open (w : list token) : Prop :=
  exists ts a p1 p2, g_path ts a /\ g_pad p1 /\ g_pad p2 /\ w = ts ++ p1 ++ KEdge :: p2.
(** Entries that are complete whatever follows. *)
Definition complete (ts : list token) : Prop :=
  (exists d, g_def ts d) \/
  (exists w b f, rel_open w /\ ts = w ++ [KIdent b; Dot; KIdent f]).

Definition shape (q : st) (u : list token) : Prop :=
  match q with
  | S0 => g_pad u
  | S1 => exists p1 p2, g_pad p1 /\ g_pad p2 /\ u = p1 ++ KErd :: p2
  | S2 => exists p1 p2 n p, g_pad p1 /\ g_pad p2 /\ g_pad p /\ u = p1 ++ KErd :: p2 ++ KIdent n :: p
  | M0 => inside u
  | M1 => exists x ts, inside x /\ complete ts /\ u = x ++ ts
  | E1 => exists x n, inside x /\ u = x ++ [KIdent n]
  | E2 => exists x n s p, inside x /\ g_sep s /\ g_pad p /\ u = x ++ KIdent n :: s :: p
  | D0 => in_def u
  | F1 => exists x n, in_def x /\ u = x ++ [KIdent n]
  | F2 => exists x n t ty, in_def x /\ g_type t ty /\ u = x ++ [KIdent n; t]
  | F3 => exists x n t ty k key, in_def x /\ g_type t ty /\ g_key k key /\ u = x ++ [KIdent n; t; k]
  | R1 => exists x n, inside x /\ u = x ++ [KIdent n; Dot]
  | R2 => exists x n p, inside x /\ g_pad p /\
            ((exists f, u = x ++ KIdent n :: Dot :: KIdent f :: p) \/
             (exists s, g_sep s /\ u = x ++ KIdent n :: Dot :: s :: p))
  | R3 => exists x w, inside x /\ rel_open w /\ u = x ++ w
  | R4 => exists x w n, inside x /\ rel_open w /\ u = x ++ w ++ [KIdent n]
  | R5 => exists x w n, inside x /\ rel_open w /\ u = x ++ w ++ [KIdent n; Dot]
  | Fin => exists m, g_module u m
  end.

Lemma pad_snoc p s : g_pad p -> g_sep s -> g_pad (p ++ [s]).
Proof. intros. apply Forall_app. split; auto. Qed.

Lemma list_snoc {A} (R : list token -> A -> Prop) ts l s p us a :
  g_list R ts l -> g_sep s -> g_pad p -> R us a -> g_list R (ts ++ s :: p ++ us) (l ++ [a]).
Proof.
  intros H Hs Hp Ha. induction H as [ts b Hb|ts b s' p' vs l Hb Hs' Hp' _ IH].
  - constructor; auto. now constructor.
  - replace ((ts ++ s' :: p' ++ vs) ++ s :: p ++ us) with (ts ++ s' :: p' ++ (vs ++ s :: p ++ us))
      by (rewrite <- !app_assoc; cbn [app]; rewrite <- !app_assoc; reflexivity).
    cbn [app]. constructor; auto.
Qed.
Lemma before_item {A} (R : list token -> A -> Prop) pre ts a : before R pre -> R ts a ->
  exists l, g_list R (pre ++ ts) l.
Proof.
  intros [|us l s p Hl Hs Hp] Ha.
  - exists [a]. now constructor.
  - exists (l ++ [a]). rewrite <- app_assoc. cbn [app]. now apply list_snoc.
Qed.
Lemma before_item_sep {A} (R : list token -> A -> Prop) pre ts a s : before R pre -> R ts a -> g_sep s ->
  before R (pre ++ ts ++ [s]).
Proof.
  intros H Ha Hs. destruct (before_item R pre ts a H Ha) as (l & Hl).
  rewrite app_assoc. apply (bef_some R (pre ++ ts) l s []); auto. constructor.
Qed.
Lemma before_sep {A} (R : list token -> A -> Prop) pre s : before R pre -> g_sep s ->
  pre = [] \/ before R (pre ++ [s]).
Proof.
  intros [|us l s' p Hl Hs' Hp] Hs; auto. right.
  rewrite <- app_assoc. cbn [app]. econstructor; eauto. now apply pad_snoc.
Qed.

Lemma inside_sep x s : inside x -> g_sep s -> inside (x ++ [s]).
Proof.
  intros (m & pre & Hm & Hpre & ->) Hs. destruct (before_sep _ _ s Hpre Hs) as [->|H].
  - exists (m ++ [s]), []. split; [|split; [constructor|now rewrite !app_nil_r]].
    destruct Hm as (p1 & p2 & nts & n & p3 & H1 & H2 & Hn & H3 & ->).
    exists p1, p2, nts, n, (p3 ++ [s]). repeat split; auto using pad_snoc.
    repeat (rewrite <- ?app_assoc; cbn [app]). reflexivity.
  - exists m, (pre ++ [s]). rewrite app_assoc. auto.
Qed.
Lemma inside_entry x ts e s : inside x -> g_entry ts e -> g_sep s -> inside (x ++ ts ++ [s]).
Proof.
  intros (m & pre & Hm & Hpre & ->) He Hs. exists m, (pre ++ ts ++ [s]).
  rewrite <- app_assoc. repeat split; auto. eapply before_item_sep; eauto.
Qed.
Lemma in_def_sep x s : in_def x -> g_sep s -> in_def (x ++ [s]).
Proof.
  intros (y & w & pre & Hy & Hw & Hpre & ->) Hs. destruct (before_sep _ _ s Hpre Hs) as [->|H].
  - exists y, (w ++ [s]), []. split; auto.
    destruct Hw as (n & p1 & p2 & H1 & H2 & ->). split.
    + exists n, p1, (p2 ++ [s]). repeat split; auto using pad_snoc.
      repeat (rewrite <- ?app_assoc; cbn [app]). reflexivity.
    + split; [constructor|]. rewrite !app_nil_r, <- app_assoc. reflexivity.
  - exists y, w, (pre ++ [s]). rewrite <- !app_assoc. auto.
Qed.
Lemma in_def_field x ts f s : in_def x -> g_field ts f -> g_sep s -> in_def (x ++ ts ++ [s]).
Proof.
  intros (y & w & pre & Hy & Hw & Hpre & ->) Hf Hs. exists y, w, (pre ++ ts ++ [s]).
  rewrite <- !app_assoc. repeat split; auto. eapply before_item_sep; eauto.
Qed.
Lemma def_close y w pre : inside y -> def_open w -> before g_field pre ->
  exists ts, complete ts /\ (y ++ w ++ pre) ++ [Close] = y ++ ts.
Proof.
  intros Hy (n & p1 & p2 & H1 & H2 & ->) Hpre.
  exists ((KIdent n :: p1 ++ Open :: p2) ++ pre ++ [Close]). split; [|now rewrite <- !app_assoc].
  left. destruct Hpre as [|fts fs s p Hl Hs Hp].
  - exists (mkEntity n []). cbn [app]. rewrite <- app_assoc. cbn [app].
    apply (def_intro n p1 p2 [] [] []); auto; constructor.
  - exists (mkEntity n fs). cbn [app]. repeat (rewrite <- ?app_assoc; cbn [app]).
    apply (def_intro n p1 p2 fts fs (s :: p)); auto; constructor; auto.
Qed.
Lemma def_close_field x ts f : in_def x -> g_field ts f ->
  exists y us, inside y /\ complete us /\ (x ++ ts) ++ [Close] = y ++ us.
Proof.
  intros (y & w & pre & Hy & (n & p1 & p2 & H1 & H2 & ->) & Hpre & ->) Hf.
  destruct (before_item _ _ _ _ Hpre Hf) as (l & Hl).
  exists y, ((KIdent n :: p1 ++ Open :: p2) ++ (pre ++ ts) ++ [Close]).
  split; auto. split; [|now rewrite <- !app_assoc]. left. exists (mkEntity n l).
  cbn [app]. rewrite <- app_assoc. cbn [app].
  apply (def_intro n p1 p2 (pre ++ ts) l []); auto; constructor; auto.
Qed.
Lemma complete_entry ts : complete ts -> exists e, g_entry ts e.
Proof.
  intros [(d & Hd)|(w & b & f & (us & a & p1 & p2 & Ha & H1 & H2 & ->) & ->)].
  - eexists. apply entry_def; eauto.
  - eexists. apply entry_rel. rewrite <- !app_assoc. cbn [app].
    apply (rel_intro us a p1 p2 [KIdent b; Dot; KIdent f] (PField b f)); auto. constructor.
Qed.
Lemma open_entry w b : rel_open w -> exists e, g_entry (w ++ [KIdent b; Dot]) e.
Proof.
  intros (us & a & p1 & p2 & Ha & H1 & H2 & ->). eexists. apply entry_rel.
  rewrite <- !app_assoc. cbn [app].
  apply (rel_intro us a p1 p2 [KIdent b; Dot] (PEntity b)); auto. constructor.
Qed.
Lemma module_close m ets es p : opening m -> g_items g_entry ets es -> g_pad p ->
  exists md, g_module (m ++ ets ++ p ++ [Close]) md.
Proof.
  intros (p1 & p2 & nts & n & p3 & H1 & H2 & Hn & H3 & ->) He Hp. exists (mkModule n es).
  replace ((p1 ++ KErd :: p2 ++ nts ++ Open :: p3) ++ ets ++ p ++ [Close])
    with (p1 ++ KErd :: p2 ++ nts ++ Open :: p3 ++ ets ++ p ++ Close :: [])
    by (repeat (rewrite <- ?app_assoc; cbn [app]); reflexivity).
  constructor; auto. constructor.
Qed.
Lemma inside_close x : inside x -> exists md, g_module (x ++ [Close]) md.
Proof.
  intros (m & pre & Hm & [|ts l s p Hl Hs Hp] & ->).
  - destruct (module_close m [] [] [] Hm) as (md & H); [constructor|constructor|].
    exists md. now rewrite app_nil_r.
  - destruct (module_close m ts l (s :: p) Hm) as (md & H); [now constructor|now constructor|].
    exists md. repeat (rewrite <- ?app_assoc; cbn [app] in * ). exact H.
Qed.
Lemma entry_close x ts e : inside x -> g_entry ts e -> exists md, g_module ((x ++ ts) ++ [Close]) md.
Proof.
  intros (m & pre & Hm & Hpre & ->) He. destruct (before_item _ _ _ _ Hpre He) as (l & Hl).
  destruct (module_close m (pre ++ ts) l [] Hm) as (md & H); [now constructor|constructor|].
  exists md. repeat (rewrite <- ?app_assoc in *; cbn [app] in * ). exact H.
Qed.
Lemma module_sep u m s : g_module u m -> g_sep s -> g_module (u ++ [s]) m.
Proof.
  intros [p1 p2 nts n p3 ets es p4 p5 H1 H2 Hn H3 He H4 H5] Hs.
  replace ((p1 ++ KErd :: p2 ++ nts ++ Open :: p3 ++ ets ++ p4 ++ Close :: p5) ++ [s])
    with (p1 ++ KErd :: p2 ++ nts ++ Open :: p3 ++ ets ++ p4 ++ Close :: (p5 ++ [s]))
    by (repeat (rewrite <- ?app_assoc; cbn [app]); reflexivity).
  constructor; auto. now apply pad_snoc.
Qed.
Lemma open_sep w s : rel_open w -> g_sep s -> rel_open (w ++ [s]).
Proof.
  intros (us & a & p1 & p2 & Ha & H1 & H2 & ->) Hs. exists us, a, p1, (p2 ++ [s]).
  repeat split; auto using pad_snoc. repeat (rewrite <- ?app_assoc; cbn [app]); reflexivity.
Qed.

Ltac reassoc := repeat (rewrite <- ?app_assoc; cbn [app]); reflexivity.

Lemma shape_step q u t q' : shape q u -> delta q t = Some q' -> shape q' (u ++ [t]).
Proof.
  unfold delta. intros H E. pose proof (class_cases t) as C.
  destruct q; simpl in H; destruct (classify t); simpl in E; try discriminate;
    injection E as <-; simpl.
  - now apply pad_snoc.
  - subst. exists u, []. repeat split; auto. constructor.
  - destruct H as (p1 & p2 & H1 & H2 & ->). exists p1, (p2 ++ [t]). repeat split; auto using pad_snoc. reassoc.
  - destruct H as (p1 & p2 & H1 & H2 & ->). subst. exists (p1 ++ KErd :: p2 ++ [Open]), [].
    split; [|split; [constructor|reassoc]].
    exists p1, p2, [], None, []. repeat split; auto; constructor.
  - destruct H as (p1 & p2 & H1 & H2 & ->), C as (n & ->). exists p1, p2, n, [].
    repeat split; auto; [constructor|reassoc].
  - destruct H as (p1 & p2 & n & p & H1 & H2 & H3 & ->). exists p1, p2, n, (p ++ [t]).
    repeat split; auto using pad_snoc. reassoc.
  - destruct H as (p1 & p2 & n & p & H1 & H2 & H3 & ->). subst.
    exists (p1 ++ KErd :: p2 ++ (KIdent n :: p) ++ [Open]), []. split; [|split; [constructor|reassoc]].
    exists p1, p2, (KIdent n :: p), (Some n), []. repeat split; auto; constructor; auto.
  - now apply inside_sep.
  - subst. now apply inside_close.
  - destruct C as (n & ->). eauto.
  - destruct H as (x & ts & Hx & Hts & ->). destruct (complete_entry ts Hts) as (e & He).
    rewrite <- app_assoc. eapply inside_entry; eauto.
  - destruct H as (x & ts & Hx & Hts & ->). destruct (complete_entry ts Hts) as (e & He).
    subst. eapply entry_close; eauto.
  - destruct H as (x & n & Hx & ->). exists x, n, t, []. repeat split; auto; [constructor|reassoc].
  - destruct H as (x & n & Hx & ->). subst. exists x, (KIdent n :: [] ++ [Open]), []. repeat split; auto.
    + exists n, [], []. repeat split; auto; constructor.
    + constructor.
    + reassoc.
  - destruct H as (x & n & Hx & ->). subst. exists x, n. split; auto. reassoc.
  - destruct H as (x & n & s & p & Hx & Hs & Hp & ->). exists x, n, s, (p ++ [t]).
    repeat split; auto using pad_snoc. reassoc.
  - destruct H as (x & n & s & p & Hx & Hs & Hp & ->). subst.
    exists x, (KIdent n :: (s :: p) ++ [Open]), []. repeat split; auto.
    + exists n, (s :: p), []. repeat split; auto; constructor; auto.
    + constructor.
    + reassoc.
  - now apply in_def_sep.
  - destruct H as (y & w & pre & Hy & Hw & Hpre & ->). subst.
    destruct (def_close y w pre) as (ts & Hts & E); auto. exists y, ts. auto.
  - destruct C as (n & ->). eauto.
  - destruct H as (x & n & Hx & ->), C as (ty & Hty). exists x, n, t, ty. repeat split; auto. reassoc.
  - destruct H as (x & n & t' & ty & Hx & Hty & ->). rewrite <- app_assoc.
    eapply in_def_field; eauto. constructor; eauto.
  - destruct H as (x & n & t' & ty & Hx & Hty & ->). subst.
    destruct (def_close_field x [KIdent n; t'] (mkField n ty None)) as (y & us & Hy & Hus & E); auto.
    { now constructor. } exists y, us. auto.
  - destruct H as (x & n & t' & ty & Hx & Hty & ->), C as (k & Hk).
    exists x, n, t', ty, t, k. repeat split; auto. reassoc.
  - destruct H as (x & n & t' & ty & k & key & Hx & Hty & Hk & ->). rewrite <- app_assoc.
    eapply in_def_field; eauto. apply field_keyed; eauto.
  - destruct H as (x & n & t' & ty & k & key & Hx & Hty & Hk & ->). subst.
    destruct (def_close_field x [KIdent n; t'; k] (mkField n ty (Some key))) as (y & us & Hy & Hus & E); auto.
    { now apply field_keyed. } exists y, us. auto.
  - destruct H as (x & n & Hx & ->). exists x, n, []. repeat split; auto; [constructor|]. right.
    exists t. split; auto. reassoc.
  - destruct H as (x & n & Hx & ->), C as (f & ->). exists x, n, []. repeat split; auto; [constructor|]. left.
    exists f. reassoc.
  - destruct H as (x & n & Hx & ->). subst. exists x, ([KIdent n; Dot] ++ [] ++ [KEdge]). repeat split; auto.
    + exists [KIdent n; Dot], (PEntity n), [], []. repeat split; auto; constructor.
    + reassoc.
  - destruct H as (x & n & p & Hx & Hp & [(f & ->)|(s & Hs & ->)]); exists x, n, (p ++ [t]);
      (split; [auto|split; [now apply pad_snoc|]]).
    + left. exists f. reassoc.
    + right. exists s. split; auto. reassoc.
  - subst. destruct H as (x & n & p & Hx & Hp & [(f & ->)|(s & Hs & ->)]).
    + exists x, ([KIdent n; Dot; KIdent f] ++ p ++ [KEdge]). repeat split; auto; [|reassoc].
      exists [KIdent n; Dot; KIdent f], (PField n f), p, []. repeat split; auto; constructor.
    + exists x, ([KIdent n; Dot] ++ (s :: p) ++ [KEdge]). repeat split; auto; [|reassoc].
      exists [KIdent n; Dot], (PEntity n), (s :: p), []. repeat split; auto; constructor; auto.
  - destruct H as (x & w & Hx & Hw & ->). exists x, (w ++ [t]). rewrite app_assoc.
    repeat split; auto. now apply open_sep.
  - destruct H as (x & w & Hx & Hw & ->), C as (n & ->). exists x, w, n. rewrite app_assoc. auto.
  - destruct H as (x & w & n & Hx & Hw & ->). subst. exists x, w, n. repeat split; auto. reassoc.
  - destruct H as (x & w & n & Hx & Hw & ->). destruct (open_entry w n Hw) as (e & He).
    rewrite <- app_assoc. eapply inside_entry; eauto.
  - destruct H as (x & w & n & Hx & Hw & ->). destruct (open_entry w n Hw) as (e & He). subst.
    eapply entry_close; eauto.
  - destruct H as (x & w & n & Hx & Hw & ->), C as (f & ->).
    exists x, (w ++ [KIdent n; Dot; KIdent f]). split; auto. split; [|reassoc].
    right. exists w, n, f. auto.
  - destruct H as (m & Hm). exists m. now apply module_sep.
Qed.

Lemma run_shape u : forall q, run S0 u = Some q -> shape q u.
Proof.
  induction u as [|t u IH] using rev_ind; intros q H.
  - simpl in H. injection H as <-. constructor.
  - rewrite run_app in H. destruct (run S0 u) as [q0|] eqn:E; [|discriminate].
    simpl in H. destruct (delta q0 t) eqn:D; [|discriminate]. injection H as <-.
    eapply shape_step; eauto.
Qed.

(** Every state leads to the final one. *)
Definition way (q : st) : list token :=
  match q with
  | S0 => [KErd; Open; Close] | S1 => [Open; Close] | S2 => [Open; Close]
  | M0 | M1 => [Close] | E1 | E2 => [Open; Close; Close] | D0 => [Close; Close]
  | F1 => [KInt; Close; Close] | F2 | F3 => [Close; Close]
  | R1 | R2 => [KEdge; KIdent []; Dot; Close] | R3 => [KIdent []; Dot; Close] | R4 => [Dot; Close]
  | R5 => [Close] | Fin => []
  end.
Lemma way_ends q : run q (way q) = Some Fin.
Proof. destruct q; reflexivity. Qed.

Theorem viable_run u : viable u <-> exists q, run S0 u = Some q.
Proof.
  split.
  - intros (v & m & H). apply run_module in H. rewrite run_app in H.
    destruct (run S0 u) as [q|]; [eauto|discriminate].
  - intros (q & H). exists (way q).
    assert (run S0 (u ++ way q) = Some Fin) as K by (rewrite run_app, H; apply way_ends).
    apply run_shape in K. exact K.
Qed.
