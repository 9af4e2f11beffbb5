(** Separators can be exchanged: C13. *)
From Coq Require Import String Ascii List NArith Lia.
From Verif Require Import Base Erd Chumsky Parser SpecGrammar ChumskyFacts GrammarFacts.
Import ListNotations.

Lemma rs_refl l : respaced l l.
Proof. induction l; constructor; auto. Qed.
Lemma rs_sym l l' : respaced l l' -> respaced l' l.
Proof. induction 1; constructor; auto. Qed.
Lemma rs_app a a' b b' : respaced a a' -> respaced b b' -> respaced (a ++ b) (a' ++ b').
Proof.
  induction 1; intros Hb; cbn [app]; auto.
  - constructor; auto.
  - rewrite <- !app_assoc. constructor; auto.
Qed.

Lemma pad_before (p l a b : list token) x :
  g_pad p -> ~ g_sep x -> p ++ l = a ++ x :: b -> exists a', a = p ++ a' /\ l = a' ++ x :: b.
Proof.
  intros Hp Hx. revert a. induction Hp as [|s p Hs _ IH]; intros a E; cbn [app] in *; eauto.
  destruct a as [|y a]; cbn [app] in E; injection E as <- E; [contradiction|].
  apply IH in E as (a' & -> & ->). exists a'. auto.
Qed.

Lemma rs_split a x b u : respaced (a ++ x :: b) u -> ~ g_sep x ->
  exists a' b', u = a' ++ x :: b' /\ respaced a a' /\ respaced b b'.
Proof.
  intros H Hx. remember (a ++ x :: b) as ts eqn:E. revert a E.
  induction H as [|t l l' H IH|s p s' p' l l' Hs Hp Hs' Hp' H IH]; intros a E.
  - destruct a; discriminate.
  - destruct a as [|y a]; cbn [app] in E; injection E as <- E.
    + subst l. exists [], l'. repeat split; auto. constructor.
    + apply IH in E as (a' & b' & -> & Ha & Hb). exists (t :: a'), b'. repeat split; auto. constructor; auto.
  - destruct a as [|y a]; cbn [app] in E; injection E as <- E; [contradiction|].
    apply pad_before in E as (a2 & -> & ->); auto.
    destruct (IH a2 eq_refl) as (a' & b' & -> & Ha & Hb).
    exists (s' :: p' ++ a'), b'. cbn [app]. rewrite <- app_assoc. repeat split; auto.
    constructor; auto.
Qed.

Lemma rs_pad p u : respaced p u -> g_pad p -> g_pad u.
Proof.
  induction 1 as [|t l l' H IH|s p s' p' l l' Hs Hp Hs' Hp' H IH]; intros Hg; auto.
  - inversion Hg. constructor; auto. now apply IH.
  - inversion Hg as [|? ? ? Hg']. apply Forall_app in Hg' as [_ Hg']. constructor; auto.
    apply Forall_app; split; auto. now apply IH.
Qed.
Lemma rs_cons_sep s p u : respaced (s :: p) u -> g_sep s -> g_pad p ->
  exists s' p', u = s' :: p' /\ g_sep s' /\ g_pad p'.
Proof.
  intros H Hs Hp. apply rs_pad in H as Hu; [|constructor; auto].
  inversion H; subst; inversion Hu; subst; eauto.
Qed.

Definition solid (ts : list token) : Prop := Forall (fun t => ~ g_sep t) ts.

Lemma rs_solid ts r u : solid ts -> respaced (ts ++ r) u -> exists r', u = ts ++ r' /\ respaced r r'.
Proof.
  intros Hs. revert u. induction Hs as [|t ts Ht _ IH]; intros u H; cbn [app] in *; eauto.
  apply (rs_split [] t) in H as (a' & b' & -> & Ha & Hb); auto.
  inversion Ha; subst. apply IH in Hb as (r' & -> & Hr). exists r'. auto.
Qed.
Lemma rs_solid_eq ts u : solid ts -> respaced ts u -> u = ts.
Proof.
  intros Hs H. rewrite <- (app_nil_r ts) in H. apply rs_solid in H as (r' & -> & Hr); auto.
  inversion Hr. now rewrite app_nil_r.
Qed.

Definition closed_item (ts : list token) : Prop := exists ts' z, ts = ts' ++ [z] /\ ~ g_sep z.

Lemma solid_path ts a : g_path ts a -> solid ts.
Proof. intros []; repeat constructor; intros H; inversion H. Qed.
Lemma solid_field ts a : g_field ts a -> solid ts.
Proof.
  assert (forall t ty, g_type t ty -> ~ g_sep t) as Kt by (intros t ty []; intros H; inversion H).
  assert (forall t k, g_key t k -> ~ g_sep t) as Kk by (intros t k []; intros H; inversion H).
  intros [n t ty Ht|n t ty k key Ht Hk]; repeat apply Forall_cons; try apply Forall_nil;
    eauto using not_sep_ident.
Qed.
Lemma solid_closed ts : solid ts -> ts <> [] -> closed_item ts.
Proof.
  intros Hs Hn. destruct (exists_last Hn) as (ts' & z & ->). exists ts', z. split; auto.
  apply Forall_app in Hs as [_ Hs]. now inversion Hs.
Qed.
Lemma closed_app a b : closed_item b -> closed_item (a ++ b).
Proof. intros (b' & z & -> & Hz). exists (a ++ b'), z. now rewrite app_assoc. Qed.

Definition flexible {A} (R : list token -> A -> Prop) : Prop :=
  forall ts a u, R ts a -> respaced ts u -> R u a.

Section Flex.
  Context {A : Type} (R : list token -> A -> Prop).
  Hypothesis Hflex : flexible R.
  Hypothesis Hhead : forall ts a, R ts a -> exists n ts', ts = KIdent n :: ts'.
  Hypothesis Hlast : forall ts a, R ts a -> closed_item ts.

  Lemma g_list_head ts l : g_list R ts l -> exists n ts', ts = KIdent n :: ts'.
  Proof.
    intros [ts' a Ha|ts' a s p us l' Ha _ _ _]; destruct (Hhead _ _ Ha) as (n & v & ->); cbn; eauto.
  Qed.
  Lemma g_list_last ts l : g_list R ts l -> closed_item ts.
  Proof.
    induction 1 as [ts' a Ha|ts' a s p us l' Ha Hs Hp Hl IH]; eauto.
    apply closed_app. change (s :: p ++ us) with ((s :: p) ++ us). now apply closed_app.
  Qed.

  Lemma flex_list : flexible (g_list R).
  Proof.
    intros ts l u H. revert u. induction H as [ts a Ha|ts a s p us l Ha Hs Hp Hl IH]; intros u Hu.
    - constructor. eapply Hflex; eauto.
    - destruct (Hlast _ _ Ha) as (ts' & z & E & Hz).
      rewrite E, <- app_assoc in Hu. cbn [app] in Hu.
      apply rs_split in Hu as (a' & v & -> & H1 & H2); auto.
      destruct (g_list_head _ _ Hl) as (n & us' & Eus). rewrite Eus in *.
      change (s :: p ++ KIdent n :: us') with ((s :: p) ++ KIdent n :: us') in H2.
      apply rs_split in H2 as (p' & v' & -> & H2 & H3); [|apply not_sep_ident].
      apply rs_cons_sep in H2 as (s' & q & -> & Hs' & Hq); auto.
      replace (a' ++ z :: (s' :: q) ++ KIdent n :: v') with ((a' ++ [z]) ++ s' :: q ++ KIdent n :: v')
        by (rewrite <- app_assoc; reflexivity).
      constructor; auto.
      + eapply Hflex; eauto. rewrite E. apply rs_app; auto. apply rs_refl.
      + apply IH. constructor; auto.
  Qed.

  (** PAD, items, PAD *)
  Lemma flex_padded p ts q l u :
    g_pad p -> g_items R ts l -> g_pad q -> respaced (p ++ ts ++ q) u ->
    exists p' ts' q', u = p' ++ ts' ++ q' /\ g_pad p' /\ g_items R ts' l /\ g_pad q'.
  Proof.
    intros Hp [|ts' l' Hl] Hq Hu.
    - exists u, [], []. rewrite app_nil_r. repeat split; auto; try constructor.
      eapply rs_pad; eauto. now apply Forall_app.
    - destruct (g_list_head _ _ Hl) as (n & v & E). rewrite E in Hu. cbn [app] in Hu.
      apply rs_split in Hu as (p' & u' & -> & H1 & H2); [|apply not_sep_ident].
      assert (respaced ((KIdent n :: v) ++ q) (KIdent n :: u')) as H3 by (now constructor).
      rewrite <- E in H3. destruct (g_list_last _ _ Hl) as (w & z & Ew & Hz).
      rewrite Ew, <- app_assoc in H3. cbn [app] in H3.
      apply rs_split in H3 as (w' & q' & E' & H4 & H5); auto.
      exists p', (w' ++ [z]), q'. rewrite E'. repeat split.
      + rewrite <- app_assoc. reflexivity.
      + eapply rs_pad; eauto.
      + constructor. eapply flex_list; eauto. rewrite Ew. apply rs_app; auto. apply rs_refl.
      + eapply rs_pad; eauto.
  Qed.
End Flex.

Lemma flex_field : flexible g_field.
Proof. intros ts a u H Hu. apply rs_solid_eq in Hu; [now subst|]. eapply solid_field; eauto. Qed.
Lemma last_field ts a : g_field ts a -> closed_item ts.
Proof. intros H. apply solid_closed; [eapply solid_field; eauto|]. destruct H; discriminate. Qed.

Lemma flex_def : flexible g_def.
Proof.
  intros ts d u [n p1 p2 fts fs p3 H1 H2 Hf H3] Hu.
  apply (rs_split []) in Hu as (a' & u1 & -> & Ha & Hu); [|apply not_sep_ident].
  inversion Ha; subst. cbn [app].
  apply rs_split in Hu as (p1' & u2 & -> & R1 & Hu); [|apply not_sep_open].
  replace (p2 ++ fts ++ p3 ++ [Close]) with ((p2 ++ fts ++ p3) ++ [Close]) in Hu
    by (now rewrite <- !app_assoc).
  apply rs_split in Hu as (v & u3 & -> & R2 & Hu); [|apply not_sep_close].
  inversion Hu; subst.
  destruct (flex_padded g_field flex_field field_head last_field _ _ _ _ _ H2 Hf H3 R2)
    as (p2' & fts' & p3' & -> & K1 & K2 & K3).
  rewrite <- !app_assoc. constructor; auto. eapply rs_pad; eauto.
Qed.

Lemma flex_rel : flexible g_rel.
Proof.
  intros ts d u [ts' a p1 p2 us b Ha H1 H2 Hb] Hu.
  apply rs_solid in Hu as (u1 & -> & Hu); [|eapply solid_path; eauto].
  apply rs_split in Hu as (p1' & u2 & -> & R1 & Hu); [|apply not_sep_edge].
  destruct (path_head _ _ Hb) as (e & us' & E). rewrite E in Hu.
  apply rs_split in Hu as (p2' & u3 & -> & R2 & Hu); [|apply not_sep_ident].
  assert (KIdent e :: u3 = us) as <-.
  { apply rs_solid_eq; [eapply solid_path; eauto|]. rewrite E. constructor; auto. }
  constructor; auto; eapply rs_pad; eauto.
Qed.

Lemma flex_entry : flexible g_entry.
Proof.
  intros ts e u [ts' d Hd|ts' r Hr] Hu; constructor.
  - eapply flex_def; eauto.
  - eapply flex_rel; eauto.
Qed.
Lemma last_entry ts e : g_entry ts e -> closed_item ts.
Proof.
  intros [ts' d [n p1 p2 fts fs p3 _ _ _ _]|ts' r [us a p1 p2 vs b _ _ _ Hb]].
  - exists (KIdent n :: p1 ++ Open :: p2 ++ fts ++ p3), Close. split; [|apply not_sep_close].
    rewrite !app_comm_cons. repeat (rewrite <- !app_assoc; cbn [app]). reflexivity.
  - apply closed_app, closed_app. change (KEdge :: p2 ++ vs) with ((KEdge :: p2) ++ vs).
    apply closed_app, solid_closed; [eapply solid_path; eauto|]. destruct Hb; discriminate.
Qed.

Lemma flex_name nts n r u : g_name nts n -> respaced (nts ++ Open :: r) u ->
  exists nts' r', u = nts' ++ Open :: r' /\ g_name nts' n /\ respaced r r'.
Proof.
  intros [|m p Hp] Hu.
  - apply rs_split in Hu as (a' & r' & -> & Ha & Hr); [|apply not_sep_open].
    inversion Ha; subst. exists [], r'. repeat split; auto. constructor.
  - cbn [app] in Hu. apply (rs_split []) in Hu as (a' & u1 & -> & Ha & Hu); [|apply not_sep_ident].
    inversion Ha; subst. apply rs_split in Hu as (p' & r' & -> & Hp' & Hr); [|apply not_sep_open].
    exists (KIdent m :: p'), r'. repeat split; auto. constructor. eapply rs_pad; eauto.
Qed.

Lemma flex_pad_name p nts n r u : g_pad p -> g_name nts n -> respaced (p ++ nts ++ Open :: r) u ->
  exists p' u', u = p' ++ u' /\ g_pad p' /\ respaced (nts ++ Open :: r) u'.
Proof.
  intros Hp [|m q Hq] Hu; cbn [app] in *.
  - apply rs_split in Hu as (p' & u' & -> & H1 & H2); [|apply not_sep_open].
    exists p', (Open :: u'). repeat split; auto; [eapply rs_pad; eauto|now constructor].
  - apply rs_split in Hu as (p' & u' & -> & H1 & H2); [|apply not_sep_ident].
    exists p', (KIdent m :: u'). repeat split; auto; [eapply rs_pad; eauto|now constructor].
Qed.

(** A module phrase in front of anything. *)
Lemma flex_module ts m rest u :
  g_module ts m -> respaced (ts ++ rest) u ->
  exists ts' rest', u = ts' ++ rest' /\ g_module ts' m.
Proof.
  intros [p1 p2 nts n p3 ets es p4 p5 H1 H2 Hn H3 He H4 H5] Hu.
  rewrite <- app_assoc in Hu. cbn [app] in Hu.
  apply rs_split in Hu as (p1' & u1 & -> & R1 & Hu); [|apply not_sep_erd].
  rewrite <- !app_assoc in Hu. cbn [app] in Hu.
  destruct (flex_pad_name p2 nts n _ _ H2 Hn Hu) as (p2' & u2 & -> & R2 & Hu2). clear Hu.
  apply (flex_name nts n) in Hu2 as (nts' & u3 & -> & Hn' & Hu); auto.
  replace ((p3 ++ ets ++ p4 ++ Close :: p5) ++ rest) with ((p3 ++ ets ++ p4) ++ Close :: p5 ++ rest) in Hu
    by (repeat (rewrite <- !app_assoc; cbn [app]); reflexivity).
  apply rs_split in Hu as (v & u4 & -> & R3 & Hu); [|apply not_sep_close].
  destruct (flex_padded g_entry flex_entry entry_head last_entry _ _ _ _ _ H3 He H4 R3)
    as (p3' & ets' & p4' & -> & K1 & K2 & K3).
  exists (p1' ++ KErd :: p2' ++ nts' ++ Open :: p3' ++ ets' ++ p4' ++ Close :: []), u4. split.
  - repeat (rewrite <- !app_assoc; cbn [app]). reflexivity.
  - constructor; auto; try (eapply rs_pad; eauto; fail). constructor.
Qed.

Theorem respaced_parse ts us :
  respaced ts us ->
  parse_recovery erd_module_parser us = parse_recovery erd_module_parser ts.
Proof.
  assert (forall ts us m e s, respaced ts us ->
            erd_module_parser (mkStream ts 0) = POk e m s ->
            exists s', erd_module_parser (mkStream us 0) = POk [] m s') as K.
  { intros xs ys m e s H E. apply sound_erd_module in E as (-> & w & Es & Hm).
    cbn [s_rest] in Es. subst xs.
    eapply flex_module in H as (w' & rest' & -> & Hm'); eauto.
    eapply complete_erd_module; eauto. }
  intros H. unfold parse_recovery.
  destruct (erd_module_parser (mkStream ts 0)) as [e m s| |x] eqn:E.
  - pose proof E as E'. apply sound_erd_module in E' as (-> & _).
    eapply K in E as (s' & ->); eauto.
  - destruct (erd_module_parser (mkStream us 0)) as [e m s| |x] eqn:E'; auto.
    + eapply K in E' as (s' & E'); [|apply rs_sym; eauto]. congruence.
    + pose proof (adv_erd_module (mkStream us 0)) as K'. rewrite E' in K'. destruct K'.
  - pose proof (adv_erd_module (mkStream ts 0)) as K'. rewrite E in K'. destruct K'.
Qed.
