(** Syntax errors are complete: wherever a module cannot be continued, the error
    lies there (or further on) and names every token, except names, that could
    have followed.  With SyntaxFacts.v this gives the place and the contents of
    every syntax error. *)
From Coq Require Import String Ascii List Arith NArith Bool Lia.
From Verif Require Import Base Chumsky ChumskyFacts Erd Parser Diag SpecLex SpecGrammar
  GrammarFacts DiagFacts SpecDiag SyntaxFacts ViableFacts.
Import ListNotations.

(** The error [e] lies after [n], or at [n] and names [t]. *)
Definition holds (e : located token) (n : nat) (t : token) : Prop :=
  n < l_at e \/ (l_at e = n /\ In t (l_expected e)).

Lemma holds_max_l a b n t : holds a n t -> holds (l_max a b) n t.
Proof.
  unfold holds, l_max. intros H. destruct (l_at b <? l_at a) eqn:E1; auto.
  destruct (l_at a <? l_at b) eqn:E2.
  - apply Nat.ltb_lt in E2. left. lia.
  - cbn [l_at l_expected]. destruct H as [H|[H1 H2]]; auto. right. split; auto. apply in_app_iff; auto.
Qed.
Lemma holds_max_r a b n t : holds b n t -> holds (l_max a b) n t.
Proof.
  unfold holds, l_max. intros H. destruct (l_at b <? l_at a) eqn:E1.
  - apply Nat.ltb_lt in E1. left. lia.
  - destruct (l_at a <? l_at b) eqn:E2; auto. apply Nat.ltb_ge in E1, E2.
    cbn [l_at l_expected]. destruct H as [H|[H1 H2]]; [left; lia|]. right. split; [lia|]. apply in_app_iff; auto.
Qed.

Definition oholds (a : option (located token)) (n : nat) (t : token) : Prop :=
  match a with Some e => holds e n t | None => False end.
Lemma holds_alt_l a b n t : holds a n t -> holds (l_max_alt a b) n t.
Proof. destruct b; simpl; auto using holds_max_l. Qed.
Lemma holds_alt_r a b n t : oholds b n t -> holds (l_max_alt a b) n t.
Proof. destruct b; simpl; [apply holds_max_r|tauto]. Qed.
Lemma holds_merge_l a b n t : oholds a n t -> oholds (merge_alts a b) n t.
Proof. destruct a; simpl; [apply holds_alt_l|tauto]. Qed.
Lemma holds_merge_r a b n t : oholds b n t -> oholds (merge_alts a b) n t.
Proof. destruct a; simpl; [apply holds_alt_r|auto]. Qed.

(** What a parser lets one know about the place [n] and the token [t]. *)
Definition rholds {A} (r : dresult token A) (n : nat) (t : token) : Prop :=
  match r with
  | DOk _ _ alt _ => oholds alt n t
  | DErr e => holds e n t
  | DAbort _ => True
  end.
(** Before the tokens [r], the parser feels that [t] could stand after [k] of them. *)
Definition feels {A} (d : dparser token A) (r : list token) (k : nat) (t : token) : Prop :=
  forall o, rholds (d (mkStream r o)) (o + k) t.

Definition deats {A} (d : dparser token A) (u : list token) (a : A) (r : list token) : Prop :=
  forall o, exists alt, d (mkStream (u ++ r) o) = DOk [] a alt (mkStream r (o + length u)).
Definition dfails {A} (d : dparser token A) (r : list token) : Prop :=
  forall o, exists e, d (mkStream r o) = DErr e.

Lemma deats_of {A} (d : dparser token A) p u a r : msim d p -> eats p u a r -> deats d u a r.
Proof.
  intros H E o. specialize (H (mkStream (u ++ r) o) I). specialize (E o). rewrite E in H.
  destruct (d _) as [e a' alt s| |]; simpl in H; try contradiction.
  destruct H as (F & -> & -> & _). inversion F; subst. eauto.
Qed.
Lemma dfails_of {A} (d : dparser token A) p r : msim d p -> fails p r -> dfails d r.
Proof.
  intros H E o. specialize (H (mkStream r o) I). specialize (E o). rewrite E in H.
  destruct (d _) as [e a' alt s| |]; simpl in H; try contradiction. eauto.
Qed.

(** ** Combinators *)

Lemma feels_map {A B} (f : A -> B) d r k t : feels d r k t -> feels (d_map f d) r k t.
Proof. intros H o. specialize (H o). unfold d_map. destruct (d _); auto. Qed.
Lemma feels_to {A B} (b : B) (d : dparser token A) r k t : feels d r k t -> feels (d_to b d) r k t.
Proof. apply feels_map. Qed.
Lemma feels_then_l {A B} (d : dparser token A) (d' : dparser token B) r k t :
  feels d r k t -> feels (d_then d d') r k t.
Proof.
  intros H o. specialize (H o). unfold d_then. destruct (d _) as [e a alt s1|e|]; auto.
  cbn [rholds] in H. destruct (d' s1); cbn [rholds]; auto.
  - now apply holds_merge_l.
  - now apply holds_alt_r.
Qed.
Lemma feels_then_r {A B} (d : dparser token A) (d' : dparser token B) u a r k t :
  deats d u a r -> feels d' r k t -> feels (d_then d d') (u ++ r) (length u + k) t.
Proof.
  intros E H o. destruct (E o) as (alt & E1). specialize (H (o + length u)).
  rewrite Nat.add_assoc. unfold d_then. rewrite E1.
  destruct (d' _); cbn [rholds] in *; auto.
  - now apply holds_merge_r.
  - now apply holds_alt_l.
Qed.
Lemma feels_ignore_then_l {A B} (d : dparser token A) (d' : dparser token B) r k t :
  feels d r k t -> feels (d_ignore_then d d') r k t.
Proof. intros H. now apply feels_map, feels_then_l. Qed.
Lemma feels_ignore_then_r {A B} (d : dparser token A) (d' : dparser token B) u a r k t :
  deats d u a r -> feels d' r k t -> feels (d_ignore_then d d') (u ++ r) (length u + k) t.
Proof. intros E H. eapply feels_map, feels_then_r; eauto. Qed.
Lemma feels_then_ignore_l {A B} (d : dparser token A) (d' : dparser token B) r k t :
  feels d r k t -> feels (d_then_ignore d d') r k t.
Proof. intros H. now apply feels_map, feels_then_l. Qed.
Lemma feels_then_ignore_r {A B} (d : dparser token A) (d' : dparser token B) u a r k t :
  deats d u a r -> feels d' r k t -> feels (d_then_ignore d d') (u ++ r) (length u + k) t.
Proof. intros E H. eapply feels_map, feels_then_r; eauto. Qed.
Lemma feels_or_not {A} (d : dparser token A) r k t : feels d r k t -> feels (d_or_not d) r k t.
Proof. intros H o. specialize (H o). unfold d_or_not. destruct (d _); auto. Qed.

Lemma choice_keeps {A} (ds : list (dparser token A)) alt s n t :
  oholds alt n t -> rholds (d_choice_from alt ds s) n t.
Proof.
  revert alt. induction ds as [|d ds IH]; intros alt H; cbn [d_choice_from].
  - destruct alt; simpl in *; auto. contradiction.
  - destruct (d s); cbn [rholds]; auto using holds_merge_l.
Qed.
Lemma feels_choice_from {A} (ds : list (dparser token A)) r k t :
  (exists ds1 d ds2, ds = ds1 ++ d :: ds2 /\ Forall (fun d => dfails d r) ds1 /\ feels d r k t) ->
  feels (d_choice ds) r k t.
Proof.
  intros (ds1 & d & ds2 & -> & F & H) o. unfold d_choice. generalize (@None (located token)) as alt.
  induction F as [|d1 ds1 F1 _ IH]; intros alt; cbn [app d_choice_from].
  - specialize (H o). destruct (d _); cbn [rholds] in *; auto.
    + now apply holds_merge_r.
    + apply choice_keeps. now apply (holds_merge_r alt (Some e)).
  - destruct (F1 o) as (e & ->). apply IH.
Qed.
Lemma feels_choice_1 {A} (d : dparser token A) ds r k t : feels d r k t -> feels (d_choice (d :: ds)) r k t.
Proof. intros H. apply feels_choice_from. exists [], d, ds. repeat split; auto. Qed.
Lemma feels_choice_2 {A} (d1 d : dparser token A) ds r k t :
  dfails d1 r -> feels d r k t -> feels (d_choice (d1 :: d :: ds)) r k t.
Proof. intros F H. apply feels_choice_from. exists [d1], d, ds. repeat split; auto. Qed.

(** [u] is a succession of things that [p] reads. *)
Inductive reach {A} (p : parser token A) : list token -> list token -> Prop :=
| reach_here r : reach p [] r
| reach_step u a v r : eats p u a (v ++ r) -> reach p v r -> reach p (u ++ v) r.

Lemma reach_snoc {A} (p : parser token A) v u a r : reach p v (u ++ r) -> eats p u a r -> reach p (v ++ u) r.
Proof.
  intros H E. remember (u ++ r) as w eqn:Ew. revert u E Ew. induction H as [r0|u' b v r0 Hu _ IH]; intros u E ->.
  - cbn [app]. rewrite <- (app_nil_r u). econstructor; [exact E|constructor].
  - rewrite <- app_assoc. econstructor; [rewrite <- app_assoc; exact Hu|]. now apply IH.
Qed.

Lemma loop_keeps {A} (d : dparser token A) fuel : forall old errs alt acc s n t,
  oholds alt n t -> rholds (d_rep_loop d fuel old errs alt acc s) n t.
Proof.
  induction fuel as [|fuel IH]; intros old errs alt acc s n t H; cbn [d_rep_loop rholds]; auto.
  destruct (d s); cbn [rholds]; auto using holds_merge_l.
  destruct (match old with Some _ => _ | None => _ end); cbn [rholds]; auto using holds_merge_l.
Qed.
Lemma loop_reach {A} (d : dparser token A) p : msim d p ->
  forall u r, reach p u r -> forall k t, feels d r k t ->
  forall fuel old errs alt acc o,
    rholds (d_rep_loop d fuel old errs alt acc (mkStream (u ++ r) o)) (o + length u + k) t.
Proof.
  intros Hs u r Hr. induction Hr as [r|u a v r Hu _ IH]; intros k t Hf fuel old errs alt acc o;
    (destruct fuel as [|fuel]; [cbn [d_rep_loop rholds]; auto|]).
  - cbn [app length d_rep_loop]. rewrite Nat.add_0_r. specialize (Hf o).
    destruct (d _) as [e a alt' s'|e|]; cbn [rholds] in *; auto.
    + destruct (match old with Some _ => _ | None => _ end); cbn [rholds]; auto.
      apply loop_keeps. now apply holds_merge_r.
    + now apply (holds_merge_r alt (Some e)).
  - rewrite <- app_assoc. destruct (deats_of d p u a (v ++ r) Hs Hu o) as (alt' & E).
    cbn [d_rep_loop]. rewrite E. destruct (match old with Some _ => _ | None => _ end); cbn [rholds]; auto.
    specialize (IH k t Hf fuel (Some (o + length u)) (errs ++ []) (merge_alts alt alt') (acc ++ [a])
                  (o + length u)).
    rewrite app_length. rewrite !Nat.add_assoc. cbn [s_off]. exact IH.
Qed.
Lemma feels_repeated {A} (d : dparser token A) p u r k t :
  msim d p -> reach p u r -> feels d r k t -> feels (d_repeated d) (u ++ r) (length u + k) t.
Proof.
  intros Hs Hr Hf o. unfold d_repeated. rewrite Nat.add_assoc. now apply loop_reach with (p := p).
Qed.
Lemma eats_reach {A} (p : parser token A) u r : adv p -> reach p u r -> fails p r ->
  exists l, eats (p_repeated p) u l r.
Proof.
  intros Ha Hr Hf. induction Hr as [r|u a v r Hu _ IH].
  - exists []. intros o. rewrite repeated_eq by auto. cbn [app]. rewrite Hf, Nat.add_0_r. auto.
  - destruct (IH Hf) as (l & Hl). exists (a :: l). intros o. rewrite repeated_eq by auto.
    rewrite <- app_assoc, Hu, Hl, app_length, Nat.add_assoc. auto.
Qed.

(** ** Single tokens *)

Definition no_tok (t : token) (r : list token) : Prop := forall r', r <> t :: r'.
Definition no_name (r : list token) : Prop := forall n r', r <> KIdent n :: r'.
Definition no_key (r : list token) : Prop := forall t r' k, r = t :: r' -> ~ g_key t k.

Lemma feels_tok t r : no_tok t r -> feels (d_tok t) r 0 t.
Proof.
  intros H o. unfold d_tok. cbn [d_just s_rest s_off].
  destruct r as [|x r].
  - right. cbn. split; [lia|auto].
  - destruct (token_eqb t x) eqn:E.
    + apply token_eqb_spec in E. subst. exfalso. eapply H; eauto.
    + right. cbn. split; [lia|auto].
Qed.
Lemma fails_no_tok t r : no_tok t r -> fails (p_tok t) r.
Proof.
  intros H. destruct r as [|x r]; [intros o; auto|]. apply fails_tok. intros <-. eapply H; eauto.
Qed.
Lemma fails_no_name r : no_name r -> fails p_ident r.
Proof.
  intros H. destruct r as [|x r]; [intros o; auto|]. apply fails_ident. intros n ->. eapply H; eauto.
Qed.
Lemma fails_no_key r : no_key r -> fails p_field_key r.
Proof.
  intros H. destruct r as [|x r]; [intros o; auto|]. apply fails_key. intros k Hk. eapply H; eauto.
Qed.
Lemma no_sep_tok t r : no_sep r -> g_sep t -> no_tok t r.
Proof. intros H Ht r' ->. eapply H; eauto. Qed.
Lemma dfails_to_tok {A} (a : A) t r : no_tok t r -> dfails (d_to a (d_tok t)) r.
Proof.
  intros H. apply dfails_of with (p := p_to a (p_tok t)); [apply sim_to, msim_tok|].
  now apply fails_to, fails_no_tok.
Qed.

Lemma feels_separator r t : no_sep r -> g_sep t -> feels d_separator r 0 t.
Proof.
  intros Hr Ht. unfold d_separator. pose proof (no_sep_tok t r Hr Ht). destruct Ht.
  - apply feels_choice_1, feels_to. now apply feels_tok.
  - apply feels_choice_2; [apply dfails_to_tok, no_sep_tok; auto; constructor|]. now apply feels_to, feels_tok.
Qed.
Lemma reach_pad p r : g_pad p -> reach p_separator p r.
Proof.
  induction 1 as [|s p Hs _ IH]; [constructor|]. change (s :: p) with ([s] ++ p).
  econstructor; [now apply eats_separator|auto].
Qed.
Lemma feels_pad p r t : g_pad p -> no_sep r -> g_sep t -> feels d_pad (p ++ r) (length p) t.
Proof.
  intros Hp Hr Ht. rewrite <- (Nat.add_0_r (length p)). apply feels_repeated with (p := p_separator).
  - apply msim_separator.
  - now apply reach_pad.
  - now apply feels_separator.
Qed.
Lemma deats_pad p r : g_pad p -> no_sep r -> deats d_pad p (map (fun _ => tt) p) r.
Proof. intros. apply deats_of with (p := p_pad); [apply msim_pad|now apply eats_pad]. Qed.
Lemma feels_type r t ty : (forall x r' ty, r = x :: r' -> ~ g_type x ty) -> g_type t ty -> feels d_field_type r 0 t.
Proof.
  intros Hr Ht. assert (forall t ty, g_type t ty -> no_tok t r) as N.
  { intros t' ty' H' r' ->. eapply Hr; eauto. }
  apply feels_choice_from. pose proof (N _ _ Ht) as Nt. destruct Ht.
  - exists [], (d_to TInt (d_tok KInt)). eexists. split; [reflexivity|]. split; [constructor|]. now apply feels_to, feels_tok.
  - exists [d_to TInt (d_tok KInt)], (d_to TUuid (d_tok KUuid)). eexists. split; [reflexivity|].
    split; [|now apply feels_to, feels_tok]. repeat constructor; eapply dfails_to_tok, N; constructor.
  - exists [d_to TInt (d_tok KInt); d_to TUuid (d_tok KUuid)], (d_to TText (d_tok KText)).
    eexists. split; [reflexivity|].
    split; [|now apply feels_to, feels_tok]. repeat constructor; eapply dfails_to_tok, N; constructor.
  - exists [d_to TInt (d_tok KInt); d_to TUuid (d_tok KUuid); d_to TText (d_tok KText)],
      (d_to TTimestamp (d_tok KTimestamp)). eexists. split; [reflexivity|].
    split; [|now apply feels_to, feels_tok]. repeat constructor; eapply dfails_to_tok, N; constructor.
Qed.
Lemma feels_key r t k : no_key r -> g_key t k -> feels d_field_key r 0 t.
Proof.
  intros Hr Ht. assert (forall t k, g_key t k -> no_tok t r) as N.
  { intros t' k' H' r' ->. eapply Hr; eauto. }
  unfold d_field_key. pose proof (N _ _ Ht) as Nt. destruct Ht.
  - apply feels_choice_1. now apply feels_to, feels_tok.
  - apply feels_choice_2; [eapply dfails_to_tok, N; constructor|]. now apply feels_to, feels_tok.
Qed.

(** ** Padding and lists *)

Lemma feels_at {A} (d : dparser token A) r k t r' k' : feels d r k t -> r = r' -> k = k' -> feels d r' k' t.
Proof. intros H -> ->. auto. Qed.
Lemma deats_at {A} (d : dparser token A) u u' a r : deats d u a r -> u = u' -> deats d u' a r.
Proof. intros H ->. auto. Qed.

Lemma feels_padded_lead {A} (d : dparser token A) p r t :
  g_pad p -> no_sep r -> g_sep t -> feels (d_padded_by d d_pad) (p ++ r) (length p) t.
Proof. intros Hp Hr Ht. apply feels_then_ignore_l, feels_ignore_then_l. now apply feels_pad. Qed.
Lemma feels_padded_in {A} (d : dparser token A) p w k t :
  g_pad p -> no_sep w -> feels d w k t -> feels (d_padded_by d d_pad) (p ++ w) (length p + k) t.
Proof.
  intros Hp Hw H. apply feels_then_ignore_l. eapply feels_ignore_then_r; [now apply deats_pad|auto].
Qed.
Lemma feels_padded_trail {A} (d : dparser token A) p pd p1 u a p2 r t :
  msim d p -> g_pad p1 -> g_pad p2 -> no_sep (u ++ p2 ++ r) -> no_sep r -> g_sep t -> eats p u a (p2 ++ r) ->
  pd = length (p1 ++ u ++ p2) ->
  feels (d_padded_by d d_pad) ((p1 ++ u ++ p2) ++ r) pd t.
Proof.
  intros Hs H1 H2 N1 N2 Ht E ->. eapply feels_at with (r := (p1 ++ u) ++ p2 ++ r) (k := length (p1 ++ u) + length p2).
  - eapply feels_then_ignore_r; [|now apply feels_pad].
    apply deats_of with (p := p_ignore_then p_pad p); [apply sim_ignore_then; [apply msim_pad|auto]|].
    eapply eats_ignore_then; [apply eats_pad; auto|exact E].
  - now rewrite <- !app_assoc.
  - rewrite !app_length. lia.
Qed.

Section FeelLists.
  Context {A : Type} (d : dparser token A) (p : parser token A) (R : list token -> A -> Prop).
  Hypothesis Hsim : msim d p.
  Hypothesis Hadv : adv p.
  Hypothesis Hitem : forall ts a r, R ts a -> stop r -> eats p ts a r.
  Hypothesis Hhead : forall ts a, R ts a -> exists n ts', ts = KIdent n :: ts'.

  Local Notation p_item := (p_ignore_then (p_ignore_then p_separator p_pad) p).
  Local Notation d_item := (d_ignore_then (d_ignore_then d_separator d_pad) d).

  Lemma eats_item s q ts a r : g_sep s -> g_pad q -> no_sep (ts ++ r) -> eats p ts a r ->
    eats p_item (s :: q ++ ts) a r.
  Proof.
    intros Hs Hq Hn He. change (s :: q ++ ts) with (([s] ++ q) ++ ts).
    eapply eats_ignore_then; [|exact He].
    eapply eats_ignore_then; [now apply eats_separator|now apply eats_pad].
  Qed.
  Lemma feels_item s q w k t : g_sep s -> g_pad q -> no_sep w -> feels d w k t ->
    feels d_item (s :: q ++ w) (S (length q) + k) t.
  Proof.
    intros Hs Hq Hw H. change (s :: q ++ w) with (([s] ++ q) ++ w).
    change (S (length q)) with (length ([s] ++ q)).
    eapply feels_ignore_then_r; [|exact H].
    apply deats_of with (p := p_ignore_then p_separator p_pad);
      [apply sim_ignore_then; [apply msim_separator|apply msim_pad]|].
    eapply eats_ignore_then; [now apply eats_separator|now apply eats_pad].
  Qed.
  Lemma reach_tail us l q : g_tail R us l -> stop q -> reach p_item us q.
  Proof.
    intros T Hq. induction T as [|s q' ts a us l Hs Hq' Ra T IH]; [constructor|].
    replace (s :: q' ++ ts ++ us) with ((s :: q' ++ ts) ++ us) by (cbn [app]; now rewrite <- app_assoc).
    apply reach_step with (a := a); [|apply IH].
    apply eats_item; auto.
    - destruct (Hhead _ _ Ra) as (n & ts' & ->). apply no_sep_cons, not_sep_ident.
    - apply Hitem; auto. eapply tail_stop; eauto.
  Qed.

  (** Inside an item. *)
  Lemma feels_list_in pre w k t : before R pre -> no_sep w -> feels d w k t ->
    feels (d_chain d (d_sep_rest d)) (pre ++ w) (length pre + k) t.
  Proof.
    intros [|ts l s q Hl Hs Hq] Hw H; apply feels_map; [now apply feels_then_l|].
    apply list_tail in Hl as (u & a & us & l' & -> & -> & Ra & T).
    assert (stop (s :: q ++ w)) as St by (exists s, (q ++ w); auto).
    eapply feels_at with (r := u ++ us ++ s :: q ++ w) (k := length u + (length us + (S (length q) + k))).
    - eapply feels_then_r.
      + apply deats_of with (p := p); auto. apply Hitem; eauto. eapply tail_stop; eauto.
      + apply feels_repeated with (p := p_item); [now apply msim_sep_item|eapply reach_tail; eauto|].
        now apply feels_item.
    - repeat (rewrite <- ?app_assoc; cbn [app]); reflexivity.
    - rewrite !app_length. cbn [length]. lia.
  Qed.

  (** After the last item. *)
  Lemma list_last pre v b r : before R pre -> eats p v b r -> no_sep (v ++ r) ->
    exists u a us, pre ++ v = u ++ us /\ eats p u a (us ++ r) /\ reach p_item us r.
  Proof.
    intros [|ts l s q Hl Hs Hq] Hv Hn.
    - exists v, b, []. rewrite app_nil_r. repeat split; auto. constructor.
    - apply list_tail in Hl as (u & a & us & l' & -> & -> & Ra & T).
      exists u, a, (us ++ s :: q ++ v). repeat split.
      + repeat (rewrite <- ?app_assoc; cbn [app]); reflexivity.
      + apply Hitem; auto. rewrite <- app_assoc. eapply tail_stop; eauto.
        cbn [app]. exists s, ((q ++ v) ++ r). auto.
      + apply reach_snoc with (a := b); [|now apply eats_item].
        eapply reach_tail; eauto. cbn [app]. exists s, ((q ++ v) ++ r). auto.
  Qed.
  Lemma feels_list_sep pre v b r t : before R pre -> eats p v b r -> no_sep (v ++ r) -> no_sep r -> g_sep t ->
    feels (d_chain d (d_sep_rest d)) ((pre ++ v) ++ r) (length (pre ++ v)) t.
  Proof.
    intros Hpre Hv Hn Hr Ht. destruct (list_last pre v b r Hpre Hv Hn) as (u & a & us & -> & Hu & Hus).
    apply feels_map. eapply feels_at with (r := u ++ us ++ r) (k := length u + (length us + 0)).
    - eapply feels_then_r; [apply deats_of with (p := p); eauto|].
      apply feels_repeated with (p := p_item); [now apply msim_sep_item|auto|].
      apply feels_ignore_then_l, feels_ignore_then_l. now apply feels_separator.
    - now rewrite app_assoc.
    - rewrite app_length. lia.
  Qed.
  Lemma eats_list_last pre v b r : before R pre -> eats p v b r -> no_sep (v ++ r) -> no_sep r ->
    exists l, eats (p_chain p (p_sep_rest p)) (pre ++ v) l r.
  Proof.
    intros Hpre Hv Hn Hr. destruct (list_last pre v b r Hpre Hv Hn) as (u & a & us & -> & Hu & Hus).
    destruct (eats_reach p_item us r) as (l & Hl); auto.
    - now apply adv_sep_item.
    - now apply fails_map, fails_then_l, fails_map, fails_then_l, fails_separator.
    - exists (a :: l). apply (eats_map (fun ab : A * list A => fst ab :: snd ab) _ _ (a, l)).
      apply eats_then; auto.
  Qed.
  Lemma eats_before pre r : before R pre -> fails p r -> no_sep r ->
    exists ts q o, pre = ts ++ q /\ g_pad q /\ (no_sep (ts ++ q ++ r)) /\
      eats (p_or_not (p_chain p (p_sep_rest p))) ts o (q ++ r).
  Proof.
    intros [|ts l s q Hl Hs Hq] Hf Hr.
    - exists [], [], None. repeat split; auto; [constructor|].
      apply eats_or_not_none. now apply fails_map, fails_then_l.
    - exists ts, (s :: q), (Some l). repeat split; auto.
      + now constructor.
      + eapply list_nosep; eauto.
      + apply eats_or_not. eapply eats_list_stop; eauto.
        * now constructor.
        * cbn [app]. exists s, (q ++ r). auto.
  Qed.

  (** The padded optional list. *)
  Local Notation d_body := (d_padded_by (d_or_not (d_chain d (d_sep_rest d))) d_pad).
  Local Notation p_body := (p_padded_by (p_or_not (p_chain p (p_sep_rest p))) p_pad).

  Lemma msim_body : msim d_body p_body.
  Proof.
    apply sim_padded_by; [|apply msim_pad].
    apply sim_or_not, sim_chain; [auto|now apply msim_sep_rest].
  Qed.
  Lemma before_nosep pre w : before R pre -> no_sep w -> no_sep (pre ++ w).
  Proof.
    intros [|ts l s q Hl Hs Hq] Hw; auto. rewrite <- app_assoc. eapply list_nosep; eauto.
  Qed.
  Lemma feels_body_in p0 pre w k t : g_pad p0 -> before R pre -> no_sep w -> feels d w k t ->
    feels d_body (p0 ++ pre ++ w) (length p0 + length pre + k) t.
  Proof.
    intros H0 Hpre Hw H. rewrite <- Nat.add_assoc. apply feels_padded_in; auto using before_nosep.
    apply feels_or_not. now apply feels_list_in.
  Qed.
  Lemma feels_body_sep p0 pre v b r t : g_pad p0 -> before R pre -> eats p v b r -> no_sep (v ++ r) ->
    no_sep r -> g_sep t -> feels d_body (p0 ++ pre ++ v ++ r) (length p0 + length pre + length v) t.
  Proof.
    intros H0 Hpre Hv Hn Hr Ht.
    eapply feels_at with (r := p0 ++ (pre ++ v) ++ r) (k := length p0 + length (pre ++ v)).
    - apply feels_padded_in; auto.
      + rewrite <- app_assoc. now apply before_nosep.
      + apply feels_or_not. eapply feels_list_sep; eauto.
    - now rewrite <- app_assoc.
    - rewrite app_length. lia.
  Qed.
  Lemma eats_body_last p0 pre v b r : g_pad p0 -> before R pre -> eats p v b r -> no_sep (v ++ r) ->
    no_sep r -> exists l, eats p_body (p0 ++ pre ++ v) l r.
  Proof.
    intros H0 Hpre Hv Hn Hr. destruct (eats_list_last pre v b r Hpre Hv Hn Hr) as (l & Hl).
    exists (Some l). rewrite <- (app_nil_r (pre ++ v)). apply eats_padded; auto.
    - constructor.
    - cbn [app]. rewrite <- app_assoc. now apply before_nosep.
    - now apply eats_or_not.
  Qed.
  Lemma eats_body_before p0 pre r : g_pad p0 -> before R pre -> fails p r -> no_sep r ->
    exists l, eats p_body (p0 ++ pre) l r.
  Proof.
    intros H0 Hpre Hf Hr. destruct (eats_before pre r Hpre Hf Hr) as (ts & q & o & -> & Hq & Hn & He).
    exists o. apply eats_padded; auto.
  Qed.
  Lemma feels_body_before p0 pre r t : g_pad p0 -> before R pre -> fails p r -> no_sep r -> g_sep t ->
    feels d_body ((p0 ++ pre) ++ r) (length (p0 ++ pre)) t.
  Proof.
    intros H0 Hpre Hf Hr Ht. destruct (eats_before pre r Hpre Hf Hr) as (ts & q & o & -> & Hq & Hn & He).
    eapply feels_padded_trail; eauto.
    apply sim_or_not, sim_chain; [auto|now apply msim_sep_rest].
  Qed.
End FeelLists.

(** ** Fields *)

Lemma eats_field_plain n t ty r : g_type t ty -> no_key r ->
  eats p_entity_field [KIdent n; t] (mkField n ty None) r.
Proof.
  intros Ht Hr. apply (eats_map_to (n, ty, None)); [|reflexivity].
  change [KIdent n; t] with (([KIdent n] ++ [t]) ++ []). apply eats_then.
  - apply eats_then; [apply eats_ident|now apply eats_type].
  - now apply eats_or_not_none, fails_no_key.
Qed.
Lemma eats_field_keyed n t ty k key r : g_type t ty -> g_key k key ->
  eats p_entity_field [KIdent n; t; k] (mkField n ty (Some key)) r.
Proof.
  intros Ht Hk. apply (eats_map_to (n, ty, Some key)); [|reflexivity].
  change [KIdent n; t; k] with (([KIdent n] ++ [t]) ++ [k]). apply eats_then.
  - apply eats_then; [apply eats_ident|now apply eats_type].
  - now apply eats_or_not, eats_key.
Qed.
Lemma fails_no_name_field r : no_name r -> fails p_entity_field r.
Proof. intros H. now apply fails_map, fails_then_l, fails_then_l, fails_no_name. Qed.
Lemma feels_field_type n r t ty : (forall x r' ty, r = x :: r' -> ~ g_type x ty) -> g_type t ty ->
  feels d_entity_field (KIdent n :: r) 1 t.
Proof.
  intros Hr Ht. apply feels_map, feels_then_l. change (KIdent n :: r) with ([KIdent n] ++ r).
  change 1 with (length [KIdent n] + 0). eapply feels_then_r; [|eapply feels_type; eauto].
  eapply deats_of; [apply msim_ident|apply eats_ident].
Qed.
Lemma feels_field_key n x ty r t k : g_type x ty -> no_key r -> g_key t k ->
  feels d_entity_field (KIdent n :: x :: r) 2 t.
Proof.
  intros Hx Hr Ht. apply feels_map. change (KIdent n :: x :: r) with (([KIdent n] ++ [x]) ++ r).
  change 2 with (length ([KIdent n] ++ [x]) + 0). eapply feels_then_r; [|eapply feels_or_not, feels_key; eauto].
  eapply deats_of; [apply sim_then; [apply msim_ident|apply msim_field_type]|].
  apply eats_then; [apply eats_ident|eapply eats_type; eauto].
Qed.

(** ** Entity definitions *)

Lemma eats_def_open n p1 r : g_pad p1 ->
  eats (p_then_ignore (p_then_ignore p_ident p_pad) (p_ctrl "{")) (KIdent n :: p1 ++ [Open]) n r.
Proof.
  intros H1. change (KIdent n :: p1 ++ [Open]) with (([KIdent n] ++ p1) ++ [Open]).
  eapply eats_then_ignore; [|apply eats_tok].
  eapply eats_then_ignore; [apply eats_ident|]. apply eats_pad; auto. apply no_sep_cons, not_sep_open.
Qed.
Lemma msim_def_open : msim (d_then_ignore (d_then_ignore d_ident d_pad) (d_ctrl "{"))
  (p_then_ignore (p_then_ignore p_ident p_pad) (p_ctrl "{")).
Proof.
  apply sim_then_ignore; [|apply msim_tok]. apply sim_then_ignore; [apply msim_ident|apply msim_pad].
Qed.
Lemma feels_def_in n p1 z k t : g_pad p1 -> feels d_entity_fields z k t ->
  feels d_entity_definition (KIdent n :: p1 ++ Open :: z) (S (S (length p1)) + k) t.
Proof.
  intros H1 H. eapply feels_at with (r := (KIdent n :: p1 ++ [Open]) ++ z).
  - apply feels_map, feels_then_ignore_l. eapply feels_then_r; [|exact H].
    eapply deats_of; [apply msim_def_open|now apply eats_def_open].
  - cbn [app]. now rewrite <- app_assoc.
  - cbn [length]. rewrite app_length. simpl. lia.
Qed.
Lemma feels_def_close n p1 v fs r : g_pad p1 -> eats p_entity_fields v fs r -> no_tok Close r ->
  feels d_entity_definition (KIdent n :: p1 ++ Open :: v ++ r) (S (S (length p1)) + length v) Close.
Proof.
  intros H1 Hv Hr. eapply feels_at with (r := ((KIdent n :: p1 ++ [Open]) ++ v) ++ r).
  - apply feels_map. eapply feels_then_ignore_r; [|now apply feels_tok].
    eapply deats_of; [apply sim_then; [apply msim_def_open|apply msim_entity_fields]|].
    apply eats_then; [now apply eats_def_open|exact Hv].
  - cbn [app]. repeat (rewrite <- ?app_assoc; cbn [app]). reflexivity.
  - cbn [app length]. rewrite !app_length. cbn [length]. rewrite ?app_length. simpl. lia.
Qed.
Lemma feels_def_sep n p1 r t : g_pad p1 -> no_sep r -> g_sep t ->
  feels d_entity_definition (KIdent n :: p1 ++ r) (S (length p1)) t.
Proof.
  intros H1 Hr Ht. apply feels_map, feels_then_ignore_l, feels_then_l, feels_then_ignore_l.
  change (KIdent n :: p1 ++ r) with ([KIdent n] ++ p1 ++ r).
  change (S (length p1)) with (length [KIdent n] + length p1).
  eapply feels_then_ignore_r; [|now apply feels_pad].
  eapply deats_of; [apply msim_ident|apply eats_ident].
Qed.
Lemma feels_def_brace n p1 r : g_pad p1 -> no_sep r -> no_tok Open r ->
  feels d_entity_definition (KIdent n :: p1 ++ r) (S (length p1)) Open.
Proof.
  intros H1 Hr Ht. apply feels_map, feels_then_ignore_l, feels_then_l.
  change (KIdent n :: p1 ++ r) with (([KIdent n] ++ p1) ++ r).
  replace (S (length p1)) with (length ([KIdent n] ++ p1) + 0) by (simpl; lia).
  eapply feels_then_ignore_r; [|now apply feels_tok].
  eapply deats_of; [apply sim_then_ignore; [apply msim_ident|apply msim_pad]|].
  eapply eats_then_ignore; [apply eats_ident|now apply eats_pad].
Qed.
Lemma fails_def_name n r : no_sep r -> no_tok Open r -> fails p_entity_definition (KIdent n :: r).
Proof.
  intros Hr Ho. apply fails_map, fails_map, fails_then_l, fails_then_l, fails_map.
  change (KIdent n :: r) with (([KIdent n] ++ []) ++ r).
  eapply fails_then_r; [|now apply fails_no_tok].
  eapply eats_then_ignore; [apply eats_ident|]. apply eats_pad; [constructor|auto].
Qed.

(** ** Relations *)

Lemma feels_rel_dot n r : no_tok Dot r -> feels d_relation (KIdent n :: r) 1 Dot.
Proof.
  intros H. apply feels_map, feels_then_l, feels_map. change (KIdent n :: r) with ([KIdent n] ++ r).
  change 1 with (length [KIdent n] + 0). eapply feels_then_r.
  - eapply deats_of; [apply msim_ident|apply eats_ident].
  - apply feels_ignore_then_l. now apply feels_tok.
Qed.
Lemma eats_path_any ts a r : g_path ts a -> (no_name r \/ exists e f, ts = [KIdent e; Dot; KIdent f]) ->
  eats p_entity_path ts a r.
Proof.
  intros [e|e f] [H|H]; try (now apply eats_path; try constructor).
  - destruct H as (e' & f' & [=]).
  - unfold p_entity_path. apply (eats_map_to (e, Some f)); [|reflexivity].
    change [KIdent e; Dot; KIdent f] with ([KIdent e] ++ [Dot] ++ [KIdent f]).
    apply eats_then; [apply eats_ident|]. eapply eats_ignore_then; [apply eats_tok|].
    now apply eats_or_not, eats_ident.
Qed.
Lemma feels_rel_sep ts a p r t : eats p_entity_path ts a (p ++ r) -> g_pad p -> no_sep r -> g_sep t ->
  feels d_relation (ts ++ p ++ r) (length ts + length p) t.
Proof.
  intros Ha Hp Hr Ht. apply feels_map. eapply feels_then_r; [eapply deats_of; [apply msim_entity_path|eauto]|].
  apply feels_ignore_then_l. now apply feels_padded_lead.
Qed.
Lemma feels_rel_edge ts a p r : eats p_entity_path ts a (p ++ r) -> g_pad p -> no_sep r -> no_tok KEdge r ->
  feels d_relation (ts ++ p ++ r) (length ts + length p) KEdge.
Proof.
  intros Ha Hp Hr Ht. apply feels_map. eapply feels_then_r; [eapply deats_of; [apply msim_entity_path|eauto]|].
  apply feels_ignore_then_l. rewrite <- (Nat.add_0_r (length p)). apply feels_padded_in; auto. now apply feels_tok.
Qed.
Lemma open_path ts a p1 r : g_path ts a -> g_pad p1 -> eats p_entity_path ts a (p1 ++ KEdge :: r).
Proof.
  intros Ha H1. apply eats_path; auto. intros n r' E.
  destruct H1 as [|s p Hs _]; [discriminate|]. cbn [app] in E. injection E as -> _. inversion Hs.
Qed.
Lemma feels_rel_sep2 w r t : rel_open w -> no_sep r -> g_sep t -> feels d_relation (w ++ r) (length w) t.
Proof.
  intros (ts & a & p1 & p2 & Ha & H1 & H2 & ->) Hr Ht.
  eapply feels_at with (r := ts ++ (p1 ++ [KEdge] ++ p2) ++ r)
                       (k := length ts + (length (p1 ++ [KEdge] ++ p2))).
  - apply feels_map. eapply feels_then_r; [eapply deats_of; [apply msim_entity_path|]|].
    + repeat (rewrite <- ?app_assoc; cbn [app]). apply open_path; eauto.
    + apply feels_ignore_then_l.
      eapply feels_padded_trail; eauto; [apply msim_tok| |apply eats_tok].
      apply no_sep_cons, not_sep_edge.
  - repeat (rewrite <- ?app_assoc; cbn [app]). reflexivity.
  - rewrite !app_length. reflexivity.
Qed.
Lemma eats_edge p1 p2 r : g_pad p1 -> g_pad p2 -> no_sep r ->
  eats (p_padded_by (p_tok KEdge) p_pad) (p1 ++ [KEdge] ++ p2) tt r.
Proof.
  intros H1 H2 Hr. apply eats_padded; auto; [apply no_sep_cons, not_sep_edge|apply eats_tok].
Qed.
Lemma feels_rel_dot2 w n r : rel_open w -> no_tok Dot r ->
  feels d_relation (w ++ KIdent n :: r) (S (length w)) Dot.
Proof.
  intros (ts & a & p1 & p2 & Ha & H1 & H2 & ->) Hr.
  eapply feels_at with (r := ts ++ (p1 ++ [KEdge] ++ p2) ++ KIdent n :: r)
                       (k := length ts + (length (p1 ++ [KEdge] ++ p2) + 1)).
  - apply feels_map. eapply feels_then_r; [eapply deats_of; [apply msim_entity_path|]|].
    + repeat (rewrite <- ?app_assoc; cbn [app]). apply open_path; eauto.
    + eapply feels_ignore_then_r.
      * eapply deats_of; [apply sim_padded_by; [apply msim_tok|apply msim_pad]|].
        apply eats_edge; auto. apply no_sep_cons, not_sep_ident.
      * apply feels_map. change (KIdent n :: r) with ([KIdent n] ++ r).
        change 1 with (length [KIdent n] + 0). eapply feels_then_r.
        -- eapply deats_of; [apply msim_ident|apply eats_ident].
        -- apply feels_ignore_then_l. now apply feels_tok.
  - repeat (rewrite <- ?app_assoc; cbn [app]). reflexivity.
  - repeat (rewrite ?app_length; cbn [length app]). lia.
Qed.
Lemma eats_relation w us b r : rel_open w -> g_path us b -> eats p_entity_path us b r ->
  exists x, eats p_relation (w ++ us) x r.
Proof.
  intros (ts & a & p1 & p2 & Ha & H1 & H2 & ->) Hb Hus. exists (mkRelation a b).
  replace ((ts ++ p1 ++ KEdge :: p2) ++ us) with (ts ++ (p1 ++ [KEdge] ++ p2) ++ us)
    by (repeat (rewrite <- ?app_assoc; cbn [app]); reflexivity).
  apply (eats_map_to (a, b)); [|reflexivity]. apply eats_then.
  - repeat (rewrite <- ?app_assoc; cbn [app]). now apply open_path.
  - eapply eats_ignore_then; [|exact Hus]. apply eats_edge; auto.
    apply path_head in Hb as (e & us' & ->). apply no_sep_cons, not_sep_ident.
Qed.

(** ** Entries *)

Lemma fails_no_name_entry r : no_name r -> fails p_module_entry r.
Proof.
  intros H. destruct r as [|x r]; [intros o; reflexivity|]. apply fails_entry. intros n ->. eapply H; eauto.
Qed.
Lemma feels_entry_def r k t : feels d_entity_definition r k t -> feels d_module_entry r k t.
Proof. intros H. now apply feels_choice_1, feels_map. Qed.
Lemma feels_entry_rel r k t : fails p_entity_definition r -> feels d_relation r k t -> feels d_module_entry r k t.
Proof.
  intros F H. apply feels_choice_2; [|now apply feels_map].
  apply dfails_of with (p := p_map EDef p_entity_definition); [apply sim_map, msim_entity_definition|now apply fails_map].
Qed.
Lemma rel_open_head w : rel_open w -> exists n w', w = KIdent n :: Dot :: w'.
Proof.
  intros (ts & a & p1 & p2 & Ha & H1 & H2 & ->). destruct (path_head ts a Ha) as (e & ts' & ->).
  cbn [app]. eauto.
Qed.
Lemma rel_open_nosep w r : rel_open w -> no_sep (w ++ r).
Proof. intros H. destruct (rel_open_head w H) as (n & w' & ->). apply no_sep_cons, not_sep_ident. Qed.
Lemma rel_open_def w r : rel_open w -> fails p_entity_definition (w ++ r).
Proof. intros H. destruct (rel_open_head w H) as (n & w' & ->). apply def_fails_path. Qed.
Lemma eats_entry_rel w us b r : rel_open w -> g_path us b -> eats p_entity_path us b r ->
  exists e, eats p_module_entry (w ++ us) e r.
Proof.
  intros Hw Hb He. destruct (eats_relation w us b r Hw Hb He) as (x & Hx). exists (ERel x).
  apply eats_choice_r; [|now apply eats_choice_l, eats_map].
  apply fails_map. rewrite <- app_assoc. now apply rel_open_def.
Qed.
Lemma eats_complete ts r : complete ts -> exists e, eats p_module_entry ts e r.
Proof.
  intros [(d & Hd)|(w & b & f & Hw & ->)].
  - exists (EDef d). apply eats_choice_l, eats_map. now apply eats_definition.
  - apply eats_entry_rel with (b := PField b f); auto; [constructor|].
    apply eats_path_any; [constructor|eauto].
Qed.
Lemma complete_nosep ts r : complete ts -> no_sep (ts ++ r).
Proof.
  intros H. destruct (complete_entry ts H) as (e & He). destruct (entry_head ts e He) as (n & ts' & ->).
  apply no_sep_cons, not_sep_ident.
Qed.

(** ** Modules *)

Lemma feels_ext {A} (d d' : dparser token A) r k t : (forall s, d s = d' s) -> feels d r k t -> feels d' r k t.
Proof. intros E H o. rewrite <- E. apply H. Qed.
Lemma eats_ext {A} (p p' : parser token A) u a r : (forall s, p s = p' s) -> eats p u a r -> eats p' u a r.
Proof. intros E H o. rewrite <- E. apply H. Qed.

Local Notation d_head :=
  (d_then_ignore
     (d_ignore_then (d_padded_by (d_tok KErd) d_pad) (d_or_not (d_padded_by d_ident d_pad)))
     (d_ctrl "{")).
Local Notation p_head :=
  (p_then_ignore
     (p_ignore_then (p_padded_by (p_tok KErd) p_pad) (p_or_not (p_padded_by p_ident p_pad)))
     (p_ctrl "{")).
Local Notation d_list := (d_or_not (d_chain d_module_entry (d_sep_rest d_module_entry))).
Local Notation p_list := (p_or_not (p_chain p_module_entry (p_sep_rest p_module_entry))).

Lemma msim_head : msim d_head p_head.
Proof.
  apply sim_then_ignore; [|apply msim_tok].
  apply sim_ignore_then; [apply sim_padded_by; [apply msim_tok|apply msim_pad]|].
  apply sim_or_not, sim_padded_by; [apply msim_ident|apply msim_pad].
Qed.
Lemma eats_head p2 nts n r : g_pad p2 -> g_name nts n -> eats p_head (KErd :: p2 ++ nts ++ [Open]) n r.
Proof.
  intros H2 Hn.
  replace (KErd :: p2 ++ nts ++ [Open]) with ((([] ++ [KErd] ++ p2) ++ nts) ++ [Open])
    by (rewrite <- !app_assoc; reflexivity).
  eapply eats_then_ignore; [|apply eats_tok]. eapply eats_ignore_then.
  - apply eats_padded; auto.
    + constructor.
    + apply no_sep_cons, not_sep_erd.
    + now apply name_nosep with (n := n).
    + apply eats_tok.
  - cbn [app]. now apply eats_name.
Qed.

Lemma entries_ext s : d_map unwrap_or_nil (d_padded_by d_list d_pad) s = d_padded_by d_module_entries d_pad s.
Proof.
  unfold d_module_entries, d_padded_by, d_then_ignore, d_ignore_then, d_map, d_then.
  destruct (d_pad s) as [e a alt s1| |]; auto.
  destruct (d_list s1) as [e1 a1 alt1 s2| |]; auto.
  destruct (d_pad s2) as [e2 a2 alt2 s3| |]; auto.
Qed.
Lemma p_entries_ext s : p_map unwrap_or_nil (p_padded_by p_list p_pad) s = p_padded_by p_module_entries p_pad s.
Proof.
  unfold p_module_entries, p_padded_by, p_then_ignore, p_ignore_then, p_map, p_then.
  destruct (p_pad s) as [e a s1| |]; auto.
  destruct (p_list s1) as [e1 a1 s2| |]; auto.
  destruct (p_pad s2) as [e2 a2 s3| |]; auto.
Qed.

(** After the opening brace. *)
Lemma feels_module_in p1 p2 nts n p3 z k t :
  g_pad p1 -> g_pad p2 -> g_name nts n ->
  feels (d_padded_by d_list d_pad) (p3 ++ z) (length p3 + k) t ->
  feels d_erd_module_parser ((p1 ++ KErd :: p2 ++ nts ++ Open :: p3) ++ z)
    (length (p1 ++ KErd :: p2 ++ nts ++ Open :: p3) + k) t.
Proof.
  intros H1 H2 Hn H.
  eapply feels_at with (r := p1 ++ (KErd :: p2 ++ nts ++ [Open]) ++ p3 ++ z)
    (k := length p1 + (length (KErd :: p2 ++ nts ++ [Open]) + (length p3 + k))).
  - apply feels_map, feels_padded_in; auto; [apply no_sep_cons, not_sep_erd|].
    apply feels_then_ignore_l. eapply feels_then_r.
    + eapply deats_of; [apply msim_head|]. eapply eats_head; eauto.
    + eapply feels_ext; [apply entries_ext|]. now apply feels_map.
  - repeat (rewrite <- ?app_assoc; cbn [app]). reflexivity.
  - repeat (rewrite ?app_length; cbn [length app]). lia.
Qed.
Lemma feels_module_close p1 p2 nts n v l r :
  g_pad p1 -> g_pad p2 -> g_name nts n ->
  eats (p_padded_by p_list p_pad) v l r -> no_tok Close r ->
  feels d_erd_module_parser (p1 ++ KErd :: p2 ++ nts ++ Open :: v ++ r)
    (length (p1 ++ KErd :: p2 ++ nts ++ Open :: v)) Close.
Proof.
  intros H1 H2 Hn H Hr.
  eapply feels_at with (r := p1 ++ ((KErd :: p2 ++ nts ++ [Open]) ++ v) ++ r)
    (k := length p1 + (length ((KErd :: p2 ++ nts ++ [Open]) ++ v) + 0)).
  - apply feels_map, feels_padded_in; auto; [apply no_sep_cons, not_sep_erd|].
    eapply feels_then_ignore_r; [|now apply feels_tok].
    eapply deats_of; [apply sim_then; [apply msim_head|apply sim_padded_by;
                        [apply msim_module_entries|apply msim_pad]]|].
    apply eats_then; [eapply eats_head; eauto|].
    eapply eats_ext; [apply p_entries_ext|]. apply eats_map. exact H.
  - repeat (rewrite <- ?app_assoc; cbn [app]). reflexivity.
  - repeat (rewrite ?app_length; cbn [length app]). lia.
Qed.

Lemma feels_inside x w k t : inside x -> no_sep w -> feels d_module_entry w k t ->
  feels d_erd_module_parser (x ++ w) (length x + k) t.
Proof.
  intros (m & pre & (p1 & p2 & nts & n & p3 & H1 & H2 & Hn & H3 & ->) & Hpre & ->) Hw H.
  eapply feels_at.
  - eapply (feels_module_in p1 p2 nts n p3 (pre ++ w) (length pre + k)); auto.
    rewrite Nat.add_assoc.
    apply (feels_body_in d_module_entry p_module_entry g_entry msim_module_entry
             eats_entry entry_head); auto.
  - now rewrite app_assoc.
  - rewrite (app_length _ pre). lia.
Qed.
(** After an entry that is complete. *)
Lemma feels_entry_sep x v e r t : inside x -> eats p_module_entry v e r -> no_sep (v ++ r) -> no_sep r -> g_sep t ->
  feels d_erd_module_parser ((x ++ v) ++ r) (length (x ++ v)) t.
Proof.
  intros (m & pre & (p1 & p2 & nts & n & p3 & H1 & H2 & Hn & H3 & ->) & Hpre & ->) Hv Nv Hr Ht.
  eapply feels_at.
  - eapply (feels_module_in p1 p2 nts n p3 (pre ++ v ++ r) (length pre + length v)); auto.
    rewrite Nat.add_assoc.
    eapply (feels_body_sep d_module_entry p_module_entry g_entry msim_module_entry
             eats_entry entry_head); eauto.
  - now rewrite !app_assoc.
  - rewrite !(app_length _ v), !(app_length _ pre). lia.
Qed.
Lemma feels_entry_close x v e r : inside x -> eats p_module_entry v e r -> no_sep (v ++ r) -> no_sep r ->
  no_tok Close r -> feels d_erd_module_parser ((x ++ v) ++ r) (length (x ++ v)) Close.
Proof.
  intros (m & pre & (p1 & p2 & nts & n & p3 & H1 & H2 & Hn & H3 & ->) & Hpre & ->) Hv Nv Hr Ht.
  destruct (eats_body_last p_module_entry g_entry adv_module_entry
             eats_entry entry_head p3 pre v e r) as (l & Hl); auto.
  eapply feels_at.
  - apply (feels_module_close p1 p2 nts n (p3 ++ pre ++ v) l r); auto.
  - repeat (rewrite <- ?app_assoc; cbn [app]). reflexivity.
  - f_equal. repeat (rewrite <- ?app_assoc; cbn [app]). reflexivity.
Qed.
(** Between entries. *)
Lemma feels_between_sep x r t : inside x -> no_name r -> no_sep r -> g_sep t ->
  feels d_erd_module_parser (x ++ r) (length x) t.
Proof.
  intros (m & pre & (p1 & p2 & nts & n & p3 & H1 & H2 & Hn & H3 & ->) & Hpre & ->) Hf Hr Ht.
  eapply feels_at.
  - eapply (feels_module_in p1 p2 nts n p3 (pre ++ r) (length pre)); auto.
    rewrite app_assoc, <- app_length.
    apply (feels_body_before d_module_entry p_module_entry g_entry msim_module_entry adv_module_entry
             eats_entry entry_head); auto. now apply fails_no_name_entry.
  - now rewrite app_assoc.
  - now rewrite (app_length _ pre).
Qed.
Lemma feels_between_close x r : inside x -> no_name r -> no_sep r -> no_tok Close r ->
  feels d_erd_module_parser (x ++ r) (length x) Close.
Proof.
  intros (m & pre & (p1 & p2 & nts & n & p3 & H1 & H2 & Hn & H3 & ->) & Hpre & ->) Hf Hr Ht.
  destruct (eats_body_before p_module_entry g_entry adv_module_entry
             eats_entry entry_head p3 pre r) as (l & Hl); auto using fails_no_name_entry.
  eapply feels_at.
  - apply (feels_module_close p1 p2 nts n (p3 ++ pre) l r); auto.
  - repeat (rewrite <- ?app_assoc; cbn [app]). reflexivity.
  - f_equal. repeat (rewrite <- ?app_assoc; cbn [app]). reflexivity.
Qed.

(** Inside a definition. *)
Local Notation d_fields := (d_padded_by (d_or_not (d_chain d_entity_field (d_sep_rest d_entity_field))) d_pad).
Lemma feels_in_def x w z k t : inside x -> def_open w ->
  (forall p2, g_pad p2 -> feels d_fields (p2 ++ z) (length p2 + k) t) ->
  feels d_erd_module_parser (x ++ w ++ z) (length x + length w + k) t.
Proof.
  intros Hx (n & p1 & p2 & H1 & H2 & ->) H. rewrite <- Nat.add_assoc. apply feels_inside; auto.
  { apply no_sep_cons, not_sep_ident. }
  apply feels_entry_def. eapply feels_at.
  - eapply (feels_def_in n p1 (p2 ++ z)); auto. apply feels_map, H. auto.
  - repeat (rewrite <- ?app_assoc; cbn [app]). reflexivity.
  - repeat (rewrite ?app_length; cbn [length app]). lia.
Qed.
Lemma feels_in_def_close x w v r : inside x -> def_open w -> no_tok Close r ->
  (forall p2, g_pad p2 -> exists l,
     eats (p_padded_by (p_or_not (p_chain p_entity_field (p_sep_rest p_entity_field))) p_pad) (p2 ++ v) l r) ->
  feels d_erd_module_parser ((x ++ w ++ v) ++ r) (length (x ++ w ++ v)) Close.
Proof.
  intros Hx (n & p1 & p2 & H1 & H2 & ->) Hr H. destruct (H p2 H2) as (l & Hl).
  eapply feels_at.
  - eapply (feels_inside x (KIdent n :: p1 ++ Open :: (p2 ++ v) ++ r)); auto.
    { apply no_sep_cons, not_sep_ident. }
    apply feels_entry_def. eapply feels_def_close; eauto. unfold p_entity_fields. eapply eats_map. exact Hl.
  - repeat (rewrite <- ?app_assoc; cbn [app]). reflexivity.
  - repeat (rewrite ?app_length; cbn [length app]). lia.
Qed.
Lemma feels_field x w pre v k t : inside x -> def_open w -> before g_field pre -> no_sep v ->
  feels d_entity_field v k t ->
  feels d_erd_module_parser ((x ++ w ++ pre) ++ v) (length (x ++ w ++ pre) + k) t.
Proof.
  intros Hx Hw Hpre Hv H. eapply feels_at.
  - apply (feels_in_def x w (pre ++ v) (length pre + k)); eauto. intros p2 H2. rewrite Nat.add_assoc.
    apply (feels_body_in d_entity_field p_entity_field g_field msim_entity_field eats_field field_head); auto.
  - repeat (rewrite <- ?app_assoc; cbn [app]). reflexivity.
  - repeat (rewrite ?app_length; cbn [length app]). lia.
Qed.
Lemma feels_field_sep x w pre v f r t : inside x -> def_open w -> before g_field pre ->
  eats p_entity_field v f r -> no_sep (v ++ r) -> no_sep r -> g_sep t ->
  feels d_erd_module_parser (((x ++ w ++ pre) ++ v) ++ r) (length ((x ++ w ++ pre) ++ v)) t.
Proof.
  intros Hx Hw Hpre Hv Nv Hr Ht. eapply feels_at.
  - apply (feels_in_def x w (pre ++ v ++ r) (length pre + length v)); eauto. intros p2 H2. rewrite Nat.add_assoc.
    eapply (feels_body_sep d_entity_field p_entity_field g_field msim_entity_field eats_field field_head); eauto.
  - repeat (rewrite <- ?app_assoc; cbn [app]). reflexivity.
  - repeat (rewrite ?app_length; cbn [length app]). lia.
Qed.
Lemma feels_field_close x w pre v f r : inside x -> def_open w -> before g_field pre ->
  eats p_entity_field v f r -> no_sep (v ++ r) -> no_sep r -> no_tok Close r ->
  feels d_erd_module_parser (((x ++ w ++ pre) ++ v) ++ r) (length ((x ++ w ++ pre) ++ v)) Close.
Proof.
  intros Hx Hw Hpre Hv Nv Hr Ht. eapply feels_at.
  - apply (feels_in_def_close x w (pre ++ v) r); auto. intros p2 H2.
    eapply (eats_body_last p_entity_field g_field adv_entity_field eats_field field_head); eauto.
  - repeat (rewrite <- ?app_assoc; cbn [app]). reflexivity.
  - repeat (rewrite ?app_length; cbn [length app]). lia.
Qed.
Lemma feels_fields_sep x w pre r t : inside x -> def_open w -> before g_field pre ->
  no_name r -> no_sep r -> g_sep t ->
  feels d_erd_module_parser ((x ++ w ++ pre) ++ r) (length (x ++ w ++ pre)) t.
Proof.
  intros Hx Hw Hpre Hf Hr Ht. eapply feels_at.
  - apply (feels_in_def x w (pre ++ r) (length pre)); eauto. intros p2 H2. rewrite app_assoc, <- app_length.
    apply (feels_body_before d_entity_field p_entity_field g_field msim_entity_field adv_entity_field
             eats_field field_head); auto. now apply fails_no_name_field.
  - repeat (rewrite <- ?app_assoc; cbn [app]). reflexivity.
  - repeat (rewrite ?app_length; cbn [length app]). lia.
Qed.
Lemma feels_fields_close x w pre r : inside x -> def_open w -> before g_field pre ->
  no_name r -> no_sep r -> no_tok Close r ->
  feels d_erd_module_parser ((x ++ w ++ pre) ++ r) (length (x ++ w ++ pre)) Close.
Proof.
  intros Hx Hw Hpre Hf Hr Ht. eapply feels_in_def_close; eauto. intros p2 H2.
  eapply (eats_body_before p_entity_field g_field adv_entity_field eats_field field_head); eauto.
  now apply fails_no_name_field.
Qed.

(** Before the opening brace. *)
Lemma feels_start_sep p r t : g_pad p -> no_sep r -> g_sep t -> feels d_erd_module_parser (p ++ r) (length p) t.
Proof. intros. now apply feels_map, feels_padded_lead. Qed.
Lemma feels_start_erd p r : g_pad p -> no_sep r -> no_tok KErd r ->
  feels d_erd_module_parser (p ++ r) (length p) KErd.
Proof.
  intros Hp Hr Ht. rewrite <- (Nat.add_0_r (length p)). apply feels_map, feels_padded_in; auto.
  apply feels_then_ignore_l, feels_then_l, feels_then_ignore_l, feels_ignore_then_l.
  apply (feels_padded_in (d_tok KErd) [] r 0); auto; [constructor|now apply feels_tok].
Qed.
Lemma eats_erd p2 r : g_pad p2 -> no_sep r ->
  eats (p_padded_by (p_tok KErd) p_pad) (KErd :: p2) tt r.
Proof.
  intros H2 Hr. change (KErd :: p2) with ([] ++ [KErd] ++ p2). apply eats_padded; auto.
  - constructor.
  - apply no_sep_cons, not_sep_erd.
  - apply eats_tok.
Qed.
Lemma feels_erd_sep p1 p2 r t : g_pad p1 -> g_pad p2 -> no_sep r -> g_sep t ->
  feels d_erd_module_parser ((p1 ++ KErd :: p2) ++ r) (length (p1 ++ KErd :: p2)) t.
Proof.
  intros H1 H2 Hr Ht. rewrite <- app_assoc, app_length. apply feels_map, feels_padded_in; auto.
  { apply no_sep_cons, not_sep_erd. }
  apply feels_then_ignore_l, feels_then_l, feels_then_ignore_l, feels_ignore_then_l.
  change (KErd :: p2) with ([] ++ [KErd] ++ p2).
  eapply feels_padded_trail; eauto; [apply msim_tok|constructor| |apply eats_tok].
  apply no_sep_cons, not_sep_erd.
Qed.
Lemma feels_name_sep p1 p2 n p r t : g_pad p1 -> g_pad p2 -> g_pad p -> no_sep r -> g_sep t ->
  feels d_erd_module_parser ((p1 ++ KErd :: p2 ++ KIdent n :: p) ++ r)
    (length (p1 ++ KErd :: p2 ++ KIdent n :: p)) t.
Proof.
  intros H1 H2 Hp Hr Ht. eapply feels_at with (r := p1 ++ (KErd :: p2) ++ (([] ++ [KIdent n] ++ p) ++ r))
    (k := length p1 + (length (KErd :: p2) + length ([] ++ [KIdent n] ++ p))).
  - apply feels_map, feels_padded_in; auto.
    { apply no_sep_cons, not_sep_erd. }
    apply feels_then_ignore_l, feels_then_l, feels_then_ignore_l.
    eapply feels_ignore_then_r.
    + eapply deats_of; [apply sim_padded_by; [apply msim_tok|apply msim_pad]|].
      apply eats_erd; auto. apply no_sep_cons, not_sep_ident.
    + apply feels_or_not. eapply feels_padded_trail; eauto; [apply msim_ident|constructor| |apply eats_ident].
      apply no_sep_cons, not_sep_ident.
  - repeat (rewrite <- ?app_assoc; cbn [app]). reflexivity.
  - repeat (rewrite ?app_length; cbn [length app]). lia.
Qed.
Lemma feels_open p1 p2 v o r : g_pad p1 -> g_pad p2 -> no_sep (v ++ r) -> no_tok Open r ->
  eats (p_or_not (p_padded_by p_ident p_pad)) v o r ->
  feels d_erd_module_parser ((p1 ++ KErd :: p2 ++ v) ++ r) (length (p1 ++ KErd :: p2 ++ v)) Open.
Proof.
  intros H1 H2 Nv Hr Hv. eapply feels_at with (r := p1 ++ ((KErd :: p2) ++ v) ++ r)
    (k := length p1 + (length ((KErd :: p2) ++ v) + 0)).
  - apply feels_map, feels_padded_in; auto.
    { apply no_sep_cons, not_sep_erd. }
    apply feels_then_ignore_l, feels_then_l. eapply feels_then_ignore_r; [|now apply feels_tok].
    eapply deats_of.
    + apply sim_ignore_then; [apply sim_padded_by; [apply msim_tok|apply msim_pad]|].
      apply sim_or_not, sim_padded_by; [apply msim_ident|apply msim_pad].
    + eapply eats_ignore_then; [|exact Hv]. now apply eats_erd.
  - repeat (rewrite <- ?app_assoc; cbn [app]). reflexivity.
  - repeat (rewrite ?app_length; cbn [length app]). lia.
Qed.

(** ** Every state *)

Definition stuck (q : st) (r : list token) : Prop := forall t r', r = t :: r' -> delta q t = None.

Lemma stuck_class q r c : stuck q r -> move q c <> None -> forall t r', r = t :: r' -> classify t <> c.
Proof. intros H Hc t r' E <-. now rewrite (H t r' E : move q (classify t) = None) in Hc. Qed.
Lemma stuck_sep q r : stuck q r -> move q CSep <> None -> no_sep r.
Proof. intros H Hc t r' E Hs. eapply stuck_class; eauto. now apply class_sep. Qed.
Lemma stuck_name q r : stuck q r -> move q CIdent <> None -> no_name r.
Proof. intros H Hc n r' E. eapply stuck_class; eauto. Qed.
Lemma stuck_key q r : stuck q r -> move q CKey <> None -> no_key r.
Proof. intros H Hc t r' k E Hk. eapply stuck_class; eauto. eapply class_key; eauto. Qed.
Lemma stuck_tok q r t : stuck q r -> move q (classify t) <> None -> no_tok t r.
Proof. intros H Hc r' E. eapply stuck_class; eauto. Qed.

Lemma no_name_pad r p : no_name r -> g_pad p -> no_name (p ++ r).
Proof.
  intros Hr [|s p' Hs _] n r'; [apply Hr|]. cbn [app]. intros [= -> _]. inversion Hs.
Qed.

Lemma feels_stuck q u r t : shape q u -> q <> Fin -> stuck q r -> delta q t <> None -> ~ a_name t ->
  feels d_erd_module_parser (u ++ r) (length u) t.
Proof.
  intros Hq HF Hr Ht Hn. unfold delta in Ht. pose proof (class_cases t) as C.
  assert (move q CSep <> None -> no_sep r) as Ksep by (now apply stuck_sep).
  assert (move q CIdent <> None -> no_name r) as Kname by (now apply stuck_name).
  assert (move q CKey <> None -> no_key r) as Kkey by (now apply stuck_key).
  assert (move q (classify t) <> None -> no_tok t r) as Ktok by (now apply stuck_tok).
  specialize (Ktok Ht).
  destruct q; try contradiction; cbn [shape] in Hq; destruct (classify t) eqn:Ec; cbn [move] in *;
    try (exfalso; apply Ht; reflexivity); try (exfalso; apply Hn; exact C); clear Ht; try subst t;
    try (specialize (Ksep ltac:(discriminate))); try (specialize (Kname ltac:(discriminate)));
    try (specialize (Kkey ltac:(discriminate))).
  - (* S0 *) now apply feels_start_sep.
  - now apply feels_start_erd.
  - (* S1 *) destruct Hq as (p1 & p2 & H1 & H2 & ->). now apply feels_erd_sep.
  - destruct Hq as (p1 & p2 & H1 & H2 & ->). rewrite <- (app_nil_r p2).
    apply feels_open with (o := None); auto. apply eats_or_not_none.
    apply (GrammarFacts.fails_padded_in p_ident [] r); auto; [constructor|now apply fails_no_name].
  - (* S2 *) destruct Hq as (p1 & p2 & n & p & H1 & H2 & H3 & ->). now apply feels_name_sep.
  - destruct Hq as (p1 & p2 & n & p & H1 & H2 & H3 & ->).
    apply feels_open with (o := Some n); auto; [apply no_sep_cons, not_sep_ident|].
    apply eats_or_not. change (KIdent n :: p) with ([] ++ [KIdent n] ++ p).
    apply eats_padded; auto; [constructor|apply no_sep_cons, not_sep_ident|apply eats_ident].
  - (* M0 *) now apply feels_between_sep.
  - now apply feels_between_close.
  - (* M1 *) destruct Hq as (x & ts & Hx & Hts & ->). destruct (eats_complete ts r Hts) as (e & He).
    eapply feels_entry_sep; eauto using complete_nosep.
  - destruct Hq as (x & ts & Hx & Hts & ->). destruct (eats_complete ts r Hts) as (e & He).
    eapply feels_entry_close; eauto using complete_nosep.
  - (* E1 *) destruct Hq as (x & n & Hx & ->). rewrite <- app_assoc, app_length. apply feels_inside; auto.
    { apply no_sep_cons, not_sep_ident. }
    apply feels_entry_def. apply (feels_def_sep n [] r t); auto. constructor.
  - destruct Hq as (x & n & Hx & ->). rewrite <- app_assoc, app_length. apply feels_inside; auto.
    { apply no_sep_cons, not_sep_ident. }
    apply feels_entry_def. apply (feels_def_brace n [] r); auto. constructor.
  - destruct Hq as (x & n & Hx & ->). rewrite <- app_assoc, app_length. apply feels_inside; auto.
    { apply no_sep_cons, not_sep_ident. }
    apply feels_entry_rel; [|now apply feels_rel_dot]. apply fails_def_name; auto.
    apply (stuck_tok E1 r Open Hr). discriminate.
  - (* E2 *) destruct Hq as (x & n & s & p & Hx & Hs & Hp & ->). rewrite <- app_assoc, app_length.
    apply feels_inside; auto. { apply no_sep_cons, not_sep_ident. }
    apply feels_entry_def. apply (feels_def_sep n (s :: p) r t); auto. now constructor.
  - destruct Hq as (x & n & s & p & Hx & Hs & Hp & ->). rewrite <- app_assoc, app_length.
    apply feels_inside; auto. { apply no_sep_cons, not_sep_ident. }
    apply feels_entry_def. apply (feels_def_brace n (s :: p) r); auto. now constructor.
  - (* D0 *) destruct Hq as (x & w & pre & Hx & Hw & Hpre & ->). now apply feels_fields_sep.
  - destruct Hq as (x & w & pre & Hx & Hw & Hpre & ->). now apply feels_fields_close.
  - (* F1 *) destruct Hq as (y & n & (x & w & pre & Hx & Hw & Hpre & ->) & ->), C as (ty & Hty).
    rewrite <- (app_assoc _ [KIdent n] r), (app_length _ [KIdent n]). apply feels_field; auto.
    { apply no_sep_cons, not_sep_ident. }
    eapply feels_field_type; eauto. intros t' r' ty' E H'.
    eapply (stuck_class F1 r CType Hr); [discriminate|exact E|]. eapply class_type; eauto.
  - (* F2 *) destruct Hq as (y & n & t' & ty & (x & w & pre & Hx & Hw & Hpre & ->) & Hty & ->).
    eapply feels_field_sep; eauto; [eapply eats_field_plain; eauto|apply no_sep_cons, not_sep_ident].
  - destruct Hq as (y & n & t' & ty & (x & w & pre & Hx & Hw & Hpre & ->) & Hty & ->).
    eapply feels_field_close; eauto; [eapply eats_field_plain; eauto|apply no_sep_cons, not_sep_ident].
  - destruct Hq as (y & n & t' & ty & (x & w & pre & Hx & Hw & Hpre & ->) & Hty & ->), C as (k & Hk).
    rewrite <- (app_assoc _ [KIdent n; t'] r), (app_length _ [KIdent n; t']). apply feels_field; auto.
    { apply no_sep_cons, not_sep_ident. }
    eapply feels_field_key; eauto.
  - (* F3 *) destruct Hq as (y & n & t' & ty & k & key & (x & w & pre & Hx & Hw & Hpre & ->) & Hty & Hk & ->).
    eapply feels_field_sep; eauto; [eapply eats_field_keyed; eauto|apply no_sep_cons, not_sep_ident].
  - destruct Hq as (y & n & t' & ty & k & key & (x & w & pre & Hx & Hw & Hpre & ->) & Hty & Hk & ->).
    eapply feels_field_close; eauto; [eapply eats_field_keyed; eauto|apply no_sep_cons, not_sep_ident].
  - (* R1 *) destruct Hq as (x & n & Hx & ->). rewrite <- app_assoc, app_length. apply feels_inside; auto.
    { apply no_sep_cons, not_sep_ident. }
    apply feels_entry_rel; [apply def_fails_path|].
    apply (feels_rel_sep [KIdent n; Dot] (PEntity n) [] r); auto; [|constructor].
    apply eats_path_any; [constructor|auto].
  - destruct Hq as (x & n & Hx & ->). rewrite <- app_assoc, app_length. apply feels_inside; auto.
    { apply no_sep_cons, not_sep_ident. }
    apply feels_entry_rel; [apply def_fails_path|].
    apply (feels_rel_edge [KIdent n; Dot] (PEntity n) [] r); auto; [|constructor].
    apply eats_path_any; [constructor|auto].
  - (* R2 *) destruct Hq as (x & n & p & Hx & Hp & [(f & ->)|(s & Hs & ->)]);
      rewrite <- app_assoc, app_length; (apply feels_inside; auto; [apply no_sep_cons, not_sep_ident|]);
      (apply feels_entry_rel; [apply def_fails_path|]).
    + apply (feels_rel_sep [KIdent n; Dot; KIdent f] (PField n f) p r); auto.
      apply eats_path_any; [constructor|eauto].
    + apply (feels_rel_sep [KIdent n; Dot] (PEntity n) (s :: p) r); auto; [|now constructor].
      apply eats_path_any; [constructor|left]. cbn [app]. intros n' r' [= -> _]. inversion Hs.
  - destruct Hq as (x & n & p & Hx & Hp & [(f & ->)|(s & Hs & ->)]);
      rewrite <- app_assoc, app_length; (apply feels_inside; auto; [apply no_sep_cons, not_sep_ident|]);
      (apply feels_entry_rel; [apply def_fails_path|]).
    + apply (feels_rel_edge [KIdent n; Dot; KIdent f] (PField n f) p r); auto.
      apply eats_path_any; [constructor|eauto].
    + apply (feels_rel_edge [KIdent n; Dot] (PEntity n) (s :: p) r); auto; [|now constructor].
      apply eats_path_any; [constructor|left]. cbn [app]. intros n' r' [= -> _]. inversion Hs.
  - (* R3 *) destruct Hq as (x & w & Hx & Hw & ->). rewrite <- app_assoc, app_length.
    apply feels_inside; auto using rel_open_nosep.
    apply feels_entry_rel; [now apply rel_open_def|]. now apply feels_rel_sep2.
  - (* R4 *) destruct Hq as (x & w & n & Hx & Hw & ->).
    rewrite <- app_assoc, app_length, <- (app_assoc w), (app_length w). cbn [app length]. rewrite (Nat.add_comm (length w) 1).
    apply feels_inside; auto using rel_open_nosep.
    apply feels_entry_rel; [now apply rel_open_def|]. now apply feels_rel_dot2.
  - (* R5 *) destruct Hq as (x & w & n & Hx & Hw & ->).
    destruct (eats_entry_rel w [KIdent n; Dot] (PEntity n) r Hw) as (e & He); [constructor| |].
    { apply eats_path_any; [constructor|auto]. }
    eapply feels_entry_sep; eauto. rewrite <- app_assoc. now apply rel_open_nosep.
  - destruct Hq as (x & w & n & Hx & Hw & ->).
    destruct (eats_entry_rel w [KIdent n; Dot] (PEntity n) r Hw) as (e & He); [constructor| |].
    { apply eats_path_any; [constructor|auto]. }
    eapply feels_entry_close; eauto. rewrite <- app_assoc. now apply rel_open_nosep.
Qed.
