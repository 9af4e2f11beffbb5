(** The parser with error values (Diag.v) against the one without (Parser.v). *)
From Coq Require Import String Ascii List Arith NArith Bool Lia.
From Verif Require Import Base Chumsky ChumskyFacts Erd Parser Diag GrammarFacts.
Import ListNotations.

Lemma forall2_length {A B} (P : A -> B -> Prop) l l' : Forall2 P l l' -> length l = length l'.
Proof. induction 1; simpl; congruence. Qed.

(** Same behaviour on the streams satisfying [V], with the errors related by [R]. *)
Section Sim.
  Context {I : Type}.
  Variable V : stream I -> Prop.
  Variable R : diag I -> perror -> Prop.

  Definition sim_result {A} (d : dresult I A) (r : presult I A) : Prop :=
    match d, r with
    | DOk e a _ s, POk e' a' s' => Forall2 R e e' /\ a = a' /\ s = s' /\ V s
    | DErr _, PErr => True
    | DAbort x, PAbort y => x = y
    | _, _ => False
    end.
  Definition sim {A} (d : dparser I A) (p : parser I A) : Prop :=
    forall s, V s -> sim_result (d s) (p s).

  Hypothesis Vstep : forall x l o, V (mkStream (x :: l) o) -> V (mkStream l (S o)).

  Lemma sim_filter_map {O} (f : I -> option O) : sim (d_filter_map f) (p_filter_map f).
  Proof.
    intros [l o] HV. unfold d_filter_map, p_filter_map. cbn [s_rest s_off].
    destruct l as [|x l]; simpl; auto. destruct (f x); simpl; eauto.
  Qed.
  Lemma sim_filter f : sim (d_filter f) (p_filter f).
  Proof. apply sim_filter_map. Qed.
  Lemma sim_one_of eqb xs f : (forall x, f x = existsb (eqb x) xs) ->
    sim (d_one_of eqb xs) (p_filter f).
  Proof.
    intros Hf [l o] HV. unfold d_one_of, p_filter, p_filter_map. cbn [s_rest s_off].
    destruct l as [|x l]; simpl; auto. rewrite Hf. destruct (existsb _ _); simpl; eauto.
  Qed.
  Lemma sim_just eqb xs : sim (d_just eqb xs) (p_just eqb xs).
  Proof.
    induction xs as [|x xs IH]; intros [l o] HV; cbn [d_just p_just s_rest s_off].
    - simpl. auto.
    - destruct l as [|y l]; simpl; auto. destruct (eqb x y); simpl; auto. apply IH. eauto.
  Qed.
  Lemma sim_map {A B} (f : A -> B) d p : sim d p -> sim (d_map f d) (p_map f p).
  Proof.
    intros H s HV. specialize (H s HV). unfold d_map, p_map.
    destruct (d s), (p s); simpl in *; intuition congruence.
  Qed.
  Lemma sim_to {A B} (b : B) (d : dparser I A) p : sim d p -> sim (d_to b d) (p_to b p).
  Proof. apply sim_map. Qed.
  Lemma sim_try_map {A B} (f : A -> option B) d p : sim d p -> sim (d_try_map f d) (p_try_map f p).
  Proof.
    intros H s HV. specialize (H s HV). unfold d_try_map, p_try_map.
    destruct (d s), (p s); simpl in *; try tauto.
    destruct H as (He & <- & <- & HV'). destruct (f o); simpl; auto.
  Qed.
  Lemma sim_then {A B} (d : dparser I A) p (d' : dparser I B) p' :
    sim d p -> sim d' p' -> sim (d_then d d') (p_then p p').
  Proof.
    intros H H' s HV. specialize (H s HV). unfold d_then, p_then.
    destruct (d s), (p s); simpl in *; try tauto.
    destruct H as (He & <- & <- & HV'). specialize (H' s0 HV').
    destruct (d' s0), (p' s0); simpl in *; try tauto.
    destruct H' as (He' & <- & <- & HV2). repeat split; auto. now apply Forall2_app.
  Qed.
  Lemma sim_ignore_then {A B} (d : dparser I A) p (d' : dparser I B) p' :
    sim d p -> sim d' p' -> sim (d_ignore_then d d') (p_ignore_then p p').
  Proof. intros. now apply sim_map, sim_then. Qed.
  Lemma sim_then_ignore {A B} (d : dparser I A) p (d' : dparser I B) p' :
    sim d p -> sim d' p' -> sim (d_then_ignore d d') (p_then_ignore p p').
  Proof. intros. now apply sim_map, sim_then. Qed.
  Lemma sim_padded_by {A B} (d : dparser I A) p (d' : dparser I B) p' :
    sim d p -> sim d' p' -> sim (d_padded_by d d') (p_padded_by p p').
  Proof. intros. now apply sim_then_ignore; [apply sim_ignore_then|]. Qed.
  Lemma sim_chain {A} (d : dparser I A) p d' p' :
    sim d p -> sim d' p' -> sim (d_chain d d') (p_chain p p').
  Proof. intros. now apply sim_map, sim_then. Qed.
  Lemma sim_or {A} (d : dparser I A) p d' p' : sim d p -> sim d' p' -> sim (d_or d d') (p_or p p').
  Proof.
    intros H H' s HV. specialize (H s HV). specialize (H' s HV). unfold d_or, p_or.
    destruct (d s) as [e a alt s1| |], (p s) as [e0 a0 s0| |]; simpl in H; try tauto.
    - destruct H as (He & <- & <- & HV1). destruct He as [|x y l l' Hxy Hl].
      + simpl; auto.
      + destruct (d' s), (p' s); simpl in H'; try tauto.
        * destruct H' as (He' & <- & <- & HV2).
          rewrite (forall2_length _ _ _ He'). cbn [length]. rewrite (forall2_length _ _ _ Hl).
          destruct (_ <? _); simpl; auto.
        * simpl; auto.
    - destruct (d' s), (p' s); simpl in H'; try tauto; simpl; auto.
  Qed.
  Lemma sim_choice {A} (ds : list (dparser I A)) ps : Forall2 sim ds ps -> sim (d_choice ds) (p_choice ps).
  Proof.
    unfold d_choice. intros H. generalize (@None (located I)).
    induction H as [|d p ds ps Hdp _ IH]; intros alt s HV; cbn [d_choice_from p_choice].
    - destruct alt; simpl; auto.
    - specialize (Hdp s HV). destruct (d s), (p s); simpl in *; try tauto. now apply IH.
  Qed.
  Lemma sim_or_not {A} (d : dparser I A) p : sim d p -> sim (d_or_not d) (p_or_not p).
  Proof.
    intros H s HV. specialize (H s HV). unfold d_or_not, p_or_not.
    destruct (d s), (p s); simpl in *; try tauto; auto.
    destruct H as (He & <- & <- & HV'). auto.
  Qed.
  Lemma sim_rep_loop {A} (d : dparser I A) p : sim d p ->
    forall fuel old e e' alt acc s, V s -> Forall2 R e e' ->
    sim_result (d_rep_loop d fuel old e alt acc s) (p_rep_loop p fuel old e' acc s).
  Proof.
    intros H. induction fuel as [|fuel IH]; intros old e e' alt acc s HV He; simpl; auto.
    specialize (H s HV). destruct (d s), (p s); simpl in H; try tauto.
    - destruct H as (He1 & <- & <- & HV1). destruct (match old with Some _ => _ | None => _ end); simpl; auto.
      apply IH; auto. now apply Forall2_app.
    - simpl. auto.
  Qed.
  Lemma sim_repeated {A} (d : dparser I A) p : sim d p -> sim (d_repeated d) (p_repeated p).
  Proof. intros H s HV. now apply sim_rep_loop. Qed.
  Lemma sim_exactly {A} n (d : dparser I A) p : sim d p -> sim (d_exactly n d) (p_exactly n p).
  Proof.
    intros H. induction n as [|n IH]; simpl.
    - intros s HV. simpl. auto.
    - now apply sim_map, sim_then.
  Qed.
  Lemma sim_map_with_span {A B} (f : A -> nat * nat -> B) d p :
    sim d p -> sim (d_map_with_span f d) (p_map_with_span f p).
  Proof.
    intros H s HV. specialize (H s HV). unfold d_map_with_span, p_map_with_span.
    destruct (d s), (p s); simpl in *; try tauto. destruct H as (He & <- & <- & HV1). auto.
  Qed.
  Lemma sim_validate {A B} (f : A -> nat * nat -> B * list (diag I)) g d p :
    sim d p ->
    (forall s e a alt s', V s -> d s = DOk e a alt s' ->
       fst (f a (s_off s, s_off s')) = fst (g a (s_off s)) /\
       Forall2 R (snd (f a (s_off s, s_off s'))) (snd (g a (s_off s)))) ->
    sim (d_validate f d) (p_validate g p).
  Proof.
    intros H Hf s HV. pose proof (H s HV) as Hs. unfold d_validate, p_validate.
    destruct (d s) as [e a alt s1| |] eqn:E, (p s) as [e0 a0 s0| |]; simpl in Hs; try tauto.
    destruct Hs as (He & <- & <- & HV1). destruct (Hf _ _ _ _ _ HV E) as [F1 F2].
    destruct (f a _) as [b eb], (g a _) as [b' eb']. simpl in *. subst b'.
    repeat split; auto. now apply Forall2_app.
  Qed.
  Lemma sim_recover_skip {A} (d : dparser I A) p :
    sim d p ->
    (forall s err, V s -> d s = DErr err -> R (DUnexpected err) (ESkipped (s_off s))) ->
    sim (d_recover_skip d) (p_recover_skip p).
  Proof.
    intros H Herr s HV. pose proof (H s HV) as Hs. unfold d_recover_skip, p_recover_skip.
    destruct (d s) as [e a alt s1|err|] eqn:E, (p s) as [e0 a0 s0| |]; simpl in Hs; try tauto;
      try (simpl; tauto).
    pose proof (Herr _ _ HV E) as Re. clear E Hs.
    assert (forall l o, V (mkStream l o) ->
              sim_result (d_skip_retry d err l o) (p_skip_retry p (s_off s) l o)) as K.
    { induction l as [|x l IH]; intros o HV'; cbn [d_skip_retry p_skip_retry];
        pose proof (H _ HV') as Hs;
        destruct (d _) as [e a alt s1|err'|], (p _) as [e0 a0 s0| |]; simpl in Hs; try tauto.
      - destruct Hs as (He & <- & <- & HV1). repeat split; auto. apply Forall2_app; auto.
      - destruct Hs as (He & <- & <- & HV1). repeat split; auto. apply Forall2_app; auto.
      - apply IH. eauto. }
    apply K. destruct s; auto.
  Qed.
End Sim.

(** ** The module parser *)

Definition quietly : diag token -> perror -> Prop := fun _ _ => False.
Definition any_stream : stream token -> Prop := fun _ => True.
Notation msim := (sim any_stream quietly).

Lemma msim_ident : msim d_ident p_ident.
Proof. apply sim_filter_map. unfold any_stream; auto. Qed.
Lemma msim_tok t : msim (d_tok t) (p_tok t).
Proof. apply sim_just. unfold any_stream; auto. Qed.
Lemma msim_separator : msim d_separator p_separator.
Proof. apply sim_choice. repeat constructor; apply sim_to, msim_tok. Qed.
Lemma msim_pad : msim d_pad p_pad.
Proof. apply sim_repeated, msim_separator. Qed.
Lemma msim_field_type : msim d_field_type p_field_type.
Proof. apply sim_choice. repeat constructor; apply sim_to, msim_tok. Qed.
Lemma msim_field_key : msim d_field_key p_field_key.
Proof. apply sim_choice. repeat constructor; apply sim_to, msim_tok. Qed.
Lemma msim_entity_path : msim d_entity_path p_entity_path.
Proof.
  apply sim_map, sim_then; [apply msim_ident|].
  apply sim_ignore_then; [apply msim_tok|apply sim_or_not, msim_ident].
Qed.
Lemma msim_entity_field : msim d_entity_field p_entity_field.
Proof.
  apply sim_map, sim_then; [|apply sim_or_not, msim_field_key].
  apply sim_then; [apply msim_ident|apply msim_field_type].
Qed.
Lemma msim_sep_item {A} (d : dparser token A) p : msim d p ->
  msim (d_ignore_then (d_ignore_then d_separator d_pad) d)
       (p_ignore_then (p_ignore_then p_separator p_pad) p).
Proof.
  intros H. apply sim_ignore_then; [|exact H].
  apply sim_ignore_then; [apply msim_separator|apply msim_pad].
Qed.
Lemma msim_sep_rest {A} (d : dparser token A) p : msim d p -> msim (d_sep_rest d) (p_sep_rest p).
Proof. intros H. now apply sim_repeated, msim_sep_item. Qed.
Lemma msim_entity_fields : msim d_entity_fields p_entity_fields.
Proof.
  apply sim_map, sim_padded_by; [|apply msim_pad].
  apply sim_or_not, sim_chain; [apply msim_entity_field|apply msim_sep_rest, msim_entity_field].
Qed.
Lemma msim_entity_definition : msim d_entity_definition p_entity_definition.
Proof.
  apply sim_map, sim_then_ignore; [|apply msim_tok].
  apply sim_then; [|apply msim_entity_fields].
  apply sim_then_ignore; [|apply msim_tok].
  apply sim_then_ignore; [apply msim_ident|apply msim_pad].
Qed.
Lemma msim_relation : msim d_relation p_relation.
Proof.
  apply sim_map, sim_then; [apply msim_entity_path|].
  apply sim_ignore_then; [|apply msim_entity_path].
  apply sim_padded_by; [apply msim_tok|apply msim_pad].
Qed.
Lemma msim_module_entry : msim d_module_entry p_module_entry.
Proof.
  apply sim_choice. repeat constructor; apply sim_map; [apply msim_entity_definition|apply msim_relation].
Qed.
Lemma msim_module_entries : msim d_module_entries p_module_entries.
Proof.
  apply sim_map, sim_or_not, sim_chain; [apply msim_module_entry|apply msim_sep_rest, msim_module_entry].
Qed.
Lemma msim_erd_module : msim d_erd_module_parser erd_module_parser.
Proof.
  apply sim_map, sim_padded_by; [|apply msim_pad].
  apply sim_then_ignore; [|apply msim_tok].
  apply sim_then; [|apply sim_padded_by; [apply msim_module_entries|apply msim_pad]].
  apply sim_then_ignore; [|apply msim_tok].
  apply sim_ignore_then; [apply sim_padded_by; [apply msim_tok|apply msim_pad]|].
  apply sim_or_not, sim_padded_by; [apply msim_ident|apply msim_pad].
Qed.
