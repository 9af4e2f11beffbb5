(** Where the module parser reports a syntax error: at the token at which an
    automaton for the grammar gets stuck. *)
From Coq Require Import String Ascii List Arith NArith Bool Lia.
From Verif Require Import Base Chumsky ChumskyFacts Erd Parser Diag SpecLex SpecGrammar
  GrammarFacts DiagFacts SpecDiag.
Import ListNotations.

(** ** An automaton for the grammar *)

Inductive st := S0 | S1 | S2 | M0 | M1 | E1 | E2 | D0 | F1 | F2 | F3 | R1 | R2 | R3 | R4 | R5 | Fin.

Inductive tclass := CSep | COpen | CClose | CDot | CIdent | CErd | CType | CKey | CEdge | CNone.
Definition classify (t : token) : tclass :=
  match t with
  | KEdge => CEdge
  | KIdent _ => CIdent
  | KErd => CErd
  | KInt | KUuid | KText | KTimestamp => CType
  | KPK | KFK => CKey
  | KCtrl c => if N.eqb c (ch ";") then CSep
               else if N.eqb c (ch "{") then COpen
               else if N.eqb c (ch "}") then CClose
               else if N.eqb c (ch ".") then CDot else CNone
  | KNewline => CSep
  end.
Definition move (q : st) (c : tclass) : option st :=
  match q, c with
  | S0, CSep => Some S0 | S0, CErd => Some S1
  | S1, CSep => Some S1 | S1, CIdent => Some S2 | S1, COpen => Some M0
  | S2, CSep => Some S2 | S2, COpen => Some M0
  | M0, CSep => Some M0 | M0, CIdent => Some E1 | M0, CClose => Some Fin
  | M1, CSep => Some M0 | M1, CClose => Some Fin
  | E1, CSep => Some E2 | E1, COpen => Some D0 | E1, CDot => Some R1
  | E2, CSep => Some E2 | E2, COpen => Some D0
  | D0, CSep => Some D0 | D0, CIdent => Some F1 | D0, CClose => Some M1
  | F1, CType => Some F2
  | F2, CSep => Some D0 | F2, CKey => Some F3 | F2, CClose => Some M1
  | F3, CSep => Some D0 | F3, CClose => Some M1
  | R1, CSep => Some R2 | R1, CIdent => Some R2 | R1, CEdge => Some R3
  | R2, CSep => Some R2 | R2, CEdge => Some R3
  | R3, CSep => Some R3 | R3, CIdent => Some R4
  | R4, CDot => Some R5
  | R5, CSep => Some M0 | R5, CIdent => Some M1 | R5, CClose => Some Fin
  | Fin, CSep => Some Fin
  | _, _ => None
  end.
Definition delta (q : st) (t : token) : option st := move q (classify t).
Fixpoint run (q : st) (u : list token) : option st :=
  match u with
  | [] => Some q
  | t :: u' => match delta q t with Some q' => run q' u' | None => None end
  end.

Lemma run_app q u v : run q (u ++ v) = match run q u with Some q' => run q' v | None => None end.
Proof. revert q. induction u as [|t u IH]; intros q; simpl; auto. destruct (delta q t); auto. Qed.

(** ** Errors are sound: they lie where the automaton has not got stuck, and name
    tokens it would accept. *)

Definition loc_ok (q : st) (s : stream token) (e : located token) : Prop :=
  exists u q' r, s_rest s = u ++ r /\ l_at e = s_off s + length u /\ run q u = Some q' /\
    l_found e = hd_error r /\
    forall t, In t (l_expected e) -> delta q' t <> None /\ ~ a_name t.

Definition moves (P : list st) (t : token) (Q : list st) : Prop :=
  forall q, In q P -> exists q', delta q t = Some q' /\ In q' Q.

Definition good {A} (P : list st) (d : dparser token A) (Q : list st) : Prop :=
  forall s q, In q P ->
  match d s with
  | DOk _ _ alt s' =>
      (exists u q', s_rest s = u ++ s_rest s' /\ s_off s' = s_off s + length u /\
                    run q u = Some q' /\ In q' Q) /\
      (forall e, alt = Some e -> loc_ok q s e)
  | DErr e => loc_ok q s e
  | DAbort _ => True
  end.

Lemma prefix_eq {A} (u v r r' : list A) : u ++ r = v ++ r' -> length u = length v -> u = v /\ r = r'.
Proof.
  revert v. induction u as [|x u IH]; intros [|y v]; simpl; try discriminate; auto.
  intros [= -> E] [= L]. destruct (IH v E L). subst. auto.
Qed.

Lemma loc_max q s a b : loc_ok q s a -> loc_ok q s b -> loc_ok q s (l_max a b).
Proof.
  intros Ha Hb. unfold l_max. destruct (l_at b <? l_at a) eqn:E1; auto.
  destruct (l_at a <? l_at b) eqn:E2; auto. apply Nat.ltb_ge in E1, E2.
  destruct Ha as (u & q1 & r & Hu & Au & Ru & Fu & Xu), Hb as (v & q2 & r' & Hv & Av & Rv & Fv & Xv).
  destruct (prefix_eq u v r r') as [-> ->]; [congruence|lia|].
  exists v, q2, r'. repeat split; auto; cbn [l_expected] in *; rewrite Rv in Ru; injection Ru as <-.
  - apply in_app_iff in H as [H|H]; [apply Xu|apply Xv]; auto.
  - apply in_app_iff in H as [H|H]; [apply Xu|apply Xv]; auto.
Qed.
Lemma loc_max_alt q s a b : loc_ok q s a -> (forall e, b = Some e -> loc_ok q s e) -> loc_ok q s (l_max_alt a b).
Proof. intros Ha Hb. destruct b; simpl; auto. apply loc_max; auto. Qed.
Lemma loc_merge q s a b e :
  (forall e, a = Some e -> loc_ok q s e) -> (forall e, b = Some e -> loc_ok q s e) ->
  merge_alts a b = Some e -> loc_ok q s e.
Proof.
  intros Ha Hb. destruct a as [a|]; simpl.
  - intros [= <-]. apply loc_max_alt; auto.
  - apply Hb.
Qed.
Lemma loc_shift q s q' s' u e :
  s_rest s = u ++ s_rest s' -> s_off s' = s_off s + length u -> run q u = Some q' ->
  loc_ok q' s' e -> loc_ok q s e.
Proof.
  intros Hu Ou Ru (v & q2 & r & Hv & Av & Rv & F & X).
  exists (u ++ v), q2, r. rewrite Hu, Hv, app_assoc, app_length, Av, Ou, run_app, Ru.
  repeat split; auto; try lia; now apply X.
Qed.
Lemma loc_here q s l : (forall t, In t l -> delta q t <> None /\ ~ a_name t) -> loc_ok q s (unexpected l s).
Proof.
  intros H. exists [], q, (s_rest s). repeat split; simpl; auto; try lia; try (now apply H).
Qed.

Lemma good_weaken {A} (d : dparser token A) P Q Q' : good P d Q -> incl Q Q' -> good P d Q'.
Proof.
  intros H HQ s q Hq. specialize (H s q Hq). destruct (d s); auto.
  destruct H as [(u & q' & H1 & H2 & H3 & H4) H5]. split; auto. exists u, q'. auto.
Qed.
Lemma good_sub {A} (d : dparser token A) P P' Q : good P d Q -> incl P' P -> good P' d Q.
Proof. intros H HP s q Hq. apply H. auto. Qed.

Lemma good_ident P Q : (forall n, moves P (KIdent n) Q) -> good P d_ident Q.
Proof.
  intros H s q Hq. unfold d_ident, d_filter_map. destruct (s_rest s) as [|x l] eqn:E.
  - apply loc_here. intros t [].
  - destruct x; try (apply loc_here; intros t []).
    split; [|discriminate]. destruct (H s0 q Hq) as (q' & D & Q').
    exists [KIdent s0], q'. cbn [s_rest s_off run app length]. rewrite D, ?E. repeat split; auto; lia.
Qed.
Lemma good_tok P t Q : moves P t Q -> ~ a_name t -> good P (d_tok t) Q.
Proof.
  intros H N s q Hq. unfold d_tok. cbn [d_just].
  destruct (H q Hq) as (q' & D & Q').
  assert (loc_ok q s (unexpected [t] s)) as K.
  { apply loc_here. intros t' [<-|[]]. split; auto. congruence. }
  destruct (s_rest s) as [|x l] eqn:E; auto. destruct (token_eqb t x) eqn:T; auto.
  apply token_eqb_spec in T. subst x. split; [|discriminate].
  exists [t], q'. cbn [s_rest s_off run app length]. rewrite D, ?E. repeat split; auto; lia.
Qed.
Lemma good_map {A B} (f : A -> B) d P Q : good P d Q -> good P (d_map f d) Q.
Proof. intros H s q Hq. specialize (H s q Hq). unfold d_map. destruct (d s); auto. Qed.
Lemma good_to {A B} (b : B) (d : dparser token A) P Q : good P d Q -> good P (d_to b d) Q.
Proof. apply good_map. Qed.
Lemma good_then {A B} (d : dparser token A) (d' : dparser token B) P Q T :
  good P d Q -> good Q d' T -> good P (d_then d d') T.
Proof.
  intros H H' s q Hq. specialize (H s q Hq). unfold d_then. destruct (d s); auto.
  destruct H as [(u & q' & H1 & H2 & H3 & H4) H5]. specialize (H' s0 q' H4).
  destruct (d' s0).
  - destruct H' as [(v & q2 & K1 & K2 & K3 & K4) K5]. split.
    + exists (u ++ v), q2. rewrite H1, K1, app_assoc, app_length, run_app, H3, K2, H2.
      repeat split; auto; lia.
    + intros e. apply loc_merge; auto. intros e' E'. eapply loc_shift; eauto.
  - apply loc_max_alt; auto. eapply loc_shift; eauto.
  - auto.
Qed.
Lemma good_ignore_then {A B} (d : dparser token A) (d' : dparser token B) P Q T :
  good P d Q -> good Q d' T -> good P (d_ignore_then d d') T.
Proof. intros. eapply good_map, good_then; eauto. Qed.
Lemma good_then_ignore {A B} (d : dparser token A) (d' : dparser token B) P Q T :
  good P d Q -> good Q d' T -> good P (d_then_ignore d d') T.
Proof. intros. eapply good_map, good_then; eauto. Qed.
Lemma good_padded {A B} (d : dparser token A) (pad : dparser token B) P P' Q T :
  good P pad P' -> good P' d Q -> good Q pad T -> good P (d_padded_by d pad) T.
Proof. intros. eapply good_then_ignore; [eapply good_ignore_then|]; eauto. Qed.
Lemma good_chain {A} (d : dparser token A) d' P Q T :
  good P d Q -> good Q d' T -> good P (d_chain d d') T.
Proof. intros. eapply good_map, good_then; eauto. Qed.
Lemma good_choice {A} (ds : list (dparser token A)) P Q :
  Forall (fun d => good P d Q) ds -> good P (d_choice ds) Q.
Proof.
  intros H s q Hq. unfold d_choice.
  assert (forall e, (None : option (located token)) = Some e -> loc_ok q s e) as K by discriminate.
  revert K. generalize (@None (located token)).
  induction H as [|d ds Hd _ IH]; intros alt K; cbn [d_choice_from].
  - destruct alt; auto. apply loc_here. intros t [].
  - specialize (Hd s q Hq). destruct (d s); auto.
    + destruct Hd as [H1 H2]. split; auto. intros e. now apply loc_merge.
    + apply IH. intros e'. apply loc_merge; auto. intros e2 [= <-]. auto.
Qed.
Lemma good_or_not {A} (d : dparser token A) P Q : good P d Q -> incl P Q -> good P (d_or_not d) Q.
Proof.
  intros H HP s q Hq. specialize (H s q Hq). unfold d_or_not. destruct (d s); auto. split.
  - exists [], q. simpl. repeat split; auto.
  - intros e' [= <-]. auto.
Qed.
Lemma good_repeated {A} (d : dparser token A) P : good P d P -> good P (d_repeated d) P.
Proof.
  intros H s0 q0 H0. unfold d_repeated.
  assert (forall fuel old e alt acc s q u,
    s_rest s0 = u ++ s_rest s -> s_off s = s_off s0 + length u -> run q0 u = Some q -> In q P ->
    (forall e, alt = Some e -> loc_ok q0 s0 e) ->
    match d_rep_loop d fuel old e alt acc s with
    | DOk _ _ alt s' =>
        (exists u q', s_rest s0 = u ++ s_rest s' /\ s_off s' = s_off s0 + length u /\
                      run q0 u = Some q' /\ In q' P) /\
        (forall e, alt = Some e -> loc_ok q0 s0 e)
    | DErr e => loc_ok q0 s0 e
    | DAbort _ => True
    end) as K.
  { induction fuel as [|fuel IH]; intros old e alt acc s q u Hu Ou Ru Hq Ha; cbn [d_rep_loop]; auto.
    specialize (H s q Hq). destruct (d s); auto.
    - destruct H as [(v & q' & K1 & K2 & K3 & K4) K5].
      destruct (match old with Some _ => _ | None => _ end); auto.
      eapply (IH _ _ _ _ _ q' (u ++ v)); auto.
      + now rewrite Hu, K1, app_assoc.
      + rewrite K2, Ou, app_length. lia.
      + now rewrite run_app, Ru.
      + intros e'. apply loc_merge; auto. intros e2 E2. eapply loc_shift; eauto.
    - split; [exists u, q; auto|]. intros e'. apply loc_merge; auto.
      intros e2 [= <-]. eapply loc_shift; eauto. }
  apply (K _ _ _ _ _ _ q0 []); auto; simpl; try lia; try discriminate.
Qed.

Ltac moves_tac :=
  let q := fresh "q" in let H := fresh "H" in
  intros q H; simpl in H;
  repeat (destruct H as [<-|H]; [eexists; split; [reflexivity|simpl; auto 20]|]); contradiction.
Ltac named := intros [? ?]; discriminate.
Ltac incls := intros ? H; simpl in *; intuition (subst; auto 20).

Lemma good_sep P Q : (forall s, g_sep s -> moves P s Q) -> good P d_separator Q.
Proof.
  intros H. apply good_choice. repeat constructor; apply good_to, good_tok; try named; apply H; constructor.
Qed.
Lemma good_pad P : (forall s, g_sep s -> moves P s P) -> good P d_pad P.
Proof. intros H. apply good_repeated, good_sep, H. Qed.

Lemma good_field : good [D0] d_entity_field [F2; F3].
Proof.
  apply good_map. eapply good_then; [eapply good_then|].
  - apply (good_ident [D0] [F1]). intros n. moves_tac.
  - apply (good_choice _ [F1] [F2]). repeat constructor; apply good_to, good_tok; try named; moves_tac.
  - apply good_or_not; [|incls]. apply (good_choice _ [F2] [F2; F3]).
    repeat constructor; apply good_to, good_tok; try named; moves_tac.
Qed.
Lemma good_sep_rest {A} (d : dparser token A) P Q :
  good Q d P -> (forall s, g_sep s -> moves P s Q) -> (forall s, g_sep s -> moves Q s Q) ->
  good P (d_sep_rest d) P.
Proof.
  intros H H1 H2. apply good_repeated. eapply good_ignore_then; [|exact H].
  eapply good_ignore_then; [apply good_sep, H1|apply good_pad, H2].
Qed.
Lemma good_fields : good [D0] d_entity_fields [D0; F2; F3].
Proof.
  apply good_map. eapply good_padded with (P' := [D0]) (Q := [D0; F2; F3]).
  - apply good_pad. intros s []; moves_tac.
  - apply good_or_not; [|incls].
    apply good_weaken with (Q := [F2; F3]); [|incls].
    eapply good_chain; [apply good_field|]. apply good_sep_rest with (Q := [D0]).
    + apply good_field.
    + intros s []; moves_tac.
    + intros s []; moves_tac.
  - apply good_pad. intros s []; moves_tac.
Qed.
Lemma good_definition : good [M0] d_entity_definition [M1].
Proof.
  apply good_map. eapply good_then_ignore with (Q := [D0; F2; F3]); [|apply good_tok; [moves_tac|named]].
  eapply good_then; [|apply good_fields].
  eapply good_then_ignore with (Q := [E1; E2]); [|apply good_tok; [moves_tac|named]].
  eapply good_then_ignore with (Q := [E1; E2]).
  - apply good_weaken with (Q := [E1]); [|incls]. apply good_ident. intros n. moves_tac.
  - apply good_pad. intros s []; moves_tac.
Qed.
Lemma good_path P Q T U : (forall n, moves P (KIdent n) Q) -> moves Q Dot T -> (forall n, moves T (KIdent n) U) ->
  incl T U -> good P d_entity_path U.
Proof.
  intros H1 H2 H3 H4. apply good_map. eapply good_then; [apply good_ident, H1|].
  eapply good_ignore_then; [apply good_tok; [exact H2|named]|].
  apply good_or_not; auto. apply good_ident, H3.
Qed.
Lemma good_relation : good [M0] d_relation [M1; R5].
Proof.
  apply good_map. eapply good_then with (Q := [R1; R2]).
  - apply (good_path [M0] [E1] [R1] [R1; R2]); [intros n; moves_tac|moves_tac|intros n; moves_tac|incls].
  - eapply good_ignore_then with (Q := [R3]).
    + eapply good_padded with (P' := [R1; R2]) (Q := [R3]).
      * apply good_pad. intros s []; moves_tac.
      * apply good_tok; [moves_tac|named].
      * apply good_pad. intros s []; moves_tac.
    + apply (good_path [R3] [R4] [R5] [M1; R5]); [intros n; moves_tac|moves_tac|intros n; moves_tac|incls].
Qed.
Lemma good_entry : good [M0] d_module_entry [M1; R5].
Proof.
  apply good_choice. repeat constructor; apply good_map.
  - apply good_weaken with (Q := [M1]); [apply good_definition|incls].
  - apply good_relation.
Qed.
Lemma good_entries : good [M0] d_module_entries [M0; M1; R5].
Proof.
  apply good_map, good_or_not; [|incls].
  apply good_weaken with (Q := [M1; R5]); [|incls].
  eapply good_chain; [apply good_entry|]. apply good_sep_rest with (Q := [M0]).
  - apply good_entry.
  - intros s []; moves_tac.
  - intros s []; moves_tac.
Qed.
Lemma good_module : good [S0] d_erd_module_parser [Fin].
Proof.
  apply good_map. eapply good_padded with (P' := [S0]) (Q := [Fin]);
    [apply good_pad; intros s []; moves_tac| |apply good_pad; intros s []; moves_tac].
  eapply good_then_ignore with (Q := [M0; M1; R5]); [|apply good_tok; [moves_tac|named]].
  eapply good_then with (Q := [M0]).
  - eapply good_then_ignore with (Q := [S1; S2]); [|apply good_tok; [moves_tac|named]].
    eapply good_ignore_then with (Q := [S1]).
    + eapply good_padded with (P' := [S0]) (Q := [S1]);
        [apply good_pad; intros s []; moves_tac| |apply good_pad; intros s []; moves_tac].
      apply good_tok; [moves_tac|named].
    + apply good_or_not; [|incls].
      apply good_weaken with (Q := [S2]); [|incls].
      eapply good_padded with (P' := [S1]) (Q := [S2]);
        [apply good_pad; intros s []; moves_tac| |apply good_pad; intros s []; moves_tac].
      apply good_ident. intros n. moves_tac.
  - eapply good_padded with (P' := [M0]) (Q := [M0; M1; R5]);
      [apply good_pad; intros s []; moves_tac|apply good_entries|apply good_pad; intros s []; moves_tac].
Qed.
