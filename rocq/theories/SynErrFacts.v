(** What the module parser says about every list of tokens. *)
From Coq Require Import String Ascii List Arith NArith Bool Lia.
From Verif Require Import Base Chumsky ChumskyFacts Erd Parser Diag SpecLex SpecGrammar
  GrammarFacts ParseFacts DiagFacts SpecDiag SyntaxFacts ViableFacts FeelFacts.
Import ListNotations.

Lemma longest_run ts : exists u r q, ts = u ++ r /\ run S0 u = Some q /\ stuck q r.
Proof.
  cut (forall q0, exists u r q, ts = u ++ r /\ run q0 u = Some q /\ stuck q r); auto.
  induction ts as [|t ts IH]; intros q0.
  - exists [], [], q0. repeat split; auto. discriminate.
  - destruct (delta q0 t) as [q1|] eqn:E.
    + destruct (IH q1) as (u & r & q & -> & R & S). exists (t :: u), r, q. repeat split; auto.
      cbn [run]. now rewrite E.
    + exists [], (t :: ts), q0. repeat split; auto. now intros t' r' [= <- <-].
Qed.

(** A token that is no name can stand in every place. *)
Lemma some_token q : exists t, delta q t <> None /\ ~ a_name t.
Proof.
  exists (match q with F1 => KInt | R4 => Dot | _ => KNewline end).
  split; [destruct q; discriminate|]. intros (n & E). destruct q; discriminate.
Qed.

Lemma viable_next u q t : run S0 u = Some q -> (viable (u ++ [t]) <-> delta q t <> None).
Proof.
  intros R. rewrite viable_run. split.
  - intros (q' & H). rewrite run_app, R in H. cbn [run] in H. destruct (delta q t); discriminate.
  - intros H. destruct (delta q t) as [q'|] eqn:E; [|contradiction]. exists q'.
    rewrite run_app, R. cbn [run]. now rewrite E.
Qed.

Theorem error_points_out ts e : d_erd_module_parser (mkStream ts 0) = DErr e -> points_out ts e.
Proof.
  intros He. destruct (longest_run ts) as (u & r & q & Ets & Ru & St).
  assert (q <> Fin) as Hq.
  { intros ->. apply run_shape in Ru as (m & Hm).
    destruct (complete_erd_module u m r 0 Hm) as (s' & E).
    pose proof (msim_erd_module (mkStream ts 0) I) as K. rewrite Ets in He, K. rewrite He, E in K. exact K. }
  pose proof (good_module (mkStream ts 0) S0 (or_introl eq_refl)) as G. rewrite He in G.
  destruct G as (u' & q' & r' & Ets' & Hat & Ru' & Hf & Hexp). cbn [s_rest s_off] in *.
  assert (forall t, delta q t <> None -> ~ a_name t -> holds e (length u) t) as K.
  { intros t H1 H2. pose proof (feels_stuck q u r t (run_shape u q Ru) Hq St H1 H2 0) as F.
    rewrite <- Ets, He in F. exact F. }
  assert (length u' <= length u) as L1.
  { destruct (le_lt_dec (length u') (length u)) as [|L]; auto. exfalso.
    assert (u' = u ++ skipn (length u) u') as Eu.
    { rewrite <- (firstn_skipn (length u) u') at 1. f_equal.
      assert (firstn (length u) (u' ++ r') = firstn (length u) (u ++ r)) as X by congruence.
      rewrite !firstn_app in X. replace (length u - length u') with 0 in X by lia.
      rewrite Nat.sub_diag, firstn_all in X. cbn [firstn] in X. now rewrite !app_nil_r in X. }
    assert (skipn (length u) u' <> []) as Nz.
    { intros Z. apply (f_equal (@length token)) in Z. rewrite skipn_length in Z. simpl in Z. lia. }
    destruct (skipn (length u) u') as [|t w] eqn:Ew; [contradiction|]. subst u'.
    rewrite Ets' in Ets. rewrite <- app_assoc in Ets. apply app_inv_head in Ets.
    rewrite run_app, Ru in Ru'. cbn [run] in Ru'. rewrite (St t (w ++ r')) in Ru' by (now rewrite <- Ets).
    discriminate. }
  assert (length u <= l_at e) as L2.
  { destruct (some_token q) as (t & H1 & H2). destruct (K t H1 H2) as [|[]]; lia. }
  destruct (prefix_eq u' u r' r) as [-> ->]; [congruence|lia|].
  rewrite Ru in Ru'. injection Ru' as <-.
  assert (l_at e = length u) as At by lia.
  assert (firstn (l_at e) ts = u) as Ef.
  { rewrite Ets, At, firstn_app, Nat.sub_diag, firstn_all. apply app_nil_r. }
  assert (l_found e = nth_error ts (l_at e)) as Fnd.
  { rewrite Hf, Ets, At, nth_error_app2, Nat.sub_diag by lia. now destruct r. }
  constructor; rewrite ?Ef; auto.
  - rewrite Ets, app_length. lia.
  - apply viable_run. eauto.
  - intros t Ht V. rewrite Hf in Ht. destruct r as [|x r]; [discriminate|]. injection Ht as ->.
    apply (viable_next u q t Ru) in V. apply V. eapply St; eauto.
  - intros t. rewrite (viable_next u q t Ru). split; [apply Hexp|].
    intros [H1 H2]. destruct (K t H1 H2) as [|[_ H]]; [lia|auto].
  - destruct (some_token q) as (t & H1 & H2). destruct (K t H1 H2) as [|[_ H]]; [lia|].
    intros Z. rewrite Z in H. destruct H.
Qed.

(** Either some leading tokens are a module, and there is no error, or none are,
    and there is one. *)
Theorem verdict ts :
  (exists u r m, ts = u ++ r /\ g_module u m /\
     d_parse_recovery d_erd_module_parser ts = Ret (Some m, [])) \/
  (~ (exists u r m, ts = u ++ r /\ g_module u m) /\
   exists e, d_parse_recovery d_erd_module_parser ts = Ret (None, [DUnexpected e]) /\ points_out ts e).
Proof.
  pose proof (msim_erd_module (mkStream ts 0) I) as K. unfold d_parse_recovery.
  destruct (d_erd_module_parser (mkStream ts 0)) as [errs m alt s|e|x] eqn:E;
    destruct (erd_module_parser (mkStream ts 0)) as [errs' m' s'| |x'] eqn:E'; simpl in K; try contradiction.
  - destruct K as (F & -> & -> & _). apply sound_erd_module in E' as (-> & u & Hu & Hm).
    inversion F; subst. left. exists u, (s_rest s'), m'. auto.
  - right. split.
    + intros (u & r & m & -> & Hm). destruct (complete_erd_module u m r 0 Hm) as (s' & E2). congruence.
    + exists e. split; auto. now apply error_points_out.
  - exfalso. pose proof (adv_erd_module (mkStream ts 0)) as X. rewrite E' in X. exact X.
Qed.
