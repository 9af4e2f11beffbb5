(** Consequences of the tokenizer theorem: spans, error positions, quoting. *)
From Coq Require Import String Ascii List Arith NArith Bool Lia.
From Verif Require Import Base Chumsky ChumskyFacts Parser SpecLex LexFacts.
Import ListNotations.

Lemma lexeme_nonempty u t : lexeme u t -> u <> [].
Proof. intros H. apply lexeme_head in H as (c & u' & -> & _). discriminate. Qed.

Lemma tolerated_app o s u t r bad : tolerated o s u t r bad -> s = u ++ r /\ u <> [].
Proof.
  destruct 1 as [(-> & L & _)|b v bad -> -> _ _ _].
  - split; auto. eapply lexeme_nonempty; eauto.
  - split; auto. discriminate.
Qed.

Lemma skips_app s r : skips s r -> exists p, s = p ++ r.
Proof.
  induction 1 as [s|c s r _ _ [p ->]|txt r _ _].
  - exists []. auto.
  - exists (c :: p). auto.
  - exists (lit "//" ++ txt). now rewrite <- app_assoc.
Qed.

Lemma quoted_bad_range o b v bad : quoted_lenient o b v bad ->
  Forall (fun p => o <= p < o + length b) bad.
Proof.
  induction 1 as [| o c b s bad _ _ _ IH | o e c b s bad _ _ IH | o c1 c2 c3 c4 d1 d2 d3 d4 b s bad _ _ _ _ _ _ IH].
  - constructor.
  - eapply Forall_impl; [|exact IH]. simpl. intros; lia.
  - eapply Forall_impl; [|exact IH]. rewrite app_length. simpl. intros; lia.
  - rewrite app_length. cbn [length]. constructor; [lia|].
    eapply Forall_impl; [|exact IH]. simpl. intros; lia.
Qed.

Lemma tolerated_bad o s u t r bad : tolerated o s u t r bad ->
  Forall (fun p => o <= p < o + length u) bad.
Proof.
  destruct 1 as [|b v bad _ -> _ Q _]; [constructor|].
  apply quoted_bad_range in Q. eapply Forall_impl; [|exact Q].
  cbn [length]. rewrite app_length. simpl. intros; lia.
Qed.

Definition err_in (lo hi : nat) (e : perror) : Prop :=
  exists p, error_offset e = Some p /\ lo <= p < hi.

Lemma scans_spans o s toks errs r : scans o s toks errs r ->
  spans_in (o + length s) o toks /\ Forall (err_in o (o + length s)) errs.
Proof.
  induction 1 as [o s|o s junk w u t r r' bad ts errs start stop Sk -> U Hj T -> _ [IH1 IH2]].
  - split; constructor.
  - apply skips_app in Sk as [p ->].
    pose proof (tolerated_bad _ _ _ _ _ _ T) as B. apply tolerated_app in T as [-> Nu].
    assert (0 < length u) by (destruct u; simpl; [congruence|lia]).
    rewrite !app_length in *.
    replace (o + (length p + (length junk + (length u + length r)) - (length junk + (length u + length r)))
             + length junk + length u + length r)
      with (o + (length p + (length junk + (length u + length r)))) in * by lia.
    split.
    + constructor; auto; lia.
    + apply Forall_app. split; [|apply Forall_app; split].
      * rewrite Forall_map. eapply Forall_impl; [|exact B]. intros x Hx. cbv beta in Hx. exists x. simpl. split; auto; lia.
      * destruct junk; repeat constructor. eexists. split; [reflexivity|]. simpl in *. lia.
      * eapply Forall_impl; [|exact IH2]. intros e (q & Eq & Hq). exists q. split; auto; lia.
Qed.

Theorem tokenizer_spans src toks errs :
  parse_recovery tokenizer src = Ret (Some toks, errs) ->
  spans_in (length src) 0 toks /\ Forall (err_in 0 (length src)) errs.
Proof.
  intros H. destruct (tokenizer_scans src) as (toks' & errs' & r & E & S & _).
  rewrite E in H. injection H as -> ->. apply scans_spans in S. auto.
Qed.

Lemma slice_mid (p u r : str) : slice (p ++ u ++ r) (length p) (length p + length u) = u.
Proof.
  unfold slice. rewrite skipn_app, skipn_all, Nat.sub_diag. cbn [skipn app].
  replace (length p + length u - length p) with (length u) by lia.
  rewrite firstn_app, firstn_all, Nat.sub_diag. cbn [firstn]. now rewrite app_nil_r.
Qed.

Lemma reads_slices o s toks r : reads o s toks r ->
  forall pre, length pre = o ->
  Forall (fun x => lexeme (slice (pre ++ s) (fst (snd x)) (snd (snd x))) (fst x)) toks.
Proof.
  induction 1 as [o s|o s s1 u t r r' ts start stop Sk St -> -> _ IH]; intros pre Hp.
  - constructor.
  - apply skips_app in Sk as [p ->]. destruct St as (-> & L & _).
    rewrite !app_length in *.
    replace (o + (length p + (length u + length r) - (length u + length r))) with (length (pre ++ p)) in *
      by (rewrite app_length; lia).
    constructor.
    + cbn [fst snd]. rewrite app_assoc, slice_mid. exact L.
    + specialize (IH ((pre ++ p) ++ u)). rewrite app_length in IH. specialize (IH eq_refl).
      rewrite <- !app_assoc in IH. exact IH.
Qed.

Theorem tokenizer_slices src toks :
  parse_recovery tokenizer src = Ret (Some toks, []) ->
  Forall (fun x => lexeme (slice src (fst (snd x)) (snd (snd x))) (fst x)) toks.
Proof.
  intros H. apply tokenizer_reads in H as (r & R & _).
  apply (reads_slices _ _ _ _ R []). auto.
Qed.

(** Every reported skip belongs to a token whose span starts there, and no token
    begins in the skipped characters. *)
Lemma scans_skipped o s toks errs r : scans o s toks errs r ->
  forall pre p, length pre = o -> In (ESkipped p) errs ->
  exists t b junk w u r' bad,
    In (t, (p, b)) toks /\ junk <> [] /\ skipn p (pre ++ s) = junk ++ w /\
    (forall j1 j2 u t r bad o', junk = j1 ++ j2 -> j2 <> [] -> ~ tolerated o' (j2 ++ w) u t r bad) /\
    tolerated (p + length junk) w u t r' bad /\ b = p + length junk + length u.
Proof.
  induction 1 as [o s|o s junk w u t r r' bad ts errs start stop Sk -> U Hj T -> _ IH];
    intros pre p Hp Hin.
  - destruct Hin.
  - apply in_app_or in Hin as [Hin|Hin].
    { apply in_map_iff in Hin as (x & Ex & _). discriminate. }
    apply skips_app in Sk as [q Eq].
    assert (o + (length s - length (junk ++ w)) = length (pre ++ q)) as Est.
    { rewrite app_length, Eq, !app_length. lia. }
    rewrite Est in *.
    apply in_app_or in Hin as [Hin|Hin].
    + destruct junk as [|c junk]; [destruct Hin|].
      destruct Hin as [Hin|[]]. injection Hin as <-.
      eexists t, _, (c :: junk), w, u, r, bad. repeat split; eauto.
      * left. reflexivity.
      * discriminate.
      * rewrite Eq, app_assoc, skipn_app, skipn_all, Nat.sub_diag. reflexivity.
    + destruct (tolerated_app _ _ _ _ _ _ T) as [Ew _].
      destruct (IH (pre ++ q ++ junk ++ u) p) as (t' & b & junk' & w' & u' & r'' & bad' & H1 & H2 & H3 & H4 & H5 & H6);
        auto.
      { rewrite !app_length in *. lia. }
      exists t', b, junk', w', u', r'', bad'. repeat split; auto.
      * right. auto.
      * rewrite <- H3, Eq, Ew, <- !app_assoc. auto.
Qed.

Theorem tokenizer_skipped src toks errs p :
  parse_recovery tokenizer src = Ret (Some toks, errs) ->
  In (ESkipped p) errs ->
  exists t b junk w u r bad,
    In (t, (p, b)) toks /\ junk <> [] /\ skipn p src = junk ++ w /\
    (forall j1 j2 u t r bad o', junk = j1 ++ j2 -> j2 <> [] -> ~ tolerated o' (j2 ++ w) u t r bad) /\
    tolerated (p + length junk) w u t r bad /\ b = p + length junk + length u.
Proof.
  intros H. destruct (tokenizer_scans src) as (toks' & errs' & r & E & S & _).
  rewrite E in H. injection H as -> ->. intros Hin.
  apply (scans_skipped _ _ _ _ _ S []); auto.
Qed.

(** *** Quoting *)

(** A spelling of any name: back quotes, with backslash before the two
    characters that need it. *)
Fixpoint quote_body (s : str) : str :=
  match s with
  | [] => []
  | c :: s' =>
      if (N.eqb c backslash || N.eqb c backquote)%bool then backslash :: c :: quote_body s'
      else c :: quote_body s'
  end.
Definition quote (s : str) : str := backquote :: quote_body s ++ [backquote].

Lemma quote_quoted s : quoted (quote_body s) s.
Proof.
  induction s as [|c s IH]; simpl; [constructor|].
  destruct (N.eqb c backslash) eqn:E1; simpl.
  - apply N.eqb_eq in E1. subst c. apply (quoted_escape [backslash; 92%N]); auto. constructor.
  - destruct (N.eqb c backquote) eqn:E2.
    + apply N.eqb_eq in E2. subst c. apply (quoted_escape [backslash; 96%N]); auto. constructor.
    + apply N.eqb_neq in E1, E2. constructor; auto.
Qed.

Lemma barren_nil : barren [].
Proof.
  exists []. split; [constructor|]. split.
  - split; intros; discriminate.
  - intros v w u t r E (-> & L & _). symmetry in E. apply app_eq_nil in E as [_ E].
    apply app_eq_nil in E as [-> _]. now apply lexeme_nonempty in L.
Qed.

Lemma quoted_token_alone b s :
  quoted b s ->
  parse_recovery tokenizer (backquote :: b ++ [backquote]) =
  Ret (Some [(KIdent s, (0, length (backquote :: b ++ [backquote])))], []).
Proof.
  intros Q. apply tokenizer_reads. exists []. split; [|apply barren_nil].
  eapply reads_cons.
  - constructor.
  - split; [now rewrite app_nil_r|]. split; [apply lx_quote; exact Q|].
    apply not_word_delimited, not_word_cons. reflexivity.
  - rewrite Nat.sub_diag. reflexivity.
  - reflexivity.
  - constructor.
Qed.

Lemma quote_token s :
  parse_recovery tokenizer (quote s) = Ret (Some [(KIdent s, (0, length (quote s)))], []).
Proof. apply quoted_token_alone, quote_quoted. Qed.

(** The same in any context. *)
Lemma quote_starts s r : starts_with (quote s ++ r) (quote s) (KIdent s) r.
Proof.
  split; auto. split; [apply lx_quote, quote_quoted|].
  apply not_word_delimited, not_word_cons. reflexivity.
Qed.

Local Open Scope N_scope.
Definition uescape (c1 c2 c3 c4 : char) : str := [backquote; backslash; 117; c1; c2; c3; c4; backquote].

Lemma uescape_good c1 c2 c3 c4 d1 d2 d3 d4 :
  hex_digit c1 d1 -> hex_digit c2 d2 -> hex_digit c3 d3 -> hex_digit c4 d4 ->
  scalar (4096 * d1 + 256 * d2 + 16 * d3 + d4) ->
  parse_recovery tokenizer (uescape c1 c2 c3 c4) =
  Ret (Some [(KIdent [4096 * d1 + 256 * d2 + 16 * d3 + d4], (0, 8)%nat)], []).
Proof.
  intros H1 H2 H3 H4 Hs.
  apply (quoted_token_alone [backslash; 117; c1; c2; c3; c4]).
  apply (quoted_escape [backslash; 117; c1; c2; c3; c4] _ [] []); constructor; auto.
Qed.

Lemma uescape_bad c1 c2 c3 c4 d1 d2 d3 d4 :
  hex_digit c1 d1 -> hex_digit c2 d2 -> hex_digit c3 d3 -> hex_digit c4 d4 ->
  ~ scalar (4096 * d1 + 256 * d2 + 16 * d3 + d4) ->
  parse_recovery tokenizer (uescape c1 c2 c3 c4) =
  Ret (Some [(KIdent [65533], (0, 8)%nat)], [EBadUnicode 3]).
Proof.
  intros H1 H2 H3 H4 Hs.
  assert (lex_item (mkStream (uescape c1 c2 c3 c4) 0)
          = POk [EBadUnicode 3] (KIdent [65533], (0, 8)%nat) (mkStream [] 8)) as E.
  { rewrite lex_item_eq.
    change (gap (uescape c1 c2 c3 c4)) with (uescape c1 c2 c3 c4).
    change (goff 0 (uescape c1 c2 c3 c4)) with 0%nat.
    assert (lex_token_strict (mkStream (uescape c1 c2 c3 c4) 0)
            = POk [EBadUnicode 3] (KIdent [65533]) (mkStream [] 8)) as E.
    { apply (strict_complete 0 (uescape c1 c2 c3 c4) (uescape c1 c2 c3 c4) (KIdent [65533]) [] [3%nat]).
      apply (tol_quote _ _ _ _ _ [backslash; 117; c1; c2; c3; c4] [65533]); auto; try discriminate.
      apply (ql_surrogate 1 c1 c2 c3 c4 d1 d2 d3 d4 [] [] []); auto; constructor. }
    unfold lex_token, p_recover_skip. rewrite E. reflexivity. }
  unfold parse_recovery, tokenizer. rewrite repeated_eq by apply adv_lex_item. rewrite E.
  rewrite repeated_eq by apply adv_lex_item.
  rewrite (barren_stops [] 8 barren_nil). reflexivity.
Qed.

Lemma reading_unique src toks rest toks' rest' :
  reads 0 src toks rest -> barren rest -> reads 0 src toks' rest' -> barren rest' -> toks = toks'.
Proof.
  intros R B R' B'.
  pose proof (proj2 (tokenizer_reads src toks) (ex_intro _ rest (conj R B))) as E.
  pose proof (proj2 (tokenizer_reads src toks') (ex_intro _ rest' (conj R' B'))) as E'.
  congruence.
Qed.
