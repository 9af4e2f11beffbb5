(** From the diagnoses of a text to the reports about it. *)
From Coq Require Import String Ascii List Arith NArith Bool Lia.
From Verif Require Import Base Chumsky Erd Parser Render Cli Diag Report SpecLex SpecGrammar SpecDiag
  LexFacts SpanFacts ParseFacts DiagFacts SynErrFacts LexErrFacts.
Import ListNotations.

(** ** Both passes *)

Lemma skipn_cons {A} n (x : A) l src : skipn n src = x :: l ->
  skipn (S n) src = l /\ nth_error src n = Some x.
Proof.
  revert src. induction n as [|n IH]; intros src; destruct src as [|y src]; simpl; try discriminate.
  - intros [= -> ->]. auto.
  - intros H. apply IH in H. destruct src; auto.
Qed.
Lemma nth_error_skipn {A} (l : list A) n k : nth_error (skipn n l) k = nth_error l (n + k).
Proof. revert l. induction n as [|n IH]; intros [|x l]; simpl; auto. now destruct k. Qed.

Lemma sim_explains src : sim (fun s => skipn (s_off s) src = s_rest s) (explains src) dtokenizer tokenizer.
Proof.
  apply tsim_tokenizer.
  - intros x l o H. cbn [s_off s_rest] in *. now apply skipn_cons in H as [H _].
  - intros o. constructor.
  - intros [l o] e H E. cbn [s_off s_rest] in *. apply strict_diag in E as (E & L & F & Hf & X).
    econstructor; eauto.
    + now rewrite H.
    + rewrite Hf, <- H, nth_error_skipn. f_equal. lia.
Qed.

Theorem diagnose_spec src : exists d ts errs rest,
  diagnose src = Ret d /\ scans 0 src ts errs rest /\ barren rest /\
  parse_recovery tokenizer src = Ret (Some ts, errs) /\
  dg_spans d = map snd ts /\ Forall2 (explains src) (dg_lex d) errs /\
  ((exists u r m, map fst ts = u ++ r /\ g_module u m /\ dg_ast d = Some m /\ dg_syn d = []) \/
   (~ (exists u r m, map fst ts = u ++ r /\ g_module u m) /\ dg_ast d = None /\
    exists e, dg_syn d = [DUnexpected e] /\ points_out (map fst ts) e)).
Proof.
  destruct (tokenizer_scans src) as (ts & errs & rest & T & Sc & B).
  pose proof (sim_explains src (mkStream src 0) eq_refl) as Z.
  unfold diagnose, d_parse_recovery at 1. pose proof T as T0.
  unfold parse_recovery in T. destruct (tokenizer (mkStream src 0)) as [e' a' s'| |x] eqn:Et; try discriminate.
  injection T as -> ->. destruct (dtokenizer (mkStream src 0)) as [e a alt s| |x]; simpl in Z; try tauto.
  destruct Z as (Z & -> & _). simpl bind.
  destruct (verdict (map fst ts)) as [(u & r & m & E & G & ->)|(No & e1 & -> & P)]; simpl bind;
    eexists; exists ts, errs, rest; (split; [reflexivity|]); cbn [dg_spans dg_lex dg_ast dg_syn fst snd];
    repeat (split; [assumption || reflexivity|]).
  - left. exists u, r, m. auto.
  - right. repeat (split; [assumption || reflexivity|]). eauto.
Qed.

Theorem diagnose_parse src d r : diagnose src = Ret d -> parse src = Ret r ->
  dg_ast d = pr_ast r /\ Forall2 (explains src) (dg_lex d) (pr_lex_errs r) /\
  length (dg_syn d) = length (pr_parse_errs r).
Proof.
  intros D P. destruct (parse_passes src) as (ts & errs & mp & T & M & P' & _).
  rewrite P' in P. injection P as <-. cbn [pr_ast pr_lex_errs pr_parse_errs].
  pose proof (sim_explains src (mkStream src 0) eq_refl) as Z.
  unfold diagnose, d_parse_recovery at 1 in D.
  unfold parse_recovery in T. destruct (tokenizer (mkStream src 0)) as [e' a' s'| |x] eqn:Et; try discriminate.
  injection T as -> ->. destruct (dtokenizer (mkStream src 0)) as [e a alt s| |x]; simpl in Z; try tauto.
  destruct Z as (Z & -> & _). simpl bind in D.
  pose proof (msim_erd_module (mkStream (map fst ts) 0) I) as Y.
  unfold d_parse_recovery in D. unfold parse_recovery in M.
  destruct (d_erd_module_parser _), (erd_module_parser _); simpl in Y; try tauto; simpl in D; try discriminate;
    injection D as <-; injection M as <-; cbn; auto.
  destruct Y as (Y & -> & _). repeat split; auto. clear - Y. induction Y; simpl; auto.
Qed.

(** ** Escapes of surrogates *)

Lemma quoted_surrogates o b v bad : quoted_lenient o b v bad ->
  forall pre post, length pre = o -> Forall (surrogate_at (pre ++ b ++ post)) bad.
Proof.
  induction 1 as [| o c b s bad _ _ _ IH | o e c b s bad _ _ IH | o c1 c2 c3 c4 d1 d2 d3 d4 b s bad H1 H2 H3 H4 Hn _ IH];
    intros pre post Hp.
  - constructor.
  - specialize (IH (pre ++ [c]) post). rewrite <- app_assoc in IH. apply IH. rewrite app_length. simpl. lia.
  - specialize (IH (pre ++ e) post). rewrite <- !app_assoc in *. apply IH. rewrite app_length. simpl. lia.
  - constructor.
    + exists pre, (b ++ post), c1, c2, c3, c4, d1, d2, d3, d4. rewrite <- app_assoc. repeat split; auto; lia.
    + specialize (IH (pre ++ [backslash; 117%N; c1; c2; c3; c4]) post). rewrite <- !app_assoc in *.
      apply IH. rewrite app_length. simpl. lia.
Qed.

Lemma scans_surrogates o s ts errs r : scans o s ts errs r -> forall pre p,
  length pre = o -> In (EBadUnicode p) errs -> surrogate_at (pre ++ s) p.
Proof.
  induction 1 as [o s|o s junk w u t r r' bad ts errs start stop Sk -> U Hj T -> _ IH];
    intros pre p Hp Hin; [destruct Hin|].
  apply skips_app in Sk as [q Eq].
  assert (o + (length s - length (junk ++ w)) = length (pre ++ q)) as Est.
  { rewrite app_length, Eq, !app_length. lia. }
  rewrite Est in *. apply in_app_or in Hin as [Hin|Hin]; [|apply in_app_or in Hin as [Hin|Hin]].
  - apply in_map_iff in Hin as (x & [= ->] & Hin). destruct T as [|b v bad Ew -> -> Q _]; [destruct Hin|].
    pose proof (quoted_surrogates _ _ _ _ Q (pre ++ q ++ junk ++ [backquote]) ([backquote] ++ r)) as F.
    rewrite Forall_forall in F. subst s w.
    replace (pre ++ q ++ junk ++ (backquote :: b ++ [backquote]) ++ r)
      with ((pre ++ q ++ junk ++ [backquote]) ++ b ++ [backquote] ++ r); [|now rewrite <- !app_assoc; simpl; rewrite <- app_assoc].
    apply F; auto. rewrite !app_length. simpl. lia.
  - destruct junk; [destruct Hin|]. destruct Hin as [Hin|[]]. discriminate.
  - destruct (tolerated_app _ _ _ _ _ _ T) as [Ew _].
    specialize (IH (pre ++ q ++ junk ++ u) p). rewrite Eq, Ew. rewrite <- !app_assoc in IH. apply IH; auto.
    rewrite !app_length in *. lia.
Qed.

(** ** Wording *)

Lemma comma_listed l : l <> [] -> listed l (comma_join l).
Proof.
  induction l as [|x [|y l] IH]; intros H; [congruence|constructor|].
  simpl comma_join. apply listed_more. apply IH. discriminate.
Qed.

Lemma report_says order sp found exp :
  says found (match exp with [] => lit "something else" | l => comma_join (order l) end)
       (report_of order (mkSimple sp found exp Unexpected)).
Proof. destruct found, exp; split; reflexivity. Qed.

Lemma order_alternatives order (P : str -> Prop) exp : enumerates order -> exp <> [] ->
  (forall x, In x exp <-> P x) ->
  alternatives P (match exp with [] => lit "something else" | l => comma_join (order l) end).
Proof.
  intros O N X. destruct (O exp) as [D S]. destruct exp as [|y exp]; [congruence|].
  exists (order (y :: exp)). repeat split; auto.
  - apply comma_listed. intros E. assert (In y []) as H by (rewrite <- E; apply S; now left). destruct H.
  - intros H. apply X. now apply S.
  - intros H. apply S. now apply X.
Qed.

(** ** Lexical errors *)

Lemma fault_inside l k E : fault l k E -> k <= length l.
Proof.
  destruct 1; simpl; try lia; rewrite app_length; simpl; try rewrite app_length; lia.
Qed.

Lemma skipped_report order src start e r :
  enumerates order -> explains src (DUnexpected e) (ESkipped start) ->
  start <= length src ->
  r = report_of order (to_simple (fun c : char => [c])
        (fun o => if o <? length src then (o, S o) else (length src, S (length src))) (DUnexpected e)) ->
  lex_report src r (ESkipped start).
Proof.
  intros O X L Hr. inversion X as [start' e' E Hs F Hf HE|]; subst start' e'.
  pose proof (fault_inside _ _ _ F) as K. rewrite skipn_length in K.
  set (k := l_at e - start) in *. assert (l_at e = start + k) as A by (subst k; lia).
  set (exp := map (fun c : char => [c]) (l_expected e)).
  econstructor 1 with (k := k) (E := E)
    (wanted := match exp with [] => lit "something else" | l => comma_join (order l) end); auto; try lia.
  - subst r. cbn [to_simple report_of sm_reason rp_offset rp_span sm_span]. rewrite A.
    destruct (Nat.ltb_spec (start + k) (length src)); cbn [fst]; [reflexivity|lia].
  - subst r. cbn [to_simple report_of sm_reason rp_offset rp_span sm_span]. rewrite A.
    destruct (Nat.ltb_spec (start + k) (length src)); [reflexivity|]. f_equal; lia.
  - rewrite <- A, <- Hf. subst r. apply report_says.
  - intros ->. subst exp. destruct (l_expected e) as [|c l]; auto. exfalso. apply (HE c). now left.
  - intros NE. apply order_alternatives; auto.
    + subst exp. destruct E as [|c E]; [congruence|]. assert (In c (l_expected e)) as H by (apply HE; now left).
      destruct (l_expected e); [destruct H|discriminate].
    + intros x. subst exp. rewrite in_map_iff. split.
      * intros (c & <- & Hc). exists c. split; auto. now apply HE.
      * intros (c & Hc & ->). exists c. split; auto. now apply HE.
Qed.

Lemma lexical_reports order src ts errs rest ds : enumerates order ->
  scans 0 src ts errs rest -> Forall2 (explains src) ds errs ->
  Forall2 (lex_report src)
    (map (report_of order) (map (to_simple (fun c : char => [c])
        (fun o => if o <? length src then (o, S o) else (length src, S (length src)))) ds)) errs.
Proof.
  intros O Sc X.
  assert (Forall (err_in 0 (length src)) errs) as In1 by (apply scans_spans in Sc; tauto).
  assert (Forall (fun e => forall p, e = EBadUnicode p -> surrogate_at src p) errs) as In2.
  { apply Forall_forall. intros e He p ->. exact (scans_surrogates _ _ _ _ _ Sc [] p eq_refl He). }
  clear Sc. induction X as [|d e ds errs Hd _ IH]; [constructor|].
  inversion In1 as [|? ? (q & Hq & Hr) In1']; subst. inversion In2 as [|? ? Hs In2']; subst.
  cbn [map]. constructor; [|now apply IH]. inversion Hd; subst.
  - eapply skipped_report; eauto. simpl in Hq. injection Hq as <-. lia.
  - constructor. now apply Hs.
Qed.

(** ** Syntax errors *)

Lemma syntax_reports order src ts e : enumerates order -> points_out (map fst ts) e ->
  syntax_report src ts (report_of order (to_simple show_token
    (span_at (map snd ts) (length src, S (length src))) (DUnexpected e))).
Proof.
  intros O [P1 P2 P3 P4 P5 P6]. rewrite map_length in P1.
  set (exp := map show_token (l_expected e)).
  exists (l_at e), (match exp with [] => lit "something else" | l => comma_join (order l) end).
  cbv zeta. split; [auto|]. split; [auto|]. split; [|split; [|split; [|split]]].
  - intros t sp H. apply P4. rewrite P2. rewrite nth_error_map, H. reflexivity.
  - reflexivity.
  - cbn [to_simple report_of sm_reason rp_span sm_span]. unfold span_at.
    destruct (nth_error ts (l_at e)) as [[t sp]|] eqn:Hn.
    + apply (map_nth_error snd) in Hn. now apply nth_error_nth with (d := (length src, S (length src))) in Hn.
    + apply nth_error_None in Hn. apply nth_overflow. now rewrite map_length.
  - replace (option_map (fun x => show_token (fst x)) (nth_error ts (l_at e)))
      with (option_map show_token (l_found e)); [apply report_says|].
    rewrite P2, nth_error_map. now destruct (nth_error ts (l_at e)).
  - apply order_alternatives; auto.
    + subst exp. destruct (l_expected e); [congruence|discriminate].
    + intros x. subst exp. rewrite in_map_iff. split.
      * intros (t & <- & Ht). apply P5 in Ht as [? ?]. eauto.
      * intros (t & V & A & ->). exists t. split; auto. apply P5. auto.
Qed.

Lemma reports_full order src : enumerates order -> exists ts errs rest lex syn,
  parse_recovery tokenizer src = Ret (Some ts, errs) /\ scans 0 src ts errs rest /\ barren rest /\ reports_of order src = Ret (lex ++ syn) /\
  Forall2 (lex_report src) lex errs /\
  ((exists u r m, map fst ts = u ++ r /\ g_module u m) /\ syn = [] \/
   ~ (exists u r m, map fst ts = u ++ r /\ g_module u m) /\ exists r, syn = [r] /\ syntax_report src ts r).
Proof.
  intros O. destruct (diagnose_spec src) as (d & ts & errs & rest & D & Sc & B & T & Sp & X & V).
  unfold reports_of. rewrite D. simpl bind. unfold errors_of. rewrite map_app.
  exists ts, errs, rest. eexists. eexists. split; [exact T|]. split; [exact Sc|]. split; [exact B|]. split; [reflexivity|].
  split; [now apply (lexical_reports order _ ts _ rest)|].
  destruct V as [(u & r & m & E & G & A & S)|(No & A & e & S & P)]; rewrite S, ?Sp.
  - left. split; eauto 6.
  - right. split; auto. eexists. split; [reflexivity|]. now apply syntax_reports.
Qed.

Theorem reports_spec order src : enumerates order -> exists ts errs rest lex syn,
  scans 0 src ts errs rest /\ barren rest /\ reports_of order src = Ret (lex ++ syn) /\
  Forall2 (lex_report src) lex errs /\
  ((exists u r m, map fst ts = u ++ r /\ g_module u m) /\ syn = [] \/
   ~ (exists u r m, map fst ts = u ++ r /\ g_module u m) /\ exists r, syn = [r] /\ syntax_report src ts r).
Proof.
  intros O. destruct (reports_full order src O) as (ts & errs & rest & lex & syn & _ & H).
  exists ts, errs, rest, lex, syn. exact H.
Qed.

(** Without lexical errors the marked text spells the token that is named. *)
Theorem marked_text order src ts r : enumerates order ->
  parse_recovery tokenizer src = Ret (Some ts, []) -> reports_of order src = Ret [r] ->
  (rp_span r = (length src, S (length src)) /\ rp_label r = lit "Unexpected token end of file") \/
  (exists t, lexeme (slice src (fst (rp_span r)) (snd (rp_span r))) t /\
             rp_label r = lit "Unexpected token " ++ show_token t).
Proof.
  intros O T R. destruct (reports_full order src O) as (ts' & errs & rest & lex & syn & T' & _ & _ & R' & F & V).
  rewrite T in T'. injection T' as <- <-. inversion F; subst lex. rewrite R in R'. injection R' as <-.
  destruct V as [[_ V]|(_ & r' & [= <-] & k & w & V)]; [discriminate|]. cbv zeta in V.
  destruct V as (_ & _ & _ & _ & -> & Sy & _). pose proof (tokenizer_slices src ts T) as L.
  rewrite Forall_forall in L. destruct (nth_error ts k) as [[t sp]|] eqn:N; cbn [option_map fst says] in Sy.
  - right. exists t. split; [|tauto]. apply nth_error_In in N. exact (L _ N).
  - left. tauto.
Qed.

Theorem reports_counted order fmt src rs : reports_of order src = Ret rs -> length rs = reports (main fmt src).
Proof.
  unfold reports_of. destruct (diagnose src) as [d|] eqn:D; [|discriminate]. intros [= <-].
  destruct (parse_returns src) as [r P]. destruct (diagnose_parse src d r D P) as (_ & F & L).
  assert (reports (main fmt src) = length (pr_lex_errs r) + length (pr_parse_errs r)) as ->.
  { unfold main. rewrite P. destruct (pr_ast r) as [m|]; [destruct (render_module m)|]; reflexivity. }
  rewrite map_length. unfold errors_of. rewrite app_length, !map_length, L. f_equal.
  clear - F. induction F; simpl; auto.
Qed.

Definition in_order (l : list str) : list str := nodup (list_eq_dec N.eq_dec) l.

Theorem marked_junk : exists src r t, reports_of in_order src = Ret [r; t] /\
  rp_label t = lit "Unexpected token b" /\ slice src (fst (rp_span t)) (snd (rp_span t)) = lit "!b".
Proof.
  exists (lit "erd { a !b }"). eexists _, _. split; [vm_compute; reflexivity|]. split; vm_compute; reflexivity.
Qed.

Theorem token_names t x : token_name t x <-> x = show_token t.
Proof.
  split.
  - intros [ | w u K | s | c | ]; try reflexivity. now destruct K.
  - intros ->. destruct t; cbn [show_token].
    1: exact tn_edge. 1: apply tn_ident. 8: apply tn_punct. 8: exact tn_newline.
    all: apply tn_keyword; constructor.
Qed.
