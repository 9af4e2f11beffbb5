(** The program from bytes to bytes. *)
From Coq Require Import String List Arith NArith Bool Lia.
From Verif Require Import Base Chumsky Erd Mir Parser Svg Render Cli Diag Report Utf8 Program
  SpecLex SpecGrammar SpecMir SpecRender SpecXml SpecUtf8 SpecProgram SpecDiag LexFacts SpanFacts ParseFacts RenderFacts PictureFacts PipelineFacts XmlFacts
  Utf8Facts ReportFacts.
Import ListNotations.

(** ** Names consist of scalar values *)

Lemma escape_scalar e c : escape e c -> scalar c.
Proof. destruct 1; unfold scalar in *; lia. Qed.
Lemma quoted_scalar o b v bad : quoted_lenient o b v bad -> Forall scalar b -> Forall scalar v.
Proof.
  induction 1; intros F.
  - constructor.
  - inversion F; subst. constructor; auto.
  - apply Forall_app in F as [_ F]. constructor; auto. eapply escape_scalar; eauto.
  - apply Forall_app in F as [_ F]. constructor; auto. unfold scalar. lia.
Qed.
Lemma lexeme_scalar u t : lexeme u t -> Forall scalar u -> forall n, t = KIdent n -> Forall scalar n.
Proof.
  destruct 1 as [|w t K|w W R|b s Q|c H| |]; intros F n E; try discriminate.
  - destruct K; discriminate.
  - now injection E as <-.
  - injection E as <-. inversion F as [|x l Hx Hl]; subst. apply Forall_app in Hl as [Hl _].
    apply (quoted_lenient_nil 0) in Q. eapply quoted_scalar; eauto.
Qed.
Lemma tolerated_scalar o s u t r bad : tolerated o s u t r bad -> Forall scalar s ->
  forall n, t = KIdent n -> Forall scalar n.
Proof.
  destruct 1 as [(-> & L & _)|b v bad -> -> -> Q _]; intros F n E.
  - apply Forall_app in F as [F _]. eapply lexeme_scalar; eauto.
  - injection E as <-. apply Forall_app in F as [F _]. inversion F as [|x l Hx Hl]; subst.
    apply Forall_app in Hl as [Hl _]. eapply quoted_scalar; eauto.
Qed.
Lemma scans_scalar o s ts errs r : scans o s ts errs r -> Forall scalar s ->
  forall n, In (KIdent n) (map fst ts) -> Forall scalar n.
Proof.
  induction 1 as [o s|o s junk w u t r r' bad ts errs start stop Sk -> U Hj T -> _ IH]; intros F n I; [destruct I|].
  apply skips_app in Sk as [q ->]. apply Forall_app in F as [_ F]. apply Forall_app in F as [_ F].
  destruct I as [E|I].
  - cbn [fst] in E. eapply tolerated_scalar; eauto.
  - apply tolerated_app in T as [-> _]. apply Forall_app in F as [_ F]. auto.
Qed.

Section Names.
  Variable P : str -> Prop.
  Definition all_names (ts : list token) : Prop := forall n, In (KIdent n) ts -> P n.

  Lemma all_app u v : all_names (u ++ v) <-> all_names u /\ all_names v.
  Proof.
    unfold all_names. split.
    - intros H. split; intros n I; apply H, in_app_iff; auto.
    - intros [H1 H2] n I. apply in_app_iff in I as [I|I]; auto.
  Qed.
  Lemma all_cons t v : all_names (t :: v) <-> (forall n, t = KIdent n -> P n) /\ all_names v.
  Proof.
    unfold all_names. simpl. split.
    - intros H. split; intros; apply H; auto.
    - intros [H1 H2] n [I|I]; auto.
  Qed.
  Definition entry_names (e : module_entry) : Prop :=
    forall d, e = EDef d -> P (ent_name d) /\ forall f, In f (ent_fields d) -> P (f_name f).

  Lemma list_names {A} (item : list token -> A -> Prop) (Q : A -> Prop) ts l :
    (forall us a, item us a -> all_names us -> Q a) -> g_list item ts l -> all_names ts -> Forall Q l.
  Proof.
    intros H. induction 1 as [ts a I|ts a s p us l I _ _ _ IH]; intros N.
    - constructor; eauto.
    - apply all_app in N as [N1 N]. apply all_cons in N as [_ N]. apply all_app in N as [_ N]. constructor; eauto.
  Qed.
  Lemma items_names {A} (item : list token -> A -> Prop) (Q : A -> Prop) ts l :
    (forall us a, item us a -> all_names us -> Q a) -> g_items item ts l -> all_names ts -> Forall Q l.
  Proof. intros H. destruct 1; [constructor|]. eapply list_names; eauto. Qed.
  Lemma field_names us f : g_field us f -> all_names us -> P (f_name f).
  Proof. destruct 1; intros N; apply N; now left. Qed.
  Lemma module_names ts m : g_module ts m -> all_names ts -> names_are P m.
  Proof.
    destruct 1 as [p1 p2 nts n p3 ets es p4 p5 _ _ _ _ I _ _]. intros N.
    apply all_app in N as [_ N]. apply all_cons in N as [_ N]. apply all_app in N as [_ N].
    apply all_app in N as [_ N]. apply all_cons in N as [_ N]. apply all_app in N as [_ N]. apply all_app in N as [N _].
    assert (Forall entry_names es) as F.
    { eapply items_names; eauto. clear. intros us e [ts d D|ts r _] N d' E; [|discriminate].
      injection E as <-. destruct D as [n p1 p2 fts fs p3 _ _ I _]. cbn [ent_name ent_fields].
      apply all_cons in N as [N0 N]. split; [now apply N0|]. apply all_app in N as [_ N]. apply all_cons in N as [_ N].
      apply all_app in N as [_ N]. apply all_app in N as [N _].
      apply Forall_forall. eapply items_names; eauto. apply field_names. }
    unfold names_are. cbn [m_entries]. intros e I'. clear - F I'. induction F as [|x es Hx F IH]; [destruct I'|].
    destruct x as [d|r]; cbn [definitions] in I'; [|now apply IH].
    destruct I' as [<-|I']; [now apply (Hx d)|now apply IH].
  Qed.
End Names.

(** ** So does the output *)

Definition scalars (s : str) : Prop := Forall scalar s.
Lemma scalars_app a b : scalars a -> scalars b -> scalars (a ++ b).
Proof. intros. now apply Forall_app. Qed.
Lemma scalars_lit s : scalars (lit s).
Proof.
  induction s as [|a s IH]; constructor; auto. unfold scalar. pose proof (Ascii.N_ascii_bounded a). lia.
Qed.
Lemma scalars_name n : is_name n -> scalars n.
Proof.
  intros N. apply name_chars in N. eapply Forall_impl; [|exact N]. intros c C.
  unfold xml_char in C. unfold scalar, char in *. lia.
Qed.
Lemma scalars_tidy v : tidy v -> scalars v.
Proof. intros T. eapply Forall_impl; [|exact T]. intros c [C _]. unfold scalar, char in *. lia. Qed.
Lemma scalars_attrs a : neat_attrs a -> scalars (concat (map show_attr a)).
Proof.
  intros [_ F]. induction F as [|[k v] a [K V] F IH]; [constructor|]. cbn [map concat]. apply scalars_app; auto.
  cbn in K, V. unfold show_attr. rewrite (tidy_no apos v V), (tidy_no Svg.quote v V) by (cbn; auto).
  repeat apply scalars_app; auto using scalars_lit, scalars_name, scalars_tidy;
    repeat constructor; unfold scalar, Svg.quote; lia.
Qed.

Lemma scalars_svg fmt e : (forall s, scalars s -> scalars (fmt s)) -> neat e -> Forall scalars (texts e) ->
  scalars (show_svg fmt e).
Proof.
  intros Hf. assert (scalars [10%N]) as NL by (repeat constructor; unfold scalar; lia).
  induction 1 as [k a s K A|k a c K A F IH]; intros T.
  - cbn [show_svg map concat]. inversion T; subst.
    repeat apply scalars_app; auto using scalars_lit, scalars_name, scalars_attrs. constructor.
  - cbn [show_svg]. apply scalars_app; [apply scalars_lit|]. apply scalars_app; [now apply scalars_name|].
    apply scalars_app; [now apply scalars_attrs|]. destruct c as [|e0 c0]; [apply scalars_lit|].
    set (c := e0 :: c0) in *. apply scalars_app; [apply scalars_lit|]. apply scalars_app.
    + cbn [texts] in T. clear K A. clearbody c. induction c as [|x c IHc]; [constructor|].
      cbn [map concat flat_map] in *. apply Forall_app in T as [T1 T2].
      apply scalars_app; [apply scalars_app; auto; apply IH; [now left|auto]|].
      apply IHc; auto; intros y I; [apply F|apply IH]; now right.
    + repeat apply scalars_app; auto using scalars_lit, scalars_name.
Qed.

Lemma words_scalar s : In s [lit "int"; lit "uuid"; lit "text"; lit "timestamp"; lit "PK"; lit "FK"] -> scalars s.
Proof. intros I. cbn [In] in I. decompose [or] I; try contradiction; subst; apply scalars_lit. Qed.

Lemma drawing_scalar fmt m svg : (forall s, scalars s -> scalars (fmt s)) -> render_module m = Okay svg ->
  names_are scalars m -> scalars (show_svg fmt svg).
Proof.
  intros Hf R N. apply scalars_svg; auto.
  - unfold render_module in R. destruct (layout_module m) as [[[vb g] d]|] eqn:L; [|discriminate].
    apply render_okay in R as [_ ->]. apply neat_picture. eapply layout_colors; eauto.
  - rewrite (module_texts_rendered _ _ R). apply Forall_forall. now apply words_are; [apply words_scalar|].
Qed.

Lemma stdout_scalar fmt src : (forall s, scalars s -> scalars (fmt s)) -> scalars src -> scalars (stdout (main fmt src)).
Proof.
  intros Hf F. unfold main. destruct (parse src) as [r|] eqn:P; [|constructor].
  destruct (pr_ast r) as [m|] eqn:A; [|constructor].
  destruct (render_module m) as [svg|?|?] eqn:R; [|constructor|constructor].
  cbn [stdout]. eapply drawing_scalar; eauto.
  destruct (parse_sound src r m P A) as (toks & ts & rest & T & E & G).
  eapply module_names; [exact G|]. destruct (tokenizer_scans src) as (toks' & errs & rest' & T' & Sc & _).
  rewrite T in T'. injection T' as <- _. intros n I. eapply scans_scalar; [exact Sc|exact F|].
  rewrite E. apply in_app_iff. now left.
Qed.

(** ** The program *)

Lemma reports_total order src : exists rs, reports_of order src = Ret rs.
Proof.
  destruct (diagnose_spec src) as (d & ts & errs & rest & D & _). unfold reports_of. rewrite D. simpl. eauto.
Qed.

Lemma source_panics w : (forall bytes, ~ input w bytes) -> source w = Panic PUnwrap.
Proof.
  unfold source. destruct (w_args w) as [|[a|] [|[b|] l]] eqn:E; intros N; try reflexivity; exfalso.
  1, 2, 4: apply (N (w_stdin w)), input_stdin; rewrite E; simpl; lia.
  eapply (N (w_file w b)), input_file; eauto.
Qed.
Lemma input_source w bytes : input w bytes -> source w = Ret (read_to_string bytes).
Proof.
  unfold source. destruct 1 as [H|a path l ->]; [|reflexivity].
  destruct (w_args w) as [|[a|] [|b l]]; simpl in H; try lia; reflexivity.
Qed.

Theorem program_runs order fmt w bs src : input w (Some bs) -> utf8 src bs ->
  (forall s, Forall scalar s -> Forall scalar (fmt s)) ->
  reports_of order src = Ret (p_reports (program order fmt w)) /\
  utf8 (stdout (main fmt src)) (p_stdout (program order fmt w)) /\
  match ending (main fmt src) with
  | Ret _ => p_ending (program order fmt w) = Success
  | Panic p => p_ending (program order fmt w) = Crash p
  end.
Proof.
  intros I U Hf. unfold program. rewrite (input_source _ _ I). cbn [read_to_string].
  rewrite (proj2 (from_utf8_spec bs src) U). destruct (reports_total order src) as (rs & ->). cbn.
  split; [reflexivity|]. split.
  - apply to_utf8_spec, stdout_scalar; auto. now apply utf8_det in U.
  - now destruct (ending (main fmt src)).
Qed.

Theorem program_unreadable order fmt w bytes : input w bytes ->
  (forall bs src, bytes = Some bs -> ~ utf8 src bs) ->
  program order fmt w = mkProcess [] [] IoError.
Proof.
  intros I N. unfold program. rewrite (input_source _ _ I). unfold read_to_string.
  destruct bytes as [bs|]; [|reflexivity]. destruct (from_utf8 bs) as [src|] eqn:E; [|reflexivity].
  apply from_utf8_spec in E. now destruct (N bs src eq_refl).
Qed.

Theorem program_arguments order fmt w : (forall bytes, ~ input w bytes) ->
  program order fmt w = mkProcess [] [] (Crash PUnwrap).
Proof.
  intros N. unfold program. now rewrite source_panics.
Qed.

Theorem program_whole order fmt w : p_ending (program order fmt w) <> Success -> p_stdout (program order fmt w) = [].
Proof.
  unfold program. destruct (source w) as [[src|]|]; cbn; auto.
  destruct (reports_of order src); cbn; auto. unfold main.
  destruct (parse src) as [r|]; cbn; auto. destruct (pr_ast r) as [m|]; cbn; auto.
  destruct (render_module m); cbn; auto. congruence.
Qed.

(** A text formatter that prints scalar values as scalar values: both candidates do. *)
Lemma escaped_scalars s : scalars s -> scalars (escaped s).
Proof.
  induction 1 as [|c s C _ IH]; [constructor|]. cbn [escaped flat_map]. apply scalars_app; [|exact IH].
  repeat match goal with |- context [if ?b then _ else _] => destruct b end; try apply scalars_lit. constructor; [exact C|constructor].
Qed.

(** From bytes to a document *)
Theorem program_document order w bs src r m : input w (Some bs) -> utf8 src bs ->
  parse src = Ret r -> pr_ast r = Some m -> names_are readable m ->
  p_ending (program order escaped w) = Success ->
  exists out svg x, utf8 out (p_stdout (program order escaped w)) /\
    render_module m = Okay svg /\ element out x /\ shows x svg.
Proof.
  intros I U P A N E. destruct (program_runs order escaped w bs src I U escaped_scalars) as (_ & Uo & En).
  destruct (ending (main escaped src)) as [[]|p] eqn:Em; [|congruence].
  destruct (program_reads_back src r m P A) as [H _]. destruct (H N Em) as (svg & x & R & X & S).
  exists (stdout (main escaped src)), svg, x. auto.
Qed.
