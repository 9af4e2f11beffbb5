(** C71: the printed document is well-formed XML and reads back as the drawing. *)
From Coq Require Import String List Arith NArith ZArith Bool.
From Verif Require Import Base F32 Geometry Chumsky Mir Erd Parser Route Layout Svg Render Cli SpecMir SpecRender
  SpecXml XmlFacts.
Import ListNotations.

(** A text is read in at most one way. *)
Theorem C71_read_in_one_way : forall s x y, element s x -> element s y -> x = y.
Proof. exact reads_once. Qed.
Print Assumptions C71_read_in_one_way.

(** For every way of printing texts that can be read back: the printed drawing is an
    element [svg] in the SVG namespace that shows exactly the drawing. *)
Theorem C71_drawings_read_back :
  forall fmt vb g d svg, byte_colors d -> render vb g d = Okay svg ->
  (forall t, In t (texts svg) -> printed fmt t) ->
  exists a l, element (show_svg fmt svg) (Element (lit "svg") a l) /\
    In (lit "xmlns", lit "http://www.w3.org/2000/svg") a /\ shows (Element (lit "svg") a l) svg.
Proof. exact drawing_reads_back. Qed.
Print Assumptions C71_drawings_read_back.

(** The program as a whole: with escaping, for all names of readable characters;
    without, for names that need none. *)
Theorem C71_program_output_reads_back :
  forall src r m, parse src = Ret r -> pr_ast r = Some m ->
  (names_are readable m -> ending (main escaped src) = Ret tt ->
   exists svg x, render_module m = Okay svg /\ element (stdout (main escaped src)) x /\ shows x svg) /\
  (names_are (fun s => readable s /\ harmless s) m -> ending (main (fun s => s) src) = Ret tt ->
   exists svg x, render_module m = Okay svg /\ element (stdout (main (fun s => s) src)) x /\ shows x svg).
Proof. exact program_reads_back. Qed.
Print Assumptions C71_program_output_reads_back.

(** A name with "<" and "&" meets the hypotheses with escaping. *)
Definition odd_source : str := lit "erd { `a < b` { `&` int PK } }".
Example C71_example :
  exists r m, parse odd_source = Ret r /\ pr_ast r = Some m /\ names_are readable m /\
    ending (main escaped odd_source) = Ret tt.
Proof.
  eexists _, _. split; [vm_compute; reflexivity|]. split; [reflexivity|]. split; [|vm_compute; reflexivity].
  assert (A : forall c, N.leb 32 c = true -> N.leb c 126 = true -> xml_char c).
  { intros c L U. apply N.leb_le in L, U. right; right; right; left. split; [exact L|].
    apply (N.le_trans _ 126); [exact U|discriminate]. }
  assert (S : forall s, forallb (fun c => N.leb 32 c && N.leb c 126) s = true -> readable s).
  { intros s H. apply Forall_forall. intros c I. rewrite forallb_forall in H. specialize (H c I).
    apply andb_true_iff in H as [L U]. auto. }
  intros e [<-|[]]. split; [now apply S|]. intros f [<-|[]]. now apply S.
Qed.

(** The restrictions are needed: control characters can be written in names and are
    copied to the output, and unescaped names are not read back. *)
Theorem C71_control_characters_refuted :
  exists src m, accepted src m /\ ending (main escaped src) = Ret tt /\
    forall x, ~ element (stdout (main escaped src)) x.
Proof. exact (ex_intro _ control_name control_name_unreadable). Qed.
Print Assumptions C71_control_characters_refuted.

Theorem C71_unescaped_names_refuted :
  exists src m, accepted src m /\ ending (main (fun s => s) src) = Ret tt /\
    forall x, ~ element (stdout (main (fun s => s) src)) x.
Proof. exact (ex_intro _ angle_name angle_name_unreadable). Qed.
Print Assumptions C71_unescaped_names_refuted.
