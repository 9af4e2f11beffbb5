(** The properties of the program and the notebook interface: C62-C64, C67. *)
From Coq Require Import String List Arith NArith ZArith Bool.
From Verif Require Import Base F32 Geometry Chumsky Mir Erd Parser Route Layout Svg Render Cli SpecRender ParseFacts PipelineFacts.
Import ListNotations.

(** C62 *)
Theorem C62_errors_end_with_success :
  forall fmt src r, parse src = Ret r -> pr_ast r = None ->
  stdout (main fmt src) = [] /\
  reports (main fmt src) = length (pr_lex_errs r) + length (pr_parse_errs r) /\
  1 <= reports (main fmt src) /\ ending (main fmt src) = Ret tt.
Proof. exact main_on_errors. Qed.
Print Assumptions C62_errors_end_with_success.

Example C62_example :
  main (fun s => s) (lit "erd @ { a { x int }") = mkRun [] 2 (Ret tt).
Proof. vm_compute. reflexivity. Qed.

(** C63 *)
Theorem C63_writes_the_rendering :
  forall fmt src r m, parse src = Ret r -> pr_ast r = Some m ->
  reports (main fmt src) = length (pr_lex_errs r) + length (pr_parse_errs r) /\
  (forall svg, render_module m = Okay svg -> stdout (main fmt src) = show_svg fmt svg /\ ending (main fmt src) = Ret tt) /\
  (forall p, render_module m = Abort p -> stdout (main fmt src) = [] /\ ending (main fmt src) = Panic p).
Proof. exact main_with_module. Qed.
Print Assumptions C63_writes_the_rendering.

(** Every run is one of these: nothing and success without a module, the whole
    rendering and success, or nothing and an abort. *)
Theorem C63_whole_or_nothing :
  forall fmt src,
  (stdout (main fmt src) = [] /\ exists r, parse src = Ret r /\
     ((pr_ast r = None /\ ending (main fmt src) = Ret tt) \/
      exists m p, pr_ast r = Some m /\ render_module m = Abort p /\ ending (main fmt src) = Panic p)) \/
  (exists r m svg, parse src = Ret r /\ pr_ast r = Some m /\ render_module m = Okay svg /\
     stdout (main fmt src) = show_svg fmt svg /\ ending (main fmt src) = Ret tt).
Proof. exact main_cases. Qed.
Print Assumptions C63_whole_or_nothing.

(** A character the tokenizer rejects is reported and the module is drawn. *)
Definition draws_despite_errors (src : str) : bool :=
  match parse src with
  | Ret r => match pr_lex_errs r, pr_ast r with
             | _ :: _, Some m => match render_module m with Okay _ => true | _ => false end
             | _, _ => false
             end
  | Panic _ => false
  end.
Example C63_example : draws_despite_errors (lit "erd @ { a { x int }; b { y int }; a.x o--o b.y }") = true.
Proof. vm_compute. reflexivity. Qed.

(** C64 *)
Theorem C64_draw_erd :
  forall fmt d vb,
  (forall svg, render vb None d = Okay svg -> draw_erd fmt d vb = Ret (show_svg fmt svg)) /\
  ((forall svg, render vb None d <> Okay svg) -> exists p, draw_erd fmt d vb = Panic p).
Proof. exact draw_erd_outcome. Qed.
Print Assumptions C64_draw_erd.

(** The first line is the opening marker, the last one the closing marker, and
    between them are exactly the characters of the document. *)
Theorem C64_notebook_output_is_framed :
  forall svg,
  firstn 34 (evcxr_display svg) = begin_marker ++ nl /\
  firstn (length svg) (skipn 34 (evcxr_display svg)) = svg /\
  skipn (34 + length svg) (evcxr_display svg) = nl ++ end_marker ++ nl.
Proof. exact display_framed. Qed.
Print Assumptions C64_notebook_output_is_framed.

Example C64_example :
  (exists s, draw_erd (fun s => s) doc_new None = Ret s) /\
  draw_erd (fun s => s) (mkDoc (d_nodes doc_new) [mkEdge 0 0 None]) None = Panic PRender.
Proof. vm_compute. split; [eexists|]; reflexivity. Qed.

(** C67.  The frame is not safe: every text is printed on a line of its own, so an
    entity called EVCXR_END_CONTENT closes the frame early.  [fmt] may escape
    characters as long as it keeps letters and underscores. *)
Theorem C67_frame_closed_by_a_name :
  forall fmt vb d svg, fmt end_marker = end_marker ->
  render vb None d = Okay svg -> In end_marker (doc_texts d) ->
  exists out a b, draw_erd fmt d vb = Ret out /\ out = a ++ nl ++ end_marker ++ nl ++ b.
Proof. exact frame_closed. Qed.
Print Assumptions C67_frame_closed_by_a_name.

Definition rendered_names (src : str) : option (list str) :=
  match parse src with
  | Ret r => match pr_lex_errs r, pr_ast r with
             | [], Some m => match layout_module m with
                             | Ret (vb, _, d) => match render (Some vb) None d with
                                                 | Okay _ => Some (doc_texts d)
                                                 | _ => None
                                                 end
                             | Panic _ => None
                             end
             | _, _ => None
             end
  | Panic _ => None
  end.
Example C67_example :
  rendered_names (lit "erd { EVCXR_END_CONTENT { id int PK } }") =
  Some [end_marker; lit "id"; lit "int"; lit "PK"].
Proof. vm_compute. reflexivity. Qed.
