(** Diagrams of field relations are always drawn: C65. *)
From Coq Require Import String List NArith ZArith.
From Verif Require Import Base F32 Geometry Mir Erd Chumsky Parser Route Layout Svg Render Cli SpecLayout SpecRender SpecCrash
  PropLayout CalmFacts.
Import ListNotations.

(** C65: a cheapest route between rows of different fields has a length and
    never turns around, so that the diagram is drawn. *)
Theorem C65_no_turnarounds :
  forall m vb g d, fits (table_rows m) -> (forall r, In (ERel r) (m_entries m) -> fields_joined r) ->
  layout_module m = Ret (vb, g, d) ->
  forall e, In e (d_edges d) -> exists ps, e_path e = Some ps /\ 2 <= length ps /\ forall i, ~ reverses_at ps i.
Proof. exact module_calm. Qed.
Print Assumptions C65_no_turnarounds.

Theorem C65_field_relations_are_drawn :
  forall m, fits (table_rows m) -> (forall r, In (ERel r) (m_entries m) -> fields_joined r) ->
  exists svg, render_module m = Okay svg.
Proof. exact fields_drawn. Qed.
Print Assumptions C65_field_relations_are_drawn.

Theorem C65_program_ends_normally :
  forall fmt src r m, parse src = Ret r -> pr_ast r = Some m ->
  fits (table_rows m) -> (forall x, In (ERel x) (m_entries m) -> fields_joined x) ->
  exists svg, render_module m = Okay svg /\ stdout (main fmt src) = show_svg fmt svg /\ ending (main fmt src) = Ret tt.
Proof. exact fields_source. Qed.
Print Assumptions C65_program_ends_normally.

(** Five tables; relations across the grid, along a row, within a table,
    twice between the same fields, and to a field that does not exist. *)
Definition field_web : module :=
  mkModule None
    (m_entries five_tables ++
     [ERel (mkRelation (PField (lit "a") (lit "y")) (PField (lit "d") (lit "z")));
      ERel (mkRelation (PField (lit "c") (lit "z")) (PField (lit "d") (lit "x")));
      ERel (mkRelation (PField (lit "a") (lit "x")) (PField (lit "a") (lit "y")));
      ERel (mkRelation (PField (lit "c") (lit "z")) (PField (lit "d") (lit "x")));
      ERel (mkRelation (PField (lit "d") (lit "y")) (PField (lit "c") (lit "x")))]).
Example C65_example :
  fits (table_rows field_web) /\ (forall r, In (ERel r) (m_entries field_web) -> fields_joined r).
Proof.
  split; [unfold fits; vm_compute; discriminate|].
  intros r I. cbn in I. repeat destruct I as [I|I]; try discriminate; try contradiction;
    injection I as <-; do 4 eexists; (split; [reflexivity|split; [reflexivity|discriminate]]).
Qed.
Example C65_example_paths :
  match layout_module field_web with
  | Ret (_, g, d) => map (fun e => option_map (@length point) (e_path e)) (d_edges d)
                     = [Some 7; Some 9; Some 5; Some 9]
  | Panic _ => False
  end.
Proof. vm_compute. reflexivity. Qed.
