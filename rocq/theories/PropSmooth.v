(** Paths without kinks: C70. *)
From Coq Require Import String List Arith NArith ZArith.
From Verif Require Import Base F32 Erd Parser Svg Render Cli SpecMir SpecLayout SpecRender SpecPicture SpecLink SpecSmooth SpecCrash
  PipelineFacts CalmFacts TableFacts LinkFacts SmoothFacts PropRender PropCalm.
Import ListNotations.

(** C70: relations between fields are drawn as smooth paths: the direction of
    drawing changes only along the rounded corners, which never overlap. *)
Theorem C70_field_relations_are_smooth :
  forall m svg, fits (table_rows m) -> (forall r, In (ERel r) (m_entries m) -> fields_joined r) ->
  render_module m = Okay svg ->
  exists ls, links [] (m_entries m) ls /\ (forall ls', links [] (m_entries m) ls' -> ls' = ls) /\
    connected_by (fun pq l => exists zs, connection_along (table_rows m) zs pq l /\ smooth (trace zs)) ls svg.
Proof. exact fields_smooth. Qed.
Print Assumptions C70_field_relations_are_smooth.

(** The module [field_web] of C65 meets the hypotheses. *)
Example C70_example : fits (table_rows field_web) /\ (forall r, In (ERel r) (m_entries field_web) -> fields_joined r).
Proof. exact C65_example. Qed.

(** With relations between tables the corners may overlap: the path of the
    module [kinked] (SmoothFacts.v) goes down round a corner, up again, and
    down round the next one. *)
Theorem C70_smooth_for_tables_refuted :
  exists m svg cs cmds, fits (table_rows m) /\ render_module m = Okay svg /\
    flat_map (fun n => filter (fun kv => str_eqb (fst kv) (lit "d")) (svg_attrs n)) (elements "path" svg) = [(lit "d", join (lit " ") cs)] /\
    Forall2 spells cmds cs /\ ~ smooth cmds.
Proof. exact tables_kinked. Qed.
Print Assumptions C70_smooth_for_tables_refuted.
