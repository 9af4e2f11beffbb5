(** Drawings that go wrong: C44, C45. *)
From Coq Require Import String List NArith.
From Verif Require Import Base Mir Erd Chumsky Parser Route Layout Svg Render Cli SpecCrash CrashFacts.
Import ListNotations.

(** C44 *)
Theorem C44_edges_may_cross_tables :
  exists src m vb g d e i, parse src = Ret (mkParse (Some m) [] []) /\
  layout_module m = Ret (vb, g, d) /\ In e (d_edges d) /\ crosses_table d e i.
Proof. exact table_crossed. Qed.
Print Assumptions C44_edges_may_cross_tables.

(** C45 *)
Theorem C45_self_relations_crash :
  forall m d e, into_mir m = Ret d -> In e (d_edges d) -> e_source e = e_target e ->
  exists p, render_module m = Abort p.
Proof. exact self_relation_crashes. Qed.
Print Assumptions C45_self_relations_crash.

Theorem C45_self_relation_source :
  exists m, parse (lit "erd { users { id int; name text }; users.id o--o users.id }") = Ret (mkParse (Some m) [] []) /\
    render_module m = Abort PShortPath.
Proof. exact (crash_of_ok _ _ self_crash). Qed.
Print Assumptions C45_self_relation_source.

Theorem C45_own_field_source :
  exists m, parse (lit "erd { users { id int }; users. o--o users.id }") = Ret (mkParse (Some m) [] []) /\
    render_module m = Abort PShortPath.
Proof. exact (crash_of_ok _ _ own_field_crash). Qed.
Print Assumptions C45_own_field_source.

Theorem C45_turnaround_source :
  exists i m,
    parse (lit "erd { a { x int; y int }; b { x int; y int; z int }; c { }; d { x int }; a. o--o d.x }")
      = Ret (mkParse (Some m) [] []) /\
    render_module m = Abort (PTurnaround i).
Proof. exact (match turn_crash with ex_intro _ i H => ex_intro _ i (crash_of_ok _ _ H) end). Qed.
Print Assumptions C45_turnaround_source.
