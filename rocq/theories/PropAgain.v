(** Layout done again: C104. *)
From Coq Require Import String List Arith NArith ZArith.
From Verif Require Import Base F32 Geometry Mir Erd Route Layout Cli SpecMir SpecF32 SpecGeom SpecLayout SpecRoute SpecGraph SpecCrash SpecInk SpecAgain OuterFacts SideFacts AgainFacts.
Import ListNotations. Open Scope string_scope. Open Scope Z_scope.

(** C104: placing the nodes of any document a second time changes nothing. *)
Theorem C104_placing_again : forall d d' vb, place_nodes d = (d', vb) -> place_nodes d' = (d', vb).
Proof. exact place_again. Qed.
Print Assumptions C104_placing_again.

(** Drawing the paths of a document a second time with the same engine changes
    neither the document nor the graph of the engine. *)
Theorem C104_drawing_again :
  forall g g' d d', engine_graph g -> draw_edge_path g d = Ret (g', d') -> named_ports d ->
  (forall p, end_port d p -> proper (port_location p)) -> (forall p, In p (edge_junctions d) -> proper p) ->
  exists h, draw_edge_path g' d' = Ret (h, d') /\ same_routes g' h.
Proof. exact draw_again. Qed.
Print Assumptions C104_drawing_again.

(** Of a module that has been laid out both steps can be repeated. *)
Theorem C104_modules :
  forall m vb g d, fits (table_rows m) -> layout_module m = Ret (vb, g, d) ->
  place_nodes d = (d, vb) /\ exists h, draw_edge_path g d = Ret (h, d) /\ same_routes g h.
Proof. exact module_again. Qed.
Print Assumptions C104_modules.

(** Another document is not drawn by a used engine as by a new one: the old
    graph stays, and a line can run through a table that a new engine goes round. *)
Theorem C104_used_engine_refuted :
  exists m m' vb g d vb' g' d' d0 h d'', fits (table_rows m) /\ fits (table_rows m') /\ layout_module m = Ret (vb, g, d) /\ layout_module m' = Ret (vb', g', d') /\
  into_mir m' = Ret d0 /\ draw_edge_path g (place_terminal_ports (fst (place_nodes d0))) = Ret (h, d'') /\
  (forall e i, In e (d_edges d') -> ~ crosses_table d' e i) /\ (exists e i, In e (d_edges d'') /\ crosses_table d'' e i).
Proof. exact used_engine. Qed.
Print Assumptions C104_used_engine_refuted.

(** Three tables with a line round the middle one. *)
Example C104_example :
  fits (table_rows high_tables) /\ exists vb g d, layout_module high_tables = Ret (vb, g, d) /\
  lines d [[(700, 205); (780, 205); (780, 600); (1540, 600); (1540, 485); (1620, 485)]].
Proof. split; [unfold fits; vm_compute; discriminate|]. drawn_tac. Qed.
