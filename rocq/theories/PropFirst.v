(** The first of the cheapest routes: C37. *)
From Coq Require Import String List Arith NArith ZArith.
From Verif Require Import Base F32 Geometry Mir Erd Heap Route Layout Cli SpecF32 SpecGeom SpecLayout SpecRoute SpecGraph SpecFirst OuterFacts GraphFacts FirstFacts.
Import ListNotations.

(** Of all pairs of ports that are equally far apart the first one is joined, in the order
    of the ports of the source and then of the target. *)
Theorem C37_first_of_the_cheapest :
  forall m vb g d, fits (table_rows m) -> layout_module m = Ret (vb, g, d) ->
  forall e, In e (d_edges d) -> exists s t i j l ps,
  get_node d (e_source e) = Some s /\ get_node d (e_target e) = Some t /\
  e_path e = Some ps /\ places g l ps /\ first_route g s t i j l.
Proof. exact module_first. Qed.
Print Assumptions C37_first_of_the_cheapest.

(** The same for any document whose ports have distinct identifiers. *)
Theorem C37_first_any_document :
  forall g g' d d', engine_graph g -> draw_edge_path g d = Ret (g', d') -> named_ports d ->
  (forall p, end_port d p -> proper (port_location p)) ->
  forall e', In e' (d_edges d') -> exists s t i j l ps,
  get_node d (e_source e') = Some s /\ get_node d (e_target e') = Some t /\
  e_path e' = Some ps /\ places g' l ps /\ first_route g' s t i j l.
Proof. exact drawn_first. Qed.
Print Assumptions C37_first_any_document.

(** Two fields of one table: the ways on both sides cost the same, 115. The sides are
    tried from the right one to the left one, and the line is on the right. *)
Definition both_sides : module := three 3 3 3 [rel_fields "a" "a" "a" "b"].
Example C37_example_first :
  fits (table_rows both_sides) /\ in_halves both_sides = [Some [(700, 205); (780, 205); (780, 275); (700, 275)]]%N /\
  match layout_module both_sides with
  | Ret (_, g, d) => map (fun e => match get_node d (e_source e), get_node d (e_target e) with
      | Some s, Some t => map (fun pq => (port_orientation (fst pq), port_orientation (snd pq),
          match rg_get_port g (port_ident (fst pq)), rg_get_port g (port_ident (snd pq)) with
          | Some a, Some b => match compute_shortest_path g a b with Ret (c, _) => c | Panic _ => 0%N end
          | _, _ => 0%N end)) (list_prod (n_ports s) (n_ports t))
      | _, _ => [] end) (d_edges d) =
      [[(Right, Right, 115); (Right, Left, 679); (Left, Right, 679); (Left, Left, 115)]]%N
  | Panic _ => False
  end.
Proof. split; [unfold fits; vm_compute; discriminate|]. split; vm_compute; reflexivity. Qed.
