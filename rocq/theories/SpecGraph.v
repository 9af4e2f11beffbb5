(** What the routing graph should be, independent of how it is filled. *)
From Coq Require Import List NArith ZArith.
From Verif Require Import Base F32 Geometry Mir Route Layout SpecF32 SpecGeom SpecRoute.
Import ListNotations.

Definition same_place (p q : point) : Prop := feq (px p) (px q) = true /\ feq (py p) (py q) = true.

(** Graphs reached by a sequence of insertions (layout.rs:90-102, 144-151); edges
    are only added between existing nodes. *)
Inductive grown : route_graph -> Prop :=
| grown_new : grown rg_new
| grown_node g p g' : grown g -> rg_add_node g p = Ret g' -> grown g'
| grown_port g t g' : grown g -> rg_add_port g t = Ret g' -> grown g'
| grown_edge g a b : grown g -> a < length (rg_nodes g) -> b < length (rg_nodes g) ->
    grown (rg_add_edge g (a, b)).

(** The graphs a layout engine can hold: it starts empty and keeps the graph of
    every document it has drawn. *)
Inductive engine_graph : route_graph -> Prop :=
| engine_new : engine_graph rg_new
| engine_draw g d g' d' : engine_graph g -> draw_edge_path g d = Ret (g', d') -> engine_graph g'.

Definition distinct_places (ns : list route_node) : Prop :=
  forall i j n m, nth_error ns i = Some n -> nth_error ns j = Some m -> i <> j ->
  ~ same_place (rn_loc n) (rn_loc m).

(** No two edges between the same nodes; no loops. *)
Definition no_parallel (es : list (nat * nat)) : Prop :=
  forall i j a b c d, nth_error es i = Some (a, b) -> nth_error es j = Some (c, d) -> i <> j ->
  ~ ((a = c /\ b = d) \/ (a = d /\ b = c)).
Definition no_loop (es : list (nat * nat)) : Prop := forall a, ~ In (a, a) es.

(** [q] lies straight in direction [o] from [p]. *)
Definition straight (o : orientation) (p q : point) : Prop :=
  match o with
  | Up => feq (px q) (px p) = true /\ flt (py q) (py p) = true
  | Down => feq (px q) (px p) = true /\ flt (py p) (py q) = true
  | Left => feq (py q) (py p) = true /\ flt (px q) (px p) = true
  | Right => feq (py q) (py p) = true /\ flt (px p) (px q) = true
  end.

(** An edge from [n] to [m]: straight, and leaving outward where a node is a port. *)
Definition straight_edge (n m : route_node) : Prop :=
  exists o, straight o (rn_loc n) (rn_loc m) /\
    (forall u, rn_orient n = Some u -> u = o) /\ (forall u, rn_orient m = Some u -> u = opposite o).
Definition straight_edges (g : route_graph) : Prop :=
  forall a b, In (a, b) (rg_edges g) -> exists n m,
    nth_error (rg_nodes g) a = Some n /\ nth_error (rg_nodes g) b = Some m /\ straight_edge n m.

(** The tables: the children of the body that have a rectangle. *)
Definition table_rect (d : document) (r : rect) : Prop :=
  exists i n, In i (body_children d) /\ get_node d i = Some n /\ node_rect n = Some r.

(** [p] is not in the rectangle grown by [k] on each side (units: halves). *)
Definition clear_of (k x y w h a b : Z) : Prop :=
  (a < x - k \/ x + w + k < a \/ b < y - k \/ y + h + k < b)%Z.

(** Node [i] of the graph stands for the port [p]. *)
Definition stands_for (g : route_graph) (p : terminal_port) (i : nat) : Prop :=
  exists n, nth_error (rg_nodes g) i = Some n /\ same_place (rn_loc n) (port_location p) /\
    rn_orient n = Some (port_orientation p).

(** Ports of the ends of edges are told apart by their identifiers. *)
Definition end_port (d : document) (p : terminal_port) : Prop :=
  exists e i n, In e (d_edges d) /\ (i = e_source e \/ i = e_target e) /\ get_node d i = Some n /\
    In p (n_ports n).
Definition named_ports (d : document) : Prop :=
  forall p q, end_port d p -> end_port d q -> port_ident p = port_ident q -> p = q.

(** A list of node indices and the places of these nodes. *)
Definition places (g : route_graph) (l : list nat) (ps : list point) : Prop :=
  Forall2 (fun i p => exists n, nth_error (rg_nodes g) i = Some n /\ rn_loc n = p) l ps.

(** [l] is a cheapest walk from a port of [s] to a port of [t]. *)
Definition best_route (g : route_graph) (s t : node_data) (l : list nat) : Prop :=
  (exists p q a b, In p (n_ports s) /\ In q (n_ports t) /\ stands_for g p a /\ stands_for g q b /\
     walk (rg_edges g) a b l) /\
  (forall p q a b l', In p (n_ports s) -> In q (n_ports t) -> stands_for g p a -> stands_for g q b ->
     walk (rg_edges g) a b l' ->
     (walk_cost (rg_cost (rg_nodes g)) l <= walk_cost (rg_cost (rg_nodes g)) l')%N).

(** Consecutive points differ in exactly one coordinate. *)
Definition rectilinear (ps : list point) : Prop :=
  forall l1 p q l2, ps = l1 ++ p :: q :: l2 -> exists o, straight o p q.

(** The first step leaves a port of [n] outward. *)
Definition leaves_outward (n : node_data) (ps : list point) : Prop :=
  forall p q l, ps = p :: q :: l -> exists t, In t (n_ports n) /\ same_place p (port_location t) /\
    straight (port_orientation t) p q.

(** Two edges that agree in their ends. *)
Definition same_ends (e e' : edge_data) : Prop := e_source e' = e_source e /\ e_target e' = e_target e.
