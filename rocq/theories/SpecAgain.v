(** Layout done again by the same engine. *)
From Coq Require Import List Arith.
From Verif Require Import Base Mir Route.
Import ListNotations.

(** The same nodes, edges and registered ports. *)
Definition same_routes (g h : route_graph) : Prop :=
  rg_nodes g = rg_nodes h /\ rg_edges g = rg_edges h /\ forall id, rg_get_port g id = rg_get_port h id.
