(** Which of several cheapest routes is taken. *)
From Coq Require Import List Arith NArith.
From Verif Require Import Base Geometry Mir Route SpecRoute SpecGraph.
Import ListNotations.

(** The route [l] joins port number [i] of [s] with port number [j] of [t]; it is a
    cheapest walk from a port of [s] to a port of [t], and the pairs of ports before
    this pair, in the order of the ports of [s] and then of [t], are farther apart. *)
Definition first_route (g : route_graph) (s t : node_data) (i j : nat) (l : list nat) : Prop :=
  (exists p q a b, nth_error (n_ports s) i = Some p /\ nth_error (n_ports t) j = Some q /\ stands_for g p a /\ stands_for g q b /\
     walk (rg_edges g) a b l) /\
  (forall i' j' p q a b l', nth_error (n_ports s) i' = Some p -> nth_error (n_ports t) j' = Some q -> stands_for g p a -> stands_for g q b ->
     walk (rg_edges g) a b l' ->
     (walk_cost (rg_cost (rg_nodes g)) l <= walk_cost (rg_cost (rg_nodes g)) l')%N /\
     (i' < i \/ i' = i /\ j' < j -> (walk_cost (rg_cost (rg_nodes g)) l < walk_cost (rg_cost (rg_nodes g)) l')%N)).
