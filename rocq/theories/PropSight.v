(** Which nodes of the routing graph are joined: C108. *)
From Coq Require Import List Arith ZArith Bool.
From Verif Require Import Base F32 Geometry Mir Erd Route Layout Cli SpecGeom SpecLayout SpecRoute SpecGraph SpecSight ConnectFacts CrashFacts ThroughFacts SightFacts UpwardFacts.
Import ListNotations.

(** C108: two nodes are joined exactly when one picks the other.  In each of the
    four directions a node picks the nearest of the nodes in sight and the first
    node of all, whether that one is in sight or not. *)
Theorem C108_which_nodes_are_joined :
  forall m vb g d, layout_module m = Ret (vb, g, d) ->
  forall a b, joined (rg_edges g) a b <-> picks d (rg_nodes g) a b \/ picks d (rg_nodes g) b a.
Proof. exact joined_iff. Qed.
Print Assumptions C108_which_nodes_are_joined.

(** In the graph of three tables side by side, the first and the last joined by a
    relation, there are 20 nodes and 24 edges; one edge passes through the table in between. *)
Example C108_example :
  match layout_module crossing_module with
  | Ret (_, g, _) => (length (rg_nodes g), length (rg_edges g), existsb (fun e => Nat.eqb (fst e) 8 && Nat.eqb (snd e) 11) (rg_edges g))
  | Panic _ => (0, 0, false)
  end = (20, 24, true).
Proof. vm_compute. reflexivity. Qed.

(** In every direction in which there is a node at all, exactly one is picked. *)
Theorem C108_one_in_each_direction :
  forall d ns o n, (exists c k, nth_error ns c = Some k /\ in_line o n k) ->
  exists b m, picked d ns o n b m /\ forall b' m', picked d ns o n b' m' -> b' = b /\ m' = m.
Proof. exact one_pick. Qed.
Print Assumptions C108_one_in_each_direction.

(** A junction and a port below it. *)
Example C108_example_direction :
  let n := mkRNode (mkPoint (f32_of_Z 10) (f32_of_Z 10)) None in
  let m := mkRNode (mkPoint (f32_of_Z 10) (f32_of_Z 90)) (Some Up) in
  exists c k, nth_error [n; m] c = Some k /\ in_line Down n k.
Proof. exists 1. eexists. split; [reflexivity|]. repeat split; try (vm_compute; reflexivity); [now left|now right]. Qed.

(** Nodes with a table between them are picked downward, to the left and to the
    right. *)
Theorem C108_picked_in_sight_refuted :
  forall o, o <> Up -> exists md vb g d a b n m,
  layout_module md = Ret (vb, g, d) /\ nth_error (rg_nodes g) a = Some n /\ picked d (rg_nodes g) o n b m /\
  ~ in_sight d (rn_loc n) (rn_loc m).
Proof. exact hidden_picks. Qed.
Print Assumptions C108_picked_in_sight_refuted.

(** Upward no table is ever found to be in between, so the nearest node is picked. *)
Theorem C108_upward_in_sight :
  forall m vb g d, fits (table_rows m) -> layout_module m = Ret (vb, g, d) ->
  forall a b n k, nth_error (rg_nodes g) a = Some n -> nth_error (rg_nodes g) b = Some k ->
  straight Up (rn_loc n) (rn_loc k) -> in_sight d (rn_loc n) (rn_loc k).
Proof. exact upward_in_sight. Qed.
Print Assumptions C108_upward_in_sight.

Theorem C108_upward_nearest :
  forall m vb g d, fits (table_rows m) -> layout_module m = Ret (vb, g, d) ->
  forall a n b k, nth_error (rg_nodes g) a = Some n -> picked d (rg_nodes g) Up n b k ->
  forall c l, nth_error (rg_nodes g) c = Some l -> in_line Up n l -> ~ sooner Up (rn_loc l) (rn_loc k).
Proof. exact upward_nearest. Qed.
Print Assumptions C108_upward_nearest.

(** In a column of tables, node 16 is above node 17; seen from node
    16 there is a table in between. *)
Example C108_example_upward :
  fits (table_rows tower) /\
  match layout_module tower with
  | Ret (_, g, d) =>
      match nth_error (rg_nodes g) 17, nth_error (rg_nodes g) 16 with
      | Some n, Some k => straightb Up (rn_loc n) (rn_loc k) && is_connectable n Up && is_connectable k Down &&
          existsb (fun r => intersects_line r (rn_loc k) (rn_loc n)) (shrunken d) &&
          negb (existsb (fun r => intersects_line r (rn_loc n) (rn_loc k)) (shrunken d))
      | _, _ => false
      end
  | Panic _ => false
  end = true.
Proof. split; [unfold fits; vm_compute; discriminate|vm_compute; reflexivity]. Qed.
