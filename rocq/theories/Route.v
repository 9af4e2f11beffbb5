(** The routing graph of /repo/src/layout.rs (lines 53-235) and the search run
    on it (layout.rs:824-853). *)
From Coq Require Import List Arith NArith Bool.
From Verif Require Import Base F32 Geometry Mir Heap.
Import ListNotations.

(** layout.rs:172-179 *)
Record route_node := mkRNode { rn_loc : point; rn_orient : option orientation }.

(** layout.rs:58-62.  petgraph's [UnGraph]: node vector and edge vector (source,
    target) in insertion order; [rg_ports] is the [HashMap] from terminal ports
    to route nodes. *)
Record route_graph := mkRG {
  rg_nodes : list route_node;
  rg_edges : list (nat * nat);
  rg_ports : list (port_id * nat) }.

(** layout.rs:65-72 *)
Definition rg_new : route_graph := mkRG [] [] [].

(** layout.rs:198-203 *)
Definition is_connectable (n : route_node) (o : orientation) : bool :=
  match rn_orient n with None => true | Some d => orientation_eqb d o end.

Definition opt_orient_eqb (a b : option orientation) : bool :=
  match a, b with
  | None, None => true
  | Some x, Some y => orientation_eqb x y
  | _, _ => false
  end.

(** [node_indices().find(location == loc)], layout.rs:105-109 *)
Fixpoint find_loc (loc : point) (i : nat) (ns : list route_node) : option (nat * route_node) :=
  match ns with
  | [] => None
  | n :: ns' => if point_eqb (rn_loc n) loc then Some (i, n) else find_loc loc (S i) ns'
  end.

(** layout.rs:104-128 *)
Definition rg_add_node_ (g : route_graph) (loc : point) (o : option orientation)
  : res (route_graph * nat) :=
  match find_loc loc 0 (rg_nodes g) with
  | Some (i, n) => if opt_orient_eqb (rn_orient n) o then Ret (g, i) else Panic POrientation
  | None => Ret (mkRG (rg_nodes g ++ [mkRNode loc o]) (rg_edges g) (rg_ports g),
                 length (rg_nodes g))
  end.

(** layout.rs:90-92 *)
Definition rg_add_node (g : route_graph) (loc : point) : res route_graph :=
  do gi <- rg_add_node_ g loc None; Ret (fst gi).

(** layout.rs:94-102 *)
Definition rg_add_port (g : route_graph) (p : terminal_port) : res route_graph :=
  do gi <- rg_add_node_ g (port_location p) (Some (port_orientation p));
  let '(g', i) := gi in
  Ret (mkRG (rg_nodes g') (rg_edges g') ((port_ident p, i) :: rg_ports g')).

(** layout.rs:86-88 *)
Definition rg_get_port (g : route_graph) (p : port_id) : option nat :=
  assoc port_id_eqb p (rg_ports g).

(** petgraph [Graph::edges(a)] on an undirected graph: the other ends of the
    edges at [a], outgoing ones first, each group from newest to oldest. *)
Definition neighbors (es : list (nat * nat)) (a : nat) : list nat :=
  filter_map (fun e => if Nat.eqb (fst e) a then Some (snd e) else None) (rev es) ++
  filter_map (fun e => if Nat.eqb (snd e) a && negb (Nat.eqb (fst e) a)
                       then Some (fst e) else None) (rev es).

(** layout.rs:144-151 *)
Definition rg_add_edge (g : route_graph) (ab : nat * nat) : route_graph :=
  let '(a, b) := ab in
  if existsb (Nat.eqb b) (neighbors (rg_edges g) a) then g
  else mkRG (rg_nodes g) (rg_edges g ++ [(a, b)]) (rg_ports g).

(** ** Shortest path *)

(** layout.rs:836-842.  [distance as u32] between the locations of two nodes;
    both exist, because edges only join existing nodes. *)
Definition rg_cost (ns : list route_node) (a b : nat) : N :=
  match nth_error ns a, nth_error ns b with
  | Some n, Some m => f32_to_u32 (distance (rn_loc n) (rn_loc m))
  | _, _ => 0%N
  end.

(** layout.rs:230-231, [RouteCost + RouteCost]: u32 addition, overflow panics
    (debug profile; a release build would wrap). *)
Definition u32_max : N := 4294967295%N.
Definition cost_add (a b : N) : res N :=
  if (a + b <=? u32_max)%N then Ret (a + b)%N else Panic PCostOverflow.

(** State of petgraph 0.6 [algo::astar]: the queue, [scores],
    [estimate_scores] and the predecessor map. *)
Record astar_state := mkA {
  a_heap : list scored;
  a_scores : list (nat * N);
  a_est : list (nat * N);
  a_pred : list (nat * nat) }.

Definition nget {V} (k : nat) (m : list (nat * V)) : option V := assoc Nat.eqb k m.

(** The inner loop over [graph.edges(node)], for one neighbour.  The estimate
    is 0 (layout.rs:843), so the queue key is the score itself. *)
Definition astar_relax (cost : nat -> nat -> N) (node : nat) (node_score : N)
    (st : astar_state) (next : nat) : res astar_state :=
  do ns <- cost_add node_score (cost node next);
  match nget next (a_scores st) with
  | Some old =>
      if (old <=? ns)%N then Ret st
      else Ret (mkA (heap_push (a_heap st) (ns, next)) ((next, ns) :: a_scores st)
                    (a_est st) ((next, node) :: a_pred st))
  | None => Ret (mkA (heap_push (a_heap st) (ns, next)) ((next, ns) :: a_scores st)
                     (a_est st) ((next, node) :: a_pred st))
  end.

(** petgraph [PathTracker::reconstruct_path_to] *)
Fixpoint walk_back (fuel : nat) (pred : list (nat * nat)) (n : nat) (acc : list nat) : res (list nat) :=
  match fuel with
  | O => Panic POutOfFuel
  | S f => match nget n pred with
           | Some p => walk_back f pred p (p :: acc)
           | None => Ret acc
           end
  end.

(** petgraph 0.6 [algo::astar], main loop *)
Fixpoint astar_loop (fuel : nat) (nbrs : nat -> list nat) (cost : nat -> nat -> N) (goal : nat)
    (nnodes : nat) (st : astar_state) : res (option (N * list nat)) :=
  match fuel with
  | O => Panic POutOfFuel
  | S fuel' =>
      match heap_pop (a_heap st) with
      | None => Ret None
      | Some ((score, node), h) =>
          if Nat.eqb node goal then
            do p <- walk_back (S nnodes) (a_pred st) node [node];
            match nget node (a_scores st) with
            | Some c => Ret (Some (c, p))
            | None => Panic PUnwrap
            end
          else
            match nget node (a_scores st) with
            | None => Panic PUnwrap
            | Some node_score =>
                let go := match nget node (a_est st) with
                          | Some old => negb (old <=? score)%N
                          | None => true
                          end in
                if go then
                  do st' <- foldM (astar_relax cost node node_score) (nbrs node)
                                  (mkA h (a_scores st) ((node, score) :: a_est st) (a_pred st));
                  astar_loop fuel' nbrs cost goal nnodes st'
                else astar_loop fuel' nbrs cost goal nnodes
                                (mkA h (a_scores st) (a_est st) (a_pred st))
            end
      end
  end.

(** layout.rs:825-853.  The fuel [2 * edges + 2] covers every run. *)
Definition compute_shortest_path (g : route_graph) (src dst : nat) : res (N * list nat) :=
  do r <- astar_loop (2 * length (rg_edges g) + 2) (neighbors (rg_edges g)) (rg_cost (rg_nodes g))
                     dst (length (rg_nodes g)) (mkA [(0%N, src)] [(src, 0%N)] [] []);
  match r with
  | Some cp => Ret cp
  | None => Panic PNoRoute
  end.
