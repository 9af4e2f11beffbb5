(** Which nodes of the routing graph should be joined. *)
From Coq Require Import List Arith ZArith.
From Verif Require Import Base F32 Geometry Mir Route Layout SpecGeom SpecGraph.

(** A junction can be left in all directions, a port only outward. *)
Definition open_to (n : route_node) (o : orientation) : Prop := rn_orient n = None \/ rn_orient n = Some o.

(** [m] lies in direction [o] from [n], and a line may leave the one and reach the other. *)
Definition in_line (o : orientation) (n m : route_node) : Prop :=
  straight o (rn_loc n) (rn_loc m) /\ open_to n o /\ open_to m (opposite o).

(** Going in direction [o], [p] comes strictly before [q]. *)
Definition sooner (o : orientation) (p q : point) : Prop :=
  match o with
  | Up => flt (py q) (py p) = true
  | Down => flt (py p) (py q) = true
  | Left => flt (px q) (px p) = true
  | Right => flt (px p) (px q) = true
  end.

(** The test for collisions finds no table between [p] and [q]; tables count without
    their outermost pixel.  C48, C49 and C79 say what [intersects_line] finds. *)
Definition in_sight (d : document) (p q : point) : Prop :=
  forall r, table_rect d r -> intersects_line (inset_by r (f32_of_Z 1%Z) (f32_of_Z 1%Z)) p q = false.

(** Node [b] is [m], lies in direction [o] from [n], and is in sight or the first such node of all. *)
Definition contender (d : document) (ns : list route_node) (o : orientation) (n : route_node) (b : nat) (m : route_node) : Prop :=
  nth_error ns b = Some m /\ in_line o n m /\
  (in_sight d (rn_loc n) (rn_loc m) \/
   forall c k, c < b -> nth_error ns c = Some k -> ~ in_line o n k).

(** The nearest of these; of several in the same place, the first. *)
Definition picked (d : document) (ns : list route_node) (o : orientation) (n : route_node) (b : nat) (m : route_node) : Prop :=
  contender d ns o n b m /\
  forall c k, contender d ns o n c k ->
    (c < b -> sooner o (rn_loc m) (rn_loc k)) /\ (b < c -> ~ sooner o (rn_loc k) (rn_loc m)).

(** Node [a] picks node [b], in some direction. *)
Definition picks (d : document) (ns : list route_node) (a b : nat) : Prop :=
  exists o n m, nth_error ns a = Some n /\ picked d ns o n b m.
