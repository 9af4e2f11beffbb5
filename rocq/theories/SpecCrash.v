(** Drawings that go wrong: edges through foreign tables, relations of a field
    with itself. *)
From Coq Require Import List.
From Verif Require Import Base F32 Geometry Mir Erd.
Import ListNotations.

(** The horizontal or vertical segment from [p] to [q] runs from one side of the
    rectangle to the other, strictly inside it. *)
Definition between (a x b : f32) : Prop := flt a x = true /\ flt x b = true.
Definition runs_through (p q : point) (r : rect) : Prop :=
  (feq (py p) (py q) = true /\ between (min_y r) (py p) (max_y r) /\
   (flt (px p) (min_x r) = true /\ flt (max_x r) (px q) = true \/
    flt (px q) (min_x r) = true /\ flt (max_x r) (px p) = true)) \/
  (feq (px p) (px q) = true /\ between (min_x r) (px p) (max_x r) /\
   (flt (py p) (min_y r) = true /\ flt (max_y r) (py q) = true \/
    flt (py q) (min_y r) = true /\ flt (max_y r) (py p) = true)).

(** Table [i] contains an end of the edge. *)
Definition own_table (d : document) (e : edge_data) (i : node_id) : Prop :=
  i = e_source e \/ i = e_target e \/
  exists n, get_node d i = Some n /\ (In (e_source e) (n_children n) \/ In (e_target e) (n_children n)).

(** The path of the edge [e] runs through the foreign table [i]. *)
Definition crosses_table (d : document) (e : edge_data) (i : node_id) : Prop :=
  In i (body_children d) /\ ~ own_table d e i /\
  exists n r l1 p q l2, get_node d i = Some n /\ node_rect n = Some r /\
    e_path e = Some (l1 ++ p :: q :: l2) /\ runs_through p q r.

(** A relation between two different fields. *)
Definition fields_joined (r : entity_relation) : Prop :=
  exists a b c e, rel_start r = PField a b /\ rel_end r = PField c e /\ (a, b) <> (c, e).
