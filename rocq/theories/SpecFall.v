(** Places one below the other. Coordinates are in halves. *)
From Coq Require Import List Arith ZArith Sorting.Sorted.
From Verif Require Import Base F32 Geometry SpecF32 SpecGeom SpecLayout SpecLink SpecStack SpecNear.
Import ListNotations.
Local Open Scope Z_scope.

(** The lower side of the place is the lower side of its table: the whole of a
    table, or its last row. *)
Definition at_foot (hs : list nat) (p : place) : Prop :=
  match p with Table _ => True | Row i k => S k = nth i hs 0%nat end.
(** The table of the whole place [q] is the next one below that of [p]. *)
Definition directly_below (hs : list nat) (p q : place) : Prop :=
  at_foot hs p /\ exists i, q = Table i /\ (i = place_table p + 3)%nat.

(** The middle of a table, and the heights of its lower and upper side. *)
Definition middle_x (p : place) : Z := 2 * table_left (place_table p) + 300.
Definition foot (hs : list nat) (p : place) : Z := 2 * (table_top hs (place_table p) + table_height hs (place_table p)).
Definition head (hs : list nat) (p : place) : Z := 2 * table_top hs (place_table p).

(** All points at [X], from [Y1] to [Y2], without turning back. *)
Definition straight (R : Z -> Z -> Prop) (ps : list point) (X Y1 Y2 : Z) : Prop :=
  exists l, Forall2 (fun p Y => hpoint p X Y) ps l /\ (exists r, l = Y1 :: r) /\ (exists r, l = r ++ [Y2]) /\ StronglySorted R l.
Definition straight_down := straight Z.lt.
Definition straight_up := straight Z.gt.
