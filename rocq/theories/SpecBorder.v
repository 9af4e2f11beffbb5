(** How close lines come to tables and to each other's ends. Coordinates are given
    in halves, as integers. *)
From Coq Require Import List Arith ZArith.
From Verif Require Import Base Geometry SpecF32 SpecLayout.
Import ListNotations.
Local Open Scope Z_scope.

(** The horizontal lines of the tables: the borders of the tables and of their rows. *)
Definition border (hs : list nat) (y : Z) : Prop :=
  exists i k, (i < length hs)%nat /\ (k <= nth i hs 0)%nat /\ y = 2 * (table_top hs i + 35 * Z.of_nat k).
(** The sides of the tables. *)
Definition table_side (hs : list nat) (x : Z) : Prop :=
  exists i, (i < length hs)%nat /\ (x = 2 * table_left i \/ x = 2 * (table_left i + 300)).

(** Horizontal pieces of the path stay 5 away from all horizontal borders, vertical
    ones 40 away from all sides of tables. *)
Definition off_borders (hs : list nat) (ps : list point) : Prop :=
  forall l1 p q l2 X1 Y1 X2 Y2, ps = l1 ++ p :: q :: l2 -> hpoint p X1 Y1 -> hpoint q X2 Y2 ->
  (Y1 = Y2 -> forall y, border hs y -> 10 <= Z.abs (Y1 - y)) /\
  (X1 = X2 -> forall x, table_side hs x -> 80 <= Z.abs (X1 - x)).

(** The first and the last point of a path. *)
Definition end_of_line (ps : list point) (p : point) : Prop :=
  (exists l, ps = p :: l) \/ (exists l, ps = l ++ [p]).

(** The same point, or at least [k] apart in one direction. *)
Definition same_or_apart (k : Z) (p q : point) : Prop :=
  exists X Y X' Y', hpoint p X Y /\ hpoint q X' Y' /\ ((X = X' /\ Y = Y') \/ k <= Z.abs (X - X') \/ k <= Z.abs (Y - Y')).
