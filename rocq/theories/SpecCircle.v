(** Lines and the circles at the ends of other lines. Coordinates are given in
    halves, as integers. *)
From Coq Require Import List ZArith Reals.
From Verif Require Import Base SpecLayout SpecLink SpecInk SpecStack.
Import ListNotations.
Local Open Scope Z_scope.

(** Some place of the line through [zs] is less than [r] from [z], across and down. *)
Definition comes_near (zs : list (Z * Z)) (r : Z) (z : Z * Z) : Prop :=
  exists l1 a b l2 x y, zs = l1 ++ a :: b :: l2 /\ on_piece a b x y /\
    (Rabs (x - IZR (fst z)) < IZR r /\ Rabs (y - IZR (snd z)) < IZR r)%R.

(** The middle of the left or right side of the place. *)
Definition flank (hs : list nat) (p : place) (z : Z * Z) : Prop :=
  side_of hs p z /\ (fst z = 2 * table_left (place_table p) \/ fst z = 2 * (table_left (place_table p) + 300)).
