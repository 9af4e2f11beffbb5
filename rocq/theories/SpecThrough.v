(** Lines through tables. *)
From Coq Require Import List ZArith Reals.
From Verif Require Import Base Geometry SpecF32.
Import ListNotations.

(** Some point of the segment from [(X1,Y1)] to [(X2,Y2)] lies strictly inside
    the rectangle with the corners [(x,y)] and [(x+w,y+h)]. *)
Definition enters (x y w h X1 Y1 X2 Y2 : Z) : Prop :=
  exists s : R, (0 <= s <= 1 /\
    IZR x < IZR X1 + s * (IZR X2 - IZR X1) < IZR x + IZR w /\
    IZR y < IZR Y1 + s * (IZR Y2 - IZR Y1) < IZR y + IZR h)%R.

(** The segment runs down the middle of the rectangle, from above it to below it or back. *)
Definition down_the_middle (x y w h X1 Y1 X2 Y2 : Z) : Prop :=
  (X1 = X2 /\ 2 * X1 = 2 * x + w /\ Z.min Y1 Y2 <= y /\ y + h <= Z.max Y1 Y2)%Z.
(** The segment runs straight through the rectangle, from left to right or back. *)
Definition side_to_side (x y w h X1 Y1 X2 Y2 : Z) : Prop :=
  (Y1 = Y2 /\ Z.min X1 X2 <= x /\ x + w <= Z.max X1 X2)%Z.
