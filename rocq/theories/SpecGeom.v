(** Exact geometry over the reals, in units of one half. *)
From Coq Require Import List ZArith Reals.
From Verif Require Import Base F32 Geometry SpecF32.
Import ListNotations.

(** A common point of the closed segment from [(ax,ay)] to [(bx,by)], parallel to
    an axis, and the closed rectangle between [(l,t)] and [(r,b)]. *)
Definition meets (l t r b ax ay bx by_ : Z) : Prop :=
  exists x y : R,
    (IZR l <= x <= IZR r /\ IZR t <= y <= IZR b /\
     Rmin (IZR ax) (IZR bx) <= x <= Rmax (IZR ax) (IZR bx) /\
     Rmin (IZR ay) (IZR by_) <= y <= Rmax (IZR ay) (IZR by_))%R.

Definition strictly_inside (l t r b x y : Z) : Prop := (l < x < r)%Z /\ (t < y < b)%Z.

(** All coordinates lie in a window of length 2^24 halves. *)
Definition window (w c : Z) : Prop := (w <= c <= w + M24)%Z.

(** The opposite direction. *)
Definition opposite (o : orientation) : orientation :=
  match o with Up => Down | Down => Up | Left => Right | Right => Left end.

Definition proper (p : point) : Prop := is_nan (px p) = false /\ is_nan (py p) = false.

(** One call on a [Path]; the point it ends at. *)
Definition apply_command (p : path) (c : path_command) : path :=
  match c with
  | MoveTo q => path_move_to p q
  | LineTo q => path_line_to p q
  | QuadTo k q => path_quad_to p k q
  end.
Definition target (c : path_command) : point :=
  match c with MoveTo q | LineTo q | QuadTo _ q => q end.
