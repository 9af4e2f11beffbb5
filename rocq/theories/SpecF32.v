(** What it means for the floating-point data of the program to denote exact
    numbers.  Coordinates of diagrams are half-integers, so they are described
    by the integer that is twice their value. *)
From Coq Require Import ZArith Reals.
From Flocq Require Import Core BinarySingleNaN.
From Verif Require Import Base F32 Geometry.
Local Open Scope R_scope.

(** [fin x r]: [x] encodes a finite binary32 number whose value is [r]. *)
Definition fin (x : f32) (r : R) : Prop :=
  exists b : binary_float 24 128, B2SF b = x /\ BinarySingleNaN.is_finite b = true /\ B2R b = r.

(** [hv x z]: [x] is exactly [z/2]. *)
Definition hv (x : f32) (z : Z) : Prop := fin x (IZR z / 2).

(** Up to 2^24 halves, i.e. 2^23, every half-integer is a binary32 number. *)
Definition M24 : Z := 16777216.

Definition hpoint (p : point) (x y : Z) : Prop := hv (px p) x /\ hv (py p) y.

Definition hrect (r : rect) (x y w h : Z) : Prop :=
  hpoint (origin r) x y /\ hv (width (rsize r)) w /\ hv (height (rsize r)) h.
