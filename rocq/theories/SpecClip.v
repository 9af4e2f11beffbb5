(** Segments in any direction: C79. *)
From Coq Require Import ZArith Reals.
From Verif Require Import Base Geometry SpecF32.

(** A point of the closed segment from [(ax,ay)] to [(bx,by)] lies in the closed
    rectangle between [(l,t)] and [(r,b)]. *)
Definition crosses (l t r b ax ay bx by_ : Z) : Prop :=
  exists s : R,
    (0 <= s <= 1 /\
     IZR l <= IZR ax + s * (IZR bx - IZR ax) <= IZR r /\
     IZR t <= IZR ay + s * (IZR by_ - IZR ay) <= IZR b)%R.

(** The segment, followed to the right, starts below the top and right of the left
    side, and ends above the bottom and left of the right side.  (That is not the
    same as lying inside: a segment that rises may do so as well.) *)
Definition taken_for_inside (l t r b ax ay bx by_ : Z) : Prop :=
  ((bx < ax /\ l < bx /\ ax < r /\ t < by_ /\ ay < b) \/
   (ax <= bx /\ l < ax /\ bx < r /\ t < ay /\ by_ < b))%Z.

(** The part of the segment in the rectangle is the one from [s1] to [s2], where 0 is
    its first and 1 its last point. *)
Definition piece (l t r b ax ay bx by_ : Z) (s1 s2 : R) : Prop :=
  (s1 <= s2)%R /\ forall s : R,
    (0 <= s <= 1 /\
     IZR l <= IZR ax + s * (IZR bx - IZR ax) <= IZR r /\
     IZR t <= IZR ay + s * (IZR by_ - IZR ay) <= IZR b <-> s1 <= s <= s2)%R.

(** [p] is finite and in both directions within three quarters of a unit of the point
    [s] of the segment; if that is level or upright, the common coordinate is exact. *)
Definition close_to (p : point) (ax ay bx by_ : Z) (s : R) : Prop :=
  exists u v, fin (px p) u /\ fin (py p) v /\
  (Rabs (2 * u - (IZR ax + s * (IZR bx - IZR ax))) <= 3 / 2)%R /\
  (Rabs (2 * v - (IZR ay + s * (IZR by_ - IZR ay))) <= 3 / 2)%R /\
  (ax = bx -> u = (IZR ax / 2)%R) /\ (ay = by_ -> v = (IZR ay / 2)%R).
