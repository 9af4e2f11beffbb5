(** The properties of the geometry functions: C46-C52.  Coordinates are given in
    halves: [hv x z] says that [x] is exactly [z/2]. *)
From Coq Require Import List ZArith Bool SpecFloat.
From Verif Require Import Base F32 Geometry SpecF32 SpecGeom F32Facts GeomFacts.
Import ListNotations.
Local Open Scope Z_scope.

(** C46.  The right and bottom sides belong to the rectangle. *)
Theorem C46_contains_point :
  forall r x y w h p a b,
  hrect r x y w h -> hpoint p a b -> Z.abs (x + w) <= M24 -> Z.abs (y + h) <= M24 ->
  (contains_point r p = true <-> x <= a <= x + w /\ y <= b <= y + h).
Proof. exact contains_rect. Qed.
Print Assumptions C46_contains_point.

Definition rect_of (x y w h : Z) : rect :=
  mkRect (mkPoint (f32_of_Z x) (f32_of_Z y)) (mkSize (f32_of_Z w) (f32_of_Z h)).
Definition point_of (x y : Z) : point := mkPoint (f32_of_Z x) (f32_of_Z y).

(** An empty rectangle contains a point, and so do the right and bottom sides. *)
Theorem C46_documented_half_open_refuted :
  exists r p q, contains_point r p = true /\ height (rsize r) = fzero /\ width (rsize r) = fzero /\
  exists r', contains_point r' q = true /\ px q = max_x r' /\ py q = max_y r' /\
             flt (min_x r') (max_x r') = true.
Proof.
  exists (rect_of 3 4 0 0), (point_of 3 4), (point_of 13 24). repeat split.
  exists (rect_of 3 4 10 20). vm_compute. auto.
Qed.
Print Assumptions C46_documented_half_open_refuted.

Example C46_example :
  hrect (rect_of 50 50 300 70) 100 100 600 140 /\ hpoint (point_of 350 120) 700 240 /\
  contains_point (rect_of 50 50 300 70) (point_of 350 120) = true /\
  contains_point (rect_of 50 50 300 70) (point_of 351 120) = false.
Proof.
  split; [|split; [|vm_compute; auto]].
  - repeat split; [apply (hv_of_Z 50)|apply (hv_of_Z 50)|apply (hv_of_Z 300)|apply (hv_of_Z 70)];
      now compute.
  - split; [apply (hv_of_Z 350)|apply (hv_of_Z 120)]; now compute.
Qed.

(** C47 *)
Theorem C47_inset_by :
  forall r x y w h dx dy a b,
  hrect r x y w h -> hv dx a -> hv dy b ->
  Z.abs (x + a) <= M24 -> Z.abs (y + b) <= M24 ->
  Z.abs (2 * a) <= M24 -> Z.abs (2 * b) <= M24 ->
  Z.abs (w - 2 * a) <= M24 -> Z.abs (h - 2 * b) <= M24 ->
  hrect (inset_by r dx dy) (x + a) (y + b) (Z.max (w - 2 * a) 0) (Z.max (h - 2 * b) 0).
Proof. exact inset_exact. Qed.
Print Assumptions C47_inset_by.

(** For rectangles of integral size [w] by [h] the centre stays where it is
    exactly when twice the inset fits. *)
Theorem C47_center_kept_iff_not_clamped :
  forall r x y w h dx dy a b,
  hrect r x y (2 * w) (2 * h) -> hv dx a -> hv dy b ->
  Z.abs x <= 4194304 -> Z.abs y <= 4194304 -> 0 <= w <= 4194304 -> 0 <= h <= 4194304 ->
  Z.abs a <= 4194304 -> Z.abs b <= 4194304 ->
  (point_eqb (center (inset_by r dx dy)) (center r) = true <-> a <= w /\ b <= h).
Proof. exact inset_center. Qed.
Print Assumptions C47_center_kept_iff_not_clamped.

Example C47_example :
  point_eqb (center (inset_by (rect_of 10 10 4 4) (f32_of_Z 2) (f32_of_Z (-7)))) (center (rect_of 10 10 4 4)) = true /\
  point_eqb (center (inset_by (rect_of 10 10 4 4) (f32_of_Z 3) (f32_of_Z 0))) (center (rect_of 10 10 4 4)) = false.
Proof. vm_compute. auto. Qed.

(** C48 *)
Theorem C48_intersects_line :
  forall w0 r x y w h p q ax ay bx by_,
  hrect r x y w h -> hpoint p ax ay -> hpoint q bx by_ ->
  0 <= w -> 0 <= h -> - M24 <= w0 <= 0 ->
  window w0 x -> window w0 y -> window w0 (x + w) -> window w0 (y + h) ->
  window w0 ax -> window w0 ay -> window w0 bx -> window w0 by_ ->
  ay = by_ \/ (ax = bx /\ ay <= by_) ->
  ~ (strictly_inside x y (x + w) (y + h) ax ay /\ strictly_inside x y (x + w) (y + h) bx by_) ->
  (intersects_line r p q = true <-> meets x y (x + w) (y + h) ax ay bx by_).
Proof. exact intersects_iff. Qed.
Print Assumptions C48_intersects_line.

Example C48_example :
  intersects_line (rect_of 10 10 5 5) (point_of 0 12) (point_of 100 12) = true /\
  intersects_line (rect_of 10 10 5 5) (point_of 100 15) (point_of 15 15) = true /\
  intersects_line (rect_of 10 10 5 5) (point_of 12 0) (point_of 12 9) = false /\
  intersects_line (rect_of 10 10 5 5) (point_of 12 0) (point_of 12 10) = true.
Proof. vm_compute. auto. Qed.

(** C49.  Every upward segment through the interior is missed, while the same
    segment in the other direction is found. *)
Theorem C49_upward_segments_are_missed :
  forall w0 r x y w h p q ax ay by_,
  hrect r x y w h -> hpoint p ax ay -> hpoint q ax by_ ->
  0 <= w -> 0 <= h -> - M24 <= w0 <= 0 ->
  window w0 x -> window w0 y -> window w0 (x + w) -> window w0 (y + h) ->
  window w0 ax -> window w0 ay -> window w0 by_ ->
  x < ax < x + w -> by_ < y -> y + h < ay ->
  intersects_line r p q = false /\ intersects_line r q p = true /\
  meets x y (x + w) (y + h) ax ay ax by_.
Proof. exact intersects_upward. Qed.
Print Assumptions C49_upward_segments_are_missed.

Theorem C49_symmetry_refuted :
  exists r p q, intersects_line r p q = false /\ intersects_line r q p = true.
Proof.
  exists (rect_of 10 10 5 5), (point_of 12 30), (point_of 12 0). vm_compute. auto.
Qed.
Print Assumptions C49_symmetry_refuted.

(** C50 *)
Theorem C50_distance :
  forall p q x1 y1 x2 y2,
  hpoint p x1 y1 -> hpoint q x2 y2 -> x1 = x2 \/ y1 = y2 ->
  Z.abs (x1 - x2) <= M24 -> Z.abs (y1 - y2) <= M24 ->
  hv (distance p q) (Z.abs (x1 - x2) + Z.abs (y1 - y2)).
Proof. exact distance_exact. Qed.
Print Assumptions C50_distance.

Theorem C50_cost :
  forall p q x1 y1 x2 y2,
  hpoint p x1 y1 -> hpoint q x2 y2 -> x1 = x2 \/ y1 = y2 ->
  Z.abs (x1 - x2) <= M24 -> Z.abs (y1 - y2) <= M24 ->
  f32_to_u32 (distance p q) = Z.to_N ((Z.abs (x1 - x2) + Z.abs (y1 - y2)) / 2).
Proof. exact distance_cost. Qed.
Print Assumptions C50_cost.

Example C50_example :
  f32_to_u32 (distance (mkPoint (f32_of_Z 10) (fdiv (f32_of_Z 8388607) (f32_of_Z 2)))
                       (mkPoint (f32_of_Z 10) (f32_of_Z 1))) = 4194302%N.
Proof. vm_compute. reflexivity. Qed.

(** C51 *)
Theorem C51_orthogonal_direction :
  forall p q, proper p -> proper q ->
  (feq (py p) (py q) = true -> flt (px q) (px p) = true ->
     orthogonal_direction p q = Left /\ orthogonal_direction q p = Right) /\
  (feq (px p) (px q) = true -> flt (py q) (py p) = true ->
     orthogonal_direction p q = Up /\ orthogonal_direction q p = Down).
Proof. exact direction_cases. Qed.
Print Assumptions C51_orthogonal_direction.

Example C51_example :
  orthogonal_direction (mkPoint F_MAX fzero) (mkPoint (S754_infinity false) (fneg fzero)) = Right /\
  orthogonal_direction (point_of 1 5) (point_of 1 (-7)) = Up.
Proof. vm_compute. auto. Qed.

(** C52 *)
Theorem C52_path_ends :
  forall start cs,
  path_start_point (fold_left apply_command cs (path_new start)) = Ret start /\
  path_end_point (fold_left apply_command cs (path_new start)) = Ret (last (map target cs) start).
Proof. exact (fun start cs => path_points cs [] start). Qed.
Print Assumptions C52_path_ends.

Example C52_example :
  path_end_point (fold_left apply_command [LineTo (point_of 1 2); QuadTo (point_of 0 0) (point_of 3 4)]
                            (path_new (point_of 9 9))) = Ret (point_of 3 4).
Proof. reflexivity. Qed.
