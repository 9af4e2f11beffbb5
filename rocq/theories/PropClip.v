(** Segments in any direction: C79. *)
From Coq Require Import List ZArith Reals Lra.
From Verif Require Import Base F32 Geometry SpecF32 SpecGeom SpecClip ClipFacts PieceFacts.
Local Open Scope Z_scope.

(** No segment that meets the rectangle is missed, except by the early exit. *)
Theorem C79_misses_nothing :
  forall w0 r x y w h p q ax ay bx by_,
  hrect r x y w h -> hpoint p ax ay -> hpoint q bx by_ ->
  0 <= w -> 0 <= h -> - M24 <= w0 <= 0 ->
  window w0 x -> window w0 y -> window w0 (x + w) -> window w0 (y + h) ->
  window w0 ax -> window w0 ay -> window w0 bx -> window w0 by_ ->
  crosses x y (x + w) (y + h) ax ay bx by_ -> ~ taken_for_inside x y (x + w) (y + h) ax ay bx by_ ->
  intersects_line r p q = true.
Proof. exact intersects_misses_nothing. Qed.
Print Assumptions C79_misses_nothing.

(** A segment that is said to meet the rectangle comes to within one half of a unit. *)
Theorem C79_nearly_sound :
  forall w0 r x y w h p q ax ay bx by_,
  hrect r x y w h -> hpoint p ax ay -> hpoint q bx by_ ->
  0 <= w -> 0 <= h -> - M24 <= w0 <= 0 ->
  window w0 x -> window w0 y -> window w0 (x + w) -> window w0 (y + h) ->
  window w0 ax -> window w0 ay -> window w0 bx -> window w0 by_ ->
  intersects_line r p q = true ->
  ~ taken_for_inside x y (x + w) (y + h) ax ay bx by_ /\
  crosses (x - 1) (y - 1) (x + w + 1) (y + h + 1) ax ay bx by_.
Proof. exact intersects_sound. Qed.
Print Assumptions C79_nearly_sound.

(** It does meet it if the box around the segment has an area below 2^22 units
    (2^24 quarters). *)
Theorem C79_exact :
  forall w0 r x y w h p q ax ay bx by_,
  hrect r x y w h -> hpoint p ax ay -> hpoint q bx by_ ->
  0 <= w -> 0 <= h -> - M24 <= w0 <= 0 ->
  window w0 x -> window w0 y -> window w0 (x + w) -> window w0 (y + h) ->
  window w0 ax -> window w0 ay -> window w0 bx -> window w0 by_ ->
  Z.abs (bx - ax) * Z.abs (by_ - ay) < M24 ->
  intersects_line r p q = true <->
  ~ taken_for_inside x y (x + w) (y + h) ax ay bx by_ /\ crosses x y (x + w) (y + h) ax ay bx by_.
Proof. exact intersects_decides. Qed.
Print Assumptions C79_exact.

(** The bound cannot be doubled: here the area is 4142 * 4141 quarters, and a
    segment that passes a corner outside is said to meet the rectangle. *)
Theorem C79_false_alarm_refuted : exists r x y w h p q ax ay bx by_,
  hrect r x y w h /\ hpoint p ax ay /\ hpoint q bx by_ /\
  Z.abs (bx - ax) * Z.abs (by_ - ay) < 2 * M24 /\
  intersects_line r p q = true /\ ~ crosses x y (x + w) (y + h) ax ay bx by_.
Proof.
  exact (ex_intro _ _ (ex_intro _ 4141 (ex_intro _ (-10) (ex_intro _ 11 (ex_intro _ 4150 (ex_intro _ _ (ex_intro _ _
    (ex_intro _ 0 (ex_intro _ 0 (ex_intro _ 4142 (ex_intro _ 4141 false_alarm_full))))))))))).
Qed.
Print Assumptions C79_false_alarm_refuted.

(** The point where the segment is said to enter need not lie in the rectangle. *)
Theorem C79_entry_point_refuted : exists r p q e l,
  intersected_line r p q = Some (e, l) /\ contains_point r p = false /\ contains_point r q = true /\
  contains_point r e = false.
Proof. exact entry_outside. Qed.
Print Assumptions C79_entry_point_refuted.

(** The points returned are close to the ends of the part of the segment in the
    rectangle; the left one (or the first, if the segment is upright) comes first. *)
Theorem C79_points :
  forall w0 r x y w h p q ax ay bx by_ e l,
  hrect r x y w h -> hpoint p ax ay -> hpoint q bx by_ ->
  0 <= w -> 0 <= h -> - M24 <= w0 <= 0 ->
  window w0 x -> window w0 y -> window w0 (x + w) -> window w0 (y + h) ->
  window w0 ax -> window w0 ay -> window w0 bx -> window w0 by_ ->
  crosses x y (x + w) (y + h) ax ay bx by_ -> intersected_line r p q = Some (e, l) ->
  exists s1 s2, piece x y (x + w) (y + h) ax ay bx by_ s1 s2 /\
  ((ax <= bx /\ close_to e ax ay bx by_ s1 /\ close_to l ax ay bx by_ s2) \/
   (bx < ax /\ close_to e ax ay bx by_ s2 /\ close_to l ax ay bx by_ s1)).
Proof. exact clipped_points. Qed.
Print Assumptions C79_points.

(** Two oblique segments: one cuts the corner of the rectangle, the other passes it. *)
Example C79_example :
  intersects_line (halfrect 20 20 10 10) (halfpoint 0 39) (halfpoint 59 0) = true /\
  intersects_line (halfrect 20 20 10 10) (halfpoint 0 39) (halfpoint 40 0) = false /\
  hrect (halfrect 20 20 10 10) 20 20 10 10 /\ hpoint (halfpoint 0 39) 0 39 /\
  hpoint (halfpoint 59 0) 59 0 /\ ~ taken_for_inside 20 20 30 30 0 39 59 0.
Proof. exact oblique_example. Qed.

Example C79_points_example :
  crosses 20 20 (20 + 10) (20 + 10) 0 39 59 0 /\ window (-30) 20 /\ window (-30) 59 /\
  exists e l, intersected_line (halfrect 20 20 10 10) (halfpoint 0 39) (halfpoint 59 0) = Some (e, l).
Proof.
  split; [exists (2 / 5)%R; cbn; lra|]. split; [split; discriminate|]. split; [split; discriminate|].
  eexists. eexists. vm_compute. reflexivity.
Qed.
