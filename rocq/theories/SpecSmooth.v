(** Paths without kinks. *)
From Coq Require Import List ZArith.
From Verif Require Import SpecLink.
Import ListNotations.
Local Open Scope Z_scope.

(** One of the four directions. *)
Definition axis (v : Z * Z) : Prop := v = (1, 0) \/ v = (-1, 0) \/ v = (0, 1) \/ v = (0, -1).

(** The pen has arrived at a point in a direction: lines continue in it, and
    curves leave in it and arrive in another, never turning back. *)
Fixpoint smooth_from (pen dir : Z * Z) (cs : list command) : Prop :=
  match cs with
  | [] => True
  | MoveTo _ :: _ => False
  | LineTo p :: cs' => direction pen p = dir /\ smooth_from p dir cs'
  | CurveTo c p :: cs' => direction pen c = dir /\ axis (direction c p) /\ direction c p <> direction c pen /\ smooth_from p (direction c p) cs'
  end.
Definition smooth (cs : list command) : Prop :=
  exists a p cs', cs = MoveTo a :: LineTo p :: cs' /\ axis (direction a p) /\ smooth_from p (direction a p) cs'.
