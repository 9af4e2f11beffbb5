(** Places at nearly the same height. Coordinates are in halves. *)
From Coq Require Import List Arith ZArith.
From Verif Require Import Base SpecLayout SpecLink SpecStack SpecGap.
Import ListNotations.
Local Open Scope Z_scope.

(** The height of the middle of a place. *)
Definition middle_height (hs : list nat) (p : place) : Z :=
  match p with Row i k => row_middle hs i k | Table i => 2 * table_top hs i + table_height hs i end.
(** Its left and its right side, and its column. *)
Definition left_side (p : place) : Z := 2 * table_left (place_table p).
Definition right_side (p : place) : Z := 2 * (table_left (place_table p) + 300).
Definition column_of (p : place) : nat := (place_table p mod 3)%nat.
(** The middles are less than 190 pixels apart in height. *)
Definition level (hs : list nat) (p q : place) : Prop := Z.abs (middle_height hs p - middle_height hs q) < 380.
