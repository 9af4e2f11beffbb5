(** Lines on either side of a column. Coordinates are in halves. *)
From Coq Require Import List ZArith.
From Verif Require Import Base SpecLayout.
Import ListNotations.
Local Open Scope Z_scope.

(** The line reflected in the middle line of the column of table [i]. *)
Definition mirrored (i : nat) (zs : list (Z * Z)) : list (Z * Z) := map (fun z => (2 * (2 * table_left i + 300) - fst z, snd z)) zs.
