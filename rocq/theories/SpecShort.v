(** Lengths and corners of lines. Coordinates are given in halves, as integers. *)
From Coq Require Import List ZArith.
From Verif Require Import Base Geometry Mir SpecF32 SpecLayout SpecLink SpecGap SpecInk.
Import ListNotations.
Local Open Scope Z_scope.

(** The length of the way through the points, along the axes. *)
Fixpoint way (zs : list (Z * Z)) : Z :=
  match zs with
  | a :: (b :: _) as zs' => Z.abs (fst a - fst b) + Z.abs (snd a - snd b) + way zs'
  | _ => 0
  end.

(** It leads from [a] to [b]. *)
Definition leads (a b : Z * Z) (zs : list (Z * Z)) : Prop := hd_error zs = Some a /\ exists l, zs = l ++ [b].

(** The number of rounded corners. *)
Definition corners (zs : list (Z * Z)) : nat :=
  length (filter (fun s => match s with Curved _ _ _ => true | Straight _ _ => false end) (drawn zs)).

(** The places where a line may end at row [k] of table [i]: the middles of its left
    and right side, and the middle of the lower side if it is the last row. *)
Definition row_port (hs : list nat) (i k : nat) (z : Z * Z) : Prop :=
  (fst z = 2 * table_left i \/ fst z = 2 * table_left i + 600) /\ snd z = row_middle hs i k \/
  S k = nth i hs 0%nat /\ z = (2 * table_left i + 300, row_middle hs i k + 35).

(** A row that is not the last of its table. *)
Definition inner_row (hs : list nat) (p : place) : Prop :=
  match p with Table _ => False | Row i k => S k <> nth i hs 0%nat end.
