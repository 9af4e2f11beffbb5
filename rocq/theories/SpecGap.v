(** Lines in the gaps beside the columns. Coordinates are in halves. *)
From Coq Require Import List Arith ZArith Sorting.Sorted.
From Verif Require Import Base Geometry SpecF32 SpecLayout SpecLink.
Import ListNotations.
Local Open Scope Z_scope.

(** The path goes straight from [(X1,Y1)] to the line at [K], straight along that
    line, and straight on to [(X2,Y2)]. *)
Definition along (K : Z) (ps : list point) (X1 Y1 X2 Y2 : Z) : Prop :=
  exists p inner q Ys, ps = p :: inner ++ [q] /\ hpoint p X1 Y1 /\ hpoint q X2 Y2 /\
    Forall2 (fun r Y => hpoint r K Y) inner Ys /\
    (exists l, Ys = Y1 :: l) /\ (exists l, Ys = l ++ [Y2]) /\
    (StronglySorted Z.lt Ys \/ StronglySorted Z.gt Ys).

(** The line is halfway between the ends. *)
Definition in_the_gap (ps : list point) (X1 Y1 X2 Y2 : Z) : Prop :=
  exists K, 2 * K = X1 + X2 /\ along K ps X1 Y1 X2 Y2.

(** The height of the middle of row [k] of table [i]. *)
Definition row_middle (hs : list nat) (i k : nat) : Z := 2 * table_top hs i + 70 * Z.of_nat k + 35.

(** The points of the path on the vertical line at [K] follow each other without
    interruption, straight up or straight down. *)
Definition one_run (K : Z) (ps : list point) : Prop :=
  exists l1 l2 l3 Ys, ps = l1 ++ l2 ++ l3 /\ Forall2 (fun r Y => hpoint r K Y) l2 Ys /\
    (forall r Y, In r l1 \/ In r l3 -> ~ hpoint r K Y) /\
    (StronglySorted Z.lt Ys \/ StronglySorted Z.gt Ys).

(** The path goes straight from [(X1,Y1)] to the line at [K1], then on points of
    that line, then on points of the line at [M] (possibly none), then on points
    of the line at [K2], and straight on to [(X2,Y2)]. *)
Definition passes (K1 M K2 : Z) (ps : list point) (X1 Y1 X2 Y2 : Z) : Prop :=
  exists p u l1 l2 l3 v q, ps = p :: (u :: l1) ++ l2 ++ (l3 ++ [v]) ++ [q] /\
    hpoint p X1 Y1 /\ hpoint u K1 Y1 /\ hpoint v K2 Y2 /\ hpoint q X2 Y2 /\
    Forall (fun r => exists Y, hpoint r K1 Y) l1 /\ Forall (fun r => exists Y, hpoint r M Y) l2 /\
    Forall (fun r => exists Y, hpoint r K2 Y) l3.

(** A place that is not in the outer columns, or is a row other than the last. *)
Definition plain_place (hs : list nat) (p : place) : Prop :=
  match p with Table i => (i mod 3 = 1)%nat | Row i k => (i mod 3 = 1)%nat \/ S k <> nth i hs 0%nat end.
