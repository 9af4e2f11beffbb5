(** Pictures of the same tables with other relations. *)
From Coq Require Import List ZArith.
From Verif Require Import Base Geometry Mir SpecF32 SpecLayout SpecGraph SpecLink SpecThrough SpecRepeat.
Import ListNotations.

(** No straight piece of the path enters a table. *)
Definition past_tables (d : document) (ps : list point) : Prop :=
  forall l1 p q l2 X1 Y1 X2 Y2 r x y w h, ps = l1 ++ p :: q :: l2 -> hpoint p X1 Y1 -> hpoint q X2 Y2 ->
  table_rect d r -> hrect r x y w h -> ~ enters x y w h X1 Y1 X2 Y2.

(** It is at most as far along the first path as along the second. *)
Definition no_farther (ps qs : list point) : Prop :=
  exists zs ws, Forall2 (fun p z => hpoint p (fst z) (snd z)) ps zs /\ Forall2 (fun p z => hpoint p (fst z) (snd z)) qs ws /\
  (travelled zs <= travelled ws)%Z.

(** In a table of the middle column; there are three columns. *)
Definition in_middle (x : place) : Prop := match x with Table i | Row i _ => (i mod 3 = 1)%nat end.
