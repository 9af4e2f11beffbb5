(** What is seen of the lines. Coordinates are given in halves, as integers. *)
From Coq Require Import List ZArith Reals.
From Verif Require Import Base Geometry Mir SpecF32 SpecLink.
Import ListNotations.
Local Open Scope Z_scope.

(** ** Strokes of the pen *)

Inductive stroke :=
| Straight (a b : Z * Z)
| Curved (a c b : Z * Z).

Fixpoint strokes (pen : Z * Z) (cs : list command) : list stroke :=
  match cs with
  | [] => []
  | MoveTo p :: cs' => strokes p cs'
  | LineTo p :: cs' => Straight pen p :: strokes p cs'
  | CurveTo c p :: cs' => Curved pen c p :: strokes p cs'
  end.

(** The strokes of a line through the points, with its corners rounded as in C69. *)
Definition drawn (zs : list (Z * Z)) : list stroke := strokes (0, 0) (trace zs).

(** A place in the plane lies on the horizontal or vertical stroke between two points. *)
Definition on_piece (a b : Z * Z) (x y : R) : Prop :=
  (IZR (Z.min (fst a) (fst b)) <= x <= IZR (Z.max (fst a) (fst b)))%R /\
  (IZR (Z.min (snd a) (snd b)) <= y <= IZR (Z.max (snd a) (snd b)))%R.

(** It is covered by a straight stroke of the line. *)
Definition covers (zs : list (Z * Z)) (x y : R) : Prop :=
  exists a b, In (Straight a b) (drawn zs) /\ on_piece a b x y.

(** The line has a rounded corner from [a] by way of [c] to [b], in either direction. *)
Definition rounds (zs : list (Z * Z)) (a c b : Z * Z) : Prop :=
  In (Curved a c b) (drawn zs) \/ In (Curved b c a) (drawn zs).

(** It ends there, with a circle. *)
Definition ends_at (zs : list (Z * Z)) (z : Z * Z) : Prop :=
  (exists l, zs = z :: l) \/ (exists l, zs = l ++ [z]).

(** The lines of two drawings cover the same places, have the same rounded corners
    and the same ends. *)
Definition look_alike (ls ls' : list (list (Z * Z))) : Prop :=
  (forall x y, (exists zs, In zs ls /\ covers zs x y) <-> (exists zs, In zs ls' /\ covers zs x y)) /\
  (forall a c b, (exists zs, In zs ls /\ rounds zs a c b) <-> (exists zs, In zs ls' /\ rounds zs a c b)) /\
  (forall z, (exists zs, In zs ls /\ ends_at zs z) <-> (exists zs, In zs ls' /\ ends_at zs z)).

(** ** Lines of a document *)

Definition path_through (e : edge_data) (zs : list (Z * Z)) : Prop :=
  exists ps, e_path e = Some ps /\ Forall2 (fun p z => hpoint p (fst z) (snd z)) ps zs.

(** All lines, in order. *)
Definition lines (d : document) (ls : list (list (Z * Z))) : Prop := Forall2 path_through (d_edges d) ls.

(** The line of a relation between two places; [ls] are the places of all relations. *)
Definition line_of (d : document) (ls : list (place * place)) (r : place * place) (zs : list (Z * Z)) : Prop :=
  exists n e, nth_error ls n = Some r /\ nth_error (d_edges d) n = Some e /\ path_through e zs.

(** Both tables are in neighbouring columns, fewer than ten rows of tables apart. *)
Definition neighbours (i j : nat) : Prop :=
  (j mod 3 = S (i mod 3) \/ i mod 3 = S (j mod 3))%nat /\ (i / 3 < j / 3 + 10 /\ j / 3 < i / 3 + 10)%nat.
