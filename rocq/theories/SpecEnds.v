(** Relations whose ends are far enough apart to be drawn. *)
From Coq Require Import List Arith ZArith.
From Verif Require Import Base Geometry Mir SpecLayout SpecRender SpecLink.
Import ListNotations.

(** The path of the edge has a length and does not turn around. *)
Definition calm_path (e : edge_data) : Prop :=
  exists ps, e_path e = Some ps /\ 2 <= length ps /\ forall i, ~ reverses_at ps i.

(** The places have no side whose middle is the same point. *)
Definition apart (hs : list nat) (p q : place) : Prop := forall z, ~ (side_of hs p z /\ side_of hs q z).

(** The place is the last row of its table. *)
Definition at_bottom (hs : list nat) (p : place) : Prop :=
  match p with Table _ => False | Row i k => S k = nth i hs 0 end.

(** The places are the same, or one is a table and the other its middle or its last row. *)
Definition touching (hs : list nat) (p q : place) : Prop :=
  match p, q with
  | Table i, Table j => i = j
  | Row i k, Row j l => i = j /\ k = l
  | Table i, Row j k | Row j k, Table i => i = j /\ (S k = nth i hs 0 \/ S (2 * k) = nth i hs 0)
  end.
