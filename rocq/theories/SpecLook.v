(** What the picture of a document may depend on. *)
From Coq Require Import List.
From Verif Require Import Base Color Geometry Mir.
Import ListNotations.

(** Two shapes that differ at most in the flag for rounded corners. *)
Inductive same_shape : shape_kind -> shape_kind -> Prop :=
| same_body : same_shape KBody KBody
| same_record rounded rounded' bg border :
    same_shape (KRecord (mkRecordShape rounded bg border)) (KRecord (mkRecordShape rounded' bg border))
| same_field f : same_shape (KField f) (KField f).

(** Two nodes that differ at most in that flag and in their ports. *)
Definition same_looks (n m : node_data) : Prop :=
  n_origin n = n_origin m /\ n_size n = n_size m /\ n_children n = n_children m /\ same_shape (n_kind n) (n_kind m).

(** Two edges along the same points, whatever they join. *)
Definition same_line (e f : edge_data) : Prop := e_path e <> None /\ e_path e = e_path f.

Definition look_alike (d d' : document) : Prop :=
  Forall2 same_looks (d_nodes d) (d_nodes d') /\ Forall2 same_line (d_edges d) (d_edges d').
