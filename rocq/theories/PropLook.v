(** What the picture does not depend on: C87. *)
From Coq Require Import String List Bool ZArith.
From Verif Require Import Base F32 Color Geometry Mir Erd Route Layout Svg Render Cli SpecLook LookFacts.
Import ListNotations.

(** C87: documents that differ only in the flags for rounded corners, in their ports
    and in the ends of their edges are drawn alike, with and without the overlay. *)
Theorem C87_same_picture :
  forall d d', look_alike d d' -> forall vb g, render vb g d = render vb g d'.
Proof. exact look_render. Qed.
Print Assumptions C87_same_picture.

(** In particular, placing ports once more changes nothing in the picture. *)
Theorem C87_ports_are_not_drawn :
  forall vb g d, Forall (fun e => e_path e <> None) (d_edges d) ->
  render vb g (place_terminal_ports d) = render vb g d.
Proof. exact look_ports. Qed.
Print Assumptions C87_ports_are_not_drawn.

(** A table drawn with rounded corners although its flag is off, and an edge between
    other nodes along the same points. *)
Definition flagged (rounded : bool) (a b : node_id) : document :=
  let p := fun x y => mkPoint (f32_of_Z x) (f32_of_Z y) in
  mkDoc [mkNode None None [] KBody [1];
         mkNode (Some (p 10 20)%Z) (Some (mkSize (f32_of_Z 30) (f32_of_Z 40))) []
                (KRecord (mkRecordShape rounded (Some (RGB (mkRGB 1 2 3))) None)) []]
        [mkEdge a b (Some [p 1 2; p 1 9]%Z)].
Example C87_example :
  look_alike (flagged true 0 1) (flagged false 1 1) /\ flagged true 0 1 <> flagged false 1 1 /\
  match render None None (flagged false 1 1) with
  | Okay svg => firstn 73 (skipn 212 (show_svg (fun s => s) svg)) =
      lit "<rect fill=""#010203"" height=""40"" rx=""6"" ry=""6"" width=""30"" x=""10"" y=""20""/>"
  | _ => False
  end.
Proof.
  split; [|split].
  - split; repeat constructor; discriminate.
  - discriminate.
  - vm_compute. reflexivity.
Qed.

(** An edge without a path is reported by its source, so there the ends do matter. *)
Example C87_missing_path :
  render None None (mkDoc [node_new KBody] [mkEdge 3 4 None]) = Fail (InvalidLayout 3).
Proof. reflexivity. Qed.
