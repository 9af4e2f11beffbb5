(** What is seen of the lines. Coordinates are in halves. *)
From Coq Require Import String Ascii List Arith NArith ZArith Reals.
From Verif Require Import Base F32 Geometry Mir Erd Route Layout Parser Cli SpecF32 SpecMir SpecLayout SpecGraph SpecLink SpecGap SpecInk InkFacts.
Import ListNotations.
Local Open Scope Z_scope.

(** C97: two relations between neighbouring columns leave the same ink as the two
    relations with the partners exchanged, if the rows of the one side lie above
    those of the other. *)
Theorem C97_crossed_relations_look_alike :
  forall m m' vb g d vb' g' d' ls ls' i k i' k' j l j' l' p1 p2 p3 p4,
  fits (table_rows m) -> table_rows m' = table_rows m -> layout_module m = Ret (vb, g, d) -> layout_module m' = Ret (vb', g', d') ->
  links [] (m_entries m) ls -> links [] (m_entries m') ls' ->
  line_of d ls (Row i k, Row j l) p1 -> line_of d ls (Row i' k', Row j' l') p2 ->
  line_of d' ls' (Row i k, Row j' l') p3 -> line_of d' ls' (Row i' k', Row j l) p4 ->
  (i mod 3 = i' mod 3)%nat -> (j mod 3 = j' mod 3)%nat -> neighbours i j -> neighbours i j' -> neighbours i' j -> neighbours i' j' ->
  (let y := row_middle (table_rows m) in (y i k < y j l /\ y i k < y j' l' /\ y i' k' < y j l /\ y i' k' < y j' l') \/
     (y j l < y i k /\ y j' l' < y i k /\ y j l < y i' k' /\ y j' l' < y i' k')) ->
  look_alike [p1; p2] [p3; p4].
Proof. exact crossed_alike. Qed.
Print Assumptions C97_crossed_relations_look_alike.

(** Two lines in one gap lie on each other at all heights that both pass, except
    for their rounded corners. *)
Theorem C97_lines_share_the_gap :
  forall m vb g d ls i k j l i' k' j' l' p1 p2,
  fits (table_rows m) -> layout_module m = Ret (vb, g, d) -> links [] (m_entries m) ls ->
  line_of d ls (Row i k, Row j l) p1 -> line_of d ls (Row i' k', Row j' l') p2 -> neighbours i j -> neighbours i' j' ->
  (i mod 3 = i' mod 3 /\ j mod 3 = j' mod 3 \/ i mod 3 = j' mod 3 /\ j mod 3 = i' mod 3)%nat ->
  exists x, forall y, (let h := row_middle (table_rows m) in
    IZR (Z.min (h i k) (h j l) + 12) <= y <= IZR (Z.max (h i k) (h j l) - 12) /\
    IZR (Z.min (h i' k') (h j' l') + 12) <= y <= IZR (Z.max (h i' k') (h j' l') - 12))%R ->
  covers p1 x y /\ covers p2 x y.
Proof. exact gap_shared. Qed.
Print Assumptions C97_lines_share_the_gap.

(** So the relations cannot be seen in the picture. *)
Theorem C97_relations_can_be_seen_refuted :
  exists m m' vb g d vb' g' d' ls ls' pss pss',
  fits (table_rows m) /\ definitions (m_entries m) = definitions (m_entries m') /\
  layout_module m = Ret (vb, g, d) /\ layout_module m' = Ret (vb', g', d') /\ links [] (m_entries m) ls /\ links [] (m_entries m') ls' /\
  lines d pss /\ lines d' pss' /\ look_alike pss pss' /\
  exists p q, In (p, q) ls /\ ~ In (p, q) ls' /\ ~ In (q, p) ls'.
Proof. exact relations_hidden. Qed.
Print Assumptions C97_relations_can_be_seen_refuted.

(** The fields [a] and [b] of the first table, joined with [c] and [d] of the second,
    and with [d] and [c]. *)
Example C97_example :
  fits (table_rows parallel) /\ links [] (m_entries parallel) [(Row 0 1, Row 1 3); (Row 0 2, Row 1 4)] /\
  fits (table_rows swapped) /\ links [] (m_entries swapped) [(Row 0 1, Row 1 4); (Row 0 2, Row 1 3)] /\
  neighbours 0 1 /\ row_middle (table_rows parallel) 0 2 < row_middle (table_rows parallel) 1 3 /\
  map (fun m => match layout_module m with
    | Ret (_, _, d) => map (fun e => option_map (map (fun p => (f32_to_u32 (fadd (px p) (px p)), f32_to_u32 (fadd (py p) (py p))))) (e_path e)) (d_edges d)
    | Panic _ => []
    end) [parallel; swapped] =
    [[Some [(700, 205); (780, 205); (780, 275); (780, 345); (860, 345)];
      Some [(700, 275); (780, 275); (780, 345); (780, 390); (780, 415); (860, 415)]];
     [Some [(700, 205); (780, 205); (780, 275); (780, 345); (780, 390); (780, 415); (860, 415)];
      Some [(700, 275); (780, 275); (780, 345); (860, 345)]]]%N /\
  drawn [(700, 205); (780, 205); (780, 275); (780, 345); (860, 345)] =
    [Straight (700, 205) (768, 205); Curved (768, 205) (780, 205) (780, 217); Straight (780, 217) (780, 275);
     Straight (780, 275) (780, 333); Curved (780, 333) (780, 345) (792, 345); Straight (792, 345) (860, 345)].
Proof.
  split; [unfold fits; vm_compute; discriminate|]. split; [exact parallel_links|]. split; [unfold fits; vm_compute; discriminate|]. split; [exact swapped_links|].
  split; [split; cbn; auto with arith|]. split; [vm_compute; reflexivity|]. split; vm_compute; reflexivity.
Qed.
