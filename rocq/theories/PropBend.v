(** Corners of lines: C102. *)
From Coq Require Import String List Arith NArith ZArith.
From Verif Require Import Base F32 Geometry Mir Erd Route Layout Parser Cli SpecF32 SpecMir SpecLayout SpecGraph SpecLink SpecGap SpecInk SpecShort OuterFacts BendFacts.
Import ListNotations.
Local Open Scope Z_scope.

(** C102: a line between two fields has at most six corners, if no relation ends in a
    whole table or a last row of the outer columns. The tables are fewer than ten rows of
    tables apart, unless they are in the two outer columns. *)
Theorem C102_few_corners :
  forall m vb g d ls, fits (table_rows m) -> layout_module m = Ret (vb, g, d) -> links [] (m_entries m) ls -> (length (table_rows m) <= 102)%nat ->
  forall i k j l zs, line_of d ls (Row i k, Row j l) zs -> (i, k) <> (j, l) ->
  (i mod 3 = 0 /\ j mod 3 = 2 \/ i mod 3 = 2 /\ j mod 3 = 0 \/ i / 3 < j / 3 + 10 /\ j / 3 < i / 3 + 10)%nat ->
  (forall p q, In (p, q) ls -> plain_place (table_rows m) p /\ plain_place (table_rows m) q) -> (corners zs <= 6)%nat.
Proof. exact few_corners. Qed.
Print Assumptions C102_few_corners.

(** It has at most four, if all relations join rows other than the last ones. *)
Theorem C102_inner_rows :
  forall m vb g d ls, fits (table_rows m) -> layout_module m = Ret (vb, g, d) -> links [] (m_entries m) ls -> (length (table_rows m) <= 102)%nat ->
  forall i k j l zs, line_of d ls (Row i k, Row j l) zs -> (i, k) <> (j, l) ->
  (i mod 3 = 0 /\ j mod 3 = 2 \/ i mod 3 = 2 /\ j mod 3 = 0 \/ i / 3 < j / 3 + 10 /\ j / 3 < i / 3 + 10)%nat ->
  (forall p q, In (p, q) ls -> inner_row (table_rows m) p /\ inner_row (table_rows m) q) -> (corners zs <= 4)%nat.
Proof. exact inner_corners. Qed.
Print Assumptions C102_inner_rows.

(** Four corners are needed in the module [dip]. *)
Example C102_example :
  fits (table_rows dip) /\ links [] (m_entries dip) [(Row 0 1, Row 2 2)] /\ (length (table_rows dip) <= 102)%nat /\
  (forall p q, In (p, q) [(Row 0 1, Row 2 2)] -> inner_row (table_rows dip) p /\ inner_row (table_rows dip) q) /\
  in_halves dip = [Some [(700, 205); (780, 205); (780, 390); (1540, 390); (1540, 275); (1620, 275)]]%N /\
  corners [(700, 205); (780, 205); (780, 390); (1540, 390); (1540, 275); (1620, 275)] = 4%nat.
Proof.
  split; [unfold fits; vm_compute; discriminate|]. split; [exact dip_links|]. split; [vm_compute; repeat constructor|].
  split; [intros p q [H|[]]; injection H as <- <-; vm_compute; split; discriminate|]. split; vm_compute; reflexivity.
Qed.
