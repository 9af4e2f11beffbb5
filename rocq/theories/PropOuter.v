(** Lines between the outer columns: C89. *)
From Coq Require Import String List Arith NArith ZArith.
From Verif Require Import Base F32 Geometry Mir Erd Route Layout Parser Cli SpecF32 SpecLayout SpecGraph SpecLink SpecThrough SpecGap OuterFacts.
Import ListNotations.
Local Open Scope Z_scope.

(** C89: if no relation ends in a whole table or the last row of a table of the
    outer columns, the line between fields in the two outer columns goes straight
    out of the side facing the other column, along the gap before the middle column,
    past that column (with or without stops at its middle), along the other gap, and
    straight into the facing side of the other table. It never goes back. *)
Theorem C89_between_the_outer_columns :
  forall m vb g d ls, fits (table_rows m) -> layout_module m = Ret (vb, g, d) -> links [] (m_entries m) ls ->
  (length (table_rows m) <= 102)%nat -> (forall p q, In (p, q) ls -> plain_place (table_rows m) p /\ plain_place (table_rows m) q) ->
  Forall2 (fun pq e => forall i k j l, pq = (Row i k, Row j l) -> exists ps, e_path e = Some ps /\
      ((i mod 3 = 0 /\ j mod 3 = 2)%nat ->
        passes (2 * table_left 1 - 80) (2 * table_left 1 + 300) (2 * table_left 1 + 680) ps
          (2 * (table_left i + 300)) (row_middle (table_rows m) i k) (2 * table_left j) (row_middle (table_rows m) j l)) /\
      ((i mod 3 = 2 /\ j mod 3 = 0)%nat ->
        passes (2 * table_left 1 + 680) (2 * table_left 1 + 300) (2 * table_left 1 - 80) ps
          (2 * table_left i) (row_middle (table_rows m) i k) (2 * (table_left j + 300)) (row_middle (table_rows m) j l))) ls (d_edges d).
Proof. exact outer_columns. Qed.
Print Assumptions C89_between_the_outer_columns.

(** So these lines meet no table outside the middle column. *)
Theorem C89_only_the_middle_column :
  forall m vb g d ls, fits (table_rows m) -> layout_module m = Ret (vb, g, d) -> links [] (m_entries m) ls ->
  (length (table_rows m) <= 102)%nat -> (forall p q, In (p, q) ls -> plain_place (table_rows m) p /\ plain_place (table_rows m) q) ->
  Forall2 (fun pq e => forall i k j l, pq = (Row i k, Row j l) -> (i mod 3 = 0 /\ j mod 3 = 2 \/ i mod 3 = 2 /\ j mod 3 = 0)%nat ->
    forall l1 p q l2 X1 Y1 X2 Y2 r x y w h, e_path e = Some (l1 ++ p :: q :: l2) -> hpoint p X1 Y1 -> hpoint q X2 Y2 ->
    table_rect d r -> hrect r x y w h -> enters x y w h X1 Y1 X2 Y2 -> x = 2 * table_left 1) ls (d_edges d).
Proof. exact outer_clear. Qed.
Print Assumptions C89_only_the_middle_column.

(** In the module [bridge] one line goes past the middle table below it, and one,
    in the other direction, by way of its middle. Coordinates are in half pixels. *)
Example C89_example :
  fits (table_rows bridge) /\ links [] (m_entries bridge) [(Row 1 5, Row 1 1); (Row 0 1, Row 2 7); (Row 2 2, Row 0 6)] /\
  (forall p q, In (p, q) [(Row 1 5, Row 1 1); (Row 0 1, Row 2 7); (Row 2 2, Row 0 6)] ->
     plain_place (table_rows bridge) p /\ plain_place (table_rows bridge) q) /\
  in_halves bridge =
    [Some [(1460, 485); (1540, 485); (1540, 275); (1540, 205); (1460, 205)];
     Some [(700, 205); (780, 205); (780, 485); (780, 555); (780, 600); (780, 625); (1540, 625); (1620, 625)];
     Some [(1620, 275); (1540, 275); (1540, 485); (1540, 600); (1160, 600); (780, 600); (780, 555); (700, 555)]]%N.
Proof.
  split; [unfold fits; vm_compute; discriminate|]. split; [exact bridge_links|]. split; [|vm_compute; reflexivity].
  intros p q [H|[H|[H|[]]]]; injection H as <- <-; vm_compute; auto; split; right; discriminate.
Qed.

(** A finding: beside a relation to the last row of a table in the left column, the
    line of another one can leave to the right and then go back under its own table,
    and on from there through the middle table. *)
Theorem C89_never_backwards_refuted :
  exists m vb g d ls, fits (table_rows m) /\ layout_module m = Ret (vb, g, d) /\ links [] (m_entries m) ls /\
  exists n i k j l e l1 p q l2 X1 X2 Y, nth_error ls n = Some (Row i k, Row j l) /\ nth_error (d_edges d) n = Some e /\
    (i mod 3 = 0 /\ j mod 3 = 2)%nat /\ e_path e = Some (l1 ++ p :: q :: l2) /\ hpoint p X1 Y /\ hpoint q X2 Y /\ X2 < X1.
Proof. exact outer_doubles_back. Qed.
Print Assumptions C89_never_backwards_refuted.

(** The witness, in half pixels. *)
Example C89_there_and_back :
  in_halves there_and_back =
    [Some [(700, 625); (780, 625); (780, 555); (780, 205); (860, 205)];
     Some [(700, 555); (780, 555); (780, 625); (780, 740); (400, 740); (400, 810); (1540, 810); (1540, 695); (1620, 695)]]%N.
Proof. vm_compute. reflexivity. Qed.
