(** Lines between neighbouring columns and within a column: C84, C86. *)
From Coq Require Import String List Arith ZArith.
From Verif Require Import Base F32 Geometry Mir Erd Route Layout Parser Cli SpecF32 SpecLayout SpecGraph SpecLink SpecThrough SpecGap GapFacts.
Import ListNotations.
Local Open Scope Z_scope.

(** C84: the line between two fields in neighbouring columns goes straight out of
    the side of the one that faces the other, along the middle of the gap between
    the columns, and straight into the other, whatever else is drawn. The tables
    are less than ten rows of tables apart: distances are rounded down on every
    piece of a path, which can make up for a detour if there are enough pieces. *)
Theorem C84_neighbours_in_the_gap :
  forall m vb g d ls, fits (table_rows m) -> layout_module m = Ret (vb, g, d) -> links [] (m_entries m) ls ->
  Forall2 (fun pq e => forall i k j l, pq = (Row i k, Row j l) -> (i / 3 < j / 3 + 10 /\ j / 3 < i / 3 + 10)%nat ->
    exists ps, e_path e = Some ps /\
      ((j mod 3 = S (i mod 3))%nat -> in_the_gap ps (2 * (table_left i + 300)) (row_middle (table_rows m) i k)
                                                  (2 * table_left j) (row_middle (table_rows m) j l)) /\
      ((i mod 3 = S (j mod 3))%nat -> in_the_gap ps (2 * table_left i) (row_middle (table_rows m) i k)
                                                  (2 * (table_left j + 300)) (row_middle (table_rows m) j l))) ls (d_edges d).
Proof. exact neighbours_in_gap. Qed.
Print Assumptions C84_neighbours_in_the_gap.

(** So these lines meet no table. *)
Theorem C84_neighbours_meet_no_table :
  forall m vb g d ls, fits (table_rows m) -> layout_module m = Ret (vb, g, d) -> links [] (m_entries m) ls ->
  Forall2 (fun pq e => forall i k j l, pq = (Row i k, Row j l) -> (i / 3 < j / 3 + 10 /\ j / 3 < i / 3 + 10)%nat ->
    (j mod 3 = S (i mod 3) \/ i mod 3 = S (j mod 3))%nat ->
    forall l1 p q l2 X1 Y1 X2 Y2 r x y w h, e_path e = Some (l1 ++ p :: q :: l2) -> hpoint p X1 Y1 -> hpoint q X2 Y2 ->
    table_rect d r -> hrect r x y w h -> ~ enters x y w h X1 Y1 X2 Y2) ls (d_edges d).
Proof. exact neighbours_clear. Qed.
Print Assumptions C84_neighbours_meet_no_table.

(** In the module [stairs] the line leaves the last row of the first table, which
    also has a port below, to the right, and goes down the gap past the bottom of
    that table and the top of the next. Coordinates are in half pixels. *)
Example C84_example :
  fits (table_rows stairs) /\ links [] (m_entries stairs) [(Row 0 2, Row 4 1)] /\
  match layout_module stairs with
  | Ret (_, _, d) => map (fun e => option_map (map (fun p => (f32_to_u32 (fadd (px p) (px p)), f32_to_u32 (fadd (py p) (py p))))) (e_path e)) (d_edges d)
  | Panic _ => []
  end = [Some [(700, 275); (780, 275); (780, 320); (780, 390); (780, 575); (860, 575)]]%N.
Proof. split; [unfold fits; vm_compute; discriminate|]. split; [exact stairs_links|vm_compute; reflexivity]. Qed.

(** C86: the line between two fields of one column goes straight out of one side,
    along the corridor beside the column, and back into the same side. *)
Theorem C86_same_column_beside :
  forall m vb g d ls, fits (table_rows m) -> layout_module m = Ret (vb, g, d) -> links [] (m_entries m) ls ->
  Forall2 (fun pq e => forall i k j l, pq = (Row i k, Row j l) -> (i / 3 < j / 3 + 10 /\ j / 3 < i / 3 + 10)%nat ->
    (i mod 3 = j mod 3)%nat -> (i, k) <> (j, l) ->
    exists ps, e_path e = Some ps /\
      (along (2 * table_left i - 80) ps (2 * table_left i) (row_middle (table_rows m) i k) (2 * table_left i) (row_middle (table_rows m) j l) \/
       along (2 * table_left i + 680) ps (2 * table_left i + 600) (row_middle (table_rows m) i k) (2 * table_left i + 600) (row_middle (table_rows m) j l)))
    ls (d_edges d).
Proof. exact column_beside. Qed.
Print Assumptions C86_same_column_beside.

Theorem C86_same_column_meets_no_table :
  forall m vb g d ls, fits (table_rows m) -> layout_module m = Ret (vb, g, d) -> links [] (m_entries m) ls ->
  Forall2 (fun pq e => forall i k j l, pq = (Row i k, Row j l) -> (i / 3 < j / 3 + 10 /\ j / 3 < i / 3 + 10)%nat ->
    (i mod 3 = j mod 3)%nat -> (i, k) <> (j, l) ->
    forall l1 p q l2 X1 Y1 X2 Y2 r x y w h, e_path e = Some (l1 ++ p :: q :: l2) -> hpoint p X1 Y1 -> hpoint q X2 Y2 ->
    table_rect d r -> hrect r x y w h -> ~ enters x y w h X1 Y1 X2 Y2) ls (d_edges d).
Proof. exact column_clear. Qed.
Print Assumptions C86_same_column_meets_no_table.

(** In the module [pile] the first relation goes from the last field of a table,
    which has a port below, to the table below, the second stays at one table. *)
Example C86_example :
  fits (table_rows pile) /\ links [] (m_entries pile) [(Row 0 2, Row 3 1); (Row 0 1, Row 0 2)] /\
  match layout_module pile with
  | Ret (_, _, d) => map (fun e => option_map (map (fun p => (f32_to_u32 (fadd (px p) (px p)), f32_to_u32 (fadd (py p) (py p))))) (e_path e)) (d_edges d)
  | Panic _ => []
  end = [Some [(700, 275); (780, 275); (780, 320); (780, 390); (780, 575); (700, 575)];
         Some [(700, 205); (780, 205); (780, 275); (700, 275)]]%N.
Proof. split; [unfold fits; vm_compute; discriminate|]. split; [exact pile_links|vm_compute; reflexivity]. Qed.
