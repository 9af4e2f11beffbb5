(** Lines and the circles at the ends of other lines: C100. *)
From Coq Require Import String List Arith NArith ZArith Reals.
From Verif Require Import Base F32 Geometry Mir Erd Route Layout Parser Cli SpecF32 SpecLayout SpecLink SpecInk SpecStack SpecCircle CircleFacts.
Import ListNotations.
Local Open Scope Z_scope.

(** C100: a line that comes within 25 halves of the left or right side of a row that is
    an end of some relation ends there, and this is a side of the end of its own relation.
    The circles have a radius of 8 halves and outlines of 3, like the lines. *)
Theorem C100_row_circles_are_kept_clear :
  forall m vb g d ls p q i k z r zs,
  fits (table_rows m) -> layout_module m = Ret (vb, g, d) -> links [] (m_entries m) ls ->
  In (p, q) ls -> Row i k = p \/ Row i k = q -> flank (table_rows m) (Row i k) z -> line_of d ls r zs -> comes_near zs 25 z ->
  (exists l, zs = z :: l) /\ side_of (table_rows m) (fst r) z \/ (exists l, zs = l ++ [z]) /\ side_of (table_rows m) (snd r) z.
Proof. exact rows_clear. Qed.
Print Assumptions C100_row_circles_are_kept_clear.

(** For the sides of whole tables the distance is 10 halves. *)
Theorem C100_no_line_runs_over_a_side :
  forall m vb g d ls p q x z r zs,
  fits (table_rows m) -> layout_module m = Ret (vb, g, d) -> links [] (m_entries m) ls ->
  In (p, q) ls -> x = p \/ x = q -> flank (table_rows m) x z -> line_of d ls r zs -> comes_near zs 10 z ->
  (exists l, zs = z :: l) /\ side_of (table_rows m) (fst r) z \/ (exists l, zs = l ++ [z]) /\ side_of (table_rows m) (snd r) z.
Proof. exact sides_clear. Qed.
Print Assumptions C100_no_line_runs_over_a_side.

(** It is not more: a line can pass in this distance, so that it touches the circle. *)
Theorem C100_table_circles_are_kept_clear_refuted :
  exists m vb g d ls q i z r zs zs', fits (table_rows m) /\ layout_module m = Ret (vb, g, d) /\ links [] (m_entries m) ls /\
  line_of d ls (Table i, q) zs' /\ flank (table_rows m) (Table i) z /\ ends_at zs' z /\ line_of d ls r zs /\ comes_near zs 11 z /\
  ~ side_of (table_rows m) (fst r) z /\ ~ side_of (table_rows m) (snd r) z.
Proof. exact grazes. Qed.
Print Assumptions C100_table_circles_are_kept_clear_refuted.

(** Circles at the bottom of a table can be run over. *)
Theorem C100_bottom_circles_are_kept_clear_refuted :
  exists m vb g d ls i q z r zs zs', fits (table_rows m) /\ layout_module m = Ret (vb, g, d) /\ links [] (m_entries m) ls /\
  line_of d ls (Table i, q) zs' /\ z = side_midpoint (table_left i) (table_top (table_rows m) i) 300 (table_height (table_rows m) i) Down /\ ends_at zs' z /\
  line_of d ls r zs /\ comes_near zs 1 z /\ ~ side_of (table_rows m) (fst r) z /\ ~ side_of (table_rows m) (snd r) z.
Proof. exact runs_over. Qed.
Print Assumptions C100_bottom_circles_are_kept_clear_refuted.

(** Circles at the top of a table can be run over. *)
Theorem C100_top_circles_are_kept_clear_refuted :
  exists m vb g d ls i q z r zs zs', fits (table_rows m) /\ layout_module m = Ret (vb, g, d) /\ links [] (m_entries m) ls /\
  line_of d ls (Table i, q) zs' /\ z = side_midpoint (table_left i) (table_top (table_rows m) i) 300 (table_height (table_rows m) i) Up /\ ends_at zs' z /\
  line_of d ls r zs /\ comes_near zs 1 z /\ ~ side_of (table_rows m) (fst r) z /\ ~ side_of (table_rows m) (snd r) z.
Proof. exact runs_over_top. Qed.
Print Assumptions C100_top_circles_are_kept_clear_refuted.

(** In [graze] the second line ends at the side of the first row of table 0, where the
    first and the third line begin; the third passes the second table below its circle. *)
Example C100_example :
  fits (table_rows graze) /\ links [] (m_entries graze) [(Row 0 1, Row 1 1); (Table 1, Row 0 1); (Row 0 1, Row 2 1)] /\
  flank (table_rows graze) (Row 0 1) (700, 205) /\ flank (table_rows graze) (Row 0 1) (100, 205) /\ flank (table_rows graze) (Table 1) (860, 310) /\
  (exists vb g d, layout_module graze = Ret (vb, g, d) /\ lines d graze_lines) /\
  graze_lines = [[(700, 205); (780, 205); (860, 205)]; [(860, 310); (780, 310); (780, 205); (700, 205)];
    [(700, 205); (780, 205); (780, 310); (780, 320); (1540, 320); (1540, 310); (1540, 205); (1620, 205)]] /\
  comes_near [(860, 310); (780, 310); (780, 205); (700, 205)] 25 (700, 205) /\
  (exists vb g d, layout_module foot = Ret (vb, g, d) /\ lines d foot_lines) /\
  foot_lines = [[(700, 240); (780, 240); (1540, 240); (1620, 240)]; [(1160, 240); (1160, 320); (1160, 460); (1160, 540)]].
Proof. exact samples. Qed.
