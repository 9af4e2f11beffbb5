(** Lines and tables that are themselves ends: C101. *)
From Coq Require Import String List Arith NArith ZArith Reals.
From Verif Require Import Base F32 Geometry Mir Erd Route Layout Parser Cli SpecF32 SpecLayout SpecThrough SpecLink SpecInk SpecStack SpecCircle CrownFacts.
Import ListNotations.
Local Open Scope Z_scope.

(** C101: if a table is an end of some relation and no relation ends in a last row of its
    column, no line runs down through the table. *)
Theorem C101_ends_are_gone_round :
  forall m vb g d ls p q i r l1 a b l2,
  fits (table_rows m) -> layout_module m = Ret (vb, g, d) -> links [] (m_entries m) ls ->
  In (p, q) ls -> Table i = p \/ Table i = q -> ~ column_with_last_row (table_rows m) ls (Table i) -> line_of d ls r (l1 ++ a :: b :: l2) ->
  ~ down_the_middle (2 * table_left i) (2 * table_top (table_rows m) i) 600 (2 * table_height (table_rows m) i) (fst a) (snd a) (fst b) (snd b).
Proof. exact ends_uncrossed. Qed.
Print Assumptions C101_ends_are_gone_round.

(** Without the second condition a line can run down through it. *)
Theorem C101_ends_are_always_gone_round_refuted :
  exists m vb g d ls q i r l1 a b l2, fits (table_rows m) /\ layout_module m = Ret (vb, g, d) /\ links [] (m_entries m) ls /\
  In (Table i, q) ls /\ line_of d ls r (l1 ++ a :: b :: l2) /\
  down_the_middle (2 * table_left i) (2 * table_top (table_rows m) i) 600 (2 * table_height (table_rows m) i) (fst a) (snd a) (fst b) (snd b).
Proof. exact end_crossed. Qed.
Print Assumptions C101_ends_are_always_gone_round_refuted.

(** Under the same conditions a line that comes within 35 halves of the middle of the
    table's top ends there, and the table is an end of its own relation. *)
Theorem C101_top_circles_are_kept_clear :
  forall m vb g d ls p q i r zs,
  fits (table_rows m) -> layout_module m = Ret (vb, g, d) -> links [] (m_entries m) ls ->
  In (p, q) ls -> Table i = p \/ Table i = q -> ~ column_with_last_row (table_rows m) ls (Table i) -> line_of d ls r zs ->
  let z := side_midpoint (table_left i) (table_top (table_rows m) i) 300 (table_height (table_rows m) i) Up in comes_near zs 35 z ->
  (exists l, zs = z :: l) /\ side_of (table_rows m) (fst r) z \/ (exists l, zs = l ++ [z]) /\ side_of (table_rows m) (snd r) z.
Proof. exact tops_clear. Qed.
Print Assumptions C101_top_circles_are_kept_clear.

(** In [bypass] the fourth table is between the first and the seventh, whose line goes round
    it; the line between the first and the fourth ends at its top. *)
Example C101_example :
  fits (table_rows bypass) /\ links [] (m_entries bypass) [(Table 0, Table 6); (Table 0, Table 3); (Table 3, Table 6); (Table 3, Table 1)] /\
  (exists vb g d, layout_module bypass = Ret (vb, g, d) /\ lines d bypass_lines) /\
  bypass_lines = [[(700, 170); (780, 170); (780, 320); (780, 470); (780, 620); (780, 770); (700, 770)]; [(400, 240); (400, 320); (400, 400)];
    [(400, 540); (400, 620); (400, 700)]; [(700, 470); (780, 470); (780, 320); (780, 170); (860, 170)]] /\
  ~ column_with_last_row (table_rows bypass) [(Table 0, Table 6); (Table 0, Table 3); (Table 3, Table 6); (Table 3, Table 1)] (Table 3) /\
  side_midpoint (table_left 3) (table_top (table_rows bypass) 3) 300 (table_height (table_rows bypass) 3) Up = (400, 400) /\
  comes_near [(400, 240); (400, 320); (400, 400)] 35 (400, 400).
Proof. exact crown_sample. Qed.
