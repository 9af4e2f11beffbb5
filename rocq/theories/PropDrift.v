(** Neighbouring columns and one column in tall diagrams: C84, C86, C88. *)
From Coq Require Import String List Arith ZArith.
From Verif Require Import Base F32 Geometry Mir Erd Route Layout Parser Cli SpecF32 SpecLayout SpecGraph SpecLink SpecThrough SpecGap DriftFacts WanderFacts.
Import ListNotations.
Local Open Scope Z_scope.

(** C84 does not hold without a limit on the distance of the tables: in a diagram
    of 401 rows of tables the distances that are rounded down make the way along
    the next gap shorter than the straight one. *)
Theorem C84_far_neighbours_refuted :
  exists m vb g d ls i k j l n e ps, fits (table_rows m) /\ layout_module m = Ret (vb, g, d) /\ links [] (m_entries m) ls /\
  nth_error ls n = Some (Row i k, Row j l) /\ nth_error (d_edges d) n = Some e /\ e_path e = Some ps /\ (j mod 3 = S (i mod 3))%nat /\
  ~ in_the_gap ps (2 * (table_left i + 300)) (row_middle (table_rows m) i k) (2 * table_left j) (row_middle (table_rows m) j l).
Proof. exact far_neighbours. Qed.
Print Assumptions C84_far_neighbours_refuted.

(** Nor does C86: with 801 rows of tables a line between two fields of one column
    goes to the next gap and comes back. *)
Theorem C86_far_same_column_refuted :
  exists m vb g d ls i k j l n e ps, fits (table_rows m) /\ layout_module m = Ret (vb, g, d) /\ links [] (m_entries m) ls /\
  nth_error ls n = Some (Row i k, Row j l) /\ nth_error (d_edges d) n = Some e /\ e_path e = Some ps /\ (i mod 3 = j mod 3)%nat /\ (i, k) <> (j, l) /\
  ~ along (2 * table_left i - 80) ps (2 * table_left i) (row_middle (table_rows m) i k) (2 * table_left i) (row_middle (table_rows m) j l) /\
  ~ along (2 * table_left i + 680) ps (2 * table_left i + 600) (row_middle (table_rows m) i k) (2 * table_left i + 600) (row_middle (table_rows m) j l).
Proof. exact far_same_column. Qed.
Print Assumptions C86_far_same_column_refuted.

(** Nor does C88 hold without a limit on the number of tables: the line of the last
    example, over 801 rows of tables, leaves the first gap and comes back to it. *)
Theorem C88_tall_corridors_refuted :
  exists m vb g d e ps i, fits (table_rows m) /\ layout_module m = Ret (vb, g, d) /\ In e (d_edges d) /\ e_path e = Some ps /\
  ~ one_run (2 * table_left i + 680) ps.
Proof. exact tall_not_once. Qed.
Print Assumptions C88_tall_corridors_refuted.
