(** How close lines come to borders of tables, and their ends to each other: C93, C94. *)
From Coq Require Import String List Arith NArith ZArith.
From Verif Require Import Base F32 Geometry Mir Erd Route Layout Parser Cli SpecMir SpecF32 SpecLayout SpecGraph SpecCrash SpecBorder MoreFacts BorderFacts.
Import ListNotations.
Local Open Scope Z_scope.

(** C93: if all relations join fields, no horizontal piece of a line comes closer
    than 5 to the top or bottom of any table or row, and no vertical piece closer
    than 40 to the side of any table. *)
Theorem C93_lines_keep_off_borders :
  forall m vb g d e ps, fits (table_rows m) -> (forall r, In (ERel r) (m_entries m) -> fields_joined r) ->
  layout_module m = Ret (vb, g, d) -> In e (d_edges d) -> e_path e = Some ps -> off_borders (table_rows m) ps.
Proof. exact fields_off_borders. Qed.
Print Assumptions C93_lines_keep_off_borders.

(** With relations of whole tables, a line may lie exactly on the border of a table
    it has nothing to do with, over its whole width. *)
Theorem C93_table_relations_refuted :
  exists m vb g d e ps, fits (table_rows m) /\ layout_module m = Ret (vb, g, d) /\ In e (d_edges d) /\ e_path e = Some ps /\
  exists i l1 p q l2 X1 X2 Y, (i < length (table_rows m))%nat /\ ps = l1 ++ p :: q :: l2 /\ hpoint p X1 Y /\ hpoint q X2 Y /\
    Y = 2 * (table_top (table_rows m) i + table_height (table_rows m) i) /\ X1 <= 2 * table_left i /\ 2 * (table_left i + 300) <= X2.
Proof. exact table_lines_on_borders. Qed.
Print Assumptions C93_table_relations_refuted.

(** The distance of 5 occurs: below the second table, on the way to the third. *)
Example C93_example :
  fits (table_rows below) /\ (forall r, In (ERel r) (m_entries below) -> fields_joined r) /\
  exists vb g d e ps, layout_module below = Ret (vb, g, d) /\ In e (d_edges d) /\ e_path e = Some ps /\
  exists l1 p q l2 y, ps = l1 ++ p :: q :: l2 /\ hpoint p 780 320 /\ hpoint q 1540 320 /\ border (table_rows below) y /\ 320 - y = 10.
Proof. exact below_sample. Qed.

(** C94: the ends of any two lines are at the same point or at least 17.5 apart,
    more than twice the radius of the circles drawn there. *)
Theorem C94_ends_coincide_or_are_apart :
  forall m vb g d e e' ps ps' p p', fits (table_rows m) -> layout_module m = Ret (vb, g, d) ->
  In e (d_edges d) -> In e' (d_edges d) -> e_path e = Some ps -> e_path e' = Some ps' -> end_of_line ps p -> end_of_line ps' p' ->
  same_or_apart 35 p p'.
Proof. exact ends_apart. Qed.
Print Assumptions C94_ends_coincide_or_are_apart.

(** They are 35 apart, the height of a row, if all relations join fields. *)
Theorem C94_ends_at_fields :
  forall m vb g d e e' ps ps' p p', fits (table_rows m) -> (forall r, In (ERel r) (m_entries m) -> fields_joined r) ->
  layout_module m = Ret (vb, g, d) -> In e (d_edges d) -> In e' (d_edges d) -> e_path e = Some ps -> e_path e' = Some ps' ->
  end_of_line ps p -> end_of_line ps' p' -> same_or_apart 70 p p'.
Proof. exact field_ends_apart. Qed.
Print Assumptions C94_ends_at_fields.

(** Otherwise they need not be: 17.5 cannot be improved. *)
Theorem C94_farther_apart_refuted :
  exists m vb g d e e' ps ps' p p', fits (table_rows m) /\ layout_module m = Ret (vb, g, d) /\
  In e (d_edges d) /\ In e' (d_edges d) /\ e_path e = Some ps /\ e_path e' = Some ps' /\ end_of_line ps p /\ end_of_line ps' p' /\ ~ same_or_apart 36 p p'.
Proof. exact table_ends_closer. Qed.
Print Assumptions C94_farther_apart_refuted.

(** Two lines that start 35 apart and end at the same point. *)
Example C94_example :
  fits (table_rows two_rows) /\ (forall r, In (ERel r) (m_entries two_rows) -> fields_joined r) /\
  exists vb g d e e' ps ps', layout_module two_rows = Ret (vb, g, d) /\ nth_error (d_edges d) 0 = Some e /\ nth_error (d_edges d) 1 = Some e' /\
  e_path e = Some ps /\ e_path e' = Some ps' /\ ps = half_path [(700, 205); (780, 205); (860, 205)] /\ ps' = half_path [(700, 275); (780, 275); (780, 205); (860, 205)].
Proof. exact two_rows_sample. Qed.
