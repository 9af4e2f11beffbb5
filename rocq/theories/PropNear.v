(** Relations between places at nearly the same height: C105. *)
From Coq Require Import String List Arith NArith ZArith Lia.
From Verif Require Import Base F32 Geometry Mir Erd Route Layout Cli SpecMir SpecF32 SpecGeom SpecLayout SpecRoute SpecGraph SpecRender SpecLink SpecThrough SpecStack SpecGap SpecInk SpecNear
  OuterFacts SideFacts NearFacts.
Import ListNotations.
Local Open Scope Z_scope.

(** C105: whatever they are, two places in neighbouring columns whose middles
    are less than 190 apart in height are joined in the gap between the columns. *)
Theorem C105_level_neighbours :
  forall m vb g d ls, fits (table_rows m) -> layout_module m = Ret (vb, g, d) -> links [] (m_entries m) ls ->
  Forall2 (fun pq e => level (table_rows m) (fst pq) (snd pq) ->
    exists ps, e_path e = Some ps /\
      ((column_of (snd pq) = S (column_of (fst pq)))%nat -> in_the_gap ps (right_side (fst pq)) (middle_height (table_rows m) (fst pq)) (left_side (snd pq)) (middle_height (table_rows m) (snd pq))) /\
      ((column_of (fst pq) = S (column_of (snd pq)))%nat -> in_the_gap ps (left_side (fst pq)) (middle_height (table_rows m) (fst pq)) (right_side (snd pq)) (middle_height (table_rows m) (snd pq)))) ls (d_edges d).
Proof. exact level_in_gap. Qed.
Print Assumptions C105_level_neighbours.

(** So their lines meet no table. *)
Theorem C105_level_lines_meet_no_table :
  forall m vb g d ls, fits (table_rows m) -> layout_module m = Ret (vb, g, d) -> links [] (m_entries m) ls ->
  Forall2 (fun pq e => level (table_rows m) (fst pq) (snd pq) ->
    (column_of (snd pq) = S (column_of (fst pq)) \/ column_of (fst pq) = S (column_of (snd pq)))%nat ->
    forall l1 p q l2 X1 Y1 X2 Y2 r x y w h, e_path e = Some (l1 ++ p :: q :: l2) -> hpoint p X1 Y1 -> hpoint q X2 Y2 ->
    table_rect d r -> hrect r x y w h -> ~ enters x y w h X1 Y1 X2 Y2) ls (d_edges d).
Proof. exact level_clear. Qed.
Print Assumptions C105_level_lines_meet_no_table.

(** Entities in the same row of the grid are near enough if their numbers of
    fields differ by ten at most. *)
Theorem C105_similar_entities :
  forall hs i j, (i / 3 = j / 3)%nat -> (nth i hs 0 <= nth j hs 0 + 10 /\ nth j hs 0 <= nth i hs 0 + 10)%nat -> level hs (Table i) (Table j).
Proof. exact similar_level. Qed.
Print Assumptions C105_similar_entities.

(** If they are 255 apart, the line can go to the upper side of a table. *)
Theorem C105_farther_off_refuted :
  exists m vb g d p q n e ps, fits (table_rows m) /\ layout_module m = Ret (vb, g, d) /\ (exists ls, links [] (m_entries m) ls /\ nth_error ls n = Some (p, q)) /\
  nth_error (d_edges d) n = Some e /\ e_path e = Some ps /\ column_of q = S (column_of p) /\ Z.abs (middle_height (table_rows m) p - middle_height (table_rows m) q) = 510 /\
  ~ in_the_gap ps (right_side p) (middle_height (table_rows m) p) (left_side q) (middle_height (table_rows m) q).
Proof. exact farther_off. Qed.
Print Assumptions C105_farther_off_refuted.

(** Tables with 3, 12 and 5 fields; a relation between two of them, and one
    from a field to a table. *)
Example C105_example :
  fits (table_rows slope) /\ links [] (m_entries slope) [(Table 0, Table 1); (Row 1 3, Table 2)] /\
  level (table_rows slope) (Table 0) (Table 1) /\ level (table_rows slope) (Row 1 3) (Table 2) /\
  column_of (Table 1) = S (column_of (Table 0)) /\ column_of (Table 2) = S (column_of (Row 1 3)) /\
  exists vb g d, layout_module slope = Ret (vb, g, d) /\ lines d slope_lines.
Proof.
  split; [unfold fits; vm_compute; discriminate|]. split; [exact slope_links|]. do 2 (split; [vm_compute; reflexivity|]). do 2 (split; [reflexivity|]). exact slope_drawn.
Qed.
