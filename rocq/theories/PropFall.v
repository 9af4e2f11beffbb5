(** Relations between a table and the next one below it: C106. *)
From Coq Require Import String List Arith NArith ZArith Lia.
From Verif Require Import Base F32 Geometry Mir Erd Route Layout Cli SpecMir SpecF32 SpecGeom SpecLayout SpecRoute SpecGraph SpecRender SpecLink SpecThrough SpecStack SpecGap SpecInk SpecNear SpecFall
  OuterFacts SideFacts NearFacts FallFacts.
Import ListNotations.
Local Open Scope Z_scope.

(** C106: a table, or its last row, and the next table below are joined by one
    straight vertical line between the middles of the facing sides, whatever
    other relations there are. *)
Theorem C106_straight_down :
  forall m vb g d ls, fits (table_rows m) -> layout_module m = Ret (vb, g, d) -> links [] (m_entries m) ls ->
  Forall2 (fun pq e =>
    (directly_below (table_rows m) (fst pq) (snd pq) -> exists ps, e_path e = Some ps /\
      straight_down ps (middle_x (fst pq)) (foot (table_rows m) (fst pq)) (head (table_rows m) (snd pq))) /\
    (directly_below (table_rows m) (snd pq) (fst pq) -> exists ps, e_path e = Some ps /\
      straight_up ps (middle_x (fst pq)) (head (table_rows m) (fst pq)) (foot (table_rows m) (snd pq)))) ls (d_edges d).
Proof. exact below_straight. Qed.
Print Assumptions C106_straight_down.

(** So the line meets no table. *)
Theorem C106_meets_no_table :
  forall m vb g d ls, fits (table_rows m) -> layout_module m = Ret (vb, g, d) -> links [] (m_entries m) ls ->
  Forall2 (fun pq e => directly_below (table_rows m) (fst pq) (snd pq) \/ directly_below (table_rows m) (snd pq) (fst pq) ->
    forall l1 p q l2 X1 Y1 X2 Y2 r x y w h, e_path e = Some (l1 ++ p :: q :: l2) -> hpoint p X1 Y1 -> hpoint q X2 Y2 ->
    table_rect d r -> hrect r x y w h -> ~ enters x y w h X1 Y1 X2 Y2) ls (d_edges d).
Proof. exact below_clear. Qed.
Print Assumptions C106_meets_no_table.

(** Not so for the table after the next, nor for a row that is not the last. *)
Theorem C106_farther_down_refuted :
  exists m vb g d ls, fits (table_rows m) /\ layout_module m = Ret (vb, g, d) /\ links [] (m_entries m) ls /\
  (exists n i e ps, nth_error ls n = Some (Table i, Table (i + 6)) /\ nth_error (d_edges d) n = Some e /\ e_path e = Some ps /\
     forall X Y1 Y2, ~ straight_down ps X Y1 Y2) /\
  (exists n i k e ps, nth_error ls n = Some (Row i k, Table (i + 3)) /\ nth_error (d_edges d) n = Some e /\ e_path e = Some ps /\
     forall X Y1 Y2, ~ straight_down ps X Y1 Y2).
Proof. exact farther_down. Qed.
Print Assumptions C106_farther_down_refuted.

(** Seven tables: a line down, a line up, one from a last row, and two others. *)
Example C106_example :
  fits (table_rows ladder) /\ links [] (m_entries ladder) ladder_places /\
  directly_below (table_rows ladder) (Table 0) (Table 3) /\ directly_below (table_rows ladder) (Table 1) (Table 4) /\ directly_below (table_rows ladder) (Row 3 2) (Table 6) /\
  exists vb g d, layout_module ladder = Ret (vb, g, d) /\ lines d ladder_lines.
Proof.
  split; [unfold fits; vm_compute; discriminate|]. split; [exact ladder_links|]. do 3 (split; [split; [vm_compute; auto|eexists; split; reflexivity]|]). exact ladder_drawn.
Qed.
