(** Lengths and corners of lines. Coordinates are in halves. *)
From Coq Require Import String Ascii List Arith NArith ZArith.
From Verif Require Import Base F32 Geometry Mir Erd Route Layout Parser Cli SpecF32 SpecMir SpecLayout SpecGraph SpecLink SpecGap SpecInk SpecShort GapFacts BriefFacts.
Import ListNotations.
Local Open Scope Z_scope.

(** C98: the line between two fields in neighbouring columns ends at two of the
    places where it may end, and no way between any two such places is shorter. *)
Theorem C98_neighbours_shortest :
  forall m vb g d ls i k j l zs, fits (table_rows m) -> layout_module m = Ret (vb, g, d) -> links [] (m_entries m) ls ->
  line_of d ls (Row i k, Row j l) zs -> neighbours i j ->
  (exists a b, row_port (table_rows m) i k a /\ row_port (table_rows m) j l b /\ leads a b zs) /\
  (forall a b zs', row_port (table_rows m) i k a -> row_port (table_rows m) j l b -> leads a b zs' -> way zs <= way zs').
Proof. exact gap_shortest. Qed.
Print Assumptions C98_neighbours_shortest.

(** It is straight or has two corners. *)
Theorem C98_neighbours_corners :
  forall m vb g d ls i k j l zs, fits (table_rows m) -> layout_module m = Ret (vb, g, d) -> links [] (m_entries m) ls ->
  line_of d ls (Row i k, Row j l) zs -> neighbours i j ->
  corners zs = if row_middle (table_rows m) i k =? row_middle (table_rows m) j l then 0%nat else 2%nat.
Proof. exact gap_corners. Qed.
Print Assumptions C98_neighbours_corners.

(** The line between two fields in one column is longer than the distance of the rows
    by the way out to the corridor and back, and has two corners. *)
Theorem C98_same_column :
  forall m vb g d ls i k j l zs, fits (table_rows m) -> layout_module m = Ret (vb, g, d) -> links [] (m_entries m) ls ->
  line_of d ls (Row i k, Row j l) zs -> (i mod 3 = j mod 3)%nat -> (i / 3 < j / 3 + 10 /\ j / 3 < i / 3 + 10)%nat -> (i, k) <> (j, l) ->
  way zs = 160 + Z.abs (row_middle (table_rows m) i k - row_middle (table_rows m) j l) /\ corners zs = 2%nat.
Proof. exact column_short. Qed.
Print Assumptions C98_same_column.

(** The lines of the modules [stairs] and [pile], as in C84 and C86. *)
Example C98_example :
  fits (table_rows stairs) /\ links [] (m_entries stairs) [(Row 0 2, Row 4 1)] /\ neighbours 0 4 /\
  row_port (table_rows stairs) 0 2 (700, 275) /\ row_port (table_rows stairs) 0 2 (400, 310) /\ row_port (table_rows stairs) 4 1 (860, 575) /\
  (let zs := [(700, 275); (780, 275); (780, 320); (780, 390); (780, 575); (860, 575)] in leads (700, 275) (860, 575) zs /\ way zs = 460 /\ corners zs = 2%nat) /\
  fits (table_rows pile) /\ links [] (m_entries pile) [(Row 0 2, Row 3 1); (Row 0 1, Row 0 2)] /\
  (let zs := [(700, 275); (780, 275); (780, 320); (780, 390); (780, 575); (700, 575)] in way zs = 160 + 300 /\ corners zs = 2%nat) /\
  way [(400, 310); (400, 390); (780, 390); (780, 575); (860, 575)] = 725.
Proof.
  split; [unfold fits; vm_compute; discriminate|]. split; [exact stairs_links|]. split; [split; cbn; auto 12 with arith|].
  split; [left; vm_compute; auto|]. split; [right; vm_compute; auto|]. split; [left; vm_compute; auto|].
  split; [split; [split; [reflexivity|exists [(700, 275); (780, 275); (780, 320); (780, 390); (780, 575)]; reflexivity]|split; reflexivity]|].
  split; [unfold fits; vm_compute; discriminate|]. split; [exact pile_links|]. split; [split; reflexivity|reflexivity].
Qed.
