(** What the look of a line depends on: C103. *)
From Coq Require Import String List Arith NArith ZArith Lia.
From Verif Require Import Base F32 Geometry Mir Erd Route Layout Parser Cli SpecF32 SpecMir SpecLayout SpecGraph SpecLink SpecGap SpecInk SpecShort SpecSide OuterFacts MoreFacts SideFacts RightFacts.
Import ListNotations.
Local Open Scope Z_scope.

(** C103: in two modules whose tables have the same numbers of rows, the lines between the
    same two fields of neighbouring columns look alike, whatever else is related in the
    modules and whichever of the two fields is named first. *)
Theorem C103_neighbours_always_alike :
  forall m m' vb g d vb' g' d' ls ls' i k j l zs zs', fits (table_rows m) -> table_rows m' = table_rows m ->
  layout_module m = Ret (vb, g, d) -> layout_module m' = Ret (vb', g', d') -> links [] (m_entries m) ls -> links [] (m_entries m') ls' ->
  line_of d ls (Row i k, Row j l) zs -> line_of d' ls' (Row i k, Row j l) zs' \/ line_of d' ls' (Row j l, Row i k) zs' ->
  neighbours i j -> look_alike [zs] [zs'].
Proof. exact neighbours_alike. Qed.
Print Assumptions C103_neighbours_always_alike.

(** In one column they look alike or are reflections of each other. *)
Theorem C103_same_column_alike :
  forall m m' vb g d vb' g' d' ls ls' i k j l zs zs', fits (table_rows m) -> table_rows m' = table_rows m ->
  layout_module m = Ret (vb, g, d) -> layout_module m' = Ret (vb', g', d') -> links [] (m_entries m) ls -> links [] (m_entries m') ls' ->
  line_of d ls (Row i k, Row j l) zs -> line_of d' ls' (Row i k, Row j l) zs' \/ line_of d' ls' (Row j l, Row i k) zs' ->
  (i mod 3 = j mod 3)%nat -> (i / 3 < j / 3 + 10 /\ j / 3 < i / 3 + 10)%nat -> (i, k) <> (j, l) -> look_alike [zs] [zs'] \/ look_alike [zs] [mirrored i zs'].
Proof. exact column_alike. Qed.
Print Assumptions C103_same_column_alike.

(** In the first column the line is always on the right of the tables, *)
Theorem C103_first_column_right :
  forall m vb g d ls i k j l zs, fits (table_rows m) -> layout_module m = Ret (vb, g, d) -> links [] (m_entries m) ls ->
  line_of d ls (Row i k, Row j l) zs -> (i mod 3 = 0 /\ j mod 3 = 0)%nat -> (i / 3 < j / 3 + 10 /\ j / 3 < i / 3 + 10)%nat -> (i, k) <> (j, l) ->
  forall z, In z zs -> fst z = 700 \/ fst z = 780.
Proof. exact first_column_right. Qed.
Print Assumptions C103_first_column_right.

(** so that it always looks alike there. *)
Theorem C103_first_column_alike :
  forall m m' vb g d vb' g' d' ls ls' i k j l zs zs', fits (table_rows m) -> table_rows m' = table_rows m ->
  layout_module m = Ret (vb, g, d) -> layout_module m' = Ret (vb', g', d') -> links [] (m_entries m) ls -> links [] (m_entries m') ls' ->
  line_of d ls (Row i k, Row j l) zs -> line_of d' ls' (Row i k, Row j l) zs' \/ line_of d' ls' (Row j l, Row i k) zs' ->
  (i mod 3 = 0 /\ j mod 3 = 0)%nat -> (i / 3 < j / 3 + 10 /\ j / 3 < i / 3 + 10)%nat -> (i, k) <> (j, l) -> look_alike [zs] [zs'].
Proof. exact first_column_alike. Qed.
Print Assumptions C103_first_column_alike.

(** In another column a further relation can move the line to the other side. *)
Theorem C103_same_side_refuted :
  exists n es r vb g d vb' g' d' ls ls' i k j l zs zs', fits (table_rows (mkModule n es)) /\
  layout_module (mkModule n es) = Ret (vb, g, d) /\ layout_module (mkModule n (es ++ [ERel r])) = Ret (vb', g', d') /\
  links [] es ls /\ links [] (es ++ [ERel r]) ls' /\ line_of d ls (Row i k, Row j l) zs /\ line_of d' ls' (Row i k, Row j l) zs' /\
  (i mod 3 = j mod 3)%nat /\ (i / 3 < j / 3 + 10 /\ j / 3 < i / 3 + 10)%nat /\ ~ look_alike [zs] [zs'].
Proof. exact changes_sides. Qed.
Print Assumptions C103_same_side_refuted.

(** A relation with its ends exchanged can look different, if its fields are in the two outer columns. *)
Theorem C103_direction_refuted :
  exists n es r vb g d vb' g' d' ls ls' p q zs zs', fits (table_rows (mkModule n (es ++ [ERel r]))) /\
  layout_module (mkModule n (es ++ [ERel r])) = Ret (vb, g, d) /\ layout_module (mkModule n (es ++ [ERel (mkRelation (rel_end r) (rel_start r))])) = Ret (vb', g', d') /\
  links [] (es ++ [ERel r]) ls /\ links [] (es ++ [ERel (mkRelation (rel_end r) (rel_start r))]) ls' /\ line_of d ls (p, q) zs /\ line_of d' ls' (q, p) zs' /\ ~ look_alike [zs] [zs'].
Proof. exact turned_differs. Qed.
Print Assumptions C103_direction_refuted.

(** The same two fields of neighbouring columns in two modules. The points of the paths differ. *)
Definition level_one : module := three 4 4 0 [rel_fields "a" "a" "b" "c"; rel_fields "a" "b" "b" "b"].
Definition level_two : module := three 4 4 0 [rel_fields "b" "c" "a" "a"].
Example C103_example_neighbours :
  fits (table_rows level_one) /\ table_rows level_two = table_rows level_one /\ neighbours 0 1 /\
  links [] (m_entries level_one) [(Row 0 1, Row 1 3); (Row 0 2, Row 1 2)] /\ links [] (m_entries level_two) [(Row 1 3, Row 0 1)] /\
  (exists vb g d, layout_module level_one = Ret (vb, g, d) /\ lines d [[(700, 205); (780, 205); (780, 275); (780, 345); (860, 345)]; [(700, 275); (780, 275); (860, 275)]]) /\
  (exists vb g d, layout_module level_two = Ret (vb, g, d) /\ lines d [[(860, 345); (780, 345); (780, 205); (700, 205)]]).
Proof.
  split; [unfold fits; vm_compute; discriminate|]. split; [reflexivity|]. split; [unfold neighbours; cbn; lia|].
  split; [links_tac|]. split; [links_tac|]. split; drawn_tac.
Qed.
(** Two fields of one table in the first column. *)
Definition within_one : module := three 3 0 0 [rel_fields "a" "a" "a" "b"].
Example C103_example_column :
  fits (table_rows within_one) /\ links [] (m_entries within_one) [(Row 0 1, Row 0 2)] /\
  (exists vb g d, layout_module within_one = Ret (vb, g, d) /\ lines d [[(700, 205); (780, 205); (780, 250); (780, 275); (700, 275)]]).
Proof. split; [unfold fits; vm_compute; discriminate|]. split; [links_tac|]. drawn_tac. Qed.
