(** Lines through tables: C83. *)
From Coq Require Import String List Arith ZArith.
From Verif Require Import Base F32 Geometry Mir Erd Route Layout Parser Cli SpecF32 SpecLayout SpecGraph SpecCrash SpecThrough CrashFacts ThroughFacts MiddleFacts.
Import ListNotations.

(** C83: a line that comes inside a table passes through it, either down its
    middle or from side to side; no line bends or ends inside a table. *)
Theorem C83_through_tables :
  forall m vb g d, fits (table_rows m) -> layout_module m = Ret (vb, g, d) ->
  forall e l1 p q l2 X1 Y1 X2 Y2 r x y w h, In e (d_edges d) -> e_path e = Some (l1 ++ p :: q :: l2) ->
  hpoint p X1 Y1 -> hpoint q X2 Y2 -> table_rect d r -> hrect r x y w h -> enters x y w h X1 Y1 X2 Y2 ->
  down_the_middle x y w h X1 Y1 X2 Y2 \/ side_to_side x y w h X1 Y1 X2 Y2.
Proof. exact through_tables. Qed.
Print Assumptions C83_through_tables.

(** Both happen: the line between the outer of three tables, and the line between
    the first and the last table of a column. *)
Example C83_example_across :
  fits (table_rows crossing_module) /\
  exists vb g d e i, layout_module crossing_module = Ret (vb, g, d) /\ In e (d_edges d) /\ crosses_table d e i.
Proof. split; [unfold fits; vm_compute; discriminate|]. apply some_crossing_ok. vm_compute. reflexivity. Qed.
Example C83_example_down :
  fits (table_rows tower) /\
  exists vb g d e i, layout_module tower = Ret (vb, g, d) /\ In e (d_edges d) /\ crosses_table d e i.
Proof. split; [unfold fits; vm_compute; discriminate|]. apply some_crossing_ok. vm_compute. reflexivity. Qed.

(** Lines pass from side to side only through tables of the middle column, whose
    left edge is one table and one gap from that of the first column. *)
Theorem C83_middle_column :
  forall m vb g d, fits (table_rows m) -> layout_module m = Ret (vb, g, d) ->
  forall e l1 p q l2 X1 Y1 X2 Y2 r x y w h, In e (d_edges d) -> e_path e = Some (l1 ++ p :: q :: l2) ->
  hpoint p X1 Y1 -> hpoint q X2 Y2 -> table_rect d r -> hrect r x y w h -> enters x y w h X1 Y1 X2 Y2 -> X1 <> X2 ->
  x = (2 * (50 + 300 + 80))%Z.
Proof. exact middle_column. Qed.
Print Assumptions C83_middle_column.

(** The line of [C83_example_across] goes from 390 to 770, across the table from 430 to 730. *)
Example C83_example_middle :
  match layout_module crossing_module with
  | Ret (_, _, d) => map (fun e => match e_path e with Some ps => map px ps | None => [] end) (d_edges d)
  | _ => [] end = [[f32_of_Z 350; f32_of_Z 390; f32_of_Z 770; f32_of_Z 810]].
Proof. vm_compute. reflexivity. Qed.

(** No path comes to the same point twice. *)
Theorem C83_no_point_twice :
  forall m vb g d, fits (table_rows m) -> layout_module m = Ret (vb, g, d) ->
  forall e ps i j p q, In e (d_edges d) -> e_path e = Some ps ->
  nth_error ps i = Some p -> nth_error ps j = Some q -> same_place p q -> i = j.
Proof. exact no_point_twice. Qed.
Print Assumptions C83_no_point_twice.

Example C83_example_points :
  match layout_module tower with Ret (_, _, d) => map (fun e => option_map (@length point) (e_path e)) (d_edges d) | _ => [] end = [Some 4].
Proof. vm_compute. reflexivity. Qed.
