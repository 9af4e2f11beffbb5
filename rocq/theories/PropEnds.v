(** Which relations are drawn, whatever else is in the module: C80, C81. *)
From Coq Require Import String List Arith NArith ZArith.
From Verif Require Import Base F32 Geometry Mir Erd Route Layout Svg Render Parser Cli SpecLayout SpecRender SpecLink SpecEnds EndFacts.
Import ListNotations.

(** C80: the path of a relation between two different rows has a length and
    never turns around, whatever other relations the module has. *)
Theorem C80_field_relations_do_not_turn :
  forall m vb g d ls, fits (table_rows m) -> layout_module m = Ret (vb, g, d) -> links [] (m_entries m) ls ->
  Forall2 (fun pq e => forall i k j l, pq = (Row i k, Row j l) -> Row i k <> Row j l -> calm_path e) ls (d_edges d).
Proof. exact rows_calm. Qed.
Print Assumptions C80_field_relations_do_not_turn.

(** A relation between two tables can turn around, even if its ends have no
    side in common. *)
Theorem C80_table_relations_refuted :
  exists m ls, fits (table_rows m) /\ links [] (m_entries m) ls /\ (forall p q, In (p, q) ls -> apart (table_rows m) p q) /\
  exists n, render_module m = Abort (PTurnaround n).
Proof. exact web_turns. Qed.
Print Assumptions C80_table_relations_refuted.

(** C81: the path of a relation is a single point exactly if its ends have a side in
    common; these are the pairs [touching]. *)
Theorem C81_single_points :
  forall m vb g d ls, fits (table_rows m) -> layout_module m = Ret (vb, g, d) -> links [] (m_entries m) ls ->
  Forall2 (fun pq e => exists ps, e_path e = Some ps /\ 1 <= length ps /\
    (length ps = 1 <-> ~ apart (table_rows m) (fst pq) (snd pq))) ls (d_edges d).
Proof. exact short_paths. Qed.
Print Assumptions C81_single_points.

Theorem C81_ends_in_common :
  forall m ls, links [] (m_entries m) ls -> forall p q, In (p, q) ls ->
  (apart (table_rows m) p q <-> ~ touching (table_rows m) p q).
Proof. exact ends_touch. Qed.
Print Assumptions C81_ends_in_common.

(** Every module that is drawn keeps its ends apart. *)
Theorem C81_drawn_only_if_apart :
  forall m ls svg, fits (table_rows m) -> links [] (m_entries m) ls -> render_module m = Okay svg ->
  forall p q, In (p, q) ls -> apart (table_rows m) p q.
Proof. exact drawn_apart. Qed.
Print Assumptions C81_drawn_only_if_apart.

(** If no relation ends in a last row, this is all that is needed, and the
    program can only stop for a path that is a single point. *)
Theorem C81_drawn_without_last_rows :
  forall m ls, fits (table_rows m) -> links [] (m_entries m) ls ->
  (forall p q, In (p, q) ls -> ~ at_bottom (table_rows m) p /\ ~ at_bottom (table_rows m) q) ->
  ((exists svg, render_module m = Okay svg) <-> forall p q, In (p, q) ls -> apart (table_rows m) p q) /\
  (forall x, render_module m = Abort x -> x = PShortPath).
Proof. exact inner_drawn. Qed.
Print Assumptions C81_drawn_without_last_rows.

(** In the module [web] the first two relations join fields; their paths do not
    turn, but the third relation joins two tables, and its path does. *)
Example C80_example :
  fits (table_rows web) /\ links [] (m_entries web) [(Row 6 1, Row 5 1); (Row 3 1, Row 4 1); (Table 0, Table 6)] /\
  match layout_module web with
  | Ret (_, _, d) => map (fun e => option_map (@length point) (e_path e)) (d_edges d) = [Some 8; Some 3; Some 4]
  | Panic _ => False
  end.
Proof. split; [unfold fits; vm_compute; discriminate|]. split; [exact web_links|vm_compute; reflexivity]. Qed.

(** The module [net] joins tables and inner rows, and is drawn; in the module
    [own] a table is joined to its middle row, and it is not. *)
Example C81_example :
  fits (table_rows net) /\ links [] (m_entries net) [(Table 0, Table 3); (Row 0 1, Row 4 2); (Table 2, Row 4 1)] /\
  (forall p q, In (p, q) [(Table 0, Table 3); (Row 0 1, Row 4 2); (Table 2, Row 4 1)] ->
     ~ touching (table_rows net) p q /\ ~ at_bottom (table_rows net) p /\ ~ at_bottom (table_rows net) q) /\
  match render_module net with Okay _ => True | _ => False end /\
  links [] (m_entries own) [(Table 0, Table 1); (Table 1, Row 1 1)] /\ touching (table_rows own) (Table 1) (Row 1 1) /\
  render_module own = Abort PShortPath.
Proof.
  split; [unfold fits; vm_compute; discriminate|]. split; [exact net_links|]. split.
  - intros p q [E|[E|[E|[]]]]; injection E as <- <-; vm_compute; intuition discriminate.
  - split; [vm_compute; exact I|]. split; [exact own_links|]. split; [split; [reflexivity|right; reflexivity]|vm_compute; reflexivity].
Qed.
