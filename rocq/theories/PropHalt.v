(** Relations that the program cannot draw. *)
From Coq Require Import String List Arith NArith ZArith.
From Verif Require Import Base F32 Geometry Mir Erd Route Layout Svg Render Parser Cli SpecLayout SpecRender SpecLink SpecEnds SpecStack SpecFall SpecHalt HaltFacts.
Import ListNotations.

(** C107: a relation between a table of at least two fields and the last field of the
    table right below it makes the program stop, whatever else the module contains, if
    nothing ends in the lower table as a whole or in the last field of a table below it
    in its column, and no table to the left of the lower table is taller. *)
Theorem C107_always_stops :
  forall m ls p q, fits (table_rows m) -> links [] (m_entries m) ls -> In (p, q) ls \/ In (q, p) ls ->
  over_last_row (table_rows m) p q -> on_its_own (table_rows m) ls (place_table q) ->
  exists x, render_module m = Abort x.
Proof. exact last_row_halts. Qed.
Print Assumptions C107_always_stops.

(** If the ends of all relations have no side in common, it stops because a line turns
    around. *)
Theorem C107_line_turns :
  forall m ls p q, fits (table_rows m) -> links [] (m_entries m) ls -> In (p, q) ls \/ In (q, p) ls ->
  over_last_row (table_rows m) p q -> on_its_own (table_rows m) ls (place_table q) ->
  (forall a b, In (a, b) ls -> apart (table_rows m) a b) ->
  exists n, render_module m = Abort (PTurnaround n).
Proof. exact last_row_panics. Qed.
Print Assumptions C107_line_turns.

(** The other way round: if a line turns around, some relation joins places of one
    column, not both right below each other, and there is one to a last field there. *)
Theorem C107_turns_are_not_straight :
  forall m ls n, fits (table_rows m) -> links [] (m_entries m) ls -> render_module m = Abort (PTurnaround n) ->
  exists p q, In (p, q) ls /\ apart (table_rows m) p q /\ stacked (table_rows m) p q /\ column_with_last_row (table_rows m) ls p /\
    ~ directly_below (table_rows m) p q /\ ~ directly_below (table_rows m) q p.
Proof. exact turns_not_below. Qed.
Print Assumptions C107_turns_are_not_straight.

(** Lines to the table right below, or from it, do not turn. *)
Theorem C107_straight_lines_do_not_turn :
  forall m vb g d ls, fits (table_rows m) -> layout_module m = Ret (vb, g, d) -> links [] (m_entries m) ls ->
  Forall2 (fun pq e => directly_below (table_rows m) (fst pq) (snd pq) \/ directly_below (table_rows m) (snd pq) (fst pq) -> calm_path e) ls (d_edges d).
Proof. exact below_calm. Qed.
Print Assumptions C107_straight_lines_do_not_turn.

(** [halting] has the last of three fields of its fourth table related to the first
    table, and two other tables related. *)
Example C107_example :
  fits (table_rows halting) /\ links [] (m_entries halting) halting_places /\ In (Row 3 3, Table 0) halting_places /\
  over_last_row (table_rows halting) (Table 0) (Row 3 3) /\ on_its_own (table_rows halting) halting_places 3 /\
  directly_below (table_rows halting) (Table 1) (Table 4) /\ render_module halting = Abort (PTurnaround 1).
Proof.
  split; [unfold fits; vm_compute; discriminate|]. split; [exact halting_links|]. split; [right; now left|].
  split; [exists 0, 3; vm_compute; auto 8|]. split.
  - split; [intros (y & [[E|[E|[]]]|[E|[E|[]]]]); discriminate|]. split.
    + intros x (y & [[E|[E|[]]]|[E|[E|[]]]]) B _; injection E as <- <-; try contradiction; vm_compute; auto.
    + intros k L E. do 3 (destruct k as [|k]; [discriminate|]). exfalso. apply (Nat.lt_irrefl 3). apply (Nat.le_lt_trans _ (S (S (S k)))); [|exact L]. do 3 apply le_n_S. apply Nat.le_0_l.
  - split; [|vm_compute; reflexivity]. split; [exact I|]. exists 4. auto.
Qed.

(** If something ends in the lower table, the relation may well be drawn. *)
Theorem C107_lower_table_as_end_refuted :
  exists m ls p q svg, fits (table_rows m) /\ links [] (m_entries m) ls /\ In (q, p) ls /\ over_last_row (table_rows m) p q /\ related ls (Table (place_table q)) /\
  render_module m = Okay svg.
Proof. exact lower_table_as_end. Qed.
Print Assumptions C107_lower_table_as_end_refuted.
