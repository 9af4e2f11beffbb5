(** Which relations can turn around. *)
From Coq Require Import String List Arith NArith ZArith.
From Verif Require Import Base F32 Geometry Mir Erd Route Layout Svg Render Parser Cli SpecLayout SpecRender SpecLink SpecEnds SpecStack EndFacts StackFacts.
Import ListNotations.

(** C99: a relation whose ends have no side in common is drawn without a turn, unless
    it joins a whole table with a table or last row of the same column and there is a
    relation to a last row of this column. *)
Theorem C99_relations_do_not_turn :
  forall m vb g d ls, fits (table_rows m) -> layout_module m = Ret (vb, g, d) -> links [] (m_entries m) ls ->
  Forall2 (fun pq e => apart (table_rows m) (fst pq) (snd pq) ->
    ~ (stacked (table_rows m) (fst pq) (snd pq) /\ column_with_last_row (table_rows m) ls (fst pq)) -> calm_path e) ls (d_edges d).
Proof. exact settled_calm. Qed.
Print Assumptions C99_relations_do_not_turn.

(** If the program stops because of a turn, there is such a relation. *)
Theorem C99_turns_are_stacked :
  forall m ls n, fits (table_rows m) -> links [] (m_entries m) ls -> render_module m = Abort (PTurnaround n) ->
  exists p q, In (p, q) ls /\ apart (table_rows m) p q /\ stacked (table_rows m) p q /\ column_with_last_row (table_rows m) ls p.
Proof. exact turns_stacked. Qed.
Print Assumptions C99_turns_are_stacked.

(** Without such relations a module is drawn exactly if all ends are apart. *)
Theorem C99_drawn_if_apart :
  forall m ls, fits (table_rows m) -> links [] (m_entries m) ls ->
  (forall p q, In (p, q) ls -> ~ (stacked (table_rows m) p q /\ column_with_last_row (table_rows m) ls p)) ->
  ((exists svg, render_module m = Okay svg) <-> forall p q, In (p, q) ls -> apart (table_rows m) p q).
Proof. exact unstacked_drawn. Qed.
Print Assumptions C99_drawn_if_apart.

(** In [mixed] tables are joined with last rows of other columns and with a table of
    their own column. In [web] of C80 the relation that turns is stacked. *)
Example C99_example :
  fits (table_rows mixed) /\ links [] (m_entries mixed) [(Table 0, Row 1 1); (Row 2 1, Table 3); (Table 0, Table 3)] /\
  (forall p q, In (p, q) [(Table 0, Row 1 1); (Row 2 1, Table 3); (Table 0, Table 3)] -> ~ touching (table_rows mixed) p q) /\
  at_bottom (table_rows mixed) (Row 1 1) /\ at_bottom (table_rows mixed) (Row 2 1) /\
  stacked (table_rows mixed) (Table 0) (Table 3) /\ ~ column_with_last_row (table_rows mixed) [(Table 0, Row 1 1); (Row 2 1, Table 3); (Table 0, Table 3)] (Table 0) /\
  match render_module mixed with Okay _ => True | _ => False end /\
  stacked (table_rows web) (Table 0) (Table 6) /\
  column_with_last_row (table_rows web) [(Row 6 1, Row 5 1); (Row 3 1, Row 4 1); (Table 0, Table 6)] (Table 0) /\
  render_module web = Abort (PTurnaround 2).
Proof.
  split; [unfold fits; vm_compute; discriminate|]. split; [exact mixed_links|]. split.
  - intros p q [E|[E|[E|[]]]]; injection E as <- <-; vm_compute; intuition discriminate.
  - split; [reflexivity|]. split; [reflexivity|]. split; [vm_compute; auto|]. split.
    + intros (r & x & [<-|[<-|[<-|[]]]] & [-> | ->] & C & B); vm_compute in C, B; first [discriminate|exact B].
    + split; [vm_compute; exact I|]. split; [vm_compute; auto|]. split; [|vm_compute; reflexivity].
      exists (Row 6 1, Row 5 1), (Row 6 1). vm_compute. auto.
Qed.
