(** Lines between columns of tables in other pictures of the same tables: C91. *)
From Coq Require Import String List Arith NArith ZArith.
From Verif Require Import Base F32 Geometry Mir Erd Route Layout Parser Cli SpecMir SpecF32 SpecLayout SpecGraph SpecLink SpecThrough SpecRepeat SpecMore OuterFacts MoreFacts FieldFacts.
Import ListNotations.

(** C91: the line of a relation between two columns of tables is equally long for
    every order and direction of the relations and every pairing of their ends,
    also where it runs through tables. The other ends may be whole tables. *)
Theorem C91_any_order :
  forall m m' vb g d vb' g' d' ls ls' i j ti ki tj kj e e' ps ps', fits (table_rows m) -> table_rows m' = table_rows m ->
  layout_module m = Ret (vb, g, d) -> layout_module m' = Ret (vb', g', d') ->
  links [] (m_entries m) ls -> links [] (m_entries m') ls' -> incl (ends ls) (ends ls') -> incl (ends ls') (ends ls) ->
  nth_error ls i = Some (Row ti ki, Row tj kj) ->
  nth_error ls' j = Some (Row ti ki, Row tj kj) \/ nth_error ls' j = Some (Row tj kj, Row ti ki) ->
  nth_error (d_edges d) i = Some e -> nth_error (d_edges d') j = Some e' ->
  e_path e = Some ps -> e_path e' = Some ps' -> as_far ps ps'.
Proof. exact fields_any_order. Qed.
Print Assumptions C91_any_order.

(** Further relations do not lengthen it if they have no new end in a table of the
    middle column. *)
Theorem C91_outer_relations :
  forall m m' vb g d vb' g' d' ls ls' i j ti ki tj kj e e' ps, fits (table_rows m) -> table_rows m' = table_rows m ->
  layout_module m = Ret (vb, g, d) -> layout_module m' = Ret (vb', g', d') ->
  links [] (m_entries m) ls -> links [] (m_entries m') ls' -> incl (ends ls) (ends ls') ->
  (forall x, In x (ends ls') -> in_middle x -> In x (ends ls)) ->
  nth_error ls i = Some (Row ti ki, Row tj kj) ->
  nth_error ls' j = Some (Row ti ki, Row tj kj) \/ nth_error ls' j = Some (Row tj kj, Row ti ki) ->
  nth_error (d_edges d) i = Some e -> nth_error (d_edges d') j = Some e' ->
  e_path e = Some ps -> exists ps', e_path e' = Some ps' /\ no_farther ps' ps.
Proof. exact outer_relations. Qed.
Print Assumptions C91_outer_relations.

(** [a.a o--o c.a], [c.b o--o a.b] and [a.b o--o c.b], [c.a o--o a.a]; the lines run
    through the table between. *)
Example C91_example_order :
  fits (table_rows one_way) /\ table_rows other_way = table_rows one_way /\
  let ls := [(Row 0 1, Row 2 1); (Row 2 2, Row 0 2)] in let ls' := [(Row 0 2, Row 2 2); (Row 2 1, Row 0 1)] in
  links [] (m_entries one_way) ls /\ links [] (m_entries other_way) ls' /\ incl (ends ls) (ends ls') /\ incl (ends ls') (ends ls) /\
  exists vb g d e ps vb' g' d' e' ps', layout_module one_way = Ret (vb, g, d) /\ nth_error (d_edges d) 0 = Some e /\ e_path e = Some ps /\ ~ past_tables d ps /\
  layout_module other_way = Ret (vb', g', d') /\ nth_error (d_edges d') 1 = Some e' /\ e_path e' = Some ps' /\ ps' = rev ps.
Proof. exact other_way_sample. Qed.

(** The relation [c.b o--o c.a] before [a.a o--o c.a]. *)
Example C91_example_outer :
  fits (table_rows few) /\ table_rows more_outside = table_rows few /\
  let ls := [(Row 0 1, Row 2 1)] in let ls' := [(Row 2 2, Row 2 1); (Row 0 1, Row 2 1)] in
  links [] (m_entries few) ls /\ links [] (m_entries more_outside) ls' /\ incl (ends ls) (ends ls') /\
  (forall x, In x (ends ls') -> in_middle x -> In x (ends ls)) /\ ~ incl (ends ls') (ends ls) /\
  exists vb g d e ps vb' g' d' e' ps', layout_module few = Ret (vb, g, d) /\ nth_error (d_edges d) 0 = Some e /\ e_path e = Some ps /\ ~ past_tables d ps /\
  layout_module more_outside = Ret (vb', g', d') /\ nth_error (d_edges d') 1 = Some e' /\ e_path e' = Some ps' /\ ps' = ps.
Proof. exact more_outside_sample. Qed.
