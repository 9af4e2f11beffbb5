(** The same tables with other relations: C90. *)
From Coq Require Import String List Arith NArith ZArith.
From Verif Require Import Base F32 Geometry Mir Erd Route Layout Parser Cli SpecMir SpecF32 SpecLayout SpecGraph SpecLink SpecThrough SpecRepeat SpecMore OuterFacts MoreFacts.
Import ListNotations.

(** C90: a line that enters no table is not longer in a picture of the same
    tables in which all ends of relations are ends too; there, the relation may
    stand anywhere and in either direction. *)
Theorem C90_more_relations :
  forall m m' vb g d vb' g' d' ls ls' i j p q e e' ps, fits (table_rows m) -> table_rows m' = table_rows m ->
  layout_module m = Ret (vb, g, d) -> layout_module m' = Ret (vb', g', d') ->
  links [] (m_entries m) ls -> links [] (m_entries m') ls' -> incl (ends ls) (ends ls') ->
  nth_error ls i = Some (p, q) -> nth_error ls' j = Some (p, q) \/ nth_error ls' j = Some (q, p) ->
  nth_error (d_edges d) i = Some e -> nth_error (d_edges d') j = Some e' ->
  e_path e = Some ps -> past_tables d ps -> exists ps', e_path e' = Some ps' /\ no_farther ps' ps.
Proof. exact more_relations. Qed.
Print Assumptions C90_more_relations.

(** So lines past all tables do not depend on the order of the relations in their
    lengths, nor on the directions, nor on which of the ends are related. *)
Theorem C90_other_order :
  forall m m' vb g d vb' g' d' ls ls' i j p q e e' ps ps', fits (table_rows m) -> table_rows m' = table_rows m ->
  layout_module m = Ret (vb, g, d) -> layout_module m' = Ret (vb', g', d') ->
  links [] (m_entries m) ls -> links [] (m_entries m') ls' -> incl (ends ls) (ends ls') -> incl (ends ls') (ends ls) ->
  nth_error ls i = Some (p, q) -> nth_error ls' j = Some (p, q) \/ nth_error ls' j = Some (q, p) ->
  nth_error (d_edges d) i = Some e -> nth_error (d_edges d') j = Some e' ->
  e_path e = Some ps -> e_path e' = Some ps' -> past_tables d ps -> past_tables d' ps' -> as_far ps ps'.
Proof. exact other_order. Qed.
Print Assumptions C90_other_order.

(** With lines through tables neither holds. The order of the relations [g.a o--o a]
    and [g o--o a] decides how far it is from [g.a] to [a]. *)
Theorem C90_any_order_refuted :
  exists ds r s vb g d vb' g' d' e e' ps ps', fits (table_rows (mkModule None (ds ++ [ERel r; ERel s]))) /\
  layout_module (mkModule None (ds ++ [ERel r; ERel s])) = Ret (vb, g, d) /\ layout_module (mkModule None (ds ++ [ERel s; ERel r])) = Ret (vb', g', d') /\
  nth_error (d_edges d) 0 = Some e /\ nth_error (d_edges d') 1 = Some e' /\ e_path e = Some ps /\ e_path e' = Some ps' /\ ~ as_far ps ps'.
Proof. exact order_matters. Qed.
Print Assumptions C90_any_order_refuted.

(** The straight line through the table between [a] and [c] is given up when that
    table gets a relation. *)
Theorem C90_never_longer_refuted :
  exists n es r vb g d vb' g' d' e e' ps ps', fits (table_rows (mkModule n es)) /\
  layout_module (mkModule n es) = Ret (vb, g, d) /\ layout_module (mkModule n (es ++ [ERel r])) = Ret (vb', g', d') /\
  nth_error (d_edges d) 0 = Some e /\ nth_error (d_edges d') 0 = Some e' /\ e_path e = Some ps /\ e_path e' = Some ps' /\ ~ no_farther ps' ps.
Proof. exact more_hinders. Qed.
Print Assumptions C90_never_longer_refuted.

(** The relation [a.a o--o c.a] shortens the line of [c.b o--o a.a]. *)
Example C90_example_shorter :
  fits (table_rows around) /\ table_rows opened = table_rows around /\
  links [] (m_entries around) [(Row 2 2, Row 0 1)] /\ links [] (m_entries opened) [(Row 2 2, Row 0 1); (Row 0 1, Row 2 1)] /\
  incl (ends [(Row 2 2, Row 0 1)]) (ends [(Row 2 2, Row 0 1); (Row 0 1, Row 2 1)]) /\
  exists vb g d e ps vb' g' d' e' ps', layout_module around = Ret (vb, g, d) /\ nth_error (d_edges d) 0 = Some e /\ e_path e = Some ps /\ past_tables d ps /\
  layout_module opened = Ret (vb', g', d') /\ nth_error (d_edges d') 0 = Some e' /\ e_path e' = Some ps' /\ ~ as_far ps ps'.
Proof. exact opened_sample. Qed.

(** [a.a o--o b.b], [b.a o--o c.b] and [c.b o--o b.a], [a.a o--o b.b]. *)
Example C90_example_order :
  fits (table_rows one_order) /\ table_rows turned_order = table_rows one_order /\
  let ls := [(Row 0 1, Row 1 2); (Row 1 1, Row 2 2)] in let ls' := [(Row 2 2, Row 1 1); (Row 0 1, Row 1 2)] in
  links [] (m_entries one_order) ls /\ links [] (m_entries turned_order) ls' /\ incl (ends ls) (ends ls') /\ incl (ends ls') (ends ls) /\
  exists vb g d e ps vb' g' d' e' ps', layout_module one_order = Ret (vb, g, d) /\ nth_error (d_edges d) 1 = Some e /\ e_path e = Some ps /\ past_tables d ps /\
  layout_module turned_order = Ret (vb', g', d') /\ nth_error (d_edges d') 0 = Some e' /\ e_path e' = Some ps' /\ past_tables d' ps' /\ ps' = rev ps.
Proof. exact turned_sample. Qed.
