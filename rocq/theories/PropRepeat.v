(** Relations between places that are joined already: C82. *)
From Coq Require Import String List Arith NArith ZArith.
From Verif Require Import Base F32 Geometry Mir Erd Route Layout Svg Render Parser Cli SpecMir SpecLayout SpecRender SpecLink SpecRepeat RepeatFacts.
Import ListNotations.

(** C82: a relation between places that are ends of earlier relations adds its
    own path and leaves all others and the nodes as they are. *)
Theorem C82_known_ends :
  forall n es r es' ls p q vb g d, fits (table_rows (mkModule n (es ++ es'))) -> links [] es ls ->
  refers (definitions es) (rel_start r) p -> refers (definitions es) (rel_end r) q -> In p (ends ls) -> In q (ends ls) ->
  layout_module (mkModule n (es ++ es')) = Ret (vb, g, d) ->
  exists g' d' e, layout_module (mkModule n (es ++ ERel r :: es')) = Ret (vb, g', d') /\ one_more (length ls) e d d' /\
  forall k e1, nth_error ls k = Some (p, q) -> nth_error (d_edges d) k = Some e1 -> e_path e = e_path e1.
Proof. exact known_layout. Qed.
Print Assumptions C82_known_ends.

(** A repeated relation is drawn as its first occurrence is, and nothing else
    in the picture changes. *)
Theorem C82_repeated_relation :
  forall n es r es' ls p q svg j, fits (table_rows (mkModule n (es ++ es'))) -> links [] es ls ->
  refers (definitions es) (rel_start r) p -> refers (definitions es) (rel_end r) q -> nth_error ls j = Some (p, q) ->
  render_module (mkModule n (es ++ es')) = Okay svg ->
  exists svg', render_module (mkModule n (es ++ ERel r :: es')) = Okay svg' /\ one_line_more (length ls) j svg svg'.
Proof. exact repeated_picture. Qed.
Print Assumptions C82_repeated_relation.

(** Wherever they stand, relations with the same ends have the same path. *)
Theorem C82_same_ends_same_path :
  forall m vb g d ls i j p q e e', layout_module m = Ret (vb, g, d) -> links [] (m_entries m) ls ->
  nth_error ls i = Some (p, q) -> nth_error ls j = Some (p, q) ->
  nth_error (d_edges d) i = Some e -> nth_error (d_edges d) j = Some e' -> e_path e' = e_path e.
Proof. exact same_way. Qed.
Print Assumptions C82_same_ends_same_path.

(** The way back is as far as the way there. *)
Theorem C82_both_directions :
  forall m vb g d ls i j p q e e', fits (table_rows m) -> layout_module m = Ret (vb, g, d) -> links [] (m_entries m) ls ->
  nth_error ls i = Some (p, q) -> nth_error ls j = Some (q, p) ->
  nth_error (d_edges d) i = Some e -> nth_error (d_edges d) j = Some e' ->
  exists ps ps', e_path e = Some ps /\ e_path e' = Some ps' /\ as_far ps ps'.
Proof. exact both_ways. Qed.
Print Assumptions C82_both_directions.

(** But it need not be the same way. *)
Theorem C82_same_way_back_refuted :
  exists m vb g d ls p q e e' ps ps', fits (table_rows m) /\ layout_module m = Ret (vb, g, d) /\ links [] (m_entries m) ls /\
  ls = [(p, q); (q, p)] /\ d_edges d = [e; e'] /\ e_path e = Some ps /\ e_path e' = Some ps' /\ ps' <> rev ps /\ length ps' <> length ps.
Proof. exact back_differs. Qed.
Print Assumptions C82_same_way_back_refuted.

(** The relation [d.y o--o b.x] joins ends of [c.x o--o d.y] and [a.x o--o b.x];
    and [a.x o--o b.x] itself can be repeated. *)
Example C82_example :
  fits (table_rows (mkModule None (pairs ++ rest))) /\ links [] pairs [(Row 0 1, Row 1 1); (Row 2 1, Row 3 2)] /\
  (refers (definitions pairs) (rel_start cross_link) (Row 3 2) /\ refers (definitions pairs) (rel_end cross_link) (Row 1 1)) /\
  In (Row 3 2) (ends [(Row 0 1, Row 1 1); (Row 2 1, Row 3 2)]) /\ In (Row 1 1) (ends [(Row 0 1, Row 1 1); (Row 2 1, Row 3 2)]) /\
  (refers (definitions pairs) (rel_start (relate "a" "x" "b" "x")) (Row 0 1) /\ refers (definitions pairs) (rel_end (relate "a" "x" "b" "x")) (Row 1 1)) /\
  exists svg, render_module (mkModule None (pairs ++ rest)) = Okay svg.
Proof.
  split; [unfold fits; vm_compute; discriminate|]. split; [exact pairs_links|]. split; [exact cross_refers|].
  split; [right; right; right; left; reflexivity|]. split; [right; left; reflexivity|]. split; [exact first_refers|].
  eexists. vm_compute. reflexivity.
Qed.
