(** Routing on the grid of tables: C40-C43, and C37 for modules. *)
From Coq Require Import String List NArith ZArith.
From Verif Require Import Base F32 Geometry Mir Erd Route Layout Cli SpecF32 SpecGeom SpecLayout SpecRoute SpecGraph PropLayout PropRoute DrawFacts.
Import ListNotations.
Local Open Scope Z_scope.

(** C37, for modules *)
Theorem C37_modules :
  forall m vb g d, fits (table_rows m) -> layout_module m = Ret (vb, g, d) ->
  forall e, In e (d_edges d) -> exists s t l ps,
  get_node d (e_source e) = Some s /\ get_node d (e_target e) = Some t /\
  e_path e = Some ps /\ places g l ps /\ best_route g s t l.
Proof. exact module_cheapest. Qed.
Print Assumptions C37_modules.

(** C40: neither junctions nor ports at the same place conflict. *)
Theorem C40_no_conflicting_ports :
  forall m d, into_mir m = Ret d -> fits (table_rows m) ->
  exists g, build_routes rg_new (place_terminal_ports (fst (place_nodes d))) = Ret g.
Proof. exact routes_built. Qed.
Print Assumptions C40_no_conflicting_ports.

(** C41 *)
Theorem C41_a_route_always_exists :
  forall m, fits (table_rows m) -> exists vb g d, layout_module m = Ret (vb, g, d) /\
  (forall e, In e (d_edges d) -> exists p ps, e_path e = Some (p :: ps)).
Proof. exact layout_returns. Qed.
Print Assumptions C41_a_route_always_exists.

(** C42: every search succeeds, at a cost far below 2^32. *)
Theorem C42_costs_do_not_overflow :
  forall m vb g d, fits (table_rows m) -> layout_module m = Ret (vb, g, d) ->
  forall p q, end_port d p -> end_port d q -> exists a b c l,
  rg_get_port g (port_ident p) = Some a /\ rg_get_port g (port_ident q) = Some b /\
  compute_shortest_path g a b = Ret (c, l) /\ Z.of_N c <= 2 * total_height (table_rows m) + 1600.
Proof. exact searches_cheap. Qed.
Print Assumptions C42_costs_do_not_overflow.

(** C43: ten units inside the view box. *)
Theorem C43_paths_stay_inside :
  forall m vb g d, fits (table_rows m) -> layout_module m = Ret (vb, g, d) ->
  forall e ps p, In e (d_edges d) -> e_path e = Some ps -> In p ps -> exists X Y,
  hpoint p X Y /\ 20 <= X <= 2 * 1160 - 20 /\ 20 <= Y <= 2 * total_height (table_rows m) - 20 /\
  exact_rect vb 0 0 1160 (total_height (table_rows m)) /\ contains_point vb p = true.
Proof. exact paths_inside. Qed.
Print Assumptions C43_paths_stay_inside.

(** Five tables in two rows, with relations across and along the grid. *)
Definition five_related : module :=
  mkModule None
    (m_entries five_tables ++
     [ERel (mkRelation (PEntity (lit "a")) (PEntity (lit "e")));
      ERel (mkRelation (PField (lit "a") (lit "y")) (PField (lit "d") (lit "z")));
      ERel (mkRelation (PField (lit "c") (lit "z")) (PField (lit "d") (lit "x")));
      ERel (mkRelation (PEntity (lit "b")) (PEntity (lit "e")))]).
Example five_related_fit : fits (table_rows five_related) /\ total_height (table_rows five_related) = 425.
Proof. split; [unfold fits; vm_compute; discriminate|]. vm_compute. reflexivity. Qed.
Example five_related_layout :
  match layout_module five_related with
  | Ret (_, g, d) => map (fun e => option_map (@length point) (e_path e)) (d_edges d)
                     = [Some 7; Some 8; Some 11; Some 5]%nat /\
                     length (rg_nodes g) = 68%nat /\ length (rg_edges g) = 85%nat
  | Panic _ => False
  end.
Proof. vm_compute. auto. Qed.
