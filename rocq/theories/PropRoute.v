(** The properties of routing: C31-C39. *)
From Coq Require Import String List Arith NArith ZArith Permutation Lia.
From Verif Require Import Base F32 Geometry Mir Erd Heap Route Layout Cli SpecF32 SpecGeom SpecHeap SpecRoute SpecGraph
  HeapFacts F32Facts GraphFacts PathFacts.
Import ListNotations.

(** C31 *)
Theorem C31_places_are_distinct : forall g, grown g -> distinct_places (rg_nodes g).
Proof. exact (fun g H => proj1 (grown_ok g H)). Qed.
Print Assumptions C31_places_are_distinct.

Theorem C31_insertion :
  forall g loc o, distinct_places (rg_nodes g) -> proper loc ->
  (forall g' i, rg_add_node_ g loc o = Ret (g', i) ->
     distinct_places (rg_nodes g') /\
     (exists n, nth_error (rg_nodes g') i = Some n /\ same_place (rn_loc n) loc /\ rn_orient n = o) /\
     (exists l, rg_nodes g' = rg_nodes g ++ l /\ length l <= 1)) /\
  ((exists p, rg_add_node_ g loc o = Panic p) <->
   exists n, In n (rg_nodes g) /\ same_place (rn_loc n) loc /\ rn_orient n <> o).
Proof. exact insert_spec. Qed.
Print Assumptions C31_insertion.

Definition at_ (x y : Z) : point := mkPoint (f32_of_Z x) (f32_of_Z y).
(** A junction, the same junction again, a port elsewhere, and a port on the junction. *)
Example C31_example :
  let port := fun k x y => mkPort (1, k) (at_ x y) Up in
  match (do g <- rg_add_node rg_new (at_ 10 20); do g <- rg_add_node g (at_ 10 20);
         rg_add_port g (port 0 30%Z 20%Z)) with
  | Ret g => length (rg_nodes g) = 2 /\ rg_get_port g (1, 0) = Some 1 /\
             rg_add_port g (port 1 10%Z 20%Z) = Panic POrientation
  | Panic _ => False
  end.
Proof. vm_compute. auto. Qed.

(** Three tables; a relation between the first two and one from the first to the third. *)
Definition three_tables : module :=
  let f := fun s => mkField (lit s) TInt None in
  mkModule None
    (map EDef [mkEntity (lit "a") [f "x"%string; f "y"%string]; mkEntity (lit "b") [f "x"%string];
               mkEntity (lit "c") [f "x"%string; f "y"%string]] ++
     [ERel (mkRelation (PField (lit "a") (lit "x")) (PField (lit "b") (lit "x")));
      ERel (mkRelation (PEntity (lit "c")) (PField (lit "a") (lit "y")))]).
Definition three_placed : document :=
  match into_mir three_tables with Ret d => place_terminal_ports (fst (place_nodes d)) | Panic _ => doc_new end.
Definition three_drawn : route_graph * document :=
  match draw_edge_path rg_new three_placed with Ret r => r | Panic _ => (rg_new, doc_new) end.

(** C32 *)
Theorem C32_no_parallel_edges :
  forall g, grown g -> no_parallel (rg_edges g) /\ within (length (rg_nodes g)) (rg_edges g).
Proof. exact (fun g H => proj2 (grown_ok g H)). Qed.
Print Assumptions C32_no_parallel_edges.

Theorem C32_engine_graphs_are_simple :
  forall g, engine_graph g -> no_parallel (rg_edges g) /\ no_loop (rg_edges g).
Proof. exact engine_simple. Qed.
Print Assumptions C32_engine_graphs_are_simple.

(** C33 *)
Theorem C33_edges_are_straight_and_outward : forall g, engine_graph g -> straight_edges g.
Proof. exact (fun g H => ok_straight g (engine_ok g H)). Qed.
Print Assumptions C33_edges_are_straight_and_outward.

(** The graph of the three tables: 21 junctions and the twelve ports of the ends, each
    of which has one edge.  Node 24 is the port under the second table, node 14 the
    junction below it; node 25 is the port on its left, node 10 the junction west of it. *)
Example C32_C33_example :
  engine_graph (fst three_drawn) /\ length (rg_edges (fst three_drawn)) = 37 /\
  map (fun n => rn_orient n) (firstn 2 (skipn 24 (rg_nodes (fst three_drawn)))) = [Some Down; Some Left] /\
  filter (fun e => Nat.leb 21 (snd e)) (rg_edges (fst three_drawn)) =
  [(10, 21); (10, 25); (11, 22); (12, 23); (12, 29); (14, 24);
   (15, 26); (16, 27); (17, 28); (18, 30); (19, 31); (20, 32)].
Proof.
  split; [apply (engine_draw rg_new three_placed _ (snd three_drawn)); [constructor|vm_compute; reflexivity]|].
  repeat split; vm_compute; reflexivity.
Qed.

(** C34 *)
Theorem C34_junctions_stay_clear :
  forall g d g' n r x y w h a b, build_routes g d = Ret g' ->
  In n (rg_nodes g') -> ~ In n (rg_nodes g) -> rn_orient n = None -> table_rect d r ->
  hrect r x y w h -> hpoint (rn_loc n) a b ->
  (- M24 + 78 <= x -> - M24 + 78 <= y -> 0 <= w <= M24 - 156 -> 0 <= h <= M24 - 156 ->
   x + w <= M24 - 78 -> y + h <= M24 - 78 -> clear_of 78 x y w h a b)%Z.
Proof. exact junctions_clear. Qed.
Print Assumptions C34_junctions_stay_clear.

(** For arbitrary numbers, in terms of the program's own rectangles. *)
Theorem C34_junctions_outside :
  forall g d g' n r, build_routes g d = Ret g' ->
  In n (rg_nodes g') -> ~ In n (rg_nodes g) -> rn_orient n = None -> table_rect d r ->
  contains_point (inset_by r (f32_of_Z (-39)) (f32_of_Z (-39))) (rn_loc n) = false.
Proof. exact junctions_outside. Qed.
Print Assumptions C34_junctions_outside.

(** The last junction of the first corridor, at (10, 195), and the first table, at
    (50, 50) and 300 wide and 105 high: the junction is just 40 below it. *)
Example C34_example :
  exists g n r, build_routes rg_new three_placed = Ret g /\ nth_error (rg_nodes g) 3 = Some n /\
    rn_orient n = None /\ table_rect three_placed r /\ hrect r 100 100 600 210 /\ hpoint (rn_loc n) 20 390.
Proof.
  eexists. eexists. exists (mkRect (mkPoint (f32_of_Z 50) (f32_of_Z 50)) (mkSize (f32_of_Z 300) (f32_of_Z 105))).
  split; [vm_compute; reflexivity|]. split; [vm_compute; reflexivity|]. split; [reflexivity|].
  split; [|split].
  - eexists. eexists. split; [vm_compute; left; reflexivity|]. split; vm_compute; reflexivity.
  - repeat split; apply hv_of_Z; lia.
  - split; [apply (hv_of_Z 10)|apply (hv_of_Z 195)]; lia.
Qed.

(** C35 *)
Theorem C35_search :
  forall es cost n src goal, within n es -> src < n ->
  match astar_loop (2 * length es + 2) (neighbors es) cost goal n (mkA [(0%N, src)] [(src, 0%N)] [] []) with
  | Ret (Some (c, l)) => cheapest es cost src goal c l
  | Ret None => forall l, ~ walk es src goal l
  | Panic PCostOverflow => exists x w l, joined es x w /\ walk es src x l /\ NoDup l /\
      (u32_max < walk_cost cost l + cost x w)%N /\ at_least es cost src goal (walk_cost cost l)
  | Panic _ => False
  end.
Proof. exact search_cases. Qed.
Print Assumptions C35_search.

Theorem C35_search_without_overflow :
  forall es cost n src goal, within n es -> src < n ->
  (forall x w l, walk es src x l -> NoDup l -> joined es x w -> (walk_cost cost l + cost x w <= u32_max)%N) ->
  let run := astar_loop (2 * length es + 2) (neighbors es) cost goal n (mkA [(0%N, src)] [(src, 0%N)] [] []) in
  ((exists l, walk es src goal l) <-> exists c l, run = Ret (Some (c, l))) /\
  ((forall l, ~ walk es src goal l) <-> run = Ret None) /\
  (forall c l, run = Ret (Some (c, l)) -> cheapest es cost src goal c l).
Proof. exact search_without_overflow. Qed.
Print Assumptions C35_search_without_overflow.

(** A square with a costly diagonal and a node apart. *)
Example C35_example :
  let es := [(0, 1); (1, 2); (3, 2); (0, 3); (0, 2)] in
  let cost := fun a b : nat => match a + b with 2 => 9%N | 3 => 2%N | _ => 3%N end in
  let run := fun goal => astar_loop (2 * length es + 2) (neighbors es) cost goal 5 (mkA [(0%N, 0)] [(0, 0%N)] [] []) in
  run 2 = Ret (Some (5%N, [0; 3; 2])) /\ run 4 = Ret None /\ run 0 = Ret (Some (0%N, [0])).
Proof. repeat split; vm_compute; reflexivity. Qed.

(** C36 *)
Theorem C36_heap :
  forall v l, contents v l ->
  Permutation v l /\ (heap_pop v = None <-> l = []) /\
  (forall x v', heap_pop v = Some (x, v') ->
     In x l /\ (forall y, In y l -> (fst x <= fst y)%N) /\
     forall l', Permutation l (x :: l') -> Permutation v' l').
Proof. exact heap_delivers. Qed.
Print Assumptions C36_heap.

Example C36_example :
  exists v, contents v [(2%N, 3); (9%N, 0); (2%N, 1); (5%N, 2)] /\
    option_map fst (heap_pop v) = Some (2%N, 1) /\ length v = 4.
Proof.
  exists (heap_push (heap_push (heap_push (heap_push [] (5%N, 2)) (2%N, 1)) (9%N, 0)) (2%N, 3)). split.
  - repeat apply contents_push. apply contents_empty.
  - vm_compute. auto.
Qed.

(** C37 *)
Theorem C37_cheapest_over_all_ports :
  forall g g' d d', engine_graph g -> draw_edge_path g d = Ret (g', d') -> named_ports d ->
  (forall p, end_port d p -> proper (port_location p)) ->
  forall e', In e' (d_edges d') -> exists s t l ps,
  get_node d (e_source e') = Some s /\ get_node d (e_target e') = Some t /\
  e_path e' = Some ps /\ places g' l ps /\ best_route g' s t l.
Proof. exact drawn_cheapest. Qed.
Print Assumptions C37_cheapest_over_all_ports.

(** Modules give named ports. *)
Theorem C37_modules_have_named_ports :
  forall m d, into_mir m = Ret d -> named_ports (place_terminal_ports (fst (place_nodes d))).
Proof. exact module_named. Qed.
Print Assumptions C37_modules_have_named_ports.

(** The ports of the three tables, which lie at proper places. *)
Example C37_example :
  draw_edge_path rg_new three_placed = Ret three_drawn /\ named_ports three_placed /\
  (forall p, end_port three_placed p -> proper (port_location p)).
Proof.
  split; [vm_compute; reflexivity|]. split.
  - destruct (into_mir three_tables) as [d|] eqn:E; [|vm_compute in E; discriminate E].
    unfold three_placed. rewrite E. exact (C37_modules_have_named_ports three_tables d E).
  - assert (H : forallb (fun n => forallb (fun p => negb (is_nan (px (port_location p)) || is_nan (py (port_location p)))) (n_ports n))
                  (d_nodes three_placed) = true) by (vm_compute; reflexivity).
    intros p (e & i & n & _ & _ & G & I). rewrite forallb_forall in H.
    specialize (H n (nth_error_In _ _ G)). rewrite forallb_forall in H. specialize (H p I).
    unfold proper. destruct (is_nan (px _)), (is_nan (py _)); try discriminate H; auto.
Qed.

(** C38 *)
Theorem C38_paths_are_rectilinear :
  forall m vb g d, layout_module m = Ret (vb, g, d) ->
  forall e, In e (d_edges d) -> exists s t ps,
  get_node d (e_source e) = Some s /\ get_node d (e_target e) = Some t /\ e_path e = Some ps /\ ps <> [] /\
  rectilinear ps /\ leaves_outward s ps /\ leaves_outward t (rev ps).
Proof. exact module_rectilinear. Qed.
Print Assumptions C38_paths_are_rectilinear.

(** The same for any document whose ports have distinct identifiers. *)
Theorem C38_any_document :
  forall g g' d d', engine_graph g -> draw_edge_path g d = Ret (g', d') -> named_ports d ->
  forall e', In e' (d_edges d') -> exists s t ps,
  get_node d (e_source e') = Some s /\ get_node d (e_target e') = Some t /\ e_path e' = Some ps /\ ps <> [] /\
  rectilinear ps /\ leaves_outward s ps /\ leaves_outward t (rev ps).
Proof. exact drawn_rectilinear. Qed.
Print Assumptions C38_any_document.

Example C38_example :
  match layout_module three_tables with
  | Ret (_, g, d) => map (fun e => option_map (@length point) (e_path e)) (d_edges d) = [Some 3; Some 7] /\
                     length (rg_nodes g) = 33 /\ length (rg_edges g) = 37
  | Panic _ => False
  end.
Proof. vm_compute. auto. Qed.

(** C39 *)
Theorem C39_only_paths_change :
  forall g d g' d', draw_edge_path g d = Ret (g', d') ->
  d_nodes d' = d_nodes d /\ Forall2 same_ends (d_edges d) (d_edges d').
Proof. exact draw_frame. Qed.
Print Assumptions C39_only_paths_change.

Example C39_example :
  draw_edge_path rg_new three_placed = Ret three_drawn /\
  map e_path (d_edges three_placed) = [None; None] /\ ~ In None (map e_path (d_edges (snd three_drawn))).
Proof.
  repeat split; [vm_compute; reflexivity..|]. vm_compute. intros [H|[H|[]]]; discriminate H.
Qed.

Theorem C39_nothing_to_draw :
  forall d, d_edges d = [] -> exists g, draw_edge_path rg_new d = Ret (g, d).
Proof. exact draw_nothing. Qed.
Print Assumptions C39_nothing_to_draw.
