(** The size of the routing graph and the effort of the searches: C92. *)
From Coq Require Import String List Arith NArith ZArith.
From Verif Require Import Base F32 Geometry Mir Erd Heap Route Layout Parser Cli SpecMir SpecLayout SizeFacts.
Import ListNotations.

(** C92: the graph of a module with [t] tables and [r] drawn relations, of any size. *)
Theorem C92_graph_size :
  forall m vb g d, layout_module m = Ret (vb, g, d) ->
  let t := length (table_rows m) in let r := length (d_edges d) in
  length (rg_nodes g) <= 4 * t + r * (32 * t + 8) /\ length (rg_edges g) <= 4 * length (rg_nodes g).
Proof. exact any_graph. Qed.
Print Assumptions C92_graph_size.

(** Within the exact range many of the junctions coincide: there are at most 16 nodes
    for each table and 6 for each row, however many relations there are. *)
Theorem C92_linear_size :
  forall m vb g d, fits (table_rows m) -> layout_module m = Ret (vb, g, d) ->
  length (rg_nodes g) <= 16 * length (table_rows m) + 6 * list_sum (table_rows m).
Proof. exact module_graph. Qed.
Print Assumptions C92_linear_size.

(** Every search takes at most that many steps, a step being one element taken
    from the queue. *)
Theorem C92_search_steps :
  forall m vb g d a b, layout_module m = Ret (vb, g, d) -> a < length (rg_nodes g) ->
  astar_loop (8 * length (rg_nodes g) + 2) (neighbors (rg_edges g)) (rg_cost (rg_nodes g)) b (length (rg_nodes g))
    (mkA [(0%N, a)] [(a, 0%N)] [] []) <> Panic POutOfFuel.
Proof. exact search_steps. Qed.
Print Assumptions C92_search_steps.

(** A relation takes at most 16 searches. *)
Theorem C92_searches :
  forall m vb g d e s t, layout_module m = Ret (vb, g, d) -> In e (d_edges d) ->
  get_node d (e_source e) = Some s -> get_node d (e_target e) = Some t -> length (port_pairs s t) <= 16.
Proof. exact few_searches. Qed.
Print Assumptions C92_searches.

(** Four tables with 2, 3, 2 and 3 rows and six relations: 124 nodes are allowed for
    tables and rows alone, 832 for tables and relations. *)
Definition few_tables : module :=
  let f := fun s => mkField (lit s) TInt None in
  let r := fun a x b y => ERel (mkRelation (PField (lit a) (lit x)) (PField (lit b) (lit y))) in
  mkModule None
    (map EDef [mkEntity (lit "a") [f "x"%string]; mkEntity (lit "b") [f "x"%string; f "y"%string];
               mkEntity (lit "c") [f "x"%string]; mkEntity (lit "d") [f "x"%string; f "y"%string]] ++
     [r "a" "x" "b" "x"; r "a" "x" "b" "y"; r "c" "x" "b" "y"; r "d" "x" "b" "y"; r "d" "y" "a" "x"; r "d" "y" "c" "x"]%string).
Example C92_example :
  fits (table_rows few_tables) /\ table_rows few_tables = [2; 3; 2; 3] /\
  exists vb g d, layout_module few_tables = Ret (vb, g, d) /\ length (d_edges d) = 6 /\
    length (rg_nodes g) = 51 /\ length (rg_edges g) = 65.
Proof. split; [vm_compute; discriminate|]. split; [reflexivity|]. do 3 eexists. split; [vm_compute; reflexivity|]. vm_compute. auto. Qed.
