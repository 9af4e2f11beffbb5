(** The properties of node and port placement: C22-C30. *)
From Coq Require Import String List NArith ZArith Lia.
From Verif Require Import Base F32 Geometry Mir Erd Layout SpecMir SpecF32 SpecLayout LayoutFacts.
Import ListNotations.

(** Five tables in two grid rows: 3, 1, 2 | 4, 1 rows. *)
Definition five_tables : module :=
  let f := fun s => mkField (lit s) TInt None in
  mkModule None
    (map EDef [mkEntity (lit "a") [f "x"%string; f "y"%string]; mkEntity (lit "b") [];
               mkEntity (lit "c") [f "z"%string];
               mkEntity (lit "d") [f "x"%string; f "y"%string; f "z"%string]; mkEntity (lit "e") []]).
Example five_tables_fit : fits (table_rows five_tables) /\ countable five_tables.
Proof. split; [unfold fits; vm_compute; discriminate|]. repeat constructor. Qed.
Example five_tables_ids :
  exists d, into_mir five_tables = Ret d /\ table_id d 0 4 /\ table_id d 4 16 /\ row_id d 3 2 12.
Proof.
  eexists. split; [vm_compute; reflexivity|]. split; [vm_compute; reflexivity|].
  split; [vm_compute; reflexivity|].
  exists 14, (mkNode None None [] (KRecord table_shape) [10; 11; 12; 13]). repeat split; vm_compute; reflexivity.
Qed.

(** C22 *)
Theorem C22_places_everything_but_the_body :
  forall m d d' vb, into_mir m = Ret d -> place_nodes d = (d', vb) ->
  same_but_geometry d d' /\
  (forall i n, get_node d' i = Some n -> i <> 0 -> exists r, node_rect n = Some r) /\
  (exists n, get_node d' 0 = Some n /\ node_rect n = None) /\
  place_nodes d' = (d', vb).
Proof. exact places_all. Qed.
Print Assumptions C22_places_everything_but_the_body.

Definition five_mir : document := match into_mir five_tables with Ret d => d | Panic _ => doc_new end.
(** Seventeen nodes without a rectangle, of which all but the body get one. *)
Example C22_example :
  into_mir five_tables = Ret five_mir /\
  forallb (fun n => match node_rect n with None => true | Some _ => false end) (d_nodes five_mir) = true /\
  map (fun n => match node_rect n with None => true | Some _ => false end) (d_nodes (fst (place_nodes five_mir))) =
  true :: repeat false 16.
Proof. split; [vm_compute; reflexivity|]. split; vm_compute; reflexivity. Qed.

(** C23 *)
Theorem C23_grid_positions :
  forall m d d' vb, into_mir m = Ret d -> place_nodes d = (d', vb) -> fits (table_rows m) ->
  forall i id, table_id d i id ->
  node_at d' id (table_left i) (table_top (table_rows m) i) 300 (table_height (table_rows m) i).
Proof. exact grid_positions. Qed.
Print Assumptions C23_grid_positions.

Example C23_example :
  (table_left 4, table_top (table_rows five_tables) 4, table_height (table_rows five_tables) 3)
  = (430, 235, 140)%Z.
Proof. reflexivity. Qed.

(** C24 *)
Theorem C24_tables_never_overlap :
  forall m d d' vb, into_mir m = Ret d -> place_nodes d = (d', vb) -> countable m ->
  forall i j id jd r s, i <> j -> table_id d i id -> table_id d j jd ->
  has_rect d' id r -> has_rect d' jd s ->
  apart r s /\ finite_rect r /\ finite_rect s.
Proof. exact never_overlap. Qed.
Print Assumptions C24_tables_never_overlap.

Theorem C24_gap :
  forall m d d' vb, into_mir m = Ret d -> place_nodes d = (d', vb) -> fits (table_rows m) ->
  forall i j id jd, (i < j)%nat -> table_id d i id -> table_id d j jd ->
  exists x y w h x' y' w' h', node_at d' id x y w h /\ node_at d' jd x' y' w' h' /\
    (x + w + 80 <= x' \/ y + h + 80 <= y')%Z.
Proof. exact gap_80. Qed.
Print Assumptions C24_gap.

(** The second and the fifth table, one above the other. *)
Example C24_example :
  table_id five_mir 1 6 /\ table_id five_mir 4 16 /\
  (exists r s, has_rect (fst (place_nodes five_mir)) 6 r /\ has_rect (fst (place_nodes five_mir)) 16 s /\
     map f32_to_u32 [px (origin r); py (origin r); height (rsize r)] = [430; 50; 35]%N /\
     map f32_to_u32 [px (origin s); py (origin s); height (rsize s)] = [430; 235; 35]%N).
Proof.
  split; [vm_compute; reflexivity|]. split; [vm_compute; reflexivity|].
  eexists. eexists. split; [eexists; split; vm_compute; reflexivity|].
  split; [eexists; split; vm_compute; reflexivity|]. split; vm_compute; reflexivity.
Qed.

(** C25 *)
Theorem C25_row_positions :
  forall m d d' vb, into_mir m = Ret d -> place_nodes d = (d', vb) -> fits (table_rows m) ->
  forall i k id, row_id d i k id ->
  node_at d' id (table_left i) (table_top (table_rows m) i + 35 * Z.of_nat k) 300 35.
Proof. exact row_positions. Qed.
Print Assumptions C25_row_positions.

Theorem C25_rows_tile_their_table :
  forall m d d' vb, into_mir m = Ret d -> place_nodes d = (d', vb) -> fits (table_rows m) ->
  forall i id, table_id d i id ->
  exists n r rs, get_node d' id = Some n /\ node_rect n = Some r /\
    Forall2 (has_rect d') (n_children n) rs /\ tiles r rs.
Proof. exact rows_tile. Qed.
Print Assumptions C25_rows_tile_their_table.

(** The third row of the fourth table. *)
Example C25_example :
  row_id five_mir 3 2 12 /\
  (table_left 3, table_top (table_rows five_tables) 3 + 35 * Z.of_nat 2)%Z = (50, 305)%Z.
Proof.
  split; [|reflexivity].
  exists 14, (mkNode None None [] (KRecord table_shape) [10; 11; 12; 13]). repeat split; vm_compute; reflexivity.
Qed.

(** C26 *)
Theorem C26_view_box :
  forall m d d' vb, into_mir m = Ret d -> place_nodes d = (d', vb) ->
  fits (table_rows m) -> table_rows m <> [] ->
  exact_rect vb 0 0 1160 (total_height (table_rows m)) /\
  (forall i id, table_id d i id -> exists x y w h, node_at d' id x y w h /\
     (50 <= x /\ 50 <= y /\ x + w + 50 <= 1160 /\ y + h + 50 <= total_height (table_rows m))%Z) /\
  (forall id, table_id d 0 id -> exists w h, node_at d' id 50 50 w h).
Proof. exact view_box. Qed.
Print Assumptions C26_view_box.

Example C26_example : total_height (table_rows five_tables) = 425%Z.
Proof. reflexivity. Qed.

(** C27 *)
Theorem C27_view_box_of_an_empty_module :
  forall m d d' vb, into_mir m = Ret d -> place_nodes d = (d', vb) ->
  definitions (m_entries m) = [] ->
  height (rsize vb) = F_MIN /\ flt (height (rsize vb)) fzero = true.
Proof. exact empty_view_box. Qed.
Print Assumptions C27_view_box_of_an_empty_module.

Example C27_example :
  definitions [ERel (mkRelation (PEntity (lit "a")) (PEntity (lit "a")))] = [].
Proof. reflexivity. Qed.

(** C28 *)
Theorem C28_table_ports :
  forall m d, into_mir m = Ret d -> fits (table_rows m) -> forall i id, table_id d i id ->
  exists n, get_node (place_terminal_ports (fst (place_nodes d))) id = Some n /\
    Forall2 (is_port id (table_left i) (table_top (table_rows m) i) 300 (table_height (table_rows m) i))
            [Up; Right; Down; Left] (n_ports n).
Proof. exact table_ports. Qed.
Print Assumptions C28_table_ports.

Theorem C28_row_ports :
  forall m d, into_mir m = Ret d -> fits (table_rows m) -> forall i k id, row_id d i k id ->
  exists n, get_node (place_terminal_ports (fst (place_nodes d))) id = Some n /\
    Forall2 (is_port id (table_left i) (table_top (table_rows m) i + 35 * Z.of_nat k) 300 35)
            (row_sides (nth i (table_rows m) 0%nat) k) (n_ports n).
Proof. exact row_ports. Qed.
Print Assumptions C28_row_ports.

(** Which sides carry ports does not depend on the height. *)
Theorem C28_port_sides :
  forall m d, into_mir m = Ret d ->
  let d2 := place_terminal_ports (fst (place_nodes d)) in
  (forall i id, table_id d i id -> exists n, get_node d2 id = Some n /\
     map port_orientation (n_ports n) = [Up; Right; Down; Left]) /\
  (forall i k id, row_id d i k id -> exists n, get_node d2 id = Some n /\
     map port_orientation (n_ports n) = row_sides (nth i (table_rows m) 0%nat) k).
Proof. exact port_sides. Qed.
Print Assumptions C28_port_sides.

Example C28_example :
  row_sides 4 0 = [Up; Right; Left] /\ row_sides 4 2 = [Right; Left] /\
  row_sides 4 3 = [Right; Down; Left] /\ row_sides 1 0 = [Up; Right; Down; Left].
Proof. repeat split. Qed.

(** C29 *)
Theorem C29_port_identifiers_are_unique :
  forall m d, into_mir m = Ret d ->
  let d2 := place_terminal_ports (fst (place_nodes d)) in
  NoDup (map port_ident (flat_map n_ports (d_nodes d2))) /\
  (forall i n p, get_node d2 i = Some n -> In p (n_ports n) -> fst (port_ident p) = i).
Proof. exact port_ids_unique. Qed.
Print Assumptions C29_port_identifiers_are_unique.

(** The ports of the rows of the fourth table, and of the table. *)
Example C29_example :
  let d2 := place_terminal_ports (fst (place_nodes five_mir)) in
  map port_ident (flat_map n_ports (firstn 5 (skipn 10 (d_nodes d2)))) =
  [(10, 0); (10, 1); (10, 2); (11, 0); (11, 1); (12, 0); (12, 1); (13, 0); (13, 1); (13, 2);
   (14, 0); (14, 1); (14, 2); (14, 3)]%nat.
Proof. vm_compute. reflexivity. Qed.

(** C30 *)
Theorem C30_only_ports_change : forall d, same_but_ports d (place_terminal_ports d).
Proof. exact ports_frame. Qed.
Print Assumptions C30_only_ports_change.

Theorem C30_twice_doubles_the_ports :
  forall m d, into_mir m = Ret d ->
  let d2 := place_terminal_ports (fst (place_nodes d)) in
  forall i n, get_node d2 i = Some n -> exists n', get_node (place_terminal_ports d2) i = Some n' /\
    map port_side (n_ports n') = map port_side (n_ports n) ++ map port_side (n_ports n).
Proof. exact ports_twice. Qed.
Print Assumptions C30_twice_doubles_the_ports.

Theorem C30_not_idempotent :
  forall m d, into_mir m = Ret d -> definitions (m_entries m) <> [] ->
  let d2 := place_terminal_ports (fst (place_nodes d)) in place_terminal_ports d2 <> d2.
Proof. exact ports_not_idempotent. Qed.
Print Assumptions C30_not_idempotent.

Example C30_example :
  let d2 := place_terminal_ports (fst (place_nodes five_mir)) in
  definitions (m_entries five_tables) <> [] /\
  length (flat_map n_ports (d_nodes d2)) = 52%nat /\
  length (flat_map n_ports (d_nodes (place_terminal_ports d2))) = 104%nat.
Proof. split; [discriminate|]. split; vm_compute; reflexivity. Qed.
