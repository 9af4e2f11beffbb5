(** /repo/src/layout.rs, [SimpleLayoutEngine] *)
From Coq Require Import List Arith NArith ZArith Bool.
From Verif Require Import Base F32 Geometry Mir Heap Route.
Import ListNotations.

(** layout.rs:252-258 *)
Definition ORIGIN : point := mkPoint (f32_of_Z 50) (f32_of_Z 50).
Definition LINE_HEIGHT : f32 := f32_of_Z 35.
Definition RECORD_WIDTH : f32 := f32_of_Z 300.
Definition RECORD_SPACE : f32 := f32_of_Z 80.
Definition GRID_N_COLUMNS : nat := 3.

(** layout.rs:518 *)
Definition SHAPE_JUNCTION_MARGIN : f32 := fdiv RECORD_SPACE (f32_of_Z 2).

(** ** place_nodes *)

(** layout.rs:300-307: place the children of one record *)
Definition place_field (x base_y : f32) (d : document) (ic : nat * node_id) : document :=
  let '(field_index, fid) := ic in
  let y := fadd base_y (fmul LINE_HEIGHT (f32_of_nat field_index)) in
  match get_node d fid with
  | Some n =>
      match n_kind n with
      | KField _ => update_node d fid (set_geometry (mkPoint x y) (mkSize RECORD_WIDTH LINE_HEIGHT))
      | _ => d
      end
  | None => d
  end.

(** State of the loop of layout.rs:274-308: document, [base_y], [max_height]. *)
Definition place_state := (document * f32 * f32)%type.

(** layout.rs:277-308: one iteration *)
Definition place_record (st : place_state) (ic : nat * node_id) : place_state :=
  let '(d, base_y, max_height) := st in
  let '(record_index, child_id) := ic in
  let '(base_y, max_height) :=
    if Nat.ltb 0 record_index && Nat.eqb (record_index mod GRID_N_COLUMNS) 0
    then (fadd base_y (fadd max_height RECORD_SPACE), F_MIN)
    else (base_y, max_height) in
  match get_node d child_id with
  | None => (d, base_y, max_height)
  | Some record_node =>
      match n_kind record_node with
      | KRecord _ =>
          let n_fields := f32_of_nat (length (n_children record_node)) in
          let x := fadd (px ORIGIN)
                        (fmul (fadd RECORD_WIDTH RECORD_SPACE)
                              (f32_of_nat (record_index mod GRID_N_COLUMNS))) in
          let record_height := fmul LINE_HEIGHT n_fields in
          let max_height := fmax record_height max_height in
          let d1 := update_node d child_id
                      (set_geometry (mkPoint x base_y) (mkSize RECORD_WIDTH record_height)) in
          let d2 := fold_left (place_field x base_y) (enum (n_children record_node)) d1 in
          (d2, base_y, max_height)
      | _ => (d, base_y, max_height)
      end
  end.

(** layout.rs:267-317 *)
Definition place_nodes (d : document) : document * rect :=
  let '(d', base_y, max_height) :=
    fold_left place_record (enum (body_children d)) (d, py ORIGIN, F_MIN) in
  let min_width :=
    fadd (fadd (fmul (px ORIGIN) (f32_of_Z 2)) (fmul (f32_of_nat GRID_N_COLUMNS) RECORD_WIDTH))
         (fmul (f32_of_nat (GRID_N_COLUMNS - 1)) RECORD_SPACE) in
  let min_height := fadd (fadd base_y max_height) (py ORIGIN) in
  (d', mkRect point_zero (mkSize min_width min_height)).

(** ** place_terminal_ports *)

(** Candidate ports of a rectangle: the midpoints of its four sides
    (layout.rs:328-333 and 350-378). *)
Definition port_up (r : rect) := (mid_x r, min_y r, Up).
Definition port_right (r : rect) := (max_x r, mid_y r, Right).
Definition port_down (r : rect) := (mid_x r, max_y r, Down).
Definition port_left (r : rect) := (min_x r, mid_y r, Left).

(** [for (x, y, d) in [..] { node.add_terminal_port(id, Point::new(x, y), d); }] *)
Definition add_ports (nid : node_id) (ps : list (f32 * f32 * orientation)) (n : node_data) : node_data :=
  fold_left (fun n p => let '(x, y, o) := p in add_terminal_port n nid (mkPoint x y) o) ps n.

(** layout.rs:349-381: which sides of a field carry a port *)
Definition field_ports (count index : nat) (r : rect) : list (f32 * f32 * orientation) :=
  if Nat.eqb count 1 then [port_up r; port_right r; port_down r; port_left r]
  else if Nat.eqb index 0 then [port_up r; port_right r; port_left r]
  else if Nat.eqb index (count - 1) then [port_right r; port_down r; port_left r]
  else [port_right r; port_left r].

(** layout.rs:345-382: one field *)
Definition port_field (count : nat) (d : document) (ic : nat * node_id) : document :=
  let '(field_index, fid) := ic in
  match get_node d fid with
  | None => d
  | Some n => match node_rect n with
              | None => d
              | Some r => update_node d fid (add_ports fid (field_ports count field_index r))
              end
  end.

(** layout.rs:322-383: one child of the body *)
Definition port_record (d : document) (child_id : node_id) : document :=
  match get_node d child_id with
  | None => d
  | Some n =>
      match node_rect n with
      | None => d
      | Some r =>
          let d1 := update_node d child_id
                      (add_ports child_id [port_up r; port_right r; port_down r; port_left r]) in
          fold_left (port_field (length (n_children n))) (enum (n_children n)) d1
      end
  end.

(** layout.rs:319-384 *)
Definition place_terminal_ports (d : document) : document :=
  fold_left port_record (body_children d) d.

(** ** draw_edge_path *)

(** The rectangles of the placed children of the body
    ([filter_map(get_node).filter_map(rect)]). *)
Definition shape_rects (d : document) : list rect :=
  filter_map (fun i => match get_node d i with Some n => node_rect n | None => None end)
             (body_children d).

(** layout.rs:523-542 *)
Definition junctions_around_shapes (d : document) : list point :=
  let m := fneg SHAPE_JUNCTION_MARGIN in
  flat_map (fun r =>
              let j := inset_by r m m in
              [ origin j;
                mkPoint (max_x j) (min_y j);
                mkPoint (max_x j) (max_y j);
                mkPoint (min_x j) (max_y j) ])
           (shape_rects d).

(** layout.rs:547-635 *)
Definition junctions_from_port (d : document) (tp : terminal_port) (others : list point) : list point :=
  let m := fneg SHAPE_JUNCTION_MARGIN in
  let rects := map (fun r => inset_by r m m) (shape_rects d) in
  let c := port_location tp in
  match port_orientation tp with
  | Left =>
      let line_end := mkPoint F_MIN (py c) in
      let lim := fold_left (fun a r => if flt (max_x r) (px c) && intersects_line r c line_end
                                       then fmax a (max_x r) else a) rects fzero in
      filter_map (fun j => if fle (px j) (px c) && fge (px j) lim
                           then Some (mkPoint (px j) (py c)) else None) others
  | Right =>
      let line_end := mkPoint F_MAX (py c) in
      let lim := fold_left (fun a r => if fgt (min_x r) (px c) && intersects_line r c line_end
                                       then fmin a (min_x r) else a) rects F_MAX in
      filter_map (fun j => if fge (px j) (px c) && fle (px j) lim
                           then Some (mkPoint (px j) (py c)) else None) others
  | Up =>
      let line_end := mkPoint (px c) F_MAX in
      let lim := fold_left (fun a r => if fgt (min_y r) (py c) && intersects_line r c line_end
                                       then fmin a (min_y r) else a) rects F_MAX in
      filter_map (fun j => if fle (py j) (py c) && fle (py j) lim
                           then Some (mkPoint (px c) (py j)) else None) others
  | Down =>
      let line_end := mkPoint (px c) F_MIN in
      let lim := fold_left (fun a r => if flt (max_y r) (py c) && intersects_line r c line_end
                                       then fmax a (max_y r) else a) rects fzero in
      filter_map (fun j => if fge (py j) (py c) && fge (py j) lim
                           then Some (mkPoint (px c) (py j)) else None) others
  end.

(** layout.rs:637-671 *)
Definition remove_overlapped (d : document) (js : list point) : list point :=
  let m := fneg (fsub SHAPE_JUNCTION_MARGIN (f32_of_Z 1)) in
  let rects := map (fun r => inset_by r m m) (shape_rects d) in
  filter (fun j => negb (existsb (fun r => contains_point r j) rects)) js.

(** The four [Option]s of layout.rs:694-697. *)
Record nearest := mkNear {
  nr_left : option (nat * route_node);
  nr_right : option (nat * route_node);
  nr_up : option (nat * route_node);
  nr_down : option (nat * route_node) }.

(** layout.rs:699-770: one candidate [b] for node [a].  Note the precedence of
    [||] and [&&]: the first connectable candidate is taken without a collision
    check. *)
Definition nearest_step (rects : list rect) (n : route_node) (acc : nearest)
    (bm : nat * route_node) : nearest :=
  let '(b, m) := bm in
  let p := rn_loc n in
  let q := rn_loc m in
  let no_collision := negb (existsb (fun r => intersects_line r p q) rects) in
  if feq (px q) (px p) && flt (py q) (py p) then
    if is_connectable n Up && is_connectable m Down then
      if match nr_up acc with
         | None => true
         | Some (_, u) => flt (py (rn_loc u)) (py q) && no_collision
         end
      then mkNear (nr_left acc) (nr_right acc) (Some (b, m)) (nr_down acc)
      else acc
    else acc
  else if feq (px q) (px p) && fgt (py q) (py p) then
    if is_connectable n Down && is_connectable m Up then
      if match nr_down acc with
         | None => true
         | Some (_, u) => fgt (py (rn_loc u)) (py q) && no_collision
         end
      then mkNear (nr_left acc) (nr_right acc) (nr_up acc) (Some (b, m))
      else acc
    else acc
  else if feq (py q) (py p) && flt (px q) (px p) then
    if is_connectable n Left && is_connectable m Right then
      if match nr_left acc with
         | None => true
         | Some (_, u) => flt (px (rn_loc u)) (px q) && no_collision
         end
      then mkNear (Some (b, m)) (nr_right acc) (nr_up acc) (nr_down acc)
      else acc
    else acc
  else if feq (py q) (py p) && fgt (px q) (px p) then
    if is_connectable n Right && is_connectable m Left then
      if match nr_right acc with
         | None => true
         | Some (_, u) => fgt (px (rn_loc u)) (px q) && no_collision
         end
      then mkNear (nr_left acc) (Some (b, m)) (nr_up acc) (nr_down acc)
      else acc
    else acc
  else acc.

(** layout.rs:772-775 *)
Definition nearest_edges (a : nat) (nr : nearest) : list (nat * nat) :=
  flat_map (fun o => match o with Some (b, _) => [(a, b)] | None => [] end)
           [nr_left nr; nr_right nr; nr_up nr; nr_down nr].

(** layout.rs:674-776: the edges to add *)
Definition neighbor_edges (d : document) (ns : list route_node) : list (nat * nat) :=
  let rects := map (fun r => inset_by r (f32_of_Z 1) (f32_of_Z 1)) (shape_rects d) in
  flat_map (fun an => nearest_edges (fst an)
                        (fold_left (nearest_step rects (snd an)) (enum ns)
                                   (mkNear None None None None)))
           (enum ns).

(** layout.rs:674-781 *)
Definition connect_neighbors (d : document) (g : route_graph) : route_graph :=
  fold_left rg_add_edge (neighbor_edges d (rg_nodes g)) g.

(** The terminal ports of both ends of an edge, start node first; nothing when
    an end does not exist (layout.rs:450-473, 487-496). *)
Definition edge_end_ports (d : document) (e : edge_data) : list terminal_port :=
  match get_node d (e_source e), get_node d (e_target e) with
  | Some s, Some t => n_ports s ++ n_ports t
  | _, _ => []
  end.

(** layout.rs:802-813: all pairs of ports, start ports outermost *)
Definition port_pairs (s t : node_data) : list (terminal_port * terminal_port) :=
  flat_map (fun p => map (fun q => (p, q)) (n_ports t)) (n_ports s).

(** layout.rs:803-813: one pair; the state is [cost] and [path] *)
Definition try_pair (g : route_graph) (st : N * option (list nat))
    (pq : terminal_port * terminal_port) : res (N * option (list nat)) :=
  let '(cost, best) := st in
  match rg_get_port g (port_ident (fst pq)), rg_get_port g (port_ident (snd pq)) with
  | Some a, Some b =>
      do cp <- compute_shortest_path g a b;
      let '(c, p) := cp in
      if (c <? cost)%N then Ret (c, Some p) else Ret (cost, best)
  | _, _ => Ret (cost, best)
  end.

(** [get_node(id).unwrap().location()], layout.rs:815-821 *)
Fixpoint locations (ns : list route_node) (ids : list nat) : res (list point) :=
  match ids with
  | [] => Ret []
  | i :: ids' =>
      match nth_error ns i with
      | None => Panic PUnwrap
      | Some n => do r <- locations ns ids'; Ret (rn_loc n :: r)
      end
  end.

(** layout.rs:786-822 *)
Definition find_edge_path (g : route_graph) (d : document) (e : edge_data)
  : res (option (list point)) :=
  match get_node d (e_source e), get_node d (e_target e) with
  | Some s, Some t =>
      do r <- foldM (try_pair g) (port_pairs s t) (u32_max, None);
      match snd r with
      | None => Ret None
      | Some ids => do ps <- locations (rg_nodes g) ids; Ret (Some ps)
      end
  | _, _ => Ret None
  end.

(** layout.rs:502-509: the found paths, in edge order, missing ones skipped *)
Fixpoint find_paths (g : route_graph) (d : document) (es : list edge_data) : res (list (list point)) :=
  match es with
  | [] => Ret []
  | e :: es' =>
      do o <- find_edge_path g d e;
      do r <- find_paths g d es';
      Ret (match o with Some p => p :: r | None => r end)
  end.

(** layout.rs:511-513 *)
Fixpoint assign_paths (es : list edge_data) (ps : list (list point)) : res (list edge_data) :=
  match es with
  | [] => Ret []
  | e :: es' =>
      match ps with
      | [] => Panic PNoPath
      | p :: ps' => do r <- assign_paths es' ps'; Ret (set_path_points e (Some p) :: r)
      end
  end.

(** layout.rs:442-479: the junctions kept after removing overlapped ones *)
Definition edge_junctions (d : document) : list point :=
  let around := junctions_around_shapes d in
  let crossing := flat_map (fun e => flat_map (fun p => junctions_from_port d p around)
                                              (edge_end_ports d e)) (d_edges d) in
  remove_overlapped d (around ++ crossing).

(** layout.rs:481-499: fill the routing graph *)
Definition build_routes (g : route_graph) (d : document) : res route_graph :=
  do g1 <- foldM rg_add_node (edge_junctions d) g;
  do g2 <- foldM rg_add_port (flat_map (edge_end_ports d) (d_edges d)) g1;
  Ret (connect_neighbors d g2).

(** layout.rs:401-514.  The engine keeps its routing graph between calls. *)
Definition draw_edge_path (g : route_graph) (d : document) : res (route_graph * document) :=
  do g' <- build_routes g d;
  do ps <- find_paths g' d (d_edges d);
  do es <- assign_paths (d_edges d) ps;
  Ret (g', mkDoc (d_nodes d) es).
