(** The debug overlay, element by element. *)
From Coq Require Import String Ascii List NArith ZArith.
From Verif Require Import Base F32 Geometry Mir Route Svg SpecGeom SpecDecimal SpecRender.
Import ListNotations.

(** The decimal numeral of a number, without leading zeros. *)
Definition numbers (s : str) (n : nat) : Prop :=
  s <> [] /\ Forall digit s /\ numeral s = N.of_nat n /\ (hd 0%N s = 48%N -> s = [48%N]).

(** ** The parts of the overlay *)

Definition whole (z : Z) : f32 := f32_of_Z z.
Definition half (z : Z) : f32 := fdiv (f32_of_Z z) (f32_of_Z 2).

(** A thin red line from one place to another. *)
Definition draws_line (e : svg_node) (a b : point) : Prop :=
  svg_name e = lit "line" /\
  has_attr e "x1" (show_f32 (px a)) /\ has_attr e "y1" (show_f32 (py a)) /\
  has_attr e "x2" (show_f32 (px b)) /\ has_attr e "y2" (show_f32 (py b)) /\
  has_attr e "stroke" (lit "red") /\ has_attr e "stroke-width" (lit "1") /\ svg_children e = [].

(** [back o n p]: [n] units back from [p] for one who heads in direction [o]. *)
Definition back (o : orientation) (n : f32) (p : point) : point := moved (opposite o) n p.

(** The two sides of a point, for one who heads in direction [o]. *)
Definition sides (o : orientation) (n : f32) (p : point) : point * point :=
  match o with
  | Up | Down => (moved Left n p, moved Right n p)
  | Left | Right => (moved Down n p, moved Up n p)
  end.

Definition corner_list (ps : list point) : str :=
  join (lit " ") (map (fun p => show_f32 (px p) ++ lit ", " ++ show_f32 (py p)) ps).

(** A red arrow head pointing the way from [a] to [b]: seven long, five wide,
    and four short of [b], where the circle of [b] begins. *)
Definition draws_head (e : svg_node) (a b : point) : Prop :=
  svg_name e = lit "polygon" /\ has_attr e "fill" (lit "red") /\ svg_children e = [] /\
  exists o, heading a b o /\
    let tip := back o (whole 4) b in
    let base := back o (whole 4) (back o (whole 7) b) in
    has_attr e "points" (corner_list [tip; fst (sides o (half 5) base); snd (sides o (half 5) base)]).

(** A white-rimmed disc of radius four. *)
Definition draws_disc (e : svg_node) (colour : string) (p : point) : Prop :=
  svg_name e = lit "circle" /\
  has_attr e "cx" (show_f32 (px p)) /\ has_attr e "cy" (show_f32 (py p)) /\ has_attr e "r" (lit "4") /\
  has_attr e "stroke" (lit "white") /\ has_attr e "stroke-width" (lit "1") /\
  has_attr e "fill" (lit colour) /\ svg_children e = [].

(** A number in white, its top left corner at a place. *)
Definition draws_number (e : svg_node) (p : point) (n : nat) : Prop :=
  svg_name e = lit "text" /\
  has_attr e "x" (show_f32 (px p)) /\ has_attr e "y" (show_f32 (py p)) /\
  has_attr e "dominant-baseline" (lit "hanging") /\ has_attr e "fill" (lit "white") /\
  has_attr e "font-size" (lit "12") /\ has_attr e "font-family" (lit "monospace") /\
  exists s, svg_children e = [TextNode s] /\ numbers s n.

(** ** The whole overlay *)

(** An arrow for every edge of the route graph between nodes that exist. *)
Inductive shows_edges (g : route_graph) : list (nat * nat) -> list svg_node -> Prop :=
| no_edges : shows_edges g [] []
| an_edge i j a b line head l es :
    nth_error (rg_nodes g) i = Some a -> nth_error (rg_nodes g) j = Some b ->
    draws_line line (rn_loc a) (rn_loc b) -> draws_head head (rn_loc a) (rn_loc b) ->
    shows_edges g l es -> shows_edges g ((i, j) :: l) (line :: head :: es)
| a_lost_edge i j l es :
    nth_error (rg_nodes g) i = None \/ nth_error (rg_nodes g) j = None ->
    shows_edges g l es -> shows_edges g ((i, j) :: l) es.

(** A red disc for every node of the route graph, with its number beside it. *)
Inductive shows_nodes : nat -> list route_node -> list svg_node -> Prop :=
| no_nodes n : shows_nodes n [] []
| a_node n a disc label l es :
    draws_disc disc "red" (rn_loc a) ->
    draws_number label (moved Right (whole 2) (moved Right (whole 4) (moved Down (whole 4) (rn_loc a)))) n ->
    shows_nodes (S n) l es -> shows_nodes n (a :: l) (disc :: label :: es).

(** An orange disc for every point of every path. *)
Definition shows_paths (l : list edge_data) (es : list svg_node) : Prop :=
  Forall2 (fun p e => draws_disc e "orange" p)
          (concat (map (fun x => match e_path x with Some ps => ps | None => [] end) l)) es.

(** The number of every placed child of the body, below its bottom right corner. *)
Inductive shows_ids (d : document) : list nat -> list svg_node -> Prop :=
| no_ids : shows_ids d [] []
| an_id i n r label l es :
    get_node d i = Some n -> node_rect n = Some r ->
    draws_number label (moved Right (whole 2) (moved Down (whole 4) (mkPoint (max_x r) (max_y r)))) i ->
    shows_ids d l es -> shows_ids d (i :: l) (label :: es)
| an_unplaced_id i l es :
    (forall n, get_node d i = Some n -> node_rect n = None) ->
    shows_ids d l es -> shows_ids d (i :: l) es.

Definition shows_overlay (g : route_graph) (d : document) (es : list svg_node) : Prop :=
  exists edges nodes paths ids, es = edges ++ nodes ++ paths ++ ids /\
    shows_edges g (rg_edges g) edges /\ shows_nodes 0 (rg_nodes g) nodes /\
    shows_paths (d_edges d) paths /\ shows_ids d (body_children d) ids.
