(** /repo/src/mir.rs *)
From Coq Require Import String List NArith Bool.
From Verif Require Import Base F32 Color Geometry.
Import ListNotations.

(** mir.rs:20-21, [NodeId]: the index of a node in the document graph. *)
Definition node_id := nat.
(** mir.rs:38-40, [TerminalPortId]. *)
Definition port_id := (node_id * nat)%type.
Definition port_id_eqb (a b : port_id) : bool :=
  Nat.eqb (fst a) (fst b) && Nat.eqb (snd a) (snd b).

(** mir.rs:317-329 *)
Inductive font_family := SansSerif1 | SansSerif2 | SansSerif3 | Monospace1 | Monospace2.
Definition show_font_family (f : font_family) : str :=
  match f with
  | SansSerif1 => lit "Arial,sans-serif"
  | SansSerif2 => lit "Verdana,sans-serif"
  | SansSerif3 => lit "Trebuchet MS,sans-serif"
  | Monospace1 => lit "Monaco,Lucida Console,monospace"
  | Monospace2 => lit "Courier New,monospace"
  end.

(** mir.rs:331-341 *)
Inductive font_weight := FWNormal | FWBold | FWLighter | FWBolder.
Definition show_font_weight (w : font_weight) : str :=
  match w with
  | FWNormal => lit "normal"
  | FWBold => lit "bold"
  | FWLighter => lit "lighter"
  | FWBolder => lit "bolder"
  end.

(** mir.rs:349-368 *)
Inductive font_size :=
  FSXXSmall | FSXSmall | FSSmall | FSMedium | FSLarge | FSXLarge | FSXXLarge | FSXXXLarge.
Definition show_font_size (s : font_size) : str :=
  match s with
  | FSXXSmall => lit "xx-small"
  | FSXSmall => lit "x-small"
  | FSSmall => lit "small"
  | FSMedium => lit "medium"
  | FSLarge => lit "large"
  | FSXLarge => lit "x-large"
  | FSXXLarge => lit "xx-large"
  | FSXXXLarge => lit "xxx-large"
  end.

(** mir.rs:285-294 *)
Record text_span := mkText {
  t_text : str;
  t_color : option web_color;
  t_family : option font_family;
  t_weight : option font_weight;
  t_size : option font_size }.

(** mir.rs:296-303 *)
Record badge := mkBadge {
  b_text : str;
  b_color : option web_color;
  b_bg : option web_color }.

(** mir.rs:305-315 *)
Definition badge_text_span (b : badge) : text_span :=
  mkText (b_text b) (b_color b) (Some SansSerif3) None (Some FSXXSmall).

(** mir.rs:267-273 *)
Record record_shape := mkRecordShape {
  rs_rounded : bool;
  rs_bg : option web_color;
  rs_border : option web_color }.

(** mir.rs:275-283 *)
Record field_shape := mkFieldShape {
  fs_title : text_span;
  fs_subtitle : option text_span;
  fs_badge : option badge;
  fs_bg : option web_color;
  fs_border : option web_color }.

(** mir.rs:140-145.  [BodyShape] has no fields. *)
Inductive shape_kind :=
| KBody
| KRecord (r : record_shape)
| KField (f : field_shape).

(** mir.rs:147-176 *)
Record terminal_port := mkPort {
  port_ident : port_id;
  port_location : point;
  port_orientation : orientation }.

(** mir.rs:42-54 *)
Record node_data := mkNode {
  n_origin : option point;
  n_size : option size;
  n_ports : list terminal_port;
  n_kind : shape_kind;
  n_children : list node_id }.

(** mir.rs:57-65 *)
Definition node_new (k : shape_kind) : node_data := mkNode None None [] k [].

(** mir.rs:77-79 *)
Definition append_child (n : node_data) (c : node_id) : node_data :=
  mkNode (n_origin n) (n_size n) (n_ports n) (n_kind n) (n_children n ++ [c]).

(** mir.rs:82-85 *)
Definition node_rect (n : node_data) : option rect :=
  match n_origin n with
  | Some o => match n_size n with Some s => Some (mkRect o s) | None => None end
  | None => None
  end.

(** mir.rs:92-103 *)
Definition add_terminal_port (n : node_data) (nid : node_id) (loc : point) (o : orientation)
  : node_data :=
  mkNode (n_origin n) (n_size n)
         (n_ports n ++ [mkPort (nid, length (n_ports n)) loc o])
         (n_kind n) (n_children n).

(** The assignments [node.origin = Some(..); node.size = Some(..)] of
    layout.rs:294-295 and layout.rs:305-306. *)
Definition set_geometry (o : point) (s : size) (n : node_data) : node_data :=
  mkNode (Some o) (Some s) (n_ports n) (n_kind n) (n_children n).

(** mir.rs:106-138 *)
Record edge_data := mkEdge {
  e_source : node_id;
  e_target : node_id;
  e_path : option (list point) }.

(** mir.rs:135-137 *)
Definition set_path_points (e : edge_data) (p : option (list point)) : edge_data :=
  mkEdge (e_source e) (e_target e) p.

(** mir.rs:180-184.  petgraph's [UnGraph] as its node and edge vectors: nodes
    and edges are never removed, so an index is a position.  [body_id] is
    always 0 (mir.rs:187-196). *)
Record document := mkDoc { d_nodes : list node_data; d_edges : list edge_data }.

(** mir.rs:187-196 *)
Definition doc_new : document := mkDoc [node_new KBody] [].

(** mir.rs:208-214 *)
Definition get_node (d : document) (i : node_id) : option node_data := nth_error (d_nodes d) i.

(** Mutation through [get_node_mut] (mir.rs:212-214) of the node [i]. *)
Definition update_node (d : document) (i : node_id) (f : node_data -> node_data) : document :=
  mkDoc (update i f (d_nodes d)) (d_edges d).

(** mir.rs:198-204.  [body().children()]; the [unwrap] cannot fail because the
    body node exists from construction on. *)
Definition body_children (d : document) : list node_id :=
  match get_node d 0 with Some n => n_children n | None => [] end.

(** mir.rs:218-230 *)
Definition add_node (d : document) (n : node_data) : document * node_id :=
  (mkDoc (d_nodes d ++ [n]) (d_edges d), length (d_nodes d)).
Definition create_record (d : document) (r : record_shape) : document * node_id :=
  add_node d (node_new (KRecord r)).
Definition create_field (d : document) (f : field_shape) : document * node_id :=
  add_node d (node_new (KField f)).

(** mir.rs:255-260.  petgraph's [add_edge] panics on an index out of range. *)
Definition add_edge (d : document) (e : edge_data) : res document :=
  if Nat.ltb (e_source e) (length (d_nodes d)) && Nat.ltb (e_target e) (length (d_nodes d))
  then Ret (mkDoc (d_nodes d) (d_edges d ++ [e]))
  else Panic PBadEdge.
