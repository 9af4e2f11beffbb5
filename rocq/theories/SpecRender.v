(** Vocabulary for the properties of the SVG output, without the functions that
    produce it. *)
From Coq Require Import String List Arith NArith ZArith Bool.
From Verif Require Import Base F32 Color Geometry Mir Erd Route Svg Render SpecGeom SpecMir.
Import ListNotations.

(** ** Trees *)

Definition svg_name (n : svg_node) : str :=
  match n with Elem k _ _ => k | TextNode _ => [] end.
Definition svg_attrs (n : svg_node) : list (str * str) :=
  match n with Elem _ a _ => a | TextNode _ => [] end.
Definition svg_children (n : svg_node) : list svg_node :=
  match n with Elem _ _ c => c | TextNode _ => [] end.

(** A node and all nodes below it, in document order. *)
Fixpoint subtree (n : svg_node) : list svg_node :=
  n :: match n with Elem _ _ c => flat_map subtree c | TextNode _ => [] end.

(** The contents of the text nodes, in document order. *)
Fixpoint texts (n : svg_node) : list str :=
  match n with Elem _ _ c => flat_map texts c | TextNode s => [s] end.

(** The element has that attribute, once, with that value. *)
Definition has_attr (n : svg_node) (k : string) (v : str) : Prop :=
  In (lit k, v) (svg_attrs n) /\ forall v', In (lit k, v') (svg_attrs n) -> v' = v.

Definition is_element (k : string) (n : svg_node) : bool := str_eqb (svg_name n) (lit k).

(** The elements of that name in a tree. *)
Definition elements (k : string) (n : svg_node) : list svg_node := filter (is_element k) (subtree n).

(** The same tree with all text removed. *)
Fixpoint without_text (n : svg_node) : svg_node :=
  match n with Elem k a c => Elem k a (map without_text c) | TextNode _ => TextNode [] end.

(** ** Documents *)

(** [x] is the first element of [l] with the property. *)
Definition first_of {A} (P : A -> Prop) (l : list A) (x : A) : Prop :=
  exists l1 l2, l = l1 ++ x :: l2 /\ P x /\ Forall (fun y => ~ P y) l1.
Definition none_of {A} (P : A -> Prop) (l : list A) : Prop := Forall (fun y => ~ P y) l.

Definition lacks_geometry (n : node_data) : Prop := n_origin n = None \/ n_size n = None.
Definition bad_record (d : document) (id : node_id) : Prop :=
  exists n rs, get_node d id = Some n /\ n_kind n = KRecord rs /\ lacks_geometry n.
Definition bad_field (d : document) (id : node_id) : Prop :=
  exists n f, get_node d id = Some n /\ n_kind n = KField f /\ lacks_geometry n.

(** The node is a record. *)
Definition is_record (d : document) (id : node_id) : bool :=
  match get_node d id with
  | Some n => match n_kind n with KRecord _ => true | _ => false end
  | None => false
  end.
(** The children of the records of the body, in order. *)
Definition rows_of (d : document) : list node_id :=
  flat_map (fun id => match get_node d id with Some n => n_children n | None => [] end)
           (filter (is_record d) (body_children d)).

(** The clip path of a record: a rounded rectangle of its position and size. *)
Definition clips_record (d : document) (id : node_id) (c : svg_node) : Prop :=
  exists n o s r, get_node d id = Some n /\ n_origin n = Some o /\ n_size n = Some s /\
    svg_name c = lit "clipPath" /\ svg_children c = [r] /\ svg_name r = lit "rect" /\ svg_children r = [] /\
    has_attr r "x" (show_f32 (px o)) /\ has_attr r "y" (show_f32 (py o)) /\
    has_attr r "width" (show_f32 (width s)) /\ has_attr r "height" (show_f32 (height s)).

(** ** Paths *)

(** The direction of travel from one point to the next. *)
Inductive heading (p q : point) : orientation -> Prop :=
| heading_left : flt (px q) (px p) = true -> heading p q Left
| heading_right : flt (px q) (px p) = false -> flt (px p) (px q) = true -> heading p q Right
| heading_up : flt (px q) (px p) = false -> flt (px p) (px q) = false -> flt (py q) (py p) = true ->
    heading p q Up
| heading_down : flt (px q) (px p) = false -> flt (px p) (px q) = false -> flt (py q) (py p) = false ->
    heading p q Down.

(** Point number [i] reverses the direction of travel. *)
Definition reverses_at (ps : list point) (i : nat) : Prop :=
  exists k a b c o, i = S k /\ nth_error ps k = Some a /\ nth_error ps i = Some b /\
    nth_error ps (S i) = Some c /\ heading a b o /\ heading b c (opposite o).

Definition bad_edge (e : edge_data) : Prop :=
  e_path e = None \/ exists ps, e_path e = Some ps /\ (length ps < 2 \/ exists i, reverses_at ps i).

(** The point [r] away from [p]. *)
Definition moved (o : orientation) (r : f32) (p : point) : point :=
  match o with
  | Up => mkPoint (px p) (fsub (py p) r)
  | Down => mkPoint (px p) (fadd (py p) r)
  | Left => mkPoint (fsub (px p) r) (py p)
  | Right => mkPoint (fadd (px p) r) (py p)
  end.

Definition coordinates (p : point) : str := show_f32 (px p) ++ lit " " ++ show_f32 (py p).
Definition svg_move (p : point) : str := lit "M" ++ coordinates p.
Definition svg_line (p : point) : str := lit "L" ++ coordinates p.
Definition svg_curve (c p : point) : str := lit "Q" ++ coordinates c ++ lit " " ++ coordinates p.

(** How an interior point [b] between [a] and [c] is drawn: passed straight, or
    rounded with radius 6. *)
Inductive passes (a b c : point) : list str -> Prop :=
| pass_straight o : heading a b o -> heading b c o -> passes a b c [svg_line b]
| pass_corner o o' : heading a b o -> heading b c o' -> o' <> o -> o' <> opposite o ->
    passes a b c [svg_line (moved (opposite o) (f32_of_Z 6%Z) b);
                  svg_curve b (moved o' (f32_of_Z 6%Z) b)].

(** The commands from the second point on; [a] is the point before. *)
Inductive draws_rest : point -> list point -> list str -> Prop :=
| draws_last a b : draws_rest a [b] [svg_line b]
| draws_next a b c ps l l' : passes a b c l -> draws_rest b (c :: ps) l' ->
    draws_rest a (b :: c :: ps) (l ++ l').
Definition draws (ps : list point) (l : list str) : Prop :=
  exists p ps' l', ps = p :: ps' /\ draws_rest p ps' l' /\ l = svg_move p :: l'.

(** Path element and end circles of an edge. *)
Definition edge_drawing (e : edge_data) (l : list svg_node) : Prop :=
  exists ps p q cs path c1 c2,
    e_path e = Some ps /\ nth_error ps 0 = Some p /\ nth_error ps (length ps - 1) = Some q /\
    draws ps cs /\ l = [path; c1; c2] /\
    svg_name path = lit "path" /\ has_attr path "d" (join (lit " ") cs) /\ svg_children path = [] /\
    (forall c x, In (c, x) [(c1, p); (c2, q)] ->
       svg_name c = lit "circle" /\ has_attr c "cx" (show_f32 (px x)) /\
       has_attr c "cy" (show_f32 (py x)) /\ has_attr c "r" (lit "4") /\ svg_children c = []).

(** ** Texts *)

(** The texts of one row: title, subtitle, badge. *)
Definition row_texts (f : field_shape) : list str :=
  [t_text (fs_title f)] ++
  match fs_subtitle f with Some t => [t_text t] | None => [] end ++
  match fs_badge f with Some b => [b_text b] | None => [] end.

Definition doc_texts (d : document) : list str :=
  flat_map (fun id => match get_node d id with
                      | Some n => match n_kind n with KField f => row_texts f | _ => [] end
                      | None => []
                      end) (rows_of d).

(** The texts of a module. *)
Definition field_words (f : entity_field) : list str :=
  [f_name f; show_field_type (f_type f)] ++
  match f_key f with Some PrimaryKey => [lit "PK"] | Some ForeignKey => [lit "FK"] | None => [] end.
Definition module_texts (m : module) : list str :=
  flat_map (fun e => ent_name e :: flat_map field_words (ent_fields e)) (definitions (m_entries m)).

(** Two documents that differ only in the texts of the rows. *)
Definition blank_span (t : text_span) : text_span :=
  mkText [] (t_color t) (t_family t) (t_weight t) (t_size t).
Definition blank_field (f : field_shape) : field_shape :=
  mkFieldShape (blank_span (fs_title f)) (option_map blank_span (fs_subtitle f))
    (option_map (fun b => mkBadge [] (b_color b) (b_bg b)) (fs_badge f)) (fs_bg f) (fs_border f).
Definition blank_node (n : node_data) : node_data :=
  mkNode (n_origin n) (n_size n) (n_ports n)
    (match n_kind n with KField f => KField (blank_field f) | k => k end) (n_children n).
Definition same_but_texts (d d' : document) : Prop :=
  map blank_node (d_nodes d) = map blank_node (d_nodes d') /\ d_edges d = d_edges d'.

(** Characters that would need escaping inside an attribute value. *)
Definition unsafe_chars : str := [34; 39; 60; 62; 38]%N.
Definition safe_value (v : str) : Prop := forall c, In c v -> ~ In c unsafe_chars.

(** ** Outcomes *)

Definition map_outcome {A B} (f : A -> B) (r : outcome A) : outcome B :=
  match r with Okay a => Okay (f a) | Fail e => Fail e | Abort p => Abort p end.

(** ** Colours *)

Definition hex_digits : str := lit "0123456789ABCDEF".
(** [a] and [b] are the hexadecimal digits of [n]. *)
Definition hex_pair (a b : char) (n : N) : Prop :=
  exists i j, nth_error hex_digits i = Some a /\ nth_error hex_digits j = Some b /\
              n = (16 * N.of_nat i + N.of_nat j)%N.
Definition channel (n : N) : Prop := (n < 256)%N.
Definition valid_color (c : web_color) : Prop :=
  match c with RGB c => channel (red c) /\ channel (green c) /\ channel (blue c) | Named _ => True end.

(** The colours of a document have three byte channels, as their type demands. *)
Definition opt_valid (o : option web_color) : Prop := forall c, o = Some c -> valid_color c.
Definition colors_ok (k : shape_kind) : Prop :=
  match k with
  | KBody => True
  | KRecord r => opt_valid (rs_bg r) /\ opt_valid (rs_border r)
  | KField f => opt_valid (fs_bg f) /\ opt_valid (fs_border f) /\ opt_valid (t_color (fs_title f)) /\
                (forall t, fs_subtitle f = Some t -> opt_valid (t_color t)) /\
                (forall b, fs_badge f = Some b -> opt_valid (b_color b) /\ opt_valid (b_bg b))
  end.
Definition byte_colors (d : document) : Prop := Forall (fun n => colors_ok (n_kind n)) (d_nodes d).

(** ** Notebook output *)
Definition begin_marker : str := lit "EVCXR_BEGIN_CONTENT image/svg+xml".
Definition end_marker : str := lit "EVCXR_END_CONTENT".
