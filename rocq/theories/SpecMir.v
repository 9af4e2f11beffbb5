(** What the document of a module should look like (erd.rs:33-139), stated over
    the graph that results, without the functions that build it. *)
From Coq Require Import String List NArith.
From Verif Require Import Base F32 Color Geometry Mir Erd.
Import ListNotations.

(** The entity definitions of a list of entries, in order. *)
Fixpoint definitions (es : list module_entry) : list entity_definition :=
  match es with
  | [] => []
  | EDef d :: es' => d :: definitions es'
  | ERel _ :: es' => definitions es'
  end.

(** Node [i] is the row of the field [f]: title, type and key are shown. *)
Definition shows_field (d : document) (i : node_id) (f : entity_field) : Prop :=
  exists n s, get_node d i = Some n /\ n_kind n = KField s /\ n_children n = [] /\
    t_text (fs_title s) = f_name f /\
    option_map t_text (fs_subtitle s) = Some (show_field_type (f_type f)) /\
    option_map b_text (fs_badge s) = option_map to_keyword (f_key f).

(** Node [i] is a header with the given name. *)
Definition shows_header (d : document) (i : node_id) (name : str) : Prop :=
  exists n s, get_node d i = Some n /\ n_kind n = KField s /\ n_children n = [] /\
    t_text (fs_title s) = name /\ fs_subtitle s = None /\ fs_badge s = None.

(** Node [i] is the table of the entity [e]. *)
Definition shows_table (d : document) (i : node_id) (e : entity_definition) : Prop :=
  exists n s h rows, get_node d i = Some n /\ n_kind n = KRecord s /\
    n_children n = h :: rows /\ shows_header d h (ent_name e) /\
    Forall2 (shows_field d) rows (ent_fields e).

(** Node [i] shows what the path names. *)
Inductive shows_path (d : document) : entity_path -> node_id -> Prop :=
| shows_entity i e :
    In i (body_children d) -> shows_table d i e -> shows_path d (PEntity (ent_name e)) i
| shows_row r e n h rows k i f :
    In r (body_children d) -> shows_table d r e -> get_node d r = Some n ->
    n_children n = h :: rows -> nth_error rows k = Some i -> nth_error (ent_fields e) k = Some f ->
    shows_path d (PField (ent_name e) (f_name f)) i.

(** A tree: apart from the root 0 every node is listed exactly once as a child. *)
Definition parent (d : document) (p c : node_id) : Prop :=
  exists n, get_node d p = Some n /\ In c (n_children n).
Record is_tree (d : document) : Prop := {
  tree_root : exists n, get_node d 0 = Some n /\ n_kind n = KBody;
  tree_children_exist : forall p c, parent d p c -> 0 < c < length (d_nodes d);
  tree_one_parent : forall c, 0 < c < length (d_nodes d) -> exists p, parent d p c;
  tree_unique_parent : forall p q c, parent d p c -> parent d q c -> p = q;
  tree_once : forall p n, get_node d p = Some n -> NoDup (n_children n);
  tree_body : forall i n, get_node d i = Some n -> n_kind n = KBody -> i = 0;
  tree_records : forall i n s, get_node d i = Some n -> n_kind n = KRecord s -> parent d 0 i;
  tree_fields : forall i n s, get_node d i = Some n -> n_kind n = KField s ->
      n_children n = [] /\
      exists p np sp, get_node d p = Some np /\ n_kind np = KRecord sp /\ In i (n_children np) }.

(** The paths an entity declares. *)
Definition declares (e : entity_definition) (p : entity_path) : Prop :=
  p = PEntity (ent_name e) \/ exists f, In f (ent_fields e) /\ p = PField (ent_name e) (f_name f).
Definition declared (es : list module_entry) (p : entity_path) : Prop :=
  exists e, In e (definitions es) /\ declares e p.

(** The number of nodes an entity definition adds: header, rows, record. *)
Definition node_count (e : entity_definition) : nat := length (ent_fields e) + 2.
Definition nodes_before (es : list module_entry) : nat :=
  1 + list_sum (map node_count (definitions es)).

(** [resolves es p i]: after the entries [es], the path [p] stands for node [i].
    The nodes of a definition are numbered consecutively (header, rows, record);
    the latest declaration of a path wins: within an entity the last field of
    that name, and a later definition over an earlier one. *)
Definition last_field (e : entity_definition) (name : str) (k : nat) : Prop :=
  (exists f, nth_error (ent_fields e) k = Some f /\ f_name f = name) /\
  forall k' f', k < k' -> nth_error (ent_fields e) k' = Some f' -> f_name f' <> name.

Inductive resolves : list module_entry -> entity_path -> node_id -> Prop :=
| res_entity es e post :
    ~ declared post (PEntity (ent_name e)) ->
    resolves (es ++ EDef e :: post) (PEntity (ent_name e))
             (nodes_before es + length (ent_fields e) + 1)
| res_field es e post name k :
    ~ declared post (PField (ent_name e) name) -> last_field e name k ->
    resolves (es ++ EDef e :: post) (PField (ent_name e) name) (nodes_before es + 1 + k).

(** The edges: one for each relation whose ends both resolve among the entries
    before it. *)
Inductive edges_of : list module_entry -> list module_entry -> list edge_data -> Prop :=
| edges_end pre : edges_of pre [] []
| edges_def pre e es l : edges_of (pre ++ [EDef e]) es l -> edges_of pre (EDef e :: es) l
| edges_rel pre r es l s t :
    resolves pre (rel_start r) s -> resolves pre (rel_end r) t ->
    edges_of (pre ++ [ERel r]) es l -> edges_of pre (ERel r :: es) (mkEdge s t None :: l)
| edges_drop pre r es l :
    ~ declared pre (rel_start r) \/ ~ declared pre (rel_end r) ->
    edges_of (pre ++ [ERel r]) es l -> edges_of pre (ERel r :: es) l.

(** Both ends of an edge exist. *)
Definition edge_in (d : document) (e : edge_data) : Prop :=
  e_source e < length (d_nodes d) /\ e_target e < length (d_nodes d).

(** Entity names are distinct, and field names within each entity. *)
Definition distinct_names (ds : list entity_definition) : Prop :=
  NoDup (map ent_name ds) /\ Forall (fun e => NoDup (map f_name (ent_fields e))) ds.

(** The edge joins the only nodes that show the ends of the relation. *)
Definition resolved_edge (d : document) (r : entity_relation) (x : edge_data) : Prop :=
  e_path x = None /\
  (forall i, shows_path d (rel_start r) i <-> i = e_source x) /\
  (forall i, shows_path d (rel_end r) i <-> i = e_target x).

Definition relation_edges (d : document) (pre : list module_entry) (r : entity_relation) (l : list edge_data) : Prop :=
  (declared pre (rel_start r) /\ declared pre (rel_end r) /\ exists x, l = [x] /\ resolved_edge d r x) \/
  (~ (declared pre (rel_start r) /\ declared pre (rel_end r)) /\ l = []).

(** The colours of the texts: types, and keys with their background. *)
Definition type_css : list (str * str) :=
  [(lit "int", lit "#ECC700"); (lit "uuid", lit "#ECC700");
   (lit "text", lit "#D66905"); (lit "timestamp", lit "#06B697")].
Definition key_css : list (str * str * str) :=
  [(lit "PK", lit "white", lit "#373737"); (lit "FK", lit "#1170FB", lit "#202937")].
Definition prints (o : option web_color) (s : str) : Prop := option_map show_color o = Some s.

Definition styled_row (s : field_shape) : Prop :=
  prints (t_color (fs_title s)) (lit "white") /\
  (forall t, fs_subtitle s = Some t -> exists css, prints (t_color t) css /\ In (t_text t, css) type_css) /\
  (forall b, fs_badge s = Some b ->
     exists css bg, prints (b_color b) css /\ prints (b_bg b) bg /\ In (b_text b, css, bg) key_css).
(** Headers are filled, rows below them are bordered. *)
Definition styled_header (s : field_shape) : Prop :=
  styled_row s /\ prints (fs_bg s) (lit "#494949") /\ fs_border s = None.
Definition styled_column (s : field_shape) : Prop :=
  styled_row s /\ fs_bg s = None /\ prints (fs_border s) (lit "#494949").
Definition styled_table (d : document) (i : node_id) : Prop :=
  exists n r h rows, get_node d i = Some n /\ n_kind n = KRecord r /\ n_children n = h :: rows /\
    rs_rounded r = true /\ prints (rs_bg r) (lit "#212121") /\ prints (rs_border r) (lit "#494949") /\
    (exists hn s, get_node d h = Some hn /\ n_kind hn = KField s /\ styled_header s) /\
    Forall (fun j => exists m s, get_node d j = Some m /\ n_kind m = KField s /\ styled_column s) rows.
