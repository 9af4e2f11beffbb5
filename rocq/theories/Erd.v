(** /repo/src/erd.rs *)
From Coq Require Import String List NArith Bool.
From Verif Require Import Base F32 Color Geometry Mir.
Import ListNotations.

(** erd.rs:276-286 *)
Inductive field_type := TInt | TUuid | TText | TTimestamp.
Definition show_field_type (t : field_type) : str :=
  match t with
  | TInt => lit "int"
  | TUuid => lit "uuid"
  | TText => lit "text"
  | TTimestamp => lit "timestamp"
  end.

(** erd.rs:288-294 *)
Inductive field_key := PrimaryKey | ForeignKey.

(** erd.rs:306-311 *)
Definition to_keyword (k : field_key) : str :=
  match k with PrimaryKey => lit "PK" | ForeignKey => lit "FK" end.

(** erd.rs:235-240 *)
Record entity_field := mkField {
  f_name : str;
  f_type : field_type;
  f_key : option field_key }.

(** erd.rs:187-191 *)
Record entity_definition := mkEntity { ent_name : str; ent_fields : list entity_field }.

(** erd.rs:332-338 *)
Inductive entity_path :=
| PEntity (e : str)
| PField (e f : str).

(** [==]/[Hash] derived on [EntityPath]. *)
Definition entity_path_eqb (a b : entity_path) : bool :=
  match a, b with
  | PEntity x, PEntity y => str_eqb x y
  | PField x f, PField y g => str_eqb x y && str_eqb f g
  | _, _ => false
  end.

(** erd.rs:340-362 *)
Record entity_relation := mkRelation { rel_start : entity_path; rel_end : entity_path }.

(** erd.rs:181-185 *)
Inductive module_entry :=
| EDef (d : entity_definition)
| ERel (r : entity_relation).

(** erd.rs:8-12 *)
Record module := mkModule { m_name : option str; m_entries : list module_entry }.

(** erd.rs:15-20, 30-32 *)
Definition module_new (name : option str) : module := mkModule name [].
Definition module_add_entry (m : module) (e : module_entry) : module :=
  mkModule (m_name m) (m_entries m ++ [e]).

(** erd.rs:194-199, 209-211 *)
Definition entity_new (name : str) : entity_definition := mkEntity name [].
Definition entity_add_field (d : entity_definition) (f : entity_field) : entity_definition :=
  mkEntity (ent_name d) (ent_fields d ++ [f]).

(** ** Display *)

(** erd.rs:268-274 *)
Definition show_field (f : entity_field) : str :=
  f_name f ++ lit " " ++ show_field_type (f_type f) ++
  match f_key f with
  | None => []
  | Some k => lit " " ++ to_keyword k
  end.

(** erd.rs:214-233 *)
Definition show_entity (d : entity_definition) : str :=
  ent_name d ++ lit " {" ++
  match ent_fields d with
  | [] => []
  | fs => lit " " ++ join (lit "; ") (map show_field fs) ++ lit " "
  end ++ lit "}".

(** erd.rs:332-338 *)
Definition show_path (p : entity_path) : str :=
  match p with
  | PEntity e => e
  | PField e f => e ++ lit "." ++ f
  end.

(** erd.rs:340-345 *)
Definition show_relation (r : entity_relation) : str :=
  show_path (rel_start r) ++ lit " o--o " ++ show_path (rel_end r).

(** erd.rs:181-185 (derive_more forwards to the payload) *)
Definition show_entry (e : module_entry) : str :=
  match e with EDef d => show_entity d | ERel r => show_relation r end.

Definition nl : str := [10%N].

(** erd.rs:167-179 *)
Definition show_module (m : module) : str :=
  lit "erd " ++
  match m_name m with Some n => n ++ lit " " | None => [] end ++
  lit "{" ++ nl ++
  concat (map (fun e => lit "    " ++ show_entry e ++ nl) (m_entries m)) ++
  lit "}".

(** ** AST to MIR *)

(** erd.rs:43-46 *)
Definition light_gray : web_color := RGB (mkRGB 73 73 73).
Definition table_border_color : web_color := light_gray.
Definition table_bg_color : web_color := RGB (mkRGB 33 33 33).
Definition text_color : web_color := Named White.

(** erd.rs:141-164 *)
Definition column_type_color (t : field_type) : web_color :=
  match t with
  | TInt => RGB (mkRGB 236 199 0)
  | TUuid => RGB (mkRGB 236 199 0)
  | TText => RGB (mkRGB 214 105 5)
  | TTimestamp => RGB (mkRGB 6 182 151)
  end.

(** erd.rs:317-322 *)
Definition badge_text_color (k : field_key) : web_color :=
  match k with
  | PrimaryKey => Named White
  | ForeignKey => RGB (mkRGB 17 112 251)
  end.

(** erd.rs:324-329 *)
Definition badge_bg_color (k : field_key) : web_color :=
  match k with
  | PrimaryKey => RGB (mkRGB 55 55 55)
  | ForeignKey => RGB (mkRGB 32 41 55)
  end.

(** erd.rs:297-304 *)
Definition key_badge (k : field_key) : badge :=
  mkBadge (to_keyword k) (Some (badge_text_color k)) (Some (badge_bg_color k)).

(** erd.rs:56-70: the header of a table *)
Definition header_shape (name : str) : field_shape :=
  mkFieldShape (mkText name (Some text_color) (Some Monospace1) (Some FWBold) None)
               None None (Some light_gray) None.

(** erd.rs:82-105: one column of a table *)
Definition column_shape (f : entity_field) : field_shape :=
  mkFieldShape
    (mkText (f_name f) (Some text_color) (Some Monospace2) (Some FWLighter) None)
    (Some (mkText (show_field_type (f_type f)) (Some (column_type_color (f_type f)))
                  (Some Monospace2) (Some FWLighter) (Some FSSmall)))
    (option_map key_badge (f_key f))
    None
    (Some table_border_color).

(** erd.rs:72-77 *)
Definition table_shape : record_shape :=
  mkRecordShape true (Some table_bg_color) (Some table_border_color).

(** erd.rs:50: the [HashMap<EntityPath, NodeId>] *)
Definition path_map := list (entity_path * node_id).

(** erd.rs:78-115: the [map] closure run over the fields, in order *)
Fixpoint add_columns (ename : str) (fs : list entity_field) (d : document) (ps : path_map)
  : document * path_map * list node_id :=
  match fs with
  | [] => (d, ps, [])
  | f :: fs' =>
      let '(d1, i) := create_field d (column_shape f) in
      let ps1 := (PField ename (f_name f), i) :: ps in
      let '(d2, ps2, ids) := add_columns ename fs' d1 ps1 in
      (d2, ps2, i :: ids)
  end.

(** erd.rs:54-128: one [ModuleEntry::EntityDefinition] *)
Definition add_definition (e : entity_definition) (d : document) (ps : path_map)
  : document * path_map :=
  let '(d1, header) := create_field d (header_shape (ent_name e)) in
  let '(d2, ps2, ids) := add_columns (ent_name e) (ent_fields e) d1 ps in
  let '(d3, rid) := create_record d2 table_shape in
  let ps3 := (PEntity (ent_name e), rid) :: ps2 in
  let d4 := update_node d3 rid (fun n => fold_left append_child (header :: ids) n) in
  let d5 := update_node d4 0 (fun n => append_child n rid) in
  (d5, ps3).

(** erd.rs:129-134: one [ModuleEntry::EntityRelation] *)
Definition add_relation (r : entity_relation) (d : document) (ps : path_map) : res document :=
  match assoc entity_path_eqb (rel_start r) ps with
  | None => Ret d
  | Some s =>
      match assoc entity_path_eqb (rel_end r) ps with
      | None => Ret d
      | Some t => add_edge d (mkEdge s t None)
      end
  end.

(** erd.rs:52-136: the loop over the entries *)
Fixpoint add_entries (es : list module_entry) (d : document) (ps : path_map) : res document :=
  match es with
  | [] => Ret d
  | EDef e :: es' => let '(d', ps') := add_definition e d ps in add_entries es' d' ps'
  | ERel r :: es' => do d' <- add_relation r d ps; add_entries es' d' ps
  end.

(** erd.rs:42-139 *)
Definition into_mir (m : module) : res document := add_entries (m_entries m) doc_new [].
