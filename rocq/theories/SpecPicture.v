(** The picture of a table: which elements it consists of, and where they are.
    All coordinates are given in halves, as integers. *)
From Coq Require Import String List Arith NArith ZArith Reals.
From Verif Require Import Base Svg Erd SpecDecimal SpecRender.
Import ListNotations.
Local Open Scope Z_scope.

(** The attribute is a decimal numeral with the value [z]/2. *)
Definition half_attr (n : svg_node) (k : string) (z : Z) : Prop :=
  exists v, has_attr n k v /\ denotes v (IZR z / 2).

Definition has_attrs (n : svg_node) (l : list (string * str)) : Prop :=
  forall k v, In (k, v) l -> has_attr n k v.
Definition half_attrs (n : svg_node) (l : list (string * Z)) : Prop :=
  forall k z, In (k, z) l -> half_attr n k z.

(** An empty element, with at least these attributes. *)
Definition shape (n : svg_node) (k : string) (nums : list (string * Z)) (l : list (string * str)) : Prop :=
  svg_name n = lit k /\ svg_children n = [] /\ half_attrs n nums /\ has_attrs n l.

(** A rectangle with corners rounded by 6. *)
Definition rounded (n : svg_node) (x y w h : Z) (l : list (string * str)) : Prop :=
  shape n "rect" [("x", x); ("y", y); ("width", w); ("height", h); ("rx", 12); ("ry", 12)]%string l.

(** A text, centred on the line [y]; [side] says which end of it is at [x]. *)
Definition label (n : svg_node) (s : str) (x y : Z) (side : string) (l : list (string * str)) : Prop :=
  svg_name n = lit "text" /\ svg_children n = [TextNode s] /\
  half_attrs n [("x", x); ("y", y)]%string /\
  has_attrs n ([("text-anchor", lit side); ("dominant-baseline", lit "middle")]%string ++ l).

Definition header_font : list (string * str) :=
  [("fill", lit "white"); ("font-family", lit "Monaco,Lucida Console,monospace"); ("font-weight", lit "bold")]%string.
Definition row_font (color : str) : list (string * str) :=
  [("fill", color); ("font-family", lit "Courier New,monospace"); ("font-weight", lit "lighter")]%string.
Definition badge_font (color : str) : list (string * str) :=
  [("fill", color); ("font-family", lit "Trebuchet MS,sans-serif"); ("font-size", lit "xx-small")]%string.

(** The words for types and keys, and their colours. *)
Definition type_word (t : field_type) : str * str :=
  match t with
  | TInt => (lit "int", lit "#ECC700")
  | TUuid => (lit "uuid", lit "#ECC700")
  | TText => (lit "text", lit "#D66905")
  | TTimestamp => (lit "timestamp", lit "#06B697")
  end.
Definition key_word (k : field_key) : str * str * str :=
  match k with
  | PrimaryKey => (lit "PK", lit "white", lit "#373737")
  | ForeignKey => (lit "FK", lit "#1170FB", lit "#202937")
  end.

(** The badge of a key: a disc of radius 11.5 that ends 12 before the right
    side of the row, and the word in the middle of it. *)
Definition badge_at (x y : Z) (k : option field_key) (l : list svg_node) : Prop :=
  match k with
  | None => l = []
  | Some k => let '(word, color, ground) := key_word k in
      exists c t, l = [c; t] /\
        shape c "circle" [("cx", x + 553); ("cy", y + 35); ("r", 23)]%string [("fill", ground)]%string /\
        label t word (x + 553) (y + 35) "middle" (badge_font color)
  end.

(** The row of a field, 300 wide and 35 high, with its top left corner at
    ([x]/2, [y]/2): a line along the top, the name 12 from the left, the type
    ending 60 before the right side, and the badge. *)
Definition row_at (x y : Z) (f : entity_field) (l : list svg_node) : Prop :=
  let '(type, color) := type_word (f_type f) in
  exists line t1 t2 b, l = line :: t1 :: t2 :: b /\
    shape line "line" [("x1", x); ("y1", y); ("x2", x + 600); ("y2", y)]%string
          [("stroke", lit "#494949"); ("stroke-width", lit "1")]%string /\
    label t1 (f_name f) (x + 24) (y + 35) "start" (row_font (lit "white")) /\
    label t2 type (x + 480) (y + 35) "end" (("font-size", lit "small")%string :: row_font color) /\
    badge_at x y (f_key f) b.

(** The rows of the fields, one below the other. *)
Definition rows_at (x y : Z) (fs : list entity_field) (ls : list (list svg_node)) : Prop :=
  length ls = length fs /\
  forall k f l, nth_error fs k = Some f -> nth_error ls k = Some l -> row_at x (y + 70 * Z.of_nat k) f l.

(** The table of an entity: the frame, the header, clipped to the frame, and
    the rows.  [clip] is the identifier of the clip path. *)
Definition table_at (x y : Z) (clip : str) (e : entity_definition) (l : list svg_node) : Prop :=
  exists frame ground title rows, l = frame :: ground :: title :: concat rows /\
    rounded frame x y 600 (70 * Z.of_nat (S (length (ent_fields e))))
            [("fill", lit "#212121"); ("stroke", lit "#494949")]%string /\
    shape ground "rect" [("x", x); ("y", y); ("width", 600); ("height", 70)]%string
          [("fill", lit "#494949"); ("clip-path", (lit "url(#" ++ clip ++ lit ")")%list)]%string /\
    label title (ent_name e) (x + 24) (y + 35) "start" header_font /\
    rows_at x (y + 70) (ent_fields e) rows.

(** The clip path of that table: the same rounded rectangle. *)
Definition clip_at (x y : Z) (clip : str) (e : entity_definition) (c : svg_node) : Prop :=
  svg_name c = lit "clipPath" /\ has_attr c "id" clip /\
  exists r, svg_children c = [r] /\ rounded r x y 600 (70 * Z.of_nat (S (length (ent_fields e)))) [].

(** The picture of the tables: in front of the edges, a background, the clip
    paths, and the tables.  [left] and [top] give the corners. *)
Definition tables_at (left top : nat -> Z) (ds : list entity_definition) (svg : svg_node) : Prop :=
  exists ground defs tables edges clips,
    svg_children svg = ground :: defs :: concat tables ++ edges /\
    shape ground "rect" [] [("width", lit "100%"); ("height", lit "100%"); ("fill", lit "#1C1C1C")]%string /\
    svg_name defs = lit "defs" /\
    length (svg_children defs) = length ds /\ length tables = length ds /\ length clips = length ds /\ NoDup clips /\
    forall i e clip c t, nth_error ds i = Some e -> nth_error clips i = Some clip ->
      nth_error (svg_children defs) i = Some c -> nth_error tables i = Some t ->
      clip_at (left i) (top i) clip e c /\ table_at (left i) (top i) clip e t.

(** The [viewBox] from the origin. *)
Definition views (svg : svg_node) (w h : Z) : Prop :=
  exists v a b c d, has_attr svg "viewBox" v /\
    v = a ++ lit ", " ++ b ++ lit ", " ++ c ++ lit ", " ++ d /\
    denotes a 0 /\ denotes b 0 /\ denotes c (IZR w) /\ denotes d (IZR h).
