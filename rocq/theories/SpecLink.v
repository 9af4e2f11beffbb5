(** What the relations of a module refer to, and the picture of a connection.
    Coordinates are given in halves, as integers. *)
From Coq Require Import String List Arith NArith ZArith Reals.
From Verif Require Import Base Geometry Erd Svg SpecMir SpecLayout SpecDecimal SpecRender SpecPicture.
Import ListNotations.
Local Open Scope Z_scope.

(** ** What a path refers to *)

(** Table number [i], or row [k] of it; row 0 is the header. *)
Inductive place := Table (i : nat) | Row (i k : nat).

(** Number [i] is the last definition with the property. *)
Definition latest (ds : list entity_definition) (P : entity_definition -> Prop) (i : nat) (e : entity_definition) : Prop :=
  nth_error ds i = Some e /\ P e /\ forall j e', (i < j)%nat -> nth_error ds j = Some e' -> ~ P e'.

(** What the path refers to after the definitions [ds]. *)
Inductive refers (ds : list entity_definition) : entity_path -> place -> Prop :=
| refers_table name i e : latest ds (fun e => ent_name e = name) i e -> refers ds (PEntity name) (Table i)
| refers_row name field i e k :
    latest ds (fun e => ent_name e = name /\ In field (map f_name (ent_fields e))) i e -> last_field e field k ->
    refers ds (PField name field) (Row i (S k)).

(** The relations of [es] whose ends refer to something, in order; [ds] are the
    definitions before [es]. *)
Inductive links : list entity_definition -> list module_entry -> list (place * place) -> Prop :=
| links_end ds : links ds [] []
| links_def ds e es l : links (ds ++ [e]) es l -> links ds (EDef e :: es) l
| links_rel ds r es l p q :
    refers ds (rel_start r) p -> refers ds (rel_end r) q -> links ds es l -> links ds (ERel r :: es) ((p, q) :: l)
| links_drop ds r es l :
    (forall p, ~ refers ds (rel_start r) p) \/ (forall p, ~ refers ds (rel_end r) p) ->
    links ds es l -> links ds (ERel r :: es) l.

(** ** Where connections end *)

(** The middle of a side of the place. For rows these are the left and right
    side, and the bottom of the last row. *)
Definition side_of (hs : list nat) (p : place) (z : Z * Z) : Prop :=
  match p with
  | Table i => exists o, z = side_midpoint (table_left i) (table_top hs i) 300 (table_height hs i) o
  | Row i k => exists o, In o (row_sides (nth i hs 0%nat) k) /\
                 z = side_midpoint (table_left i) (table_top hs i + 35 * Z.of_nat k) 300 35 o
  end.

(** ** Path data *)

Inductive command :=
| MoveTo (p : Z * Z)
| LineTo (p : Z * Z)
| CurveTo (c p : Z * Z).

Definition pair_text (p : Z * Z) (s : str) : Prop :=
  exists a b, s = a ++ lit " " ++ b /\ denotes a (IZR (fst p) / 2) /\ denotes b (IZR (snd p) / 2).
Definition spells (c : command) (s : str) : Prop :=
  match c with
  | MoveTo p => exists t, s = lit "M" ++ t /\ pair_text p t
  | LineTo p => exists t, s = lit "L" ++ t /\ pair_text p t
  | CurveTo c p => exists t u, s = lit "Q" ++ t ++ lit " " ++ u /\ pair_text c t /\ pair_text p u
  end.

(** The direction from one point to the next, and the point 6 further in a direction. *)
Definition direction (p q : Z * Z) : Z * Z := (Z.sgn (fst q - fst p), Z.sgn (snd q - snd p)).
Definition ahead (p v : Z * Z) : Z * Z := (fst p + 12 * fst v, snd p + 12 * snd v).
Definition behind (p v : Z * Z) : Z * Z := (fst p - 12 * fst v, snd p - 12 * snd v).

(** Straight lines through the points; where the direction changes, the corner
    is cut off by 6 on both sides and rounded. *)
Fixpoint trace_rest (a : Z * Z) (zs : list (Z * Z)) : list command :=
  match zs with
  | [] => []
  | b :: zs' =>
      match zs' with
      | [] => [LineTo b]
      | c :: _ =>
          (if ((fst (direction a b) =? fst (direction b c)) && (snd (direction a b) =? snd (direction b c)))%bool
           then [LineTo b]
           else [LineTo (behind b (direction a b)); CurveTo b (ahead b (direction b c))]) ++ trace_rest b zs'
      end
  end.
Definition trace (zs : list (Z * Z)) : list command :=
  match zs with [] => [] | a :: zs' => MoveTo a :: trace_rest a zs' end.

(** Every step is horizontal or vertical, and none goes back where the last came from. *)
Definition step (p q : Z * Z) : Prop := p <> q /\ (fst p = fst q \/ snd p = snd q).
Definition orderly (zs : list (Z * Z)) : Prop :=
  (forall l1 p q l2, zs = l1 ++ p :: q :: l2 -> step p q) /\
  (forall l1 p q r l2, zs = l1 ++ p :: q :: r :: l2 -> direction q r <> direction q p).

(** ** The picture of a connection *)

(** A path with rounded corners through the points, from a side of the first
    place to a side of the second, with a circle at each end. *)
Definition connection_along (hs : list nat) (zs : list (Z * Z)) (pq : place * place) (l : list svg_node) : Prop :=
  exists a b path c1 c2 d cs,
    l = [path; c1; c2] /\
    nth_error zs 0 = Some a /\ nth_error zs (length zs - 1) = Some b /\ (2 <= length zs)%nat /\
    side_of hs (fst pq) a /\ side_of hs (snd pq) b /\ orderly zs /\
    shape path "path" [] [("d", d); ("stroke", lit "#888888"); ("stroke-width", lit "1.5"); ("fill", lit "transparent")]%string /\
    d = join (lit " ") cs /\ Forall2 spells (trace zs) cs /\
    (forall c z, In (c, z) [(c1, a); (c2, b)] ->
       shape c "circle" [("cx", fst z); ("cy", snd z); ("r", 8); ("stroke-width", 3)]%string
         [("stroke", lit "#888888"); ("fill", lit "#1C1C1C")]%string).
Definition connection (hs : list nat) (pq : place * place) (l : list svg_node) : Prop :=
  exists zs, connection_along hs zs pq l.

(** The picture shows exactly these connections, after everything else. *)
Definition connected_by (conn : place * place -> list svg_node -> Prop) (ls : list (place * place)) (svg : svg_node) : Prop :=
  exists front parts, svg_children svg = front ++ concat parts /\
    flat_map (elements "path") front = [] /\ Forall2 conn ls parts.
Definition connected (hs : list nat) : list (place * place) -> svg_node -> Prop := connected_by (connection hs).
