(** The intended layout of a module, over integers. *)
From Coq Require Import List Arith ZArith Lia.
From Verif Require Import Base F32 Geometry Mir Erd SpecMir SpecF32.
Import ListNotations.
Local Open Scope Z_scope.

(** The number of rows of each table: a header and one row for each field. *)
Definition table_rows (m : module) : list nat :=
  map (fun e => S (length (ent_fields e))) (definitions (m_entries m)).

(** Three tables side by side; the number of rows of the tallest one. *)
Definition tallest (hs : list nat) (r : nat) : nat :=
  Nat.max (nth (3 * r) hs 0%nat) (Nat.max (nth (3 * r + 1) hs 0%nat) (nth (3 * r + 2) hs 0%nat)).

(** The top of the grid row [r]. *)
Fixpoint row_top (hs : list nat) (r : nat) : Z :=
  match r with
  | O => 50
  | S q => row_top hs q + 35 * Z.of_nat (tallest hs q) + 80
  end.

Definition table_left (i : nat) : Z := 50 + 380 * Z.of_nat (i mod 3).
Definition table_top (hs : list nat) (i : nat) : Z := row_top hs (i / 3).
Definition table_height (hs : list nat) (i : nat) : Z := 35 * Z.of_nat (nth i hs 0%nat).

(** The height of the diagram: the bottom of the last grid row and a margin. *)
Definition total_height (hs : list nat) : Z :=
  let r := ((length hs - 1) / 3)%nat in row_top hs r + 35 * Z.of_nat (tallest hs r) + 50.

(** Up to this height all coordinates are binary32 numbers. *)
Definition fits (hs : list nat) : Prop := total_height hs <= 2 ^ 23.

(** A rectangle with exactly these integers. *)
Definition exact_rect (r : rect) (x y w h : Z) : Prop := hrect r (2 * x) (2 * y) (2 * w) (2 * h).

(** A node with that rectangle. *)
Definition node_at (d : document) (id : node_id) (x y w h : Z) : Prop :=
  exists n r, get_node d id = Some n /\ node_rect n = Some r /\ exact_rect r x y w h.

(** [row_id d i k id]: [id] is row [k] of table [i], row 0 being the header. *)
Definition table_id (d : document) (i : nat) (id : node_id) : Prop :=
  nth_error (body_children d) i = Some id.
Definition row_id (d : document) (i k : nat) (id : node_id) : Prop :=
  exists t n, table_id d i t /\ get_node d t = Some n /\ nth_error (n_children n) k = Some id.

(** Everything but position and size of the nodes is kept. *)
Definition same_but_geometry (d d' : document) : Prop :=
  d_edges d' = d_edges d /\
  Forall2 (fun n n' => n_kind n' = n_kind n /\ n_children n' = n_children n /\ n_ports n' = n_ports n)
          (d_nodes d) (d_nodes d').

(** Everything but the ports of the nodes is kept. *)
Definition same_but_ports (d d' : document) : Prop :=
  d_edges d' = d_edges d /\
  Forall2 (fun n n' => n_kind n' = n_kind n /\ n_children n' = n_children n /\
                       n_origin n' = n_origin n /\ n_size n' = n_size n)
          (d_nodes d) (d_nodes d').

(** One rectangle lies entirely before the other, in x or in y. *)
Definition left_or_above (r s : rect) : Prop :=
  fle (max_x r) (min_x s) = true \/ fle (max_y r) (min_y s) = true.
Definition apart (r s : rect) : Prop := left_or_above r s \/ left_or_above s r.

(** All coordinates of a rectangle are finite numbers. *)
Definition finite_rect (r : rect) : Prop :=
  forall f, In f [min_x; min_y; max_x; max_y] -> exists v, fin (f r) v.

(** The ports of a node: on the sides named, in order. Values in halves. *)
Definition side_midpoint (x y w h : Z) (o : orientation) : Z * Z :=
  match o with
  | Up => (2 * x + w, 2 * y)
  | Down => (2 * x + w, 2 * y + 2 * h)
  | Left => (2 * x, 2 * y + h)
  | Right => (2 * x + 2 * w, 2 * y + h)
  end.
Definition is_port (id : node_id) (x y w h : Z) (o : orientation) (p : terminal_port) : Prop :=
  fst (port_ident p) = id /\ port_orientation p = o /\
  hpoint (port_location p) (fst (side_midpoint x y w h o)) (snd (side_midpoint x y w h o)).

(** The sides of a row that carry a port: row [k] of a table with [count] rows. *)
Definition row_sides (count k : nat) : list orientation :=
  (if Nat.eqb k 0 then [Up] else []) ++ [Right] ++
  (if Nat.eqb k (count - 1) then [Down] else []) ++ [Left].

(** Rectangles stacked from the top to the bottom of [r] without gaps. *)
Definition tiles (r : rect) (rs : list rect) : Prop :=
  rs <> [] /\
  (forall s, In s rs -> min_x s = min_x r /\ max_x s = max_x r) /\
  (forall s, nth_error rs 0 = Some s -> feq (min_y s) (min_y r) = true) /\
  (forall k s t, nth_error rs k = Some s -> nth_error rs (S k) = Some t -> feq (max_y s) (min_y t) = true) /\
  (forall s, nth_error rs (length rs - 1) = Some s -> feq (max_y s) (max_y r) = true).

Definition has_rect (d : document) (id : node_id) (r : rect) : Prop :=
  exists n, get_node d id = Some n /\ node_rect n = Some r.

(** The number of rows of a table can be counted by a [usize]. *)
Definition countable (m : module) : Prop :=
  Forall (fun n => Z.of_nat n < 2 ^ 64) (table_rows m).

(** What a port is apart from its identifier. *)
Definition port_side (p : terminal_port) : point * orientation := (port_location p, port_orientation p).
