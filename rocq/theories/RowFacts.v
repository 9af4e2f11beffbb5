(** The ends of relations, fields or whole tables, and the kinds of nodes of the routing graph. *)
From Coq Require Import List Arith NArith ZArith Bool Lia SpecFloat Classical_Prop.
From Verif Require Import Base F32 Geometry Mir Erd Heap Route Layout SpecMir SpecF32 SpecGeom SpecLayout SpecRoute SpecGraph
  F32Facts GeomFacts SearchFacts MirFacts GridFacts LayoutFacts RenderFacts PipelineFacts GraphFacts PathFacts LatticeFacts
  ConnectFacts HubFacts OrderFacts.
Import ListNotations.
Local Open Scope Z_scope.

(** ** Ends *)

(** An end of a relation: the row of a field, or a whole table. *)
Inductive anchor := row_end (t k : nat) | table_end (t : nat).
Definition tab (a : anchor) : nat := match a with row_end t _ => t | table_end t => t end.
(** The line of the ports at the sides. *)
Definition rowY (hs : list nat) (a : anchor) : Z :=
  match a with row_end t k => zt hs t + 70 * Z.of_nat k + 35 | table_end t => zt hs t + 35 * Z.of_nat (nth t hs 0%nat) end.
Definition anchor_sides (hs : list nat) (a : anchor) : list orientation :=
  match a with row_end t k => row_sides (nth t hs 0%nat) k | table_end _ => [Up; Right; Down; Left] end.
Definition anchor_ok (hs : list nat) (a : anchor) : Prop :=
  (tab a < length hs)%nat /\ match a with row_end t k => (1 <= k < nth t hs 0)%nat | table_end _ => True end.
(** With a port on the lower side, and on the upper side. *)
Definition low (hs : list nat) (a : anchor) : Prop :=
  match a with row_end t k => S k = nth t hs 0%nat | table_end _ => True end.
Definition high (a : anchor) : Prop := match a with row_end _ _ => False | table_end _ => True end.
Definition side_x (t : nat) (o : orientation) : Z :=
  match o with Left => zl t | Right => zl t + 600 | _ => zl t + 300 end.
Definition side_y (hs : list nat) (a : anchor) (o : orientation) : Z :=
  match o with Up => zt hs (tab a) | Down => zb hs (tab a) | _ => rowY hs a end.
Definition has_ports (hs : list nat) (a : anchor) (ps : list terminal_port) : Prop :=
  anchor_ok hs a /\
  Forall2 (fun o p => port_orientation p = o /\ hpoint (port_location p) (side_x (tab a) o) (side_y hs a o)) (anchor_sides hs a) ps.

(** A grid whose edges end in rows below the header, or in whole tables. *)
Record end_doc (d : document) (hs : list nat) : Prop := {
  ed_grid : grid_doc d hs;
  ed_end : forall e i n, In e (d_edges d) -> i = e_source e \/ i = e_target e -> get_node d i = Some n ->
      exists a, has_ports hs a (n_ports n) }.

Definition end_at (d : document) (hs : list nat) (a : anchor) : Prop :=
  exists e i n, In e (d_edges d) /\ (i = e_source e \/ i = e_target e) /\ get_node d i = Some n /\ has_ports hs a (n_ports n).

Lemma row_sides_in count k o : (1 <= k < count)%nat ->
  (In o (row_sides count k) <-> o = Right \/ o = Left \/ (o = Down /\ S k = count)).
Proof.
  intros K. unfold row_sides. destruct (Nat.eqb_spec k 0) as [Z|_]; [lia|]. cbn [app].
  destruct (Nat.eqb_spec k (count - 1)) as [E|E]; cbn; intuition (try lia; try congruence; auto).
  all: subst; auto.
Qed.
Lemma sides_in hs a o : anchor_ok hs a ->
  (In o (anchor_sides hs a) <-> o = Right \/ o = Left \/ (o = Down /\ low hs a) \/ (o = Up /\ high a)).
Proof.
  intros [_ K]. destruct a as [t k|t]; cbn [anchor_sides low high].
  - rewrite row_sides_in by exact K. tauto.
  - destruct o; cbn; intuition (try discriminate).
Qed.

Section Doc.
Variables (d : document) (hs : list nat).
Hypothesis FD : end_doc d hs.
Let GD := ed_grid d hs FD.
Let Hp := gd_pos d hs GD.

Lemma end_ok a : end_at d hs a -> anchor_ok hs a.
Proof. intros (e & i & n & _ & _ & _ & K & _). exact K. Qed.
Lemma end_range a : end_at d hs a -> (tab a < length hs)%nat.
Proof. intros E. apply (end_ok a E). Qed.
Lemma end_port_at a o : end_at d hs a -> In o (anchor_sides hs a) -> port_at d o (side_x (tab a) o) (side_y hs a o).
Proof.
  intros (e & i & n & Ie & Ei & G & K & F) I. apply In_nth_error in I as (j & I).
  destruct (forall2_nth_l _ _ _ F j o I) as (p & Hp' & O & H). exists p. split; [|auto].
  exists e, i, n. apply nth_error_In in Hp'. auto.
Qed.
Lemma port_row o X Y : port_at d o X Y -> exists a, end_at d hs a /\ In o (anchor_sides hs a) /\
  X = side_x (tab a) o /\ Y = side_y hs a o.
Proof.
  intros (p & (e & i & n & Ie & Ei & G & I) & O & H). destruct (ed_end d hs FD e i n Ie Ei G) as (a & P).
  exists a. split; [exists e, i, n; auto|]. destruct P as (K & F). destruct (forall2_in_r _ _ _ _ F I) as (o' & Io & O' & H').
  rewrite O in O'. subst o'. destruct (hpoint_unique _ _ _ _ _ H H') as [-> ->]. auto.
Qed.
Lemma row_left a : end_at d hs a -> port_at d Left (zl (tab a)) (rowY hs a).
Proof. intros E. apply (end_port_at a Left E). apply sides_in; [apply (end_ok a E)|auto]. Qed.
Lemma row_right a : end_at d hs a -> port_at d Right (zl (tab a) + 600) (rowY hs a).
Proof. intros E. apply (end_port_at a Right E). apply sides_in; [apply (end_ok a E)|auto]. Qed.
Lemma row_down a : end_at d hs a -> low hs a -> port_at d Down (zl (tab a) + 300) (zb hs (tab a)).
Proof. intros E Z. apply (end_port_at a Down E). apply sides_in; [apply (end_ok a E)|auto]. Qed.
Lemma row_up a : end_at d hs a -> high a -> port_at d Up (zl (tab a) + 300) (zt hs (tab a)).
Proof. intros E Z. apply (end_port_at a Up E). apply sides_in; [apply (end_ok a E)|auto 6]. Qed.

(** ** Residues *)

Lemma zt_ten i : exists a, zt hs i = 10 * a.
Proof.
  unfold zt, table_top. induction (i / 3)%nat as [|q (a & IH)]; [exists 10; reflexivity|].
  cbn [row_top]. exists (a + 7 * Z.of_nat (tallest hs q) + 16). lia.
Qed.
Lemma zb_rows i : zb hs i = zt hs i + 70 * Z.of_nat (nth i hs 0%nat).
Proof. unfold zb, table_height. lia. Qed.
Lemma zb_ten i : exists a, zb hs i = 10 * a.
Proof. destruct (zt_ten i) as (a & E). rewrite zb_rows, E. exists (a + 7 * Z.of_nat (nth i hs 0%nat)). lia. Qed.
Definition even (Y : Z) : Prop := exists a, Y = 10 * a.
Lemma ys_even y : ys hs y -> even y.
Proof.
  intros (i & _ & [-> | ->]); [destruct (zt_ten i) as (a & ->); exists (a - 8)|destruct (zb_ten i) as (a & ->); exists (a + 8)]; lia.
Qed.
Lemma row_five a : exists z, rowY hs a = 5 * z.
Proof.
  destruct (zt_ten (tab a)) as (z & E). destruct a as [t k|t]; cbn [tab rowY] in *; rewrite E;
    [exists (2 * z + 14 * Z.of_nat k + 7)|exists (2 * z + 7 * Z.of_nat (nth t hs 0%nat))]; lia.
Qed.
Lemma row_within a : anchor_ok hs a -> zt hs (tab a) + 35 <= rowY hs a <= zb hs (tab a) - 35.
Proof.
  intros [L K]. pose proof (table_bounds d hs GD _ L) as B. rewrite zb_rows in *. destruct a as [t k|t]; cbn [tab rowY] in *; lia.
Qed.
Lemma row_inside a : end_at d hs a -> zt hs (tab a) + 35 <= rowY hs a <= zb hs (tab a) - 35.
Proof. intros E. apply row_within, (end_ok a E). Qed.
(** The lines of ends are not lines next to tables. *)
Lemma row_off a : anchor_ok hs a -> ~ ys hs (rowY hs a).
Proof.
  intros K (i & Li & H). pose proof (row_within a K) as W. pose proof (table_bounds d hs GD i Li) as B.
  destruct (rows_apart hs (tab a) i) as [(T & _)|[T|T]]; [|lia|lia]. rewrite (zb_rows i) in *.
  destruct a as [t k|t]; cbn [tab rowY] in *; clear - W B T H; lia.
Qed.

(** ** Kinds of nodes *)

(** A line next to the top or bottom of a table of the column at [c]. *)
Definition line (c Y : Z) : Prop := exists t, (t < length hs)%nat /\ zl t = c /\ (Y = zt hs t - 80 \/ Y = zb hs t + 80).
Definition column (c : Z) : Prop := c = 100 \/ c = 860 \/ c = 1620.
(** A table of the column has a port on its lower side at or above [Y], or on its upper side at or below [Y]. *)
Definition shone (c Y : Z) : Prop := exists a, end_at d hs a /\ zl (tab a) = c /\
  ((low hs a /\ zb hs (tab a) <= Y) \/ (high a /\ Y <= zt hs (tab a))).
(** A line that is not next to a table. *)
Definition odd (Y : Z) : Prop := ~ ys hs Y.
(** An end in column [c] whose side ports are on the line [Y]. *)
Definition rel (c Y : Z) : Prop := exists a, end_at d hs a /\ zl (tab a) = c /\ Y = rowY hs a.
Definition free (c Y : Z) : Prop := forall t, (t < length hs)%nat -> zl t = c -> Y < zt hs t + 2 \/ zb hs t - 2 < Y.

Lemma zl_column t : column (zl t).
Proof. unfold column. pose proof (zl_cases t). lia. Qed.
Lemma line_column c Y : line c Y -> column c.
Proof. intros (t & _ & <- & _). apply zl_column. Qed.
Lemma line_corner c Y : line c Y -> corner hs (c - 80) Y /\ corner hs (c + 680) Y.
Proof. intros (t & L & <- & H). split; exists t; auto. Qed.
Lemma corner_line X Y : corner hs X Y -> exists c, line c Y /\ (X = c - 80 \/ X = c + 680).
Proof. intros (t & L & Hx & Hy). exists (zl t). split; [exists t; auto|auto]. Qed.
Lemma line_ys c Y : line c Y -> ys hs Y.
Proof. intros (t & L & _ & H). exists t. auto. Qed.
Lemma ys_line Y : ys hs Y -> line 100 Y \/ line 860 Y \/ line 1620 Y.
Proof.
  intros (t & L & H). destruct (zl_column t) as [E|[E|E]]; [left|right; left|right; right]; exists t; auto.
Qed.
(** Tables near a line of their column leave it free. *)
Lemma line_free c Y t : line c Y -> (t < length hs)%nat -> zl t = c -> Y <= zt hs t - 80 \/ zb hs t + 80 <= Y.
Proof.
  intros (s & Ls & Es & H) L E. pose proof (table_bounds d hs GD s Ls). pose proof (table_bounds d hs GD t L).
  destruct (col_apart hs s t) as [->|[Z|Z]]; lia.
Qed.
Lemma rel_odd c Y : rel c Y -> odd Y.
Proof. intros (a & E & _ & ->). apply row_off, (end_ok a E). Qed.
Lemma rel_not_free c Y : rel c Y -> ~ free c Y.
Proof. intros (a & E & <- & ->) F. pose proof (row_inside a E). specialize (F (tab a) (end_range a E) eq_refl). lia. Qed.

Lemma ray_left_blocked X Y x : ray hs Left X Y x Y -> forall c, column c -> c + 680 < X -> x < c + 680 -> free c Y.
Proof.
  intros (_ & _ & _ & B) c C L1 L2 t Lt E. specialize (B t Lt). pose proof (table_bounds d hs GD t Lt). lia.
Qed.
Lemma ray_right_blocked X Y x : ray hs Right X Y x Y -> forall c, column c -> X < c - 80 -> c - 80 < x -> free c Y.
Proof.
  intros (_ & _ & _ & B) c C L1 L2 t Lt E. specialize (B t Lt). pose proof (table_bounds d hs GD t Lt). lia.
Qed.

Lemma junction_kind X Y : junction d hs X Y ->
  (corridor X /\ corner hs X Y /\ ys hs Y) \/
  (corridor X /\ odd Y /\ exists c, rel c Y /\ (ray hs Left c Y X Y \/ ray hs Right (c + 600) Y X Y)) \/
  (exists c, column c /\ X = c + 300 /\ ys hs Y /\ clear hs X Y /\ shone c Y).
Proof.
  intros [[C|(o & X' & Y' & P & Ry)] Cl].
  - left. destruct (corner_xs hs X Y C) as [Cx Cy]. split; [now apply (xs_corridor hs)|]. auto.
  - destruct (port_row o X' Y' P) as (a & E & I & EX & EY). pose proof (end_ok a E) as K.
    apply sides_in in I; [|exact K]. destruct I as [-> | [-> | [[-> Lt] | [-> Lt]]]]; unfold side_x, side_y in *; cbn [side_x side_y] in *.
    + right. left. pose proof Ry as (-> & Xx & _). subst X' Y'. split; [now apply (xs_corridor hs)|]. split; [now apply row_off|].
      exists (zl (tab a)). split; [exists a; auto|right; exact Ry].
    + right. left. pose proof Ry as (-> & Xx & _). subst X' Y'. split; [now apply (xs_corridor hs)|]. split; [now apply row_off|].
      exists (zl (tab a)). split; [exists a; auto|left; exact Ry].
    + right. right. destruct Ry as (-> & Yy & Le). subst X' Y'. exists (zl (tab a)). split; [apply zl_column|]. split; [reflexivity|].
      split; [exact Yy|]. split; [exact Cl|]. exists a. auto.
    + right. right. destruct Ry as (-> & Yy & Le). subst X' Y'. exists (zl (tab a)). split; [apply zl_column|]. split; [reflexivity|].
      split; [exact Yy|]. split; [exact Cl|]. exists a. auto.
Qed.

Section Graph.
Variable g : route_graph.
Hypothesis R : routes d hs g.
Let ns := rg_nodes g.
Let es := rg_edges g.

Lemma spot_kind a X Y o : spot ns a X Y o ->
  (o = None /\ corridor X /\ corner hs X Y /\ ys hs Y) \/
  (o = None /\ corridor X /\ odd Y /\ exists c, rel c Y /\ (ray hs Left c Y X Y \/ ray hs Right (c + 600) Y X Y)) \/
  (o = None /\ exists c, column c /\ X = c + 300 /\ ys hs Y /\ clear hs X Y /\ shone c Y) \/
  (odd Y /\ rel X Y /\ o = Some Left) \/ (odd Y /\ rel (X - 600) Y /\ o = Some Right) \/
  (exists e, end_at d hs e /\ X = zl (tab e) + 300 /\ ((low hs e /\ Y = zb hs (tab e) /\ o = Some Down) \/ (high e /\ Y = zt hs (tab e) /\ o = Some Up))).
Proof.
  intros A. destruct (spot_ok d hs GD g R _ _ _ _ A) as (_ & _ & J). destruct o as [o|].
  - destruct (port_row o X Y J) as (e & E & I & EX & EY). pose proof (end_ok e E) as K.
    apply sides_in in I; [|exact K]. destruct I as [-> | [-> | [[-> Lt] | [-> Lt]]]]; unfold side_x, side_y in *; cbn [side_x side_y] in *; subst X Y.
    + do 4 right. left. split; [now apply row_off|]. split; [|reflexivity]. exists e. split; [exact E|]. split; [lia|reflexivity].
    + do 3 right. left. split; [now apply row_off|]. split; [|reflexivity]. exists e. auto.
    + do 5 right. exists e. split; [exact E|]. split; [reflexivity|]. auto.
    + do 5 right. exists e. split; [exact E|]. split; [reflexivity|]. auto.
  - apply junction_kind in J as [J|[J|J]]; auto.
Qed.

Lemma rel_left c Y : rel c Y -> exists a, spot ns a c Y (Some Left).
Proof.
  intros (e & E & <- & ->). destruct (row_left e E) as (p & Ep & O & H).
  destruct (rt_port d hs g R p _ _ Ep H) as (i & _ & S). rewrite O in S. eauto.
Qed.
Lemma rel_right c Y : rel c Y -> exists a, spot ns a (c + 600) Y (Some Right).
Proof.
  intros (e & E & <- & ->). destruct (row_right e E) as (p & Ep & O & H).
  destruct (rt_port d hs g R p _ _ Ep H) as (i & _ & S). rewrite O in S. eauto.
Qed.
Lemma rel_column c Y : rel c Y -> column c.
Proof. intros (e & _ & <- & _). apply zl_column. Qed.
(** The corridor nodes next to a row. *)
Lemma rel_next_left c Y : rel c Y -> exists a, spot ns a (c - 80) Y None.
Proof.
  intros (e & E & <- & ->). apply (rt_junction d hs g R). pose proof (end_range e E) as L. set (t := tab e) in *. split.
  - right. exists Left, (zl t), (rowY hs e). split; [now apply row_left|]. split; [reflexivity|]. split; [exists t; auto|]. split; [lia|].
    intros s Ls H _. pose proof (zl_cases s). pose proof (zl_cases t). lia.
  - apply corridor_clear. unfold corridor. pose proof (zl_cases t). lia.
Qed.
Lemma rel_next_right c Y : rel c Y -> exists a, spot ns a (c + 680) Y None.
Proof.
  intros (e & E & <- & ->). apply (rt_junction d hs g R). pose proof (end_range e E) as L. set (t := tab e) in *. split.
  - right. exists Right, (zl t + 600), (rowY hs e). split; [now apply row_right|]. split; [reflexivity|]. split; [exists t; auto|]. split; [lia|].
    intros s Ls H _. pose proof (zl_cases s). pose proof (zl_cases t). lia.
  - apply corridor_clear. unfold corridor. pose proof (zl_cases t). lia.
Qed.
Lemma corner_spot X Y : corner hs X Y -> exists a, spot ns a X Y None.
Proof.
  intros C. apply (rt_junction d hs g R). split; [now left|]. apply corridor_clear. apply (xs_corridor hs). now apply (corner_xs hs X Y).
Qed.
Lemma mid_spot c Y : column c -> ys hs Y -> clear hs (c + 300) Y -> shone c Y -> exists a, spot ns a (c + 300) Y None.
Proof.
  intros C Yy Cl (e & E & Es & [[Lt Le]|[Lt Le]]); apply (rt_junction d hs g R); (split; [|exact Cl]); right; rewrite <- Es.
  - exists Down, (zl (tab e) + 300), (zb hs (tab e)). split; [now apply row_down|]. split; [reflexivity|]. auto.
  - exists Up, (zl (tab e) + 300), (zt hs (tab e)). split; [now apply row_up|]. split; [reflexivity|]. auto.
Qed.

(** Horizontal segments miss the tables of free columns. *)
Lemma misses_free X1 X2 Y : X1 <= X2 -> (forall c, column c -> X2 < c + 2 \/ c + 598 < X1 \/ free c Y) -> misses hs X1 Y X2 Y.
Proof.
  intros L H t Lt. destruct (H (zl t) (zl_column t)) as [Z|[Z|Z]]; [lia|lia|]. specialize (Z t Lt eq_refl). lia.
Qed.
Lemma misses_free_inv X1 X2 Y c : misses hs X1 Y X2 Y -> X1 < c + 2 -> c + 598 < X2 -> free c Y.
Proof. intros M L1 L2 t Lt E. specialize (M t Lt). lia. Qed.

(** The corridor nodes of odd lines. *)
Lemma odd_20 a Y : odd Y -> spot ns a 20 Y None -> rel 100 Y \/ (rel 860 Y /\ free 100 Y) \/ (rel 1620 Y /\ free 100 Y /\ free 860 Y).
Proof.
  intros O A. destruct (spot_kind a 20 Y None A) as [(_ & _ & _ & E)|[(_ & _ & _ & c & Rl & Ry)|[(_ & c & _ & _ & E & _)|[(_ & _ & E)|[(_ & _ & E)|(? & _ & _ & [(_ & _ & E)|(_ & _ & E)])]]]]];
    try discriminate; try (exfalso; exact (O E)).
  pose proof (rel_column c Y Rl) as C. destruct Ry as [Ry|Ry].
  - destruct C as [-> | [-> | ->]]; auto; right; [left|right]; split; auto; [|split];
      apply (ray_left_blocked _ _ _ Ry); unfold column; lia.
  - destruct Ry as (_ & _ & Le & _). unfold column in C. lia.
Qed.
Lemma odd_780 a Y : odd Y -> spot ns a 780 Y None -> rel 100 Y \/ rel 860 Y \/ (rel 1620 Y /\ free 860 Y).
Proof.
  intros O A. destruct (spot_kind a 780 Y None A) as [(_ & _ & _ & E)|[(_ & _ & _ & c & Rl & Ry)|[(_ & c & _ & _ & E & _)|[(_ & _ & E)|[(_ & _ & E)|(? & _ & _ & [(_ & _ & E)|(_ & _ & E)])]]]]];
    try discriminate; try (exfalso; exact (O E)).
  pose proof (rel_column c Y Rl) as C. destruct Ry as [Ry|Ry].
  - destruct C as [-> | [-> | ->]]; auto. right. right. split; [auto|]. apply (ray_left_blocked _ _ _ Ry); unfold column; lia.
  - pose proof Ry as (_ & _ & Le & _). destruct C as [-> | [-> | ->]]; auto; lia.
Qed.
Lemma odd_1540 a Y : odd Y -> spot ns a 1540 Y None -> rel 1620 Y \/ rel 860 Y \/ (rel 100 Y /\ free 860 Y).
Proof.
  intros O A. destruct (spot_kind a 1540 Y None A) as [(_ & _ & _ & E)|[(_ & _ & _ & c & Rl & Ry)|[(_ & c & _ & _ & E & _)|[(_ & _ & E)|[(_ & _ & E)|(? & _ & _ & [(_ & _ & E)|(_ & _ & E)])]]]]];
    try discriminate; try (exfalso; exact (O E)).
  pose proof (rel_column c Y Rl) as C. destruct Ry as [Ry|Ry].
  - pose proof Ry as (_ & _ & Le & _). destruct C as [-> | [-> | ->]]; auto; lia.
  - destruct C as [-> | [-> | ->]]; auto. right. right. split; [auto|]. apply (ray_right_blocked _ _ _ Ry); unfold column; lia.
Qed.
Lemma odd_2300 a Y : odd Y -> spot ns a 2300 Y None -> rel 1620 Y \/ (rel 860 Y /\ free 1620 Y) \/ (rel 100 Y /\ free 860 Y /\ free 1620 Y).
Proof.
  intros O A. destruct (spot_kind a 2300 Y None A) as [(_ & _ & _ & E)|[(_ & _ & _ & c & Rl & Ry)|[(_ & c & _ & _ & E & _)|[(_ & _ & E)|[(_ & _ & E)|(? & _ & _ & [(_ & _ & E)|(_ & _ & E)])]]]]];
    try discriminate; try (exfalso; exact (O E)).
  pose proof (rel_column c Y Rl) as C. destruct Ry as [Ry|Ry].
  - destruct Ry as (_ & _ & Le & _). unfold column in C. lia.
  - destruct C as [-> | [-> | ->]]; auto; right; [right|left]; split; auto; [split|];
      apply (ray_right_blocked _ _ _ Ry); unfold column; lia.
Qed.

(** ** Side ports have one neighbour *)

Lemma left_port_next a b X Y X' Y' o : spot ns a X Y (Some Left) -> spot ns b X' Y' o -> joined es a b -> X' = X - 80 /\ Y' = Y /\ o = None.
Proof.
  intros A B J. destruct (edge_straight d hs g R a b _ _ _ _ _ _ J A B) as [[<- Ne]|[(_ & _ & F & _)|(_ & _ & F & _)]];
    try (destruct F as [F|F]; discriminate).
  assert (L : X' < X).
  { destruct (Z.lt_total X' X) as [L|[E|L]]; [exact L|lia|].
    destruct (edge_h d hs GD g R a b X X' Y _ _ J A B L) as (F & _). destruct F as [F|F]; discriminate. }
  assert (Rl : rel X Y).
  { destruct (spot_kind a X Y _ A) as [(E & _)|[(E & _)|[(E & _)|[(_ & Rl & _)|[(_ & _ & E)|(? & _ & _ & [(_ & _ & E)|(_ & _ & E)])]]]]]; try discriminate. exact Rl. }
  destruct (rel_next_left X Y Rl) as (c & C). pose proof (rel_column X Y Rl) as Cx.
  assert (J' : joined es b a) by (destruct J; [right|left]; assumption).
  destruct (edge_h d hs GD g R b a X' X Y _ _ J' B A L) as (Fo & _ & Pk).
  assert (M : misses hs (X - 80) Y X Y).
  { intros t Lt. pose proof (zl_cases t). unfold column in Cx. lia. }
  assert (L' : X - 80 <= X').
  { destruct Pk as [[P1 P2]|[P1 _]].
    - destruct (Z_le_gt_dec (X - 80) X') as [Z|Z]; [exact Z|]. exfalso.
      destruct P2 as [P2|P2].
      + assert (X <= X - 80); [|lia]. apply (P1 c _ None C); [lia|now left|]. intros t Lt. specialize (P2 t Lt). lia.
      + specialize (P2 c _ None C ltac:(lia) (or_introl eq_refl)). pose proof (junction_first d hs g R c a _ _ _ _ _ C A). lia.
    - apply (P1 c _ None C); [lia|now left|exact M]. }
  assert (X' = X - 80) as ->.
  { destruct Rl as (e & _ & E & _). set (t := tab e) in *. destruct (Z.eq_dec X' (X - 80)) as [Z|Z]; [exact Z|].
    destruct (spot_in_column d hs GD g R b X' Y o t B ltac:(lia)); lia. }
  split; [reflexivity|]. split; [reflexivity|]. now destruct (spot_index d hs g R b c _ _ _ _ B C) as [_ ->].
Qed.
Lemma right_port_next a b X Y X' Y' o : spot ns a X Y (Some Right) -> spot ns b X' Y' o -> joined es a b -> X' = X + 80 /\ Y' = Y /\ o = None.
Proof.
  intros A B J. destruct (edge_straight d hs g R a b _ _ _ _ _ _ J A B) as [[<- Ne]|[(_ & _ & F & _)|(_ & _ & F & _)]];
    try (destruct F as [F|F]; discriminate).
  assert (J' : joined es b a) by (destruct J; [right|left]; assumption).
  assert (L : X < X').
  { destruct (Z.lt_total X' X) as [L|[E|L]]; [|lia|exact L].
    destruct (edge_h d hs GD g R b a X' X Y _ _ J' B A L) as (_ & F & _). destruct F as [F|F]; discriminate. }
  assert (Rl : rel (X - 600) Y).
  { destruct (spot_kind a X Y _ A) as [(E & _)|[(E & _)|[(E & _)|[(_ & _ & E)|[(_ & Rl & _)|(? & _ & _ & [(_ & _ & E)|(_ & _ & E)])]]]]]; try discriminate. exact Rl. }
  destruct (rel_next_right _ Y Rl) as (c & C). pose proof (rel_column _ Y Rl) as Cx. replace (X - 600 + 680) with (X + 80) in C by lia.
  destruct (edge_h d hs GD g R a b X X' Y _ _ J A B L) as (_ & Fo & Pk).
  assert (M : misses hs X Y (X + 80) Y).
  { intros t Lt. pose proof (zl_cases t). unfold column in Cx. lia. }
  assert (L' : X' <= X + 80).
  { destruct Pk as [[P1 _]|[P1 P2]].
    - apply (P1 c _ None C); [lia|now left|exact M].
    - destruct (Z_le_gt_dec X' (X + 80)) as [Z|Z]; [exact Z|]. exfalso.
      destruct P2 as [P2|P2].
      + assert (X + 80 <= X); [|lia]. apply (P1 c _ None C); [lia|now left|]. intros t Lt. specialize (P2 t Lt). lia.
      + specialize (P2 c _ None C ltac:(lia) (or_introl eq_refl)). pose proof (junction_first d hs g R c a _ _ _ _ _ C A). lia. }
  assert (X' = X + 80) as ->.
  { destruct Rl as (e & _ & E & _). set (t := tab e) in *. destruct (Z.eq_dec X' (X + 80)) as [Z|Z]; [exact Z|].
    destruct (spot_in_column d hs GD g R b X' Y o t B ltac:(lia)); lia. }
  split; [reflexivity|]. split; [reflexivity|]. now destruct (spot_index d hs g R b c _ _ _ _ B C) as [_ ->].
Qed.
End Graph.
End Doc.
