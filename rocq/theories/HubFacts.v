(** Every port of an edge reaches a common line above the tables. *)
From Coq Require Import List Arith NArith ZArith Bool Lia SpecFloat Classical_Prop.
From Verif Require Import Base F32 Geometry Mir Erd Heap Route Layout SpecMir SpecF32 SpecGeom SpecLayout SpecRoute SpecGraph
  F32Facts GeomFacts SearchFacts MirFacts GridFacts LayoutFacts RenderFacts PipelineFacts GraphFacts PathFacts LatticeFacts ConnectFacts.
Import ListNotations.
Local Open Scope Z_scope.

Lemma walk_app es a b c l l' : walk es a b l -> walk es b c l' -> exists k, walk es a c k /\
  forall cost, walk_cost cost k = (walk_cost cost l + walk_cost cost l')%N.
Proof.
  intros W V. induction W as [a|a x b l J W IH].
  - exists l'. split; [exact V|]. intros cost. reflexivity.
  - destruct (IH V) as (k & K & C). exists (a :: k). split; [econstructor; eauto|]. intros cost. specialize (C cost).
    destruct (walk_nonempty _ _ _ _ W) as (r & ->). destruct (walk_nonempty _ _ _ _ K) as (r' & ->).
    cbn [walk_cost] in *. lia.
Qed.

Section Doc.
Variables (d : document) (hs : list nat).
Hypothesis GD : grid_doc d hs.
Variable g : route_graph.
Hypothesis R : routes d hs g.
Let ns := rg_nodes g.
Let es := rg_edges g.
Let cost := rg_cost ns.

(** Walks both ways of cost at most [c]. *)
Definition conn (a b : nat) (c : Z) : Prop :=
  (exists l, walk es a b l /\ Z.of_N (walk_cost cost l) <= c) /\
  (exists l, walk es b a l /\ Z.of_N (walk_cost cost l) <= c).

Lemma conn_refl a : conn a a 0.
Proof. split; exists [a]; (split; [constructor|cbn; lia]). Qed.
Lemma conn_sym a b c : conn a b c -> conn b a c.
Proof. intros [A B]. now split. Qed.
Lemma conn_trans a b c x y : conn a b x -> conn b c y -> conn a c (x + y).
Proof.
  intros [(l1 & W1 & C1) (l2 & W2 & C2)] [(l3 & W3 & C3) (l4 & W4 & C4)]. split.
  - destruct (walk_app _ _ _ _ _ _ W1 W3) as (k & K & C). exists k. split; [exact K|]. rewrite C. lia.
  - destruct (walk_app _ _ _ _ _ _ W4 W2) as (k & K & C). exists k. split; [exact K|]. rewrite C. lia.
Qed.
Lemma conn_le a b x y : conn a b x -> x <= y -> conn a b y.
Proof. intros [(l1 & W1 & C1) (l2 & W2 & C2)] L. split; [exists l1|exists l2]; split; auto; lia. Qed.

Lemma conn_edge a b X1 Y1 X2 Y2 o u : spot ns a X1 Y1 o -> spot ns b X2 Y2 u -> X1 = X2 \/ Y1 = Y2 ->
  joined es a b -> conn a b ((Z.abs (X1 - X2) + Z.abs (Y1 - Y2)) / 2).
Proof.
  intros A B C J. pose proof (spot_cost d hs GD g R a b _ _ _ _ _ _ A B C) as E1.
  pose proof (spot_cost d hs GD g R b a _ _ _ _ _ _ B A ltac:(lia)) as E2.
  split; [exists [a; b]|exists [b; a]]; (split; [econstructor; [|constructor]|cbn [walk_cost]]).
  - exact J.
  - fold ns cost in E1. rewrite E1, N.add_0_r, Z2N.id; [lia|]. apply Z.div_pos; lia.
  - destruct J; [right|left]; assumption.
  - fold ns cost in E2. rewrite E2, N.add_0_r, Z2N.id; [|apply Z.div_pos; lia].
    apply Z.div_le_mono; lia.
Qed.

Lemma half_add x y z : x + y = z -> x / 2 + y / 2 <= z / 2.
Proof. intros <-. pose proof (Z.div_mod x 2). pose proof (Z.mod_pos_bound x 2). pose proof (Z.div_mod y 2).
  pose proof (Z.mod_pos_bound y 2). pose proof (Z.div_mod (x + y) 2). pose proof (Z.mod_pos_bound (x + y) 2). lia.
Qed.

Lemma vline k : forall a b X Y1 Y2 o u, Y2 - Y1 <= Z.of_nat k -> spot ns a X Y1 o -> spot ns b X Y2 u -> Y1 < Y2 ->
  (o = None \/ o = Some Down) -> (u = None \/ u = Some Up) -> misses hs X Y1 X Y2 ->
  (forall c Y w, spot ns c X Y w -> Y1 < Y < Y2 -> w = None) -> conn a b ((Y2 - Y1) / 2).
Proof.
  induction k as [|k IH]; intros a b X Y1 Y2 o u B A E L Co Cu M N; [lia|].
  destruct (classic (exists c Y w, spot ns c X Y w /\ Y1 < Y < Y2)) as [(c & Y & w & Sc & Bc)|No].
  - rewrite (N c Y w Sc Bc) in Sc. eapply conn_le; [eapply conn_trans|apply half_add with (x := Y - Y1) (y := Y2 - Y); lia].
    + eapply (IH a c X Y1 Y); eauto; try lia.
      * intros t Lt. specialize (M t Lt). lia.
      * intros c' Y' w' S' B'. eapply N; eauto; lia.
    + eapply (IH c b X Y Y2); eauto; try lia.
      * intros t Lt. specialize (M t Lt). lia.
      * intros c' Y' w' S' B'. eapply N; eauto; lia.
  - eapply conn_le; [eapply conn_edge; eauto|].
    + eapply (step_down d hs GD g R a b X Y1 Y2 o u); eauto. intros c Y w Sc Bc. apply No. eauto 6.
    + apply Z.div_le_mono; lia.
Qed.

Lemma hline k : forall a b X1 X2 Y o u, X2 - X1 <= Z.of_nat k -> spot ns a X1 Y o -> spot ns b X2 Y u -> X1 < X2 ->
  (o = None \/ o = Some Right) -> (u = None \/ u = Some Left) -> misses hs X1 Y X2 Y ->
  (forall c X w, spot ns c X Y w -> X1 < X < X2 -> w = None) -> conn a b ((X2 - X1) / 2).
Proof.
  induction k as [|k IH]; intros a b X1 X2 Y o u B A E L Co Cu M N; [lia|].
  destruct (classic (exists c X w, spot ns c X Y w /\ X1 < X < X2)) as [(c & X & w & Sc & Bc)|No].
  - rewrite (N c X w Sc Bc) in Sc. eapply conn_le; [eapply conn_trans|apply half_add with (x := X - X1) (y := X2 - X); lia].
    + eapply (IH a c X1 X Y); eauto; try lia.
      * intros t Lt. specialize (M t Lt). lia.
      * intros c' Y' w' S' B'. eapply N; eauto; lia.
    + eapply (IH c b X X2 Y); eauto; try lia.
      * intros t Lt. specialize (M t Lt). lia.
      * intros c' Y' w' S' B'. eapply N; eauto; lia.
  - eapply conn_le; [eapply conn_edge; eauto|].
    + eapply (step_right d hs GD g R a b X1 X2 Y o u); eauto. intros c X w Sc Bc. apply No. eauto 6.
    + apply Z.div_le_mono; lia.
Qed.

(** ** The corridors between the columns *)

Definition corridor (X : Z) : Prop := X = 20 \/ X = 780 \/ X = 1540 \/ X = 2300.

Lemma corridor_clear X Y : corridor X -> clear hs X Y.
Proof. intros C i L. pose proof (zl_cases i). unfold corridor in C. lia. Qed.
Lemma corridor_misses X Y1 Y2 : corridor X -> misses hs X Y1 X Y2.
Proof. intros C t L. pose proof (zl_cases t). unfold corridor in C. lia. Qed.
Lemma spot_port a X Y o : spot ns a X Y (Some o) -> exists i, (i < length hs)%nat /\ port_on hs i o X Y.
Proof. intros A. destruct (spot_ok d hs GD g R _ _ _ _ A) as (_ & _ & P). now apply (port_at_on d hs GD). Qed.
Lemma corridor_none a X Y w : corridor X -> spot ns a X Y w -> w = None.
Proof.
  intros C A. destruct w as [o|]; [|reflexivity]. exfalso. destruct (spot_port _ _ _ _ A) as (i & L & On).
  pose proof (zl_cases i). unfold corridor in C. destruct o; unfold port_on in On; lia.
Qed.
Lemma xs_corridor x : xs hs x -> corridor x.
Proof. apply xs_cases. Qed.

Lemma top_spot x : xs hs x -> exists c, spot ns c x 20 None.
Proof.
  intros X. apply (rt_junction d hs g R). split; [left|now apply corridor_clear, xs_corridor].
  destruct X as (i & L & E). destruct (first_row hs i L) as (Lf & Tf). exists (i mod 3)%nat. rewrite zl_mod.
  split; [exact Lf|]. split; [exact E|]. left. lia.
Qed.

Lemma corridor_up a c X Y : xs hs X -> spot ns a X Y None -> spot ns c X 20 None -> conn c a ((Y - 20) / 2).
Proof.
  intros Cx A C. destruct (spot_ok d hs GD g R _ _ _ _ A) as (_ & _ & J). pose proof (junction_bounds d hs GD _ _ J) as B.
  destruct (Z.eq_dec Y 20) as [->|Ne].
  - destruct (spot_index d hs g R a c X 20 None None A C) as [-> _]. apply (conn_le _ _ _ _ (conn_refl c)). reflexivity.
  - eapply (vline (Z.to_nat (Y - 20))); eauto; try lia.
    + now apply corridor_misses, xs_corridor.
    + intros b Y' w S _. eapply corridor_none; [apply xs_corridor, Cx|exact S].
Qed.

Lemma top_conn a b X1 X2 : xs hs X1 -> xs hs X2 -> spot ns a X1 20 None -> spot ns b X2 20 None -> conn a b 1140.
Proof.
  intros C1 C2 A B. apply xs_corridor in C1, C2. unfold corridor in C1, C2.
  assert (N : forall c X w, spot ns c X 20 w -> w = None).
  { intros c X [o|] S; [|reflexivity]. exfalso. destruct (spot_port _ _ _ _ S) as (i & L & On).
    pose proof (table_bounds d hs GD i L). destruct o; unfold port_on in On; lia. }
  assert (M : forall X X', misses hs X 20 X' 20).
  { intros X X' t L. pose proof (table_bounds d hs GD t L). lia. }
  destruct (Z.lt_trichotomy X1 X2) as [Lt|[->|Lt]].
  - eapply conn_le; [eapply (hline (Z.to_nat (X2 - X1))); eauto; try lia|].
    apply (Z.div_le_mono _ 2280 2); lia.
  - destruct (spot_index d hs g R a b X2 20 None None A B) as [-> _]. apply (conn_le _ _ _ _ (conn_refl b)). lia.
  - apply conn_sym. eapply conn_le; [eapply (hline (Z.to_nat (X1 - X2))); eauto; try lia|].
    apply (Z.div_le_mono _ 2280 2); lia.
Qed.

(** ** From a port to a corridor *)

Lemma spot_in_column a X Y w i : spot ns a X Y w -> zl i - 80 < X < zl i + 680 -> X = zl i \/ X = zl i + 300 \/ X = zl i + 600.
Proof.
  intros A B. destruct (spot_ok d hs GD g R _ _ _ _ A) as (_ & _ & J). pose proof (zl_cases i).
  destruct w as [o|].
  - destruct (spot_port _ _ _ _ A) as (j & L & On). pose proof (zl_cases j). destruct o; unfold port_on in On; lia.
  - destruct J as [[C|(o & X' & Y' & P & Ry)] _].
    + destruct (corner_xs hs X Y C) as [Cx _]. pose proof (xs_cases hs X Cx). lia.
    + destruct (port_at_on d hs GD o X' Y' P) as (j & L & On). pose proof (zl_cases j).
      destruct o; unfold port_on in On; unfold ray in Ry; try lia;
        destruct Ry as (_ & Cx & _); pose proof (xs_cases hs X Cx); lia.
Qed.

(** A port of another table in the same column, or of this table. *)
Lemma port_column a X Y o i : (i < length hs)%nat -> spot ns a X Y (Some o) -> zl i - 80 < X < zl i + 680 ->
  exists j, (j < length hs)%nat /\ zl j = zl i /\ port_on hs j o X Y /\
    (j = i \/ zb hs i + 160 <= zt hs j \/ zb hs j + 160 <= zt hs i).
Proof.
  intros Li A B. destruct (spot_port _ _ _ _ A) as (j & L & On). exists j. pose proof (zl_cases i). pose proof (zl_cases j).
  assert (E : zl j = zl i) by (destruct o; unfold port_on in On; lia). split; [exact L|]. split; [exact E|]. split; [exact On|].
  destruct (col_apart hs i j) as [->|[Z|Z]]; auto.
Qed.

Lemma port_out a X Y o : spot ns a X Y (Some o) -> exists c x y, xs hs x /\ spot ns c x y None /\ conn a c 230.
Proof.
  intros A. destruct (spot_port _ _ _ _ A) as (i & L & On). pose proof (table_bounds d hs GD i L) as Bi.
  destruct (spot_ok d hs GD g R _ _ _ _ A) as (_ & _ & P). pose proof (zl_cases i) as Zi.
  assert (XL : xs hs (zl i - 80)) by (exists i; auto). assert (XR : xs hs (zl i + 680)) by (exists i; auto).
  destruct o.
  - (* Up *)
    unfold port_on in On. destruct On as [-> ->].
    assert (J : junction d hs (zl i + 300) (zt hs i - 80)).
    { split; [right; exists Up, (zl i + 300), (zt hs i); split; [exact P|]; unfold ray; repeat split; [exists i; auto|lia]|].
      intros t Lt. pose proof (zl_cases t). destruct (Z.eq_dec (zl t) (zl i)) as [E|E]; [|lia].
      destruct (col_apart hs t i E) as [->|[Z|Z]]; lia. }
    destruct (rt_junction d hs g R _ _ J) as (b & B).
    assert (Jc : junction d hs (zl i - 80) (zt hs i - 80)).
    { split; [left; exists i; auto|]. now apply corridor_clear, xs_corridor. }
    destruct (rt_junction d hs g R _ _ Jc) as (c & C). fold ns in B, C.
    exists c, (zl i - 80), (zt hs i - 80). split; [exact XL|]. split; [exact C|].
    eapply conn_le; [eapply conn_trans|].
    + apply conn_sym. eapply (vline 80 b a _ (zt hs i - 80) (zt hs i)); eauto; try lia.
      * intros t Lt. pose proof (zl_cases t). destruct (Z.eq_dec (zl t) (zl i)) as [E|E]; [|lia].
        pose proof (table_bounds d hs GD t Lt). destruct (col_apart hs t i E) as [->|[Z|Z]]; lia.
      * intros q Y [w|] Sq Bq; [|reflexivity]. exfalso.
        destruct (port_column q _ Y w i L Sq ltac:(lia)) as (j & Lj & Ej & Oj & Z).
        pose proof (table_bounds d hs GD j Lj). destruct w; unfold port_on in Oj; destruct Z as [->|Z]; lia.
    + apply conn_sym. eapply (hline 380 c b (zl i - 80) (zl i + 300)); eauto; try lia.
      * intros t Lt. pose proof (zl_cases t). destruct (Z.eq_dec (zl t) (zl i)) as [E|E]; [|lia].
        pose proof (table_bounds d hs GD t Lt). destruct (col_apart hs t i E) as [->|[Z|Z]]; lia.
      * intros q X [w|] Sq Bq; [|reflexivity]. exfalso.
        destruct (port_column q X _ w i L Sq ltac:(lia)) as (j & Lj & Ej & Oj & Z).
        pose proof (table_bounds d hs GD j Lj). destruct w; unfold port_on in Oj; destruct Z as [->|Z]; lia.
    + replace (zt hs i - (zt hs i - 80)) with 80 by lia. replace (zl i + 300 - (zl i - 80)) with 380 by lia. reflexivity.
  - (* Down *)
    unfold port_on in On. destruct On as [-> ->].
    assert (J : junction d hs (zl i + 300) (zb hs i + 80)).
    { split; [right; exists Down, (zl i + 300), (zb hs i); split; [exact P|]; unfold ray; repeat split; [exists i; auto|lia]|].
      intros t Lt. pose proof (zl_cases t). pose proof (table_bounds d hs GD t Lt). destruct (Z.eq_dec (zl t) (zl i)) as [E|E]; [|lia].
      destruct (col_apart hs t i E) as [->|[Z|Z]]; lia. }
    destruct (rt_junction d hs g R _ _ J) as (b & B).
    assert (Jc : junction d hs (zl i - 80) (zb hs i + 80)).
    { split; [left; exists i; auto|]. now apply corridor_clear, xs_corridor. }
    destruct (rt_junction d hs g R _ _ Jc) as (c & C). fold ns in B, C.
    exists c, (zl i - 80), (zb hs i + 80). split; [exact XL|]. split; [exact C|].
    eapply conn_le; [eapply conn_trans|].
    + eapply (vline 80 a b _ (zb hs i) (zb hs i + 80)); eauto; try lia.
      * intros t Lt. pose proof (zl_cases t). destruct (Z.eq_dec (zl t) (zl i)) as [E|E]; [|lia].
        pose proof (table_bounds d hs GD t Lt). destruct (col_apart hs t i E) as [->|[Z|Z]]; lia.
      * intros q Y [w|] Sq Bq; [|reflexivity]. exfalso.
        destruct (port_column q _ Y w i L Sq ltac:(lia)) as (j & Lj & Ej & Oj & Z).
        pose proof (table_bounds d hs GD j Lj). destruct w; unfold port_on in Oj; destruct Z as [->|Z]; lia.
    + apply conn_sym. eapply (hline 380 c b (zl i - 80) (zl i + 300)); eauto; try lia.
      * intros t Lt. pose proof (zl_cases t). destruct (Z.eq_dec (zl t) (zl i)) as [E|E]; [|lia].
        pose proof (table_bounds d hs GD t Lt). destruct (col_apart hs t i E) as [->|[Z|Z]]; lia.
      * intros q X [w|] Sq Bq; [|reflexivity]. exfalso.
        destruct (port_column q X _ w i L Sq ltac:(lia)) as (j & Lj & Ej & Oj & Z).
        pose proof (table_bounds d hs GD j Lj). destruct w; unfold port_on in Oj; destruct Z as [->|Z]; lia.
    + replace (zb hs i + 80 - zb hs i) with 80 by lia. replace (zl i + 300 - (zl i - 80)) with 380 by lia. reflexivity.
  - (* Left *)
    unfold port_on in On. destruct On as [-> By].
    assert (J : junction d hs (zl i - 80) Y).
    { split; [right; exists Left, (zl i), Y; split; [exact P|]; unfold ray; repeat split; auto; [lia|]|].
      - intros t Lt H _. pose proof (zl_cases t). lia.
      - now apply corridor_clear, xs_corridor. }
    destruct (rt_junction d hs g R _ _ J) as (b & B). fold ns in B.
    exists b, (zl i - 80), Y. split; [exact XL|]. split; [exact B|].
    eapply conn_le; [apply conn_sym; eapply (hline 80 b a (zl i - 80) (zl i)); eauto; try lia|].
    + intros t Lt. pose proof (zl_cases t). lia.
    + intros q X w Sq Bq. destruct (spot_in_column q X Y w i Sq); lia.
    + replace (zl i - (zl i - 80)) with 80 by lia. cbn. lia.
  - (* Right *)
    unfold port_on in On. destruct On as [-> By].
    assert (J : junction d hs (zl i + 680) Y).
    { split; [right; exists Right, (zl i + 600), Y; split; [exact P|]; unfold ray; repeat split; auto; [lia|]|].
      - intros t Lt H _. pose proof (zl_cases t). lia.
      - now apply corridor_clear, xs_corridor. }
    destruct (rt_junction d hs g R _ _ J) as (b & B). fold ns in B.
    exists b, (zl i + 680), Y. split; [exact XR|]. split; [exact B|].
    eapply conn_le; [eapply (hline 80 a b (zl i + 600) (zl i + 680)); eauto; try lia|].
    + intros t Lt. pose proof (zl_cases t). lia.
    + intros q X w Sq Bq. destruct (spot_in_column q X Y w i Sq); lia.
    + replace (zl i + 680 - (zl i + 600)) with 80 by lia. cbn. lia.
Qed.

Theorem ports_conn a b X Y X' Y' o u : spot ns a X Y (Some o) -> spot ns b X' Y' (Some u) -> conn a b (zh hs + 1600).
Proof.
  intros A B. destruct (port_out _ _ _ _ A) as (c & x & y & Cx & C & K). destruct (port_out _ _ _ _ B) as (c' & x' & y' & Cx' & C' & K').
  destruct (top_spot x Cx) as (t & T). destruct (top_spot x' Cx') as (t' & T').
  pose proof (corridor_up c t x y Cx C T) as U. pose proof (corridor_up c' t' x' y' Cx' C' T') as U'.
  pose proof (top_conn t t' x x' Cx Cx' T T') as TT.
  destruct (spot_ok d hs GD g R _ _ _ _ C) as (_ & By & _). destruct (spot_ok d hs GD g R _ _ _ _ C') as (_ & By' & _).
  assert (D : (y - 20) / 2 <= zh hs / 2) by (apply Z.div_le_mono; lia).
  assert (D' : (y' - 20) / 2 <= zh hs / 2) by (apply Z.div_le_mono; lia).
  pose proof (half_add (zh hs) (zh hs) (2 * zh hs) ltac:(lia)) as Hh. rewrite Z.mul_comm, Z.div_mul in Hh by lia.
  eapply conn_le; [exact (conn_trans _ _ _ _ _ K (conn_trans _ _ _ _ _ (conn_sym _ _ _ U)
    (conn_trans _ _ _ _ _ TT (conn_trans _ _ _ _ _ U' (conn_sym _ _ _ K')))))|]. lia.
Qed.
End Doc.
