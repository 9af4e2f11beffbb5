(** The nodes and edges of the routing graph of a grid; all ports are connected. *)
From Coq Require Import List Arith NArith ZArith Bool Lia SpecFloat.
From Verif Require Import Base F32 Geometry Mir Erd Heap Route Layout SpecMir SpecF32 SpecGeom SpecLayout SpecRoute SpecGraph
  F32Facts GeomFacts SearchFacts MirFacts GridFacts LayoutFacts RenderFacts PipelineFacts GraphFacts PathFacts LatticeFacts.
Import ListNotations.
Local Open Scope Z_scope.

(** Node [i] is at [(X,Y)] with the orientation [o]. *)
Definition spot (ns : list route_node) (i : nat) (X Y : Z) (o : option orientation) : Prop :=
  exists n, nth_error ns i = Some n /\ hpoint (rn_loc n) X Y /\ rn_orient n = o.

Lemma hpoint_same p q X Y : hpoint p X Y -> hpoint q X Y -> same_place p q.
Proof.
  intros [A B] [C D]. split; [rewrite (hv_feq _ _ _ _ A C)|rewrite (hv_feq _ _ _ _ B D)]; apply Z.eqb_refl.
Qed.
Lemma same_hpoint p q X Y : same_place p q -> hpoint p X Y -> forall X' Y', hpoint q X' Y' -> X = X' /\ Y = Y'.
Proof.
  intros [S T] [A B] X' Y' [C D]. rewrite (hv_feq _ _ _ _ A C) in S. rewrite (hv_feq _ _ _ _ B D) in T. lia.
Qed.
Lemma hpoint_unique p X Y X' Y' : hpoint p X Y -> hpoint p X' Y' -> X = X' /\ Y = Y'.
Proof. intros [A B] [C D]. split; eapply hv_unique; eauto. Qed.
Lemma fin_is_nan x r : fin x r -> is_nan x = false.
Proof. apply fin_nan. Qed.
Lemma hpoint_proper p X Y : hpoint p X Y -> proper p.
Proof. intros [A B]. split; eapply fin_nan; eassumption. Qed.

(** ** Nearest neighbours *)

Definition straightb (o : orientation) (p q : point) : bool :=
  match o with
  | Up => feq (px q) (px p) && flt (py q) (py p)
  | Down => feq (px q) (px p) && flt (py p) (py q)
  | Left => feq (py q) (py p) && flt (px q) (px p)
  | Right => feq (py q) (py p) && flt (px p) (px q)
  end.
(** [q] comes before [r] in direction [o]. *)
Definition before (o : orientation) (q r : point) : bool :=
  match o with
  | Up => flt (py r) (py q)
  | Down => flt (py q) (py r)
  | Left => flt (px r) (px q)
  | Right => flt (px q) (px r)
  end.
Definition candidate (o : orientation) (n m : route_node) : bool :=
  straightb o (rn_loc n) (rn_loc m) && (is_connectable n o && is_connectable m (opposite o)).

Lemma feq_flt x y : feq x y = true -> flt x y = false /\ flt y x = false.
Proof.
  unfold feq, flt, SFeqb, SFltb. rewrite (SFcompare_swap y x). destruct (SFcompare y x) as [[]|]; cbn; auto; discriminate.
Qed.
Lemma flt_asym x y : flt x y = true -> flt y x = false.
Proof.
  unfold flt, SFltb. rewrite (SFcompare_swap y x). destruct (SFcompare y x) as [[]|]; cbn; auto; discriminate.
Qed.
Lemma before_asym o q r : before o q r = true -> before o r q = false.
Proof. destruct o; cbn; apply flt_asym. Qed.

Lemma near_step rects n acc b m o :
  near_in o (nearest_step rects n acc (b, m)) =
  if candidate o n m then
    if match near_in o acc with
       | None => true
       | Some (_, u) => before o (rn_loc m) (rn_loc u) && negb (existsb (fun r => intersects_line r (rn_loc n) (rn_loc m)) rects)
       end then Some (b, m) else near_in o acc
  else near_in o acc.
Proof.
  unfold nearest_step, candidate. set (nc := negb (existsb (fun r => intersects_line r (rn_loc n) (rn_loc m)) rects)).
  set (p := rn_loc n). set (q := rn_loc m). unfold fgt.
  destruct (feq (px q) (px p)) eqn:Ex; [|destruct (feq (py q) (py p)) eqn:Ey].
  - destruct (feq_flt _ _ Ex) as [Lx1 Lx2].
    destruct (flt (py q) (py p)) eqn:L1; [|destruct (flt (py p) (py q)) eqn:L2].
    + assert (L2 := flt_asym _ _ L1).
      assert (Ey : feq (py q) (py p) = false).
      { destruct (feq (py q) (py p)) eqn:Ey; [|reflexivity]. apply feq_flt in Ey as [Ey _]. congruence. }
      cbn [andb]. destruct o; cbn [straightb near_in opposite before]; fold p q; rewrite ?Ex, ?Ey, ?L1, ?L2; cbn [andb];
      destruct (is_connectable n Up && is_connectable m Down); cbn [near_in nr_up nr_down nr_left nr_right]; try reflexivity;
      destruct (nr_up acc) as [[? u]|] eqn:A; try reflexivity; try (fold q; destruct (flt (py (rn_loc u)) (py q) && nc); auto).
    + assert (Ey : feq (py q) (py p) = false).
      { destruct (feq (py q) (py p)) eqn:Ey; [|reflexivity]. apply feq_flt in Ey as [_ Ey]. congruence. }
      cbn [andb]. destruct o; cbn [straightb near_in opposite before]; fold p q; rewrite ?Ex, ?Ey, ?L1, ?L2; cbn [andb];
      destruct (is_connectable n Down && is_connectable m Up); cbn [near_in nr_up nr_down nr_left nr_right]; try reflexivity;
      destruct (nr_down acc) as [[? u]|] eqn:A; try reflexivity; try (fold q; destruct (flt (py q) (py (rn_loc u)) && nc); auto).
    + cbn [andb]. rewrite Lx1, Lx2, !andb_false_r.
      destruct o; cbn [straightb near_in opposite before]; fold p q; rewrite ?Ex, ?L1, ?L2, ?Lx1, ?Lx2, ?andb_false_r; reflexivity.
  - cbn [andb]. destruct (flt (px q) (px p)) eqn:L1; [|destruct (flt (px p) (px q)) eqn:L2].
    + assert (L2 := flt_asym _ _ L1).
      cbn [andb]. destruct o; cbn [straightb near_in opposite before]; fold p q; rewrite ?Ex, ?Ey, ?L1, ?L2; cbn [andb];
      destruct (is_connectable n Left && is_connectable m Right); cbn [near_in nr_up nr_down nr_left nr_right]; try reflexivity;
      destruct (nr_left acc) as [[? u]|] eqn:A; try reflexivity; try (fold q; destruct (flt (px (rn_loc u)) (px q) && nc); auto).
    + cbn [andb]. destruct o; cbn [straightb near_in opposite before]; fold p q; rewrite ?Ex, ?Ey, ?L1, ?L2; cbn [andb];
      destruct (is_connectable n Right && is_connectable m Left); cbn [near_in nr_up nr_down nr_left nr_right]; try reflexivity;
      destruct (nr_right acc) as [[? u]|] eqn:A; try reflexivity; try (fold q; destruct (flt (px q) (px (rn_loc u)) && nc); auto).
    + destruct o; cbn [straightb near_in opposite before]; fold p q; rewrite ?Ex, ?Ey, ?L1, ?L2; reflexivity.
  - cbn [andb]. destruct o; cbn [straightb near_in opposite before]; fold p q; rewrite ?Ex, ?Ey; reflexivity.
Qed.

(** A candidate that comes before all others and is not hidden is chosen. *)
Lemma near_complete rects n o l b m : In (b, m) l -> candidate o n m = true ->
  existsb (fun r => intersects_line r (rn_loc n) (rn_loc m)) rects = false ->
  (forall b' m', In (b', m') l -> candidate o n m' = true -> (b', m') = (b, m) \/ before o (rn_loc m) (rn_loc m') = true) ->
  near_in o (fold_left (nearest_step rects n) l (mkNear None None None None)) = Some (b, m).
Proof.
  intros I C NC H.
  set (Q := fun acc => match near_in o acc with None => True
                       | Some (b', m') => (b', m') = (b, m) \/ before o (rn_loc m) (rn_loc m') = true end).
  assert (St : forall acc x, In x l -> Q acc -> Q (nearest_step rects n acc x)).
  { intros acc [b' m'] Ix A. unfold Q. rewrite near_step. destruct (candidate o n m') eqn:C'; [|exact A].
    match goal with |- context [if ?c then _ else _] => destruct c end; [|exact A]. now apply H. }
  assert (Ke : forall acc x, In x l -> near_in o acc = Some (b, m) -> near_in o (nearest_step rects n acc x) = Some (b, m)).
  { intros acc [b' m'] Ix A. rewrite near_step, A. destruct (candidate o n m') eqn:C'; [|reflexivity].
    destruct (H b' m' Ix C') as [E|E].
    - injection E as -> ->. destruct (_ && _); reflexivity.
    - apply before_asym in E. rewrite E. reflexivity. }
  assert (Ta : forall acc, Q acc -> near_in o (nearest_step rects n acc (b, m)) = Some (b, m)).
  { intros acc A. rewrite near_step, C, NC. unfold Q in A. destruct (near_in o acc) as [[b' u]|]; [|reflexivity].
    destruct A as [E|E]; [injection E as -> ->|rewrite E; reflexivity]. destruct (_ && _); reflexivity. }
  apply in_split in I as (l1 & l2 & ->). rewrite fold_left_app. cbn [fold_left].
  assert (S1 : forall k acc, incl k (l1 ++ (b, m) :: l2) -> Q acc -> Q (fold_left (nearest_step rects n) k acc)).
  { intros k. induction k as [|x k IH]; intros acc Ik A; [exact A|]. cbn. apply IH; [intros y Iy; apply Ik; now right|].
    apply St; [apply Ik; now left|exact A]. }
  assert (S2 : forall k acc, incl k (l1 ++ (b, m) :: l2) -> near_in o acc = Some (b, m) -> near_in o (fold_left (nearest_step rects n) k acc) = Some (b, m)).
  { intros k. induction k as [|x k IH]; intros acc Ik A; [exact A|]. cbn. apply IH; [intros y Iy; apply Ik; now right|].
    apply Ke; [apply Ik; now left|exact A]. }
  apply S2; [intros y Iy; apply in_app_iff; right; now right|]. apply Ta. apply S1.
  - intros y Iy. apply in_app_iff. now left.
  - unfold Q. now destruct o.
Qed.

(** ** Building the graph *)

Section Doc.
Variables (d : document) (hs : list nat).
Hypothesis GD : grid_doc d hs.

Definition node_ok (n : route_node) : Prop :=
  exists X Y, hpoint (rn_loc n) X Y /\
    match rn_orient n with None => junction d hs X Y | Some o => port_at d o X Y end.

Lemma port_not_clear o X Y : port_at d o X Y -> ~ clear hs X Y.
Proof.
  intros P C. destruct (port_at_on d hs GD o X Y P) as (i & L & On). specialize (C i L).
  pose proof (table_bounds d hs GD i L). destruct o; unfold port_on in On; lia.
Qed.
Lemma port_orientation_unique o u X Y : port_at d o X Y -> port_at d u X Y -> o = u.
Proof.
  intros P Q. destruct (port_at_on d hs GD o X Y P) as (i & L & On), (port_at_on d hs GD u X Y Q) as (j & M & On').
  eapply (port_on_unique hs i j); eauto. apply (gd_pos d hs GD).
Qed.

Lemma add_port_ret g tp : end_port d tp -> Forall node_ok (rg_nodes g) -> exists g',
  rg_add_port g tp = Ret g' /\ Forall node_ok (rg_nodes g').
Proof.
  intros E F. destruct (gd_port d hs GD tp E) as (i & X & Y & L & H & On).
  assert (P : port_at d (port_orientation tp) X Y) by (exists tp; auto).
  unfold rg_add_port. pose proof (add_node_cases g (port_location tp) (Some (port_orientation tp))) as C.
  destruct (rg_add_node_ g (port_location tp) (Some (port_orientation tp))) as [[g' k]|q]; cbn [bind].
  - eexists. split; [reflexivity|]. cbn. destruct C as (_ & _ & [(-> & _)|(-> & _)]); [exact F|].
    apply Forall_app. split; [exact F|]. constructor; [|constructor]. exists X, Y. auto.
  - exfalso. destruct C as (_ & k & n & Hn & S & O). apply nth_error_In in Hn. rewrite Forall_forall in F.
    destruct (F n Hn) as (X' & Y' & H' & K). destruct (same_hpoint _ _ _ _ S H' _ _ H) as [-> ->].
    destruct (rn_orient n) as [u|].
    + apply O. f_equal. eapply port_orientation_unique; eauto.
    + apply (port_not_clear _ _ _ P). apply K.
Qed.
Lemma add_ports_ret l : Forall (end_port d) l -> forall g, Forall node_ok (rg_nodes g) -> exists g',
  foldM rg_add_port l g = Ret g' /\ Forall node_ok (rg_nodes g').
Proof.
  induction 1 as [|tp l E F IH]; intros g H; cbn [foldM]; [eauto|].
  destruct (add_port_ret g tp E H) as (g' & -> & H'). cbn [bind]. now apply IH.
Qed.

(** The routing graph, in terms of places. *)
Record routes (g : route_graph) : Prop := {
  rt_build : build_routes rg_new d = Ret g;
  rt_nodes : Forall node_ok (rg_nodes g);
  rt_distinct : distinct_places (rg_nodes g);
  rt_junction : forall x y, junction d hs x y -> exists i, spot (rg_nodes g) i x y None;
  rt_port : forall tp X Y, end_port d tp -> hpoint (port_location tp) X Y -> exists i,
      rg_get_port g (port_ident tp) = Some i /\ spot (rg_nodes g) i X Y (Some (port_orientation tp));
  rt_sound : forall a b, In (a, b) (rg_edges g) -> In (a, b) (neighbor_edges d (rg_nodes g));
  rt_edges : forall a b, In (a, b) (neighbor_edges d (rg_nodes g)) -> joined (rg_edges g) a b;
  rt_ok : graph_ok g;
  rt_ports : ports_exist g }.

Theorem routes_exist : exists g, routes g.
Proof.
  destruct (add_junctions (edge_junctions d) rg_new) as (g1 & A1); [constructor|].
  destruct (add_nodes_spec _ _ _ A1) as (E1 & P1 & D1 & N1 & M1).
  assert (F1 : Forall node_ok (rg_nodes g1)).
  { apply Forall_forall. intros n I. apply N1 in I as [[]|[O I]].
    destruct (junctions_sound d hs GD _ I) as (x & y & H & J). exists x, y. split; [exact H|]. now rewrite O. }
  assert (Fe : Forall (end_port d) (flat_map (edge_end_ports d) (d_edges d))).
  { apply Forall_forall. intros tp I. now apply in_end_ports. }
  destruct (add_ports_ret _ Fe g1 F1) as (g2 & A2 & F2).
  assert (B : build_routes rg_new d = Ret (connect_neighbors d g2)).
  { unfold build_routes. rewrite A1. cbn [bind]. rewrite A2. reflexivity. }
  exists (connect_neighbors d g2).
  destruct (build_ok _ _ _ graph_new B) as [Ok _].
  pose proof (build_ports rg_new d _ ltac:(intros id i Q; discriminate) B) as Pe.
  destruct (add_ports_spec _ _ _ A2) as (E2 & D2 & N2 & _).
  assert (En : rg_edges g2 = []). { destruct E1 as [_ E1], E2 as [_ E2]. rewrite E2, E1. reflexivity. }
  unfold connect_neighbors in *. set (l := neighbor_edges d (rg_nodes g2)) in *.
  destruct (add_edges_spec l g2) as (N & PP & _ & S & _ & J).
  split; try assumption.
  - now rewrite N.
  - apply Ok.
  - intros x y Jn. destruct (junctions_complete d hs GD x y Jn) as (p & I & H).
    destruct (M1 p I (hpoint_proper _ _ _ H)) as (n & In_ & Sp & O). apply In_nth_error in In_ as (i & Hi).
    exists i, n. rewrite N. split; [|split; [|exact O]].
    + eapply extends_nth; eauto.
    + rewrite Forall_forall in F1. destruct (F1 n (nth_error_In _ _ Hi)) as (X & Y & H' & _).
      destruct (same_hpoint _ _ _ _ Sp H' _ _ H) as [-> ->]. exact H'.
  - intros tp X Y E H. pose proof E as (e & k & n & Ie & Ei & G & I).
    destruct (gd_ends d hs GD e Ie) as (s & t & Gs & Gt & _).
    destruct (registered rg_new d _ e s t tp (gd_named d hs GD) B Ie Gs Gt) as (i & Gi & n' & Hn & Pl & O).
    { destruct Ei as [-> | ->]; [left|right]; congruence. }
    exists i. split; [exact Gi|]. exists n'. split; [exact Hn|]. split; [|exact O].
    rewrite N in Hn. rewrite Forall_forall in F2. destruct (F2 n' (nth_error_In _ _ Hn)) as (X' & Y' & H' & _).
    destruct Pl as [Sp|Q]; [destruct (same_hpoint _ _ _ _ Sp H' _ _ H) as [-> ->]; exact H'|rewrite Q; exact H].
  - intros a b I. rewrite N. apply S in I as [I|I]; [rewrite En in I; destruct I|exact I].
  - intros a b I. rewrite N in I. now apply J.
Qed.

Section Lines.
Variable g : route_graph.
Hypothesis R : routes g.
Let ns := rg_nodes g.
Let es := rg_edges g.
Let cost := rg_cost ns.

Lemma spot_ok i X Y o : spot ns i X Y o -> 0 <= X <= 2320 /\ 0 <= Y <= zh hs /\
  match o with None => junction d hs X Y | Some u => port_at d u X Y end.
Proof.
  intros (n & Hn & H & O). pose proof (rt_nodes g R) as F. rewrite Forall_forall in F.
  destruct (F n (nth_error_In _ _ Hn)) as (X' & Y' & H' & K). destruct (hpoint_unique _ _ _ _ _ H H') as [E1 E2]. subst X' Y'.
  rewrite O in K. split; [|split; [|exact K]].
  - destruct o as [u|]; [destruct (port_at_on d hs GD u X Y K) as (t & L & On); pose proof (port_bounds d hs GD t u X Y L On)
                        |pose proof (junction_bounds d hs GD X Y K)]; lia.
  - destruct o as [u|]; [destruct (port_at_on d hs GD u X Y K) as (t & L & On); pose proof (port_bounds d hs GD t u X Y L On)
                        |pose proof (junction_bounds d hs GD X Y K)]; lia.
Qed.
Lemma nth_spot i n : nth_error ns i = Some n -> exists X Y, spot ns i X Y (rn_orient n) /\ hpoint (rn_loc n) X Y.
Proof.
  intros Hn. pose proof (rt_nodes g R) as F. rewrite Forall_forall in F.
  destruct (F n (nth_error_In _ _ Hn)) as (X & Y & H & K). exists X, Y. split; [exists n; auto|exact H].
Qed.
Lemma spot_index a b X Y o u : spot ns a X Y o -> spot ns b X Y u -> a = b /\ o = u.
Proof.
  intros (n & Hn & H & O) (m & Hm & H' & O').
  assert (a = b) as <-.
  { eapply (distinct_index ns); [apply (rt_distinct g R)|exact Hn|exact Hm| |]; eapply hpoint_same; eauto. }
  split; [reflexivity|]. rewrite Hn in Hm. injection Hm as <-. congruence.
Qed.
Lemma spot_place a X Y o X' Y' u : spot ns a X Y o -> spot ns a X' Y' u -> X = X' /\ Y = Y' /\ o = u.
Proof.
  intros (n & Hn & H & O) (m & Hm & H' & O'). rewrite Hn in Hm. injection Hm as <-.
  destruct (hpoint_unique _ _ _ _ _ H H'). repeat split; auto; congruence.
Qed.

Lemma spot_cost a b X1 Y1 X2 Y2 o u : spot ns a X1 Y1 o -> spot ns b X2 Y2 u -> X1 = X2 \/ Y1 = Y2 ->
  cost a b = Z.to_N ((Z.abs (X1 - X2) + Z.abs (Y1 - Y2)) / 2).
Proof.
  intros A B C. pose proof (spot_ok _ _ _ _ A) as (Ba & Ba' & _). pose proof (spot_ok _ _ _ _ B) as (Bb & Bb' & _).
  pose proof (zh_le d hs GD) as Zh. destruct A as (n & Hn & H & _), B as (m & Hm & H' & _).
  unfold cost, rg_cost. rewrite Hn, Hm. apply distance_cost; auto; unfold M24 in *; lia.
Qed.

(** A segment that misses all tables shrunk by one. *)
Definition misses (X1 Y1 X2 Y2 : Z) : Prop := forall t, (t < length hs)%nat ->
  Z.max X1 X2 < zl t + 2 \/ zl t + 598 < Z.min X1 X2 \/ Z.max Y1 Y2 < zt hs t + 2 \/ zb hs t - 2 < Z.min Y1 Y2.
Definition shrunk : list rect := map (fun r => inset_by r (f32_of_Z 1) (f32_of_Z 1)) (shape_rects d).

Lemma shrunk_iff p q X1 Y1 X2 Y2 : hpoint p X1 Y1 -> hpoint q X2 Y2 ->
  0 <= X1 <= 2320 -> 0 <= X2 <= 2320 -> 0 <= Y1 <= zh hs -> 0 <= Y2 <= zh hs ->
  Y1 = Y2 \/ (X1 = X2 /\ Y1 <= Y2) ->
  (forall t, (t < length hs)%nat -> ~ (zl t + 2 < X1 < zl t + 598 /\ zt hs t + 2 < Y1 < zb hs t - 2)) ->
  (existsb (fun r => intersects_line r p q) shrunk = false <-> misses X1 Y1 X2 Y2).
Proof.
  intros Hp Hq B1 B2 B3 B4 A NI. pose proof (zh_le d hs GD) as Zh.
  assert (Hv1 : hv (f32_of_Z 1) 2) by (apply (hv_of_Z 1); lia).
  assert (C : forall r t, (t < length hs)%nat -> hrect r (zl t) (zt hs t) 600 (zb hs t - zt hs t) ->
     (intersects_line (inset_by r (f32_of_Z 1) (f32_of_Z 1)) p q = true <->
      zl t + 2 <= Z.max X1 X2 /\ Z.min X1 X2 <= zl t + 598 /\ zt hs t + 2 <= Z.max Y1 Y2 /\ Z.min Y1 Y2 <= zb hs t - 2)).
  { intros r t L Hr. pose proof (table_bounds d hs GD t L) as Bt.
    pose proof (grown_rect d hs GD 2 r t L Hr ltac:(lia) _ Hv1) as G.
    rewrite (intersects_iff 0 _ _ _ _ _ p q X1 Y1 X2 Y2 G Hp Hq); try (unfold window, M24 in *; lia).
    - rewrite <- zmeets_iff by lia. unfold zmeets. lia.
    - unfold strictly_inside. specialize (NI t L). lia. }
  split.
  - intros E t L. destruct (gd_table d hs GD t L) as (r & T & Hr).
    assert (N : ~ (zl t + 2 <= Z.max X1 X2 /\ Z.min X1 X2 <= zl t + 598 /\ zt hs t + 2 <= Z.max Y1 Y2 /\ Z.min Y1 Y2 <= zb hs t - 2)); [|lia].
    intros Q. apply (C r t L Hr) in Q. apply not_true_iff_false in E. apply E. apply existsb_exists.
    eexists. split; [|exact Q]. apply in_map_iff. exists r. split; [reflexivity|now apply in_shape_rects].
  - intros M. apply not_true_iff_false. intros E. apply existsb_exists in E as (s & I & Q).
    apply in_map_iff in I as (r & <- & I). apply in_shape_rects in I. destruct (gd_rect d hs GD r I) as (t & L & Hr).
    apply (C r t L Hr) in Q. specialize (M t L). lia.
Qed.

(** Nodes are not strictly inside a table. *)
Lemma spot_outside i X Y o t : spot ns i X Y o -> (t < length hs)%nat -> ~ (zl t < X < zl t + 600 /\ zt hs t < Y < zb hs t).
Proof.
  intros S L. destruct (spot_ok _ _ _ _ S) as (_ & _ & K). destruct o as [u|].
  - destruct (port_at_on d hs GD u X Y K) as (j & Lj & On). pose proof (table_bounds d hs GD j Lj). pose proof (table_bounds d hs GD t L).
    pose proof (zl_cases t). pose proof (zl_cases j).
    destruct u; unfold port_on in On; try lia; intros [Q1 Q2];
      (destruct (col_apart hs j t) as [->|[Z|Z]]; lia).
  - destruct K as [_ C]. specialize (C t L). lia.
Qed.

Lemma spot_candidate a b X1 Y1 X2 Y2 o u w : spot ns a X1 Y1 o -> spot ns b X2 Y2 u ->
  forall n m, nth_error ns a = Some n -> nth_error ns b = Some m ->
  (candidate w n m = true <->
   match w with
   | Up => X1 = X2 /\ Y2 < Y1
   | Down => X1 = X2 /\ Y1 < Y2
   | Left => Y1 = Y2 /\ X2 < X1
   | Right => Y1 = Y2 /\ X1 < X2
   end /\ (o = None \/ o = Some w) /\ (u = None \/ u = Some (opposite w))).
Proof.
  intros (n' & Hn & [Hx Hy] & O) (m' & Hm & [Hx' Hy'] & O') n m En Em.
  rewrite Hn in En. rewrite Hm in Em. injection En as <-. injection Em as <-.
  unfold candidate. rewrite !andb_true_iff.
  assert (K : forall n w o, rn_orient n = o -> (is_connectable n w = true <-> (o = None \/ o = Some w))).
  { intros n w' o' E. unfold is_connectable. rewrite E. destruct o' as [v|]; [rewrite orientation_eqb_eq|]; intuition congruence. }
  rewrite (K n' w o O), (K m' (opposite w) u O').
  destruct w; cbn [straightb]; rewrite andb_true_iff;
    rewrite ?(hv_feq _ _ _ _ Hx' Hx), ?(hv_feq _ _ _ _ Hy' Hy), ?(hv_lt _ _ _ _ Hx' Hx), ?(hv_lt _ _ _ _ Hy' Hy),
      ?(hv_lt _ _ _ _ Hx Hx'), ?(hv_lt _ _ _ _ Hy Hy'), ?Z.eqb_eq, ?Z.ltb_lt; intuition lia.
Qed.

(** ** Steps along free lines *)

Lemma step_down a b X Y1 Y2 o u : spot ns a X Y1 o -> spot ns b X Y2 u -> Y1 < Y2 ->
  (o = None \/ o = Some Down) -> (u = None \/ u = Some Up) -> misses X Y1 X Y2 ->
  (forall c Y w, spot ns c X Y w -> ~ Y1 < Y < Y2) -> joined es a b.
Proof.
  intros A B L Co Cu M N. apply (rt_edges g R). apply neighbor_edge_iff.
  pose proof A as (n & Hn & Ha & Oa). pose proof B as (m & Hm & Hb & Ob).
  exists n, Down, m. split; [exact Hn|]. fold shrunk. apply near_complete.
  - apply in_enum. rewrite Nat.sub_0_r. split; [lia|exact Hm].
  - apply (proj2 (spot_candidate a b _ _ _ _ _ _ Down A B n m Hn Hm)). auto.
  - destruct (spot_ok _ _ _ _ A) as (Ba & Ba' & _), (spot_ok _ _ _ _ B) as (Bb & Bb' & _).
    apply (shrunk_iff _ _ X Y1 X Y2); auto; [right; lia|].
    intros t Lt Q. apply (spot_outside a X Y1 o t A Lt). lia.
  - intros b' m' I C. apply in_enum in I as [_ I]. rewrite Nat.sub_0_r in I. fold ns in I.
    destruct (nth_spot b' m' I) as (X' & Y' & S & H').
    pose proof (proj1 (spot_candidate a b' _ _ _ _ _ _ Down A S n m' Hn I) C) as ((E & L') & _). symmetry in E. rewrite E in *. clear E.
    destruct (Z.eq_dec Y' Y2) as [->|Ne].
    + left. destruct (spot_index b' b _ _ _ _ S B) as [-> _]. rewrite Hm in I. congruence.
    + right. cbn [before]. destruct Hb as [_ Hb], H' as [_ H']. rewrite (hv_lt _ _ _ _ Hb H').
      specialize (N b' Y' _ S). lia.
Qed.

Lemma step_right a b X1 X2 Y o u : spot ns a X1 Y o -> spot ns b X2 Y u -> X1 < X2 ->
  (o = None \/ o = Some Right) -> (u = None \/ u = Some Left) -> misses X1 Y X2 Y ->
  (forall c X w, spot ns c X Y w -> ~ X1 < X < X2) -> joined es a b.
Proof.
  intros A B L Co Cu M N. apply (rt_edges g R). apply neighbor_edge_iff.
  pose proof A as (n & Hn & Ha & Oa). pose proof B as (m & Hm & Hb & Ob).
  exists n, Right, m. split; [exact Hn|]. fold shrunk. apply near_complete.
  - apply in_enum. rewrite Nat.sub_0_r. split; [lia|exact Hm].
  - apply (proj2 (spot_candidate a b _ _ _ _ _ _ Right A B n m Hn Hm)). auto.
  - destruct (spot_ok _ _ _ _ A) as (Ba & Ba' & _), (spot_ok _ _ _ _ B) as (Bb & Bb' & _).
    apply (shrunk_iff _ _ X1 Y X2 Y); auto.
    intros t Lt Q. apply (spot_outside a X1 Y o t A Lt). lia.
  - intros b' m' I C. apply in_enum in I as [_ I]. rewrite Nat.sub_0_r in I. fold ns in I.
    destruct (nth_spot b' m' I) as (X' & Y' & S & H').
    pose proof (proj1 (spot_candidate a b' _ _ _ _ _ _ Right A S n m' Hn I) C) as ((E & L') & _). symmetry in E. rewrite E in *. clear E.
    destruct (Z.eq_dec X' X2) as [->|Ne].
    + left. destruct (spot_index b' b _ _ _ _ S B) as [-> _]. rewrite Hm in I. congruence.
    + right. cbn [before]. destruct Hb as [Hb _], H' as [H' _]. rewrite (hv_lt _ _ _ _ Hb H').
      specialize (N b' X' _ S). lia.
Qed.
End Lines.
End Doc.
