(** Layout of a module within the exact range never fails. *)
From Coq Require Import List Arith NArith ZArith Bool Lia SpecFloat.
From Verif Require Import Base F32 Geometry Mir Erd Heap Route Layout Cli SpecMir SpecF32 SpecGeom SpecLayout SpecRoute SpecGraph
  F32Facts GeomFacts SearchFacts MirFacts GridFacts LayoutFacts RenderFacts PipelineFacts GraphFacts PathFacts LatticeFacts ConnectFacts HubFacts.
Import ListNotations.
Local Open Scope Z_scope.

Lemma walk_nodes n es a b l : within n es -> walk es a b l -> (a < n)%nat -> forall x, In x l -> (x < n)%nat.
Proof.
  intros H W. induction W as [a|a b c l J W IH]; intros A x Ix.
  - now destruct Ix as [<-|[]].
  - destruct Ix as [<-|Ix]; [exact A|]. apply IH; [|exact Ix]. destruct J as [J|J]; apply H in J; lia.
Qed.

Section Doc.
Variables (d : document) (hs : list nat).
Hypothesis GD : grid_doc d hs.
Variable g : route_graph.
Hypothesis R : routes d hs g.

Lemma straight_spots a b : In (a, b) (rg_edges g) -> exists X1 Y1 X2 Y2 o u,
  spot (rg_nodes g) a X1 Y1 o /\ spot (rg_nodes g) b X2 Y2 u /\ (X1 = X2 \/ Y1 = Y2).
Proof.
  intros I. destruct (ok_straight g (rt_ok d hs g R) a b I) as (n & m & Hn & Hm & w & S & _).
  destruct (nth_spot d hs g R a n Hn) as (X1 & Y1 & A & Ha). destruct (nth_spot d hs g R b m Hm) as (X2 & Y2 & B & Hb).
  exists X1, Y1, X2, Y2, (rn_orient n), (rn_orient m). split; [exact A|]. split; [exact B|].
  destruct Ha as [Hx Hy], Hb as [Hx' Hy'].
  destruct w, S as [S _]; rewrite ?(hv_feq _ _ _ _ Hx' Hx), ?(hv_feq _ _ _ _ Hy' Hy) in S; lia.
Qed.

Lemma edge_cost_le a b : joined (rg_edges g) a b -> Z.of_N (rg_cost (rg_nodes g) a b) <= 1160 + zh hs.
Proof.
  intros J. assert (X : exists X1 Y1 X2 Y2 o u, spot (rg_nodes g) a X1 Y1 o /\ spot (rg_nodes g) b X2 Y2 u /\ (X1 = X2 \/ Y1 = Y2)).
  { destruct J as [J|J]; [now apply straight_spots|]. destruct (straight_spots b a J) as (X1 & Y1 & X2 & Y2 & o & u & A & B & E).
    exists X2, Y2, X1, Y1, u, o. split; [exact B|]. split; [exact A|]. lia. }
  destruct X as (X1 & Y1 & X2 & Y2 & o & u & A & B & E). rewrite (spot_cost d hs GD g R a b _ _ _ _ _ _ A B E).
  destruct (spot_ok d hs GD g R _ _ _ _ A) as (B1 & B2 & _). destruct (spot_ok d hs GD g R _ _ _ _ B) as (B3 & B4 & _).
  rewrite Z2N.id by (apply Z.div_pos; lia).
  assert (H : (Z.abs (X1 - X2) + Z.abs (Y1 - Y2)) / 2 <= (2 * (1160 + zh hs)) / 2) by (apply Z.div_le_mono; lia).
  rewrite Z.mul_comm, Z.div_mul in H by lia. exact H.
Qed.

Theorem search_returns a b X Y X' Y' o u : spot (rg_nodes g) a X Y (Some o) -> spot (rg_nodes g) b X' Y' (Some u) ->
  exists c l, compute_shortest_path g a b = Ret (c, l) /\ Z.of_N c <= zh hs + 1600.
Proof.
  intros A B. destruct (ports_conn d hs GD g R a b _ _ _ _ _ _ A B) as [(l & W & C) _].
  assert (La : (a < length (rg_nodes g))%nat).
  { destruct A as (n & Hn & _). apply nth_error_Some. congruence. }
  pose proof (shortest_path_cases g a b (straight_within g (ok_straight g (rt_ok d hs g R))) La) as S.
  pose proof (zh_le d hs GD) as Zh.
  destruct (compute_shortest_path g a b) as [[c k]|q].
  - exists c, k. split; [reflexivity|]. destruct S as (_ & _ & _ & M). specialize (M l W). lia.
  - exfalso. destruct q; try exact S.
    + exact (S l W).
    + destruct S as (x & w & J & k & _ & O & M). specialize (M l W). pose proof (edge_cost_le x w J) as E.
      unfold M24 in Zh. change u32_max with 4294967295%N in O. lia.
Qed.

Lemma ends_spot p : end_port d p -> exists i X Y, rg_get_port g (port_ident p) = Some i /\
  spot (rg_nodes g) i X Y (Some (port_orientation p)).
Proof.
  intros E. destruct (gd_port d hs GD p E) as (i & X & Y & _ & H & _).
  destruct (rt_port d hs g R p X Y E H) as (k & G & S). eauto.
Qed.

Lemma try_returns s t e p q st : In e (d_edges d) -> get_node d (e_source e) = Some s -> get_node d (e_target e) = Some t ->
  In p (n_ports s) -> In q (n_ports t) -> (snd st = None -> fst st = u32_max) ->
  exists st', try_pair g st (p, q) = Ret st' /\ exists l, snd st' = Some l.
Proof.
  intros Ie Es Et Ip Iq Q. destruct st as [c0 best]. unfold try_pair. cbn [fst snd] in *.
  destruct (ends_spot p) as (a & X & Y & -> & A); [exists e, (e_source e), s; auto|].
  destruct (ends_spot q) as (b & X' & Y' & -> & B); [exists e, (e_target e), t; auto|].
  destruct (search_returns _ _ _ _ _ _ _ _ A B) as (c & l & -> & C). cbn [bind].
  destruct (N.ltb_spec c c0) as [L|L]; [eexists; split; [reflexivity|cbn; eauto]|].
  eexists. split; [reflexivity|]. cbn. destruct best as [k|]; [eauto|]. exfalso. specialize (Q eq_refl). subst c0.
  pose proof (zh_le d hs GD) as Zh. unfold M24 in Zh. change u32_max with 4294967295%N in L. lia.
Qed.

Lemma pairs_return s t e : In e (d_edges d) -> get_node d (e_source e) = Some s -> get_node d (e_target e) = Some t ->
  forall l st, (forall p q, In (p, q) l -> In p (n_ports s) /\ In q (n_ports t)) -> (snd st = None -> fst st = u32_max) ->
  l <> [] \/ snd st <> None ->
  exists st', foldM (try_pair g) l st = Ret st' /\ exists k, snd st' = Some k.
Proof.
  intros Ie Es Et. induction l as [|[p q] l IH]; intros st F Q N; cbn [foldM].
  - exists st. split; [reflexivity|]. destruct (snd st) as [k|]; [eauto|]. destruct N; congruence.
  - destruct (F p q (or_introl eq_refl)) as [Ip Iq].
    destruct (try_returns s t e p q st Ie Es Et Ip Iq Q) as (st1 & -> & k & K). cbn [bind].
    apply IH; [intros; apply F; now right|congruence|right; congruence].
Qed.

Lemma locations_return l : (forall i, In i l -> (i < length (rg_nodes g))%nat) -> exists ps, locations (rg_nodes g) l = Ret ps.
Proof.
  induction l as [|i l IH]; intros F; cbn; [eauto|].
  destruct (nth_error (rg_nodes g) i) as [n|] eqn:E; [|apply nth_error_None in E; specialize (F i (or_introl eq_refl)); lia].
  destruct IH as (ps & ->); [intros; apply F; now right|]. cbn [bind]. eauto.
Qed.

Lemma edge_returns e : In e (d_edges d) -> exists ps, find_edge_path g d e = Ret (Some ps).
Proof.
  intros Ie. destruct (gd_ends d hs GD e Ie) as (s & t & Es & Et & Ns & Nt). unfold find_edge_path. rewrite Es, Et.
  destruct (pairs_return s t e Ie Es Et (port_pairs s t) (u32_max, None)) as ([c best] & F & l & L).
  - intros p q. apply in_port_pairs.
  - reflexivity.
  - left. destruct (n_ports s) as [|p ?] eqn:Ps; [congruence|]. destruct (n_ports t) as [|q ?] eqn:Pt; [congruence|].
    assert (I : In (p, q) (port_pairs s t)) by (apply in_port_pairs; rewrite Ps, Pt; split; now left).
    intros E. rewrite E in I. destruct I.
  - rewrite F. cbn [bind]. rewrite L. cbn [snd] in L. subst best.
    pose proof (straight_within g (ok_straight g (rt_ok d hs g R))) as Wi.
    destruct (pairs_ok g Wi (rt_ports d hs g R) _ _ _ F) as (_ & _ & [C|(pq & w & _ & Q & (a & b & Ga & _ & W) & _)]); [discriminate|].
    cbn in Q. injection Q as <-.
    destruct (locations_return l) as (ps & ->); [|cbn [bind]; eauto].
    intros i Ii. exact (walk_nodes _ _ _ _ _ Wi W (rt_ports d hs g R _ _ Ga) i Ii).
Qed.

Lemma paths_return es : (forall e, In e es -> In e (d_edges d)) -> exists ps, find_paths g d es = Ret ps /\ length ps = length es.
Proof.
  induction es as [|e es IH]; intros F; cbn; [eauto|].
  destruct (edge_returns e (F e (or_introl eq_refl))) as (p & ->). cbn [bind].
  destruct IH as (ps & -> & L); [intros; apply F; now right|]. cbn [bind]. exists (p :: ps). cbn. auto.
Qed.
Lemma assign_return es : forall ps, length ps = length es -> exists r, assign_paths es ps = Ret r.
Proof.
  induction es as [|e es IH]; intros [|p ps] L; cbn in *; try discriminate; [eauto|].
  destruct (IH ps) as (r & ->); [lia|]. cbn [bind]. eauto.
Qed.

Theorem draw_returns : exists d', draw_edge_path rg_new d = Ret (g, d').
Proof.
  unfold draw_edge_path. rewrite (rt_build d hs g R). cbn [bind].
  destruct (paths_return (d_edges d)) as (ps & -> & L); [auto|]. cbn [bind].
  destruct (assign_return (d_edges d) ps L) as (r & ->). cbn [bind]. eauto.
Qed.
End Doc.

Lemma grid_routes m d : into_mir m = Ret d -> fits (table_rows m) -> exists g,
  routes (place_terminal_ports (fst (place_nodes d))) (table_rows m) g.
Proof. intros M F. exact (routes_exist _ _ (module_grid m d M F)). Qed.

Theorem routes_built m d : into_mir m = Ret d -> fits (table_rows m) -> exists g,
  build_routes rg_new (place_terminal_ports (fst (place_nodes d))) = Ret g.
Proof. intros M F. destruct (grid_routes m d M F) as (g & R). exists g. apply (rt_build _ _ _ R). Qed.

Theorem layout_returns m : fits (table_rows m) -> exists vb g d, layout_module m = Ret (vb, g, d) /\
  (forall e, In e (d_edges d) -> exists p ps, e_path e = Some (p :: ps)).
Proof.
  intros F. destruct (into_mir_returns m) as (d0 & M & _). destruct (grid_routes m d0 M F) as (g & R).
  destruct (draw_returns _ _ (module_grid m d0 M F) g R) as (d' & D).
  assert (L : layout_module m = Ret (snd (place_nodes d0), g, d')).
  { unfold layout_module. rewrite M. cbn [bind]. rewrite (surjective_pairing (place_nodes d0)). rewrite D. reflexivity. }
  exists (snd (place_nodes d0)), g, d'. split; [exact L|]. intros e I.
  destruct (module_rectilinear m _ _ _ L e I) as (s & t & ps & _ & _ & E & N & _). destruct ps as [|p ps]; [congruence|eauto].
Qed.

Lemma layout_routes m vb g d : fits (table_rows m) -> layout_module m = Ret (vb, g, d) -> exists d0,
  into_mir m = Ret d0 /\ vb = snd (place_nodes d0) /\
  draw_edge_path rg_new (place_terminal_ports (fst (place_nodes d0))) = Ret (g, d) /\
  routes (place_terminal_ports (fst (place_nodes d0))) (table_rows m) g.
Proof.
  intros F L. destruct (layout_split m vb g d L) as (d0 & M & V & D). exists d0. split; [exact M|]. split; [exact V|]. split; [exact D|].
  destruct (grid_routes m d0 M F) as (g' & R). apply draw_split in D as (B & _). rewrite (rt_build _ _ _ R) in B. congruence.
Qed.

(** The ports of the ends of the edges are the same after drawing. *)
Lemma drawn_end g d g' d' p : draw_edge_path g d = Ret (g', d') -> end_port d' p -> end_port d p.
Proof.
  intros D (e' & i & n & I & E & G & J). destruct (draw_split _ _ _ _ D) as (_ & N & F).
  assert (X : exists e, In e (d_edges d) /\ same_ends e e').
  { clear -F I. induction F as [|a b l l' R F IH]; [destruct I|]. destruct I as [<-|I].
    - exists a. split; [now left|apply R].
    - destruct (IH I) as (e & J & R'). exists e. split; [now right|exact R']. }
  destruct X as (e & Ie & E1 & E2). exists e, i, n. unfold get_node in *. rewrite <- N, <- E1, <- E2. auto.
Qed.

Theorem searches_cheap m vb g d : fits (table_rows m) -> layout_module m = Ret (vb, g, d) ->
  forall p q, end_port d p -> end_port d q -> exists a b c l,
  rg_get_port g (port_ident p) = Some a /\ rg_get_port g (port_ident q) = Some b /\
  compute_shortest_path g a b = Ret (c, l) /\ Z.of_N c <= 2 * total_height (table_rows m) + 1600.
Proof.
  intros F L p q Ep Eq. destruct (layout_routes m vb g d F L) as (d0 & M & _ & D & R).
  pose proof (drawn_end _ _ _ _ _ D Ep) as Ep'. pose proof (drawn_end _ _ _ _ _ D Eq) as Eq'.
  pose proof (module_grid m d0 M F) as GD.
  destruct (ends_spot _ _ GD g R p Ep') as (a & X & Y & Ga & A). destruct (ends_spot _ _ GD g R q Eq') as (b & X' & Y' & Gb & B).
  destruct (search_returns _ _ GD g R _ _ _ _ _ _ _ _ A B) as (c & l & S & C).
  exists a, b, c, l. repeat split; auto.
Qed.

Lemma walk_listed es a b l x : walk es a b l -> In x l -> x = a \/ exists y, joined es y x.
Proof.
  intros W. induction W as [a|a c b l J W IH]; intros [<-|I]; auto; [destruct I|].
  destruct (IH I) as [->|Y]; eauto.
Qed.

Theorem paths_inside m vb g d : fits (table_rows m) -> layout_module m = Ret (vb, g, d) ->
  forall e ps p, In e (d_edges d) -> e_path e = Some ps -> In p ps -> exists X Y,
  hpoint p X Y /\ 20 <= X <= 2 * 1160 - 20 /\ 20 <= Y <= 2 * total_height (table_rows m) - 20 /\
  exact_rect vb 0 0 1160 (total_height (table_rows m)) /\ contains_point vb p = true.
Proof.
  intros F L e ps p I E J. destruct (layout_routes m vb g d F L) as (d0 & M & V & D & R).
  pose proof (module_grid m d0 M F) as GD.
  destruct (drawn_path _ _ _ _ engine_new D (module_named m d0 M) e I) as (s & t & ps' & l & Es & Et & Ep & Pl & _).
  rewrite E in Ep. injection Ep as <-.
  assert (X : exists i n, nth_error (rg_nodes g) i = Some n /\ rn_loc n = p).
  { clear -Pl J. induction Pl as [|i q l ps (n & Hn & En) Pl IH]; [destruct J|]. destruct J as [<-|J]; [eauto|auto]. }
  destruct X as (i & n & Hn & <-). destruct (nth_spot _ _ g R i n Hn) as (X & Y & S & H).
  exists X, Y. split; [exact H|].
  assert (B : 20 <= X <= 2300 /\ 20 <= Y <= zh (table_rows m) - 20).
  { destruct (spot_ok _ _ GD g R _ _ _ _ S) as (_ & _ & K). destruct (rn_orient n) as [o|].
    - destruct (port_at_on _ _ GD _ _ _ K) as (j & Lj & On). pose proof (port_bounds _ _ GD j o X Y Lj On).
      pose proof (table_bounds _ _ GD j Lj). pose proof (zl_cases j). destruct o; unfold port_on in On; lia.
    - exact (junction_bounds _ _ GD _ _ K). }
  unfold zh in B. split; [lia|]. split; [lia|].
  assert (Ne : table_rows m <> []).
  { intros Z. apply layout_split in L as (d1 & M1 & _ & D1). rewrite M in M1. injection M1 as <-.
    destruct (draw_split _ _ _ _ D1) as (_ & _ & F2). destruct (spot_ok _ _ GD g R _ _ _ _ S) as (_ & _ & K).
    destruct (rn_orient n) as [o|].
    - destruct (port_at_on _ _ GD _ _ _ K) as (j & Lj & _). rewrite Z in Lj. cbn in Lj. lia.
    - destruct K as [[(j & Lj & _)|(o & X' & Y' & P & _)] _]; [rewrite Z in Lj; cbn in Lj; lia|].
      destruct (port_at_on _ _ GD _ _ _ P) as (j & Lj & _). rewrite Z in Lj. cbn in Lj. lia. }
  destruct (view_box m d0 _ vb M ltac:(rewrite V; apply surjective_pairing) F Ne) as (Bx & _).
  split; [exact Bx|].
  pose proof (gd_fits _ _ GD) as Ft. unfold fits in Ft.
  apply (proj2 (contains_rect vb 0 0 (2 * 1160) (2 * total_height (table_rows m)) (rn_loc n) X Y Bx H
    ltac:(unfold M24; lia) ltac:(pose proof (zh_le _ _ GD); pose proof (table_bounds _ _ GD); unfold zh, M24 in *; lia))).
  lia.
Qed.

Theorem module_cheapest m vb g d : fits (table_rows m) -> layout_module m = Ret (vb, g, d) ->
  forall e, In e (d_edges d) -> exists s t l ps,
  get_node d (e_source e) = Some s /\ get_node d (e_target e) = Some t /\
  e_path e = Some ps /\ places g l ps /\ best_route g s t l.
Proof.
  intros F L e I. destruct (layout_routes m vb g d F L) as (d0 & M & V & D & R).
  pose proof (module_grid m d0 M F) as GD.
  pose proof (drawn_cheapest _ _ _ _ engine_new D (module_named m d0 M)) as C.
  apply draw_split in D as (_ & N & _). unfold get_node in *. rewrite N. apply C; [|exact I].
  intros p E. destruct (gd_port _ _ GD p E) as (i & X & Y & _ & H & _). eapply hpoint_proper, H.
Qed.
