(** Upward no table is in the way, as the program sees it. *)
From Coq Require Import String List Arith NArith ZArith Bool Lia SpecFloat.
From Verif Require Import Base F32 Geometry Mir Erd Heap Route Layout Parser Cli SpecMir SpecF32 SpecGeom SpecLayout SpecRoute SpecGraph SpecSight
  F32Facts GeomFacts SearchFacts MirFacts GridFacts LayoutFacts RenderFacts PipelineFacts GraphFacts PathFacts LatticeFacts ConnectFacts HubFacts DrawFacts
  ThroughFacts SightFacts.
Import ListNotations.
Local Open Scope Z_scope.

Theorem upward_in_sight m vb g d : fits (table_rows m) -> layout_module m = Ret (vb, g, d) ->
  forall a b n k, nth_error (rg_nodes g) a = Some n -> nth_error (rg_nodes g) b = Some k ->
  straight Up (rn_loc n) (rn_loc k) -> in_sight d (rn_loc n) (rn_loc k).
Proof.
  intros F L a b n k Hn Hk [Sx Sy] r T. destruct (layout_routes m vb g d F L) as (d0 & M & V & D & R).
  pose proof (module_grid m d0 M F) as GD. apply draw_split in D as (_ & N & _).
  apply (table_rects_same _ _ r N) in T. clear N.
  set (d2 := place_terminal_ports (fst (place_nodes d0))) in *. set (hs := table_rows m) in *.
  destruct (nth_spot d2 hs g R a n Hn) as (X1 & Y1 & A & Ha). destruct (nth_spot d2 hs g R b k Hk) as (X2 & Y2 & B & Hb).
  pose proof Ha as [Hx1 Hy1]. pose proof Hb as [Hx2 Hy2].
  rewrite (hv_feq _ _ _ _ Hx2 Hx1) in Sx. rewrite (hv_lt _ _ _ _ Hy2 Hy1) in Sy. apply Z.eqb_eq in Sx. apply Z.ltb_lt in Sy. subst X2.
  destruct (spot_ok d2 hs GD g R _ _ _ _ A) as (Ba & Ba' & _). destruct (spot_ok d2 hs GD g R _ _ _ _ B) as (Bb & Bb' & _).
  pose proof (zh_le d2 hs GD) as Zh. assert (Hv1 : hv (f32_of_Z 1) 2) by (apply (hv_of_Z 1); lia).
  destruct (gd_rect d2 hs GD r T) as (t & Lt & Hr). pose proof (table_bounds d2 hs GD t Lt) as Bt.
  pose proof (grown_rect d2 hs GD 2 r t Lt Hr ltac:(lia) _ Hv1) as G.
  pose proof (hrect_box_window 0 _ _ _ _ _ G ltac:(unfold M24; lia) ltac:(unfold window, M24 in *; lia) ltac:(unfold window, M24 in *; lia)) as Gb.
  rewrite (intersects_exact 0 _ _ _ _ _ _ _ _ _ _ _ Gb Ha Hb); try (unfold window, M24 in *; lia).
  pose proof (spot_outside d2 hs GD g R a _ _ _ t A Lt) as Oa. pose proof (spot_outside d2 hs GD g R b _ _ _ t B Lt) as Ob.
  pose proof (spot_middle d2 hs GD g R a _ _ _ t A) as Mi.
  apply not_true_iff_false. intros Q. unfold zexit, zmeets in Q. rewrite Z.ltb_irrefl in Q. apply andb_prop in Q as [Q1 Q2].
  rewrite !andb_true_iff, !Z.leb_le in Q1. rewrite negb_true_iff, !andb_false_iff, !Z.ltb_ge in Q2. lia.
Qed.

Theorem upward_nearest m vb g d : fits (table_rows m) -> layout_module m = Ret (vb, g, d) ->
  forall a n b k, nth_error (rg_nodes g) a = Some n -> picked d (rg_nodes g) Up n b k ->
  forall c l, nth_error (rg_nodes g) c = Some l -> in_line Up n l -> ~ sooner Up (rn_loc l) (rn_loc k).
Proof.
  intros F L a n b k Hn [P H] c l Hl I S.
  assert (Cl : contender d (rg_nodes g) Up n c l).
  { split; [exact Hl|]. split; [exact I|]. left. apply (upward_in_sight m vb g d F L a c n l Hn Hl). apply I. }
  destruct (H c l Cl) as [H1 H2]. destruct (lt_eq_lt_dec c b) as [[Q|Q]|Q].
  - exact (sooner_asym _ _ _ (H1 Q) S).
  - subst c. destruct P as (Hb & _). rewrite Hl in Hb. injection Hb as <-. exact (sooner_asym _ _ _ S S).
  - exact (H2 Q S).
Qed.
