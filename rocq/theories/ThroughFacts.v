(** Where lines meet tables. *)
From Coq Require Import String List Arith NArith ZArith Reals Lia Lra Bool.
From Verif Require Import Base F32 Geometry Mir Erd Route Layout Parser Cli SpecF32 SpecLayout SpecRoute SpecGraph SpecThrough F32Facts GraphFacts
  LatticeFacts ConnectFacts OrderFacts DrawFacts PathFacts LinkFacts HubFacts CalmFacts EndFacts RepeatFacts.
Import ListNotations.
Local Open Scope Z_scope.

Section Doc.
Variables (d : document) (hs : list nat).
Hypothesis GD : grid_doc d hs.
Variable g : route_graph.
Hypothesis R : ConnectFacts.routes d hs g.

Lemma spot_middle i X Y o t : spot (rg_nodes g) i X Y o -> zl t < X < zl t + 600 -> X = zl t + 300.
Proof.
  intros S L. destruct (spot_ok d hs GD g R _ _ _ _ S) as (_ & _ & K). pose proof (zl_cases t) as Ct.
  assert (P : forall u X Y, port_at d u X Y -> zl t < X < zl t + 600 -> X = zl t + 300).
  { clear - Ct GD. intros u X Y P L. destruct (port_at_on d hs GD u X Y P) as (j & Lj & On). pose proof (zl_cases j).
    destruct u; unfold port_on in On; lia. }
  destruct o as [u|]; [now apply (P u X Y)|]. destruct K as [[C|(u & X' & Y' & Pu & Ry)] _].
  - destruct (corner_xs hs X Y C) as [Cx _]. pose proof (xs_cases hs X Cx). lia.
  - destruct u; unfold ray in Ry; destruct Ry as (-> & Q & _);
      first [now apply (P Up X' Y')|now apply (P Down X' Y')|pose proof (xs_cases hs X Q); lia].
Qed.

Lemma between x w X1 X2 s : (0 <= s <= 1)%R -> (IZR x < IZR X1 + s * (IZR X2 - IZR X1) < IZR x + IZR w)%R ->
  Z.min X1 X2 < x + w /\ x < Z.max X1 X2.
Proof.
  intros S [L U]. rewrite <- plus_IZR in U. split.
  - apply lt_IZR. eapply Rle_lt_trans; [|exact U]. destruct (Z.min_spec X1 X2) as [[Q ->]|[Q ->]];
      [apply Z.lt_le_incl, IZR_le in Q|apply IZR_le in Q]; nra.
  - apply lt_IZR. eapply Rlt_le_trans; [exact L|]. destruct (Z.max_spec X1 X2) as [[Q ->]|[Q ->]];
      [apply Z.lt_le_incl, IZR_le in Q|apply IZR_le in Q]; nra.
Qed.
Lemma steady x w X1 s : (IZR x < IZR X1 + s * (IZR X1 - IZR X1) < IZR x + IZR w)%R -> x < X1 < x + w.
Proof.
  replace (IZR X1 + s * (IZR X1 - IZR X1))%R with (IZR X1) by ring. rewrite <- plus_IZR. intros [A B]. split; now apply lt_IZR.
Qed.

Lemma edge_through a b X1 Y1 X2 Y2 o u t : joined (rg_edges g) a b -> spot (rg_nodes g) a X1 Y1 o -> spot (rg_nodes g) b X2 Y2 u ->
  (t < length hs)%nat -> enters (zl t) (zt hs t) 600 (zb hs t - zt hs t) X1 Y1 X2 Y2 ->
  down_the_middle (zl t) (zt hs t) 600 (zb hs t - zt hs t) X1 Y1 X2 Y2 \/ side_to_side (zl t) (zt hs t) 600 (zb hs t - zt hs t) X1 Y1 X2 Y2.
Proof.
  intros J A B L (s & S & Ex & Ey).
  pose proof (spot_outside d hs GD g R a _ _ _ t A L) as Oa. pose proof (spot_outside d hs GD g R b _ _ _ t B L) as Ob.
  assert (E : X1 = X2 \/ Y1 = Y2) by (destruct (edge_straight d hs g R a b _ _ _ _ _ _ J A B) as [Q|[Q|Q]]; lia).
  unfold down_the_middle, side_to_side. destruct E as [<-|<-]; [left|right].
  - pose proof (between _ _ _ _ _ S Ey). apply steady in Ex. pose proof (spot_middle a _ _ _ t A Ex). lia.
  - pose proof (between _ _ _ _ _ S Ex). apply steady in Ey. lia.
Qed.

End Doc.

Theorem through_tables m vb g d : fits (table_rows m) -> layout_module m = Ret (vb, g, d) ->
  forall e l1 p q l2 X1 Y1 X2 Y2 r x y w h, In e (d_edges d) -> e_path e = Some (l1 ++ p :: q :: l2) -> hpoint p X1 Y1 -> hpoint q X2 Y2 ->
  table_rect d r -> hrect r x y w h -> enters x y w h X1 Y1 X2 Y2 ->
  down_the_middle x y w h X1 Y1 X2 Y2 \/ side_to_side x y w h X1 Y1 X2 Y2.
Proof.
  intros F L e l1 p q l2 X1 Y1 X2 Y2 r x y w h I Ep Hp Hq T Hr En.
  destruct (module_cheapest m vb g d F L e I) as (s & t & l & ps & _ & _ & Ep' & Pl & ((_ & _ & a & b & _ & _ & _ & _ & W) & _)).
  rewrite Ep in Ep'. injection Ep' as <-.
  destruct (layout_routes m vb g d F L) as (d0 & M & V & D & R). pose proof (module_grid m d0 M F) as GD.
  apply Forall2_app_inv_r in Pl as (k1 & k2 & _ & Pl & ->).
  inversion Pl as [|i p0 k3 ps3 (n & Hn & En1) Pl1]; clear Pl. inversion Pl1 as [|j q0 k4 ps4 (n' & Hn' & En2) Pl2]; clear Pl1. subst.
  pose proof (walk_adjacent _ _ _ _ _ _ _ _ W eq_refl) as J.
  apply draw_split in D as (_ & N & _).
  set (d2 := place_terminal_ports (fst (place_nodes d0))) in *.
  assert (T' : table_rect d2 r) by (destruct T as (i' & n1 & Ib & Gi & Ri); exists i', n1; unfold body_children, get_node in *; rewrite N in Ib, Gi; auto).
  destruct (gd_rect _ _ GD r T') as (tb & Lt & Hr'). destruct Hr as ([Hx Hy] & Hw & Hh), Hr' as ([Hx' Hy'] & Hw' & Hh').
  rewrite (hv_unique _ _ _ Hx Hx'), (hv_unique _ _ _ Hy Hy'), (hv_unique _ _ _ Hw Hw'), (hv_unique _ _ _ Hh Hh') in *.
  apply (edge_through _ _ GD g R i j X1 Y1 X2 Y2 (rn_orient n) (rn_orient n') tb J); auto; [exists n|exists n']; auto.
Qed.

(** Cheapest walks visit no node twice when every edge costs something. *)
Lemma walk_tail es (cost : nat -> nat -> N) b c l x : walk es b c l -> In x l -> exists l', walk es x c l' /\ (walk_cost cost l' <= walk_cost cost l)%N.
Proof.
  induction 1 as [a|a b c l J W IH]; intros I.
  - destruct I as [<-|[]]. exists [a]. split; [constructor|lia].
  - destruct I as [<-|I]; [exists (a :: l); split; [now apply (walk_step _ a b)|lia]|].
    destruct (IH I) as (l' & W' & C). exists l'. split; [exact W'|].
    destruct (walk_head _ _ _ _ W) as (l2 & ->). cbn [walk_cost] in *. lia.
Qed.
Lemma cheapest_once es (cost : nat -> nat -> N) a b l : (forall x y, joined es x y -> (0 < cost x y)%N) -> walk es a b l ->
  (forall l', walk es a b l' -> (walk_cost cost l <= walk_cost cost l')%N) -> NoDup l.
Proof.
  intros P. induction 1 as [a|a b c l J W IH]; intros Min; [repeat constructor; intros []|].
  destruct (walk_head _ _ _ _ W) as (l2 & ->). constructor.
  - intros I. destruct (walk_tail _ cost _ _ _ _ W I) as (l' & W' & C). specialize (Min _ W'). specialize (P _ _ J). cbn [walk_cost] in *. lia.
  - apply IH. intros l' W'. specialize (Min _ (walk_step _ a b c l' J W')). destruct (walk_head _ _ _ _ W') as (l3 & ->). cbn [walk_cost] in *. lia.
Qed.

Theorem no_point_twice m vb g d : fits (table_rows m) -> layout_module m = Ret (vb, g, d) ->
  forall e ps i j p q, In e (d_edges d) -> e_path e = Some ps -> nth_error ps i = Some p -> nth_error ps j = Some q ->
  same_place p q -> i = j.
Proof.
  intros F L e ps i j p q I Ep Hi Hj E.
  destruct (module_cheapest m vb g d F L e I) as (s & t & l & ps' & _ & _ & Ep' & Pl & ((x & y & a & b & Ix & Iy & Sa & Sb & W) & Min)).
  rewrite Ep in Ep'. injection Ep' as <-.
  destruct (layout_routes m vb g d F L) as (d0 & M & V & D & R).
  assert (ND : NoDup l).
  { apply (cheapest_once (rg_edges g) (rg_cost (rg_nodes g)) a b l); [|exact W|].
    - apply (edge_dear _ _ (module_ends m d0 M F) g R).
    - intros l' W'. exact (Min _ _ _ _ _ Ix Iy Sa Sb W'). }
  destruct (forall2_nth_r _ _ _ Pl i _ Hi) as (a1 & Ha & n & Hn & E1). destruct (forall2_nth_r _ _ _ Pl j _ Hj) as (b1 & Hb & n' & Hn' & E2).
  assert (a1 = b1).
  { subst p q. destruct (nth_spot _ _ g R a1 n Hn) as (X & Y & S & H). destruct (nth_spot _ _ g R b1 n' Hn') as (X' & Y' & S' & H').
    destruct E as [E1 E2], H as [H1 H2], H' as [H1' H2'].
    rewrite (hv_feq _ _ _ _ H1 H1') in E1. rewrite (hv_feq _ _ _ _ H2 H2') in E2. apply Z.eqb_eq in E1, E2. subst X' Y'.
    exact (proj1 (spot_index _ _ g R a1 b1 _ _ _ _ S S')). }
  subst b1. apply (proj1 (NoDup_nth_error l) ND i j); [apply nth_error_Some|]; congruence.
Qed.

(** ** Samples *)

(** Seven tables in three rows; the first and the last are related, and the
    table between them is crossed from top to bottom. *)
Definition tower : module :=
  mkModule None (map (fun s => EDef (mkEntity (lit s) [mkField (lit "x") TInt None])) ["a"; "b"; "c"; "d"; "e"; "f"; "g"]%string ++
                 [ERel (mkRelation (PEntity (lit "a")) (PEntity (lit "g")))]).
