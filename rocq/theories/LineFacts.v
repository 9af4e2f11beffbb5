(** Horizontal lines of the routing graph. *)
From Coq Require Import List Arith NArith ZArith Bool Lia SpecFloat Classical_Prop.
From Verif Require Import Base F32 Geometry Mir Erd Heap Route Layout SpecMir SpecF32 SpecGeom SpecLayout SpecRoute SpecGraph
  F32Facts GeomFacts SearchFacts MirFacts GridFacts LayoutFacts RenderFacts PipelineFacts GraphFacts PathFacts LatticeFacts
  ConnectFacts HubFacts OrderFacts RowFacts.
Import ListNotations.
Local Open Scope Z_scope.

Section Doc.
Variables (d : document) (hs : list nat).
Hypothesis FD : end_doc d hs.
Let GD := ed_grid d hs FD.
Variable g : route_graph.
Hypothesis R : routes d hs g.
Let ns := rg_nodes g.
Let es := rg_edges g.

(** ** Order of the nodes on a line *)

Lemma kept_corridor p X Y : corridor X -> 0 <= Y <= M24 -> hpoint p X Y ->
  negb (existsb (fun r => contains_point r p)
     (map (fun r => inset_by r (fneg (fsub SHAPE_JUNCTION_MARGIN (f32_of_Z 1))) (fneg (fsub SHAPE_JUNCTION_MARGIN (f32_of_Z 1)))) (shape_rects d))) = true.
Proof.
  intros C B H. apply (kept_iff d hs GD p X Y H); [unfold corridor, M24 in *; lia|exact B|now apply corridor_clear].
Qed.
Lemma spot_range i X Y o : spot ns i X Y o -> 0 <= Y <= M24.
Proof. intros A. destruct (spot_ok d hs GD g R _ _ _ _ A) as (_ & B & _). pose proof (zh_le d hs GD). lia. Qed.

Definition crossing : list point :=
  flat_map (fun e => flat_map (fun p => junctions_from_port d p (junctions_around_shapes d)) (edge_end_ports d e)) (d_edges d).

Lemma order_by X Y X' i j : corridor X -> spot ns i X Y None -> spot ns j X' Y None ->
  preceded (fun p => hpoint p X Y) (fun p => hpoint p X' Y) (junctions_around_shapes d ++ crossing) -> (i < j)%nat.
Proof.
  intros C A B P. apply (junction_order d hs g R i j X Y X' Y A B). unfold edge_junctions, remove_overlapped.
  apply preceded_filter; [|exact P]. intros x _ H. apply (kept_corridor x X Y C); [eapply spot_range; exact A|exact H].
Qed.

(** Corners before the junctions below ports. *)
Lemma corner_first X Y c i j : corner hs X Y -> column c -> spot ns i X Y None -> spot ns j (c + 300) Y None -> (i < j)%nat.
Proof.
  intros C Cc A B. destruct (corner_xs hs X Y C) as [Cx _]. apply (order_by X Y (c + 300) i j); auto; [now apply (xs_corridor hs)|].
  apply preceded_after.
  - apply preceded_none. intros p I H. destruct (around_in d hs GD p I) as (x & y & H' & C').
    destruct (hpoint_unique _ _ _ _ _ H H') as [<- _]. destruct (corner_xs hs _ _ C') as [Cx' _]. pose proof (xs_cases hs _ Cx').
    unfold column in Cc. lia.
  - apply (around_all d hs GD X Y C).
Qed.

(** On a line that crosses the middle column: right corners before left ones. *)
Lemma right_corner_first Y i j : line hs 100 Y -> ~ free hs 860 Y -> spot ns i 780 Y None -> spot ns j 20 Y None -> (i < j)%nat.
Proof.
  intros L N A B. apply (order_by 780 Y 20 i j); auto; [unfold corridor; auto|]. apply preceded_after.
  - unfold junctions_around_shapes. apply preceded_flat_map. intros r Ir. apply in_shape_rects in Ir.
    destruct (gd_rect d hs GD r Ir) as (t & Lt & Hr). destruct (grown_box d hs GD r t Lt Hr) as ((H1 & H2 & H3 & H4) & O).
    cbn zeta in *. set (b := inset_by r (fneg SHAPE_JUNCTION_MARGIN) (fneg SHAPE_JUNCTION_MARGIN)) in *. rewrite O.
    pose proof (zl_cases t) as Zt. intros l1 q l2 E Q.
    destruct l1 as [|a1 [|a2 [|a3 [|a4 l1]]]]; cbn in E.
    + injection E as E _. subst q. destruct Q as [Qx Qy]. cbn in Qx, Qy. exfalso. apply N.
      pose proof (hv_unique _ _ _ Qy H2) as Ey. intros s Ls Es. pose proof (table_bounds d hs GD s Ls). pose proof (table_bounds d hs GD t Lt).
      destruct (rows_apart hs s t) as [[Z _]|[Z|Z]]; lia.
    + injection E as _ E _. subst q. destruct Q as [Qx Qy]. cbn in Qx. pose proof (hv_unique _ _ _ Qx H3). lia.
    + injection E as _ _ E _. subst q. destruct Q as [Qx Qy]. cbn in Qx. pose proof (hv_unique _ _ _ Qx H3). lia.
    + injection E as _ _ E3 E4 _. subst q a3. destruct Q as [Qx Qy]. cbn in Qx, Qy.
      pose proof (hv_unique _ _ _ Qx H1) as Ex. eexists. split; [right; right; left; reflexivity|].
      split; cbn; [replace 780 with (zl t + 680) by lia; exact H3|exact Qy].
    + destruct l1; discriminate.
  - apply (around_all d hs GD 780 Y). apply (line_corner hs 100 Y L).
Qed.

(** The same on the lines of ends. *)
Lemma right_ray_first Y i j : odd hs Y -> ~ rel d hs 860 Y -> ~ free hs 860 Y ->
  spot ns i 780 Y None -> spot ns j 20 Y None -> (i < j)%nat.
Proof.
  intros O Nr Nf A B. apply (order_by 780 Y 20 i j); auto; [unfold corridor; auto|]. apply preceded_app.
  - apply preceded_none. intros p I H. destruct (around_in d hs GD p I) as (x & y & H' & C').
    destruct (hpoint_unique _ _ _ _ _ H H') as [_ <-]. destruct (corner_xs hs _ _ C') as [_ Cy].
    exact (O Cy).
  - apply preceded_flat_map. intros e Ie. unfold edge_end_ports.
    assert (Q : forall i n, i = e_source e \/ i = e_target e -> get_node d i = Some n ->
      preceded (fun p => hpoint p 780 Y) (fun p => hpoint p 20 Y) (flat_map (fun p => junctions_from_port d p (junctions_around_shapes d)) (n_ports n))).
    { intros id n Ei G. destruct (ed_end d hs FD e id n Ie Ei G) as (a & K & F). pose proof (proj1 K) as L. set (t := tab a) in *.
      assert (Er : end_at d hs a) by (exists e, id, n; repeat split; auto; apply K).
      assert (P : forall o p, In p (n_ports n) -> port_orientation p = o -> hpoint (port_location p) (side_x t o) (side_y hs a o) -> In o (anchor_sides hs a) ->
         forall q, In q (junctions_from_port d p (junctions_around_shapes d)) -> hpoint q 20 Y -> o = Left /\ zl t = 100 /\ rowY hs a = Y).
      { intros o p Ip Eo Hp' Io q Iq Hq.
        assert (Ep : end_port d p) by (exists e, id, n; auto).
        destruct (gd_port d hs GD p Ep) as (t' & X' & Y' & Lt' & H' & On). destruct (hpoint_unique _ _ _ _ _ Hp' H') as [<- <-].
        destruct (ray_in d hs GD p t' _ _ q Lt' H' On Iq) as (x & y & Hq' & Ry). destruct (hpoint_unique _ _ _ _ _ Hq Hq') as [<- <-].
        rewrite Eo in Ry. apply sides_in in Io; [|exact K]. pose proof (zl_cases t) as Zt.
        destruct Io as [-> | [-> | [[-> _]|[-> _]]]]; unfold side_x, side_y in *.
        - destruct Ry as (_ & _ & Z & _). lia.
        - pose proof Ry as (Ey & _). split; [reflexivity|]. split; [|congruence]. rewrite Ey in *.
          destruct Zt as [Zt|[Zt|Zt]]; [lia|exfalso|exfalso].
          + apply Nr. exists a. split; [exact Er|]. split; [fold t; lia|reflexivity].
          + apply Nf. apply (ray_left_blocked d hs FD _ _ _ Ry 860); unfold column; lia.
        - destruct Ry as (Z & _). lia.
        - destruct Ry as (Z & _). lia. }
      destruct (classic (zl t = 100 /\ rowY hs a = Y)) as [[E1 E2]|Ne].
      - assert (Sd : exists pre rest, anchor_sides hs a = pre ++ Right :: rest /\ ~ In Left pre).
        { destruct a as [t' k|t']; cbn [anchor_sides].
          - exists []. unfold row_sides. destruct K as [_ K]. destruct (Nat.eqb_spec k 0); [lia|]. cbn. eauto.
          - exists [Up], [Down; Left]. split; [reflexivity|]. intros [Z|[]]. discriminate. }
        destruct Sd as (pre & rest & Sd & Nl). rewrite Sd in F. apply Forall2_app_inv_l in F as (ps1 & ps2 & F1 & F2 & En).
        inversion F2 as [|o' p' ? ps' [Op Hp'] F' E3 E4]. subst o' ps2. rewrite En in *.
        rewrite flat_map_app. apply preceded_app; [|cbn [flat_map]; apply preceded_after].
        + apply preceded_none. intros q Iq Hq. apply in_flat_map in Iq as (p & Ip & Iq).
          destruct (forall2_in_r _ _ _ _ F1 Ip) as (o & Io & Oo & Ho).
          destruct (P o p) with (q := q) as (-> & _); auto; [apply in_or_app; now left|rewrite Sd; apply in_or_app; now left].
        + apply preceded_none. intros q Iq Hq.
          assert (Z : Right = Left); [|discriminate].
          apply (P Right p') with (q := q); auto; [apply in_or_app; right; now left|rewrite Sd; apply in_or_app; right; now left].
        + assert (Ep : end_port d p') by (exists e, id, n; repeat split; auto; rewrite En; apply in_or_app; right; now left).
          destruct (gd_port d hs GD p' Ep) as (t' & X' & Y' & Lt' & H' & On). destruct (hpoint_unique _ _ _ _ _ Hp' H') as [<- <-].
          destruct (ray_all d hs GD p' t' _ _ 780 Y Lt' H' On) as (q & Iq & Hq).
          * rewrite Op. unfold side_x, side_y. split; [symmetry; exact E2|]. split; [exists t; split; [exact L|lia]|]. split; [lia|].
            intros s Ls Z _. pose proof (zl_cases s). lia.
          * exists q. auto.
      - apply preceded_none. intros q Iq Hq. apply in_flat_map in Iq as (p & Ip & Iq).
        destruct (forall2_in_r _ _ _ _ F Ip) as (o & Io & Op & Hp').
        destruct (P o p Ip Op Hp' Io q Iq Hq) as (_ & Z1 & Z2). auto. }
    destruct (get_node d (e_source e)) as [s|] eqn:Gs; [|apply preceded_none; intros x []].
    destruct (get_node d (e_target e)) as [t|] eqn:Gt; [|apply preceded_none; intros x []].
    rewrite flat_map_app. apply preceded_app; [apply (Q (e_source e) s)|apply (Q (e_target e) t)]; auto.
Qed.

(** ** Lines of ends *)

Ltac cols := apply misses_free; [lia|]; intros ? [-> | [-> | ->]];
  first [left; lia|right; left; lia|right; right; assumption].

Lemma sees_right a b X1 X2 Y c : picks_right hs g a b X1 X2 Y -> rel d hs c Y -> X1 < c -> misses hs X1 Y c Y -> X2 <= c.
Proof.
  intros [P _] Rl L M. destruct (rel_left d hs g R c Y Rl) as (k & K). apply (P k c (Some Left) K L); [now right|exact M].
Qed.
Lemma sees_left a b X1 X2 Y c : picks_left hs g a b X1 X2 Y -> rel d hs c Y -> c + 600 < X2 -> misses hs (c + 600) Y X2 Y -> c + 600 <= X1.
Proof.
  intros [P _] Rl L M. destruct (rel_right d hs g R c Y Rl) as (k & K). apply (P k _ (Some Right) K L); [now right|exact M].
Qed.

(** Nodes of odd lines. *)
Lemma odd_spot a X Y o : odd hs Y -> spot ns a X Y o -> (o = None /\ corridor X) \/ (o = Some Left /\ rel d hs X Y) \/ (o = Some Right /\ rel d hs (X - 600) Y) \/
  (o = Some Up \/ o = Some Down).
Proof.
  intros O A. destruct (spot_kind d hs FD g R a X Y o A) as [(_ & _ & _ & E)|[(E & C & _)|[(_ & c & _ & _ & E & _)|[(_ & Rl & E)|[(_ & Rl & E)|(e & _ & _ & [(_ & _ & E)|(_ & _ & E)])]]]]];
    auto 6; exfalso; exact (O E).
Qed.

(** An edge on a line of ends misses the tables, unless it crosses the middle column. *)
Theorem odd_edge a b X1 X2 Y o u : odd hs Y -> joined es a b -> spot ns a X1 Y o -> spot ns b X2 Y u -> X1 < X2 ->
  misses hs X1 Y X2 Y \/
  (X1 = 780 /\ (X2 = 1540 \/ X2 = 2300) /\ o = None /\ u = None /\ rel d hs 100 Y /\ rel d hs 1620 Y /\ ~ rel d hs 860 Y /\ ~ free hs 860 Y).
Proof.
  intros O J A B L. destruct (classic (misses hs X1 Y X2 Y)) as [M|NM]; [now left|]. right.
  assert (J' : joined es b a) by (destruct J; [right|left]; assumption).
  destruct (edge_h d hs GD g R a b X1 X2 Y o u J A B L) as (Fo & Fu & Pk).
  destruct (odd_spot a X1 Y o O A) as [(-> & C1)|[(-> & Rl)|[(-> & Rl)|Ud]]].
  4:{ destruct Fo as [Fo|Fo], Ud as [Ud|Ud]; congruence. }
  2:{ destruct Fo as [Fo|Fo]; discriminate. }
  2:{ exfalso. apply NM. destruct (right_port_next d hs FD g R a b _ _ _ _ _ A B J) as (-> & _). apply rel_column in Rl.
      intros t Lt. pose proof (zl_cases t). unfold column in Rl. lia. }
  destruct (odd_spot b X2 Y u O B) as [(-> & C2)|[(-> & Rl)|[(-> & Rl)|Ud]]].
  4:{ destruct Fu as [Fu|Fu], Ud as [Ud|Ud]; congruence. }
  2:{ exfalso. apply NM. destruct (left_port_next d hs FD g R b a _ _ _ _ _ B A J') as (-> & _). apply rel_column in Rl.
      intros t Lt. pose proof (zl_cases t). unfold column in Rl. lia. }
  2:{ destruct Fu as [Fu|Fu]; discriminate. }
  assert (Sr : forall c, picks_right hs g a b X1 X2 Y -> rel d hs c Y -> X1 < c -> misses hs X1 Y c Y -> X2 <= c).
  { intros c P. now apply (sees_right a b). }
  assert (Sl : forall c, picks_left hs g a b X1 X2 Y -> rel d hs c Y -> c + 600 < X2 -> misses hs (c + 600) Y X2 Y -> c + 600 <= X1).
  { intros c P. now apply (sees_left a b). }
  destruct C1 as [-> | [-> | [-> | ->]]]; destruct C2 as [-> | [-> | [-> | ->]]]; try lia.
  - (* 20 - 780 *) exfalso. destruct (odd_20 d hs FD g R a Y O A) as [Rl|[(Rl & F)|(Rl & F & F')]].
    + destruct Pk as [P|P]; [assert (780 <= 100) by (apply (Sr 100 P Rl); [lia|cols])|assert (100 + 600 <= 20) by (apply (Sl 100 P Rl); [lia|cols])]; lia.
    + apply NM. cols.
    + apply NM. cols.
  - (* 20 - 1540 *) exfalso. destruct (odd_20 d hs FD g R a Y O A) as [Rl|[(Rl & F)|(Rl & F & F')]].
    + destruct Pk as [P|P]; [assert (1540 <= 100) by (apply (Sr 100 P Rl); [lia|cols]); lia|].
      destruct (classic (rel d hs 860 Y)) as [R1|R1]; [assert (860 + 600 <= 20) by (apply (Sl 860 P R1); [lia|cols]); lia|].
      destruct (rel_next_right d hs g R 100 Y Rl) as (c & C). change (100 + 680) with 780 in C.
      destruct (classic (free hs 860 Y)) as [F|F].
      * destruct P as [P _]. assert (780 <= 20); [|lia]. apply (P c 780 None C); [lia|now left|cols].
      * pose proof (right_ray_first Y c a O R1 F C A). destruct P as [_ [P|P]]; [contradiction|].
        specialize (P c 780 None C ltac:(lia) (or_introl eq_refl)). lia.
    + destruct Pk as [P|P]; [assert (1540 <= 860) by (apply (Sr 860 P Rl); [lia|cols])|assert (860 + 600 <= 20) by (apply (Sl 860 P Rl); [lia|cols])]; lia.
    + apply NM. cols.
  - (* 20 - 2300 *) exfalso. destruct Pk as [P|P].
    + destruct (odd_20 d hs FD g R a Y O A) as [Rl|[(Rl & F)|(Rl & F & F')]];
        [assert (2300 <= 100) by (apply (Sr 100 P Rl); [lia|cols])|assert (2300 <= 860) by (apply (Sr 860 P Rl); [lia|cols])
        |assert (2300 <= 1620) by (apply (Sr 1620 P Rl); [lia|cols])]; lia.
    + destruct (odd_2300 d hs FD g R b Y O B) as [Rl|[(Rl & F)|(Rl & F & F')]];
        [assert (1620 + 600 <= 20) by (apply (Sl 1620 P Rl); [lia|cols])|assert (860 + 600 <= 20) by (apply (Sl 860 P Rl); [lia|cols])
        |assert (100 + 600 <= 20) by (apply (Sl 100 P Rl); [lia|cols])]; lia.
  - (* 780 - 1540 *)
    assert (R1 : ~ rel d hs 860 Y).
    { intros Rl. destruct Pk as [P|P]; [assert (1540 <= 860) by (apply (Sr 860 P Rl); [lia|cols])|assert (860 + 600 <= 780) by (apply (Sl 860 P Rl); [lia|cols])]; lia. }
    assert (F1 : ~ free hs 860 Y) by (intros F; apply NM; cols).
    destruct (odd_780 d hs FD g R a Y O A) as [Rl|[Rl|(Rl & F)]]; try contradiction.
    destruct (odd_1540 d hs FD g R b Y O B) as [Rl'|[Rl'|(Rl' & F)]]; try contradiction. repeat split; auto.
  - (* 780 - 2300 *)
    destruct (odd_2300 d hs FD g R b Y O B) as [Rl|[(Rl & F)|(Rl & F & F')]].
    + assert (R1 : ~ rel d hs 860 Y).
      { intros R1. destruct Pk as [P|P]; [assert (2300 <= 860) by (apply (Sr 860 P R1); [lia|cols])|assert (1620 + 600 <= 780) by (apply (Sl 1620 P Rl); [lia|cols])]; lia. }
      assert (F1 : ~ free hs 860 Y).
      { intros F. destruct Pk as [P|P]; [assert (2300 <= 1620) by (apply (Sr 1620 P Rl); [lia|cols])|assert (1620 + 600 <= 780) by (apply (Sl 1620 P Rl); [lia|cols])]; lia. }
      destruct (odd_780 d hs FD g R a Y O A) as [Rl'|[Rl'|(Rl' & F)]]; try contradiction. repeat split; auto.
    + exfalso. destruct Pk as [P|P]; [assert (2300 <= 860) by (apply (Sr 860 P Rl); [lia|cols])|assert (860 + 600 <= 780) by (apply (Sl 860 P Rl); [lia|cols])]; lia.
    + exfalso. apply NM. cols.
  - (* 1540 - 2300 *) exfalso. destruct (odd_2300 d hs FD g R b Y O B) as [Rl|[(Rl & F)|(Rl & F & F')]].
    + destruct Pk as [P|P]; [assert (2300 <= 1620) by (apply (Sr 1620 P Rl); [lia|cols])|assert (1620 + 600 <= 1540) by (apply (Sl 1620 P Rl); [lia|cols])]; lia.
    + apply NM. cols.
    + apply NM. cols.
Qed.

(** Two ends beside a table in the middle are connected across it. *)
Lemma odd_across a b Y : odd hs Y -> spot ns a 780 Y None -> spot ns b 1540 Y None -> rel d hs 100 Y -> ~ rel d hs 860 Y -> ~ free hs 860 Y ->
  joined es a b.
Proof.
  intros O A B Rl R1 F1. destruct (chooses_left d hs GD g R b 1540 Y None a 780 None B (or_introl eq_refl) A ltac:(lia) (or_introl eq_refl)) as (c & X & o & J & C & L & P1 & P2).
  assert (M : ~ misses hs X Y 1540 Y).
  { intros M. apply F1. destruct (odd_spot c X Y o O C) as [(_ & K)|[(_ & K)|[(_ & K)|Ud]]].
    4:{ destruct (edge_h d hs GD g R c b X 1540 Y o None J C B L) as ([Fo|Fo] & _), Ud as [Ud|Ud]; congruence. }
    - apply (misses_free_inv hs X 1540 Y 860 M); unfold corridor in K; lia.
    - pose proof (rel_column d hs X Y K) as Cx. apply (misses_free_inv hs X 1540 Y 860 M); [|lia]. destruct Cx as [-> | [-> | ->]]; [lia|contradiction|lia].
    - pose proof (rel_column d hs _ Y K) as Cx. apply (misses_free_inv hs X 1540 Y 860 M); [|lia].
      destruct Cx as [Cx|[Cx|Cx]]; [lia|rewrite Cx in K; contradiction|lia]. }
  destruct P2 as [P2|P2]; [contradiction|]. pose proof (P2 a 780 None A ltac:(lia) (or_introl eq_refl)) as Le.
  assert (c = a) as ->; [|exact J].
  destruct (Nat.eq_dec c a) as [E|E]; [exact E|]. exfalso.
  destruct o as [o|]; [pose proof (junction_first d hs g R a c _ _ _ _ _ A C); lia|].
  destruct (odd_spot c X Y None O C) as [(_ & K)|[(K & _)|[(K & _)|[K|K]]]]; try discriminate.
  destruct K as [-> | [-> | [-> | ->]]]; try lia.
  - pose proof (right_ray_first Y a c O R1 F1 A C). lia.
  - destruct (spot_index d hs g R _ _ _ _ _ _ A C) as [-> _]. now apply E.
Qed.

(** ** Lines next to tables *)

Lemma ys_not_bottom Y t : ys hs Y -> (t < length hs)%nat -> Y <> zb hs t.
Proof.
  intros (i & L & H) Lt E. pose proof (table_bounds d hs GD i L). pose proof (table_bounds d hs GD t Lt).
  destruct (rows_apart hs i t) as [[Z _]|[Z|Z]]; [|lia|lia]. rewrite !zb_rows in *. lia.
Qed.
Lemma ys_not_top Y t : ys hs Y -> (t < length hs)%nat -> Y <> zt hs t.
Proof.
  intros (i & L & H) Lt E. pose proof (table_bounds d hs GD i L). pose proof (table_bounds d hs GD t Lt).
  destruct (rows_apart hs i t) as [[Z _]|[Z|Z]]; lia.
Qed.
Lemma clear_free c Y : clear hs (c + 300) Y -> free hs c Y.
Proof. intros C t Lt E. specialize (C t Lt). lia. Qed.
Lemma line_is_free c Y : line hs c Y -> free hs c Y.
Proof. intros L t Lt E. pose proof (line_free d hs FD c Y t L Lt E). lia. Qed.

(** The nodes on such a line. *)
Lemma even_spot a X Y o : ys hs Y -> spot ns a X Y o -> o = None /\
  ((X = 20 /\ line hs 100 Y) \/ (X = 400 /\ free hs 100 Y) \/ (X = 780 /\ corner hs 780 Y) \/ (X = 1160 /\ free hs 860 Y) \/
   (X = 1540 /\ corner hs 1540 Y) \/ (X = 1920 /\ free hs 1620 Y) \/ (X = 2300 /\ line hs 1620 Y)).
Proof.
  intros Yy A.
  destruct (spot_kind d hs FD g R a X Y o A) as [(E & C & Co & _)|[(E & C & O & _)|[(E & c & Cc & EX & _ & Cl & _)|[(O & _)|[(O & _)|(e & Er & _ & [(_ & EY & _)|(_ & EY & _)])]]]]];
    try (exfalso; exact (O Yy)).
  - split; [exact E|]. destruct C as [-> | [-> | [-> | ->]]]; auto 10.
    + left. split; [reflexivity|]. apply corner_line in Co as (c & Lc & H). pose proof (line_column hs c Y Lc) as Cc.
      replace 100 with c by (unfold column in Cc; lia). exact Lc.
    + do 6 right. split; [reflexivity|]. apply corner_line in Co as (c & Lc & H). pose proof (line_column hs c Y Lc) as Cc.
      replace 1620 with c by (unfold column in Cc; lia). exact Lc.
  - split; [exact E|]. subst X. apply clear_free in Cl. destruct Cc as [-> | [-> | ->]]; auto 10.
  - exfalso. apply (ys_not_bottom Y (tab e) Yy); [apply (end_range d hs e Er)|exact EY].
  - exfalso. apply (ys_not_top Y (tab e) Yy); [apply (end_range d hs e Er)|exact EY].
Qed.

Lemma even_free a b X1 X2 Y : ys hs Y -> spot ns a X1 Y None -> spot ns b X2 Y None -> X1 < X2 ->
  free hs 860 Y \/ X2 <= 780 \/ 1540 <= X1 -> conn g a b ((X2 - X1) / 2) /\ misses hs X1 Y X2 Y.
Proof.
  intros Yy A B L H. destruct (even_spot a X1 Y None Yy A) as [_ K1]. destruct (even_spot b X2 Y None Yy B) as [_ K2].
  assert (M : misses hs X1 Y X2 Y).
  { apply misses_free; [lia|]. intros c [-> | [-> | ->]].
    - destruct K1 as [(-> & Z)|[(-> & Z)|K1]]; [right; right; now apply line_is_free|right; right; exact Z|right; left; lia].
    - destruct H as [H|[H|H]]; [right; right; exact H|left; lia|right; left; lia].
    - destruct K2 as [K2|[K2|[K2|[K2|[K2|[(-> & Z)|(-> & Z)]]]]]]; try (left; lia); right; right; [exact Z|now apply line_is_free]. }
  split; [|exact M]. eapply (hline d hs GD g R (Z.to_nat (X2 - X1))); eauto; [lia|].
  intros c X w C _. now apply (even_spot c X Y w Yy).
Qed.

Lemma conn_le_same a b X Y : spot ns a X Y None -> spot ns b X Y None -> conn g a b 0.
Proof. intros A B. destruct (spot_index d hs g R _ _ _ _ _ _ A B) as [-> _]. apply conn_refl. Qed.

(** Any two nodes of the line are connected along it. *)
Theorem even_line a b X1 X2 Y : ys hs Y -> spot ns a X1 Y None -> spot ns b X2 Y None -> X1 <= X2 -> conn g a b ((X2 - X1) / 2).
Proof.
  intros Yy A B Le. destruct (Z.eq_dec X1 X2) as [<-|Ne].
  { eapply conn_le; [exact (conn_le_same a b X1 Y A B)|apply Z.div_pos; lia]. }
  assert (L : X1 < X2) by lia.
  destruct (classic (free hs 860 Y \/ X2 <= 780 \/ 1540 <= X1)) as [H|H]; [now apply (even_free a b X1 X2 Y)|].
  assert (F1 : ~ free hs 860 Y) by tauto.
  destruct (even_spot a X1 Y None Yy A) as [_ K1]. destruct (even_spot b X2 Y None Yy B) as [_ K2].
  assert (L1 : X1 <= 780) by (destruct K1 as [K1|[K1|[K1|[[_ K1]|K1]]]]; try lia; contradiction).
  assert (L2 : 1540 <= X2) by (destruct K2 as [K2|[K2|[K2|[[_ K2]|K2]]]]; try lia; contradiction).
  (* the leftmost node on the right *)
  assert (Hr : exists r Xr, spot ns r Xr Y None /\ 1540 <= Xr <= X2 /\ forall c X w, spot ns c X Y w -> X < Xr -> X <= 780).
  { destruct (classic (exists r, spot ns r 1540 Y None)) as [(r & Sr)|No].
    - exists r, 1540. split; [exact Sr|]. split; [lia|]. intros c X w Sc Lc. destruct (even_spot c X Y w Yy Sc) as [_ K].
      destruct K as [K|[K|[K|[[_ K]|K]]]]; try lia. contradiction.
    - assert (N : forall Z, Z <> 1540 \/ ~ corner hs Z Y).
      { intros Z. destruct (Z.eq_dec Z 1540) as [->|]; [|now left]. right. intros C. apply No. now apply (corner_spot d hs g R). }
      assert (Nl : ~ line hs 1620 Y).
      { intros Q. destruct (N 1540) as [Z|Z]; [lia|]. apply Z. apply (line_corner hs 1620 Y Q). }
      exists b, X2. split; [exact B|]. split; [lia|]. intros c X w Sc Lc. destruct (even_spot c X Y w Yy Sc) as [_ K].
      destruct K as [K|[K|[K|[[_ K]|[[-> K]|[K|[_ K]]]]]]]; try lia; try contradiction.
      + destruct (N 1540) as [Z|Z]; [lia|contradiction].
      + destruct K2 as [K2|[K2|[K2|[K2|[K2|[K2|[_ K2]]]]]]]; try lia. contradiction. }
  destruct Hr as (r & Xr & Sr & Br & Only).
  destruct (chooses_left d hs GD g R r Xr Y None a X1 None Sr (or_introl eq_refl) A ltac:(lia) (or_introl eq_refl)) as (l & Xl & o & J & Sl & Ll & P1 & P2).
  destruct (even_spot l Xl Y o Yy Sl) as [-> Kl]. pose proof (Only l Xl None Sl Ll) as Bl.
  assert (M : ~ misses hs Xl Y Xr Y).
  { intros M. apply F1. apply (misses_free_inv hs Xl Xr Y 860 M); lia. }
  destruct P2 as [P2|P2]; [contradiction|].
  (* it is the rightmost node on the left *)
  assert (Big : X1 <= Xl).
  { destruct (classic (exists q, corner hs 780 Y /\ spot ns q 780 Y None)) as [(q & Cq & Sq)|No].
    - pose proof (P2 q 780 None Sq ltac:(lia) (or_introl eq_refl)) as Le'.
      destruct Kl as [(-> & Z)|[(-> & Z)|[(-> & _)|Kl]]]; try lia.
      + pose proof (right_corner_first Y q l Z F1 Sq Sl). lia.
      + pose proof (corner_first 780 Y 100 q l Cq ltac:(unfold column; auto) Sq Sl). lia.
    - assert (N : ~ line hs 100 Y).
      { intros Z. apply No. pose proof (proj2 (line_corner hs 100 Y Z)) as C. destruct (corner_spot d hs g R 780 Y C) as (q & Sq). eauto. }
      destruct Kl as [(_ & Z)|[(-> & _)|Kl]]; [contradiction| |lia].
      destruct K1 as [(_ & Z)|[(-> & _)|[(-> & C)|K1]]]; [contradiction|lia| |lia].
      exfalso. apply No. exists a. auto. }
  assert (C1 : conn g a l ((Xl - X1) / 2)).
  { destruct (Z.eq_dec X1 Xl) as [E|E]; [|apply (even_free a l X1 Xl Y Yy A Sl ltac:(lia)); right; left; exact Bl].
    rewrite E in *. eapply conn_le; [exact (conn_le_same a l Xl Y A Sl)|apply Z.div_pos; lia]. }
  assert (C2 : conn g r b ((X2 - Xr) / 2)).
  { destruct (Z.eq_dec Xr X2) as [E|E]; [|apply (even_free r b Xr X2 Y Yy Sr B ltac:(lia)); right; right; lia].
    rewrite E in *. eapply conn_le; [exact (conn_le_same r b X2 Y Sr B)|apply Z.div_pos; lia]. }
  assert (C3 : conn g l r ((Xr - Xl) / 2)).
  { eapply conn_le; [eapply (conn_edge d hs GD g R l r Xl Y Xr Y); eauto|]. apply Z.div_le_mono; lia. }
  eapply conn_le; [exact (conn_trans g _ _ _ _ _ C1 (conn_trans g _ _ _ _ _ C3 C2))|].
  pose proof (half_add (Xr - Xl) (X2 - Xr) (X2 - Xl) ltac:(lia)). pose proof (half_add (Xl - X1) (X2 - Xl) (X2 - X1) ltac:(lia)). lia.
Qed.
End Doc.
