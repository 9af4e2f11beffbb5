(** Relations of a table with the last row of the next one below it. *)
From Coq Require Import String List Arith NArith ZArith Bool Lia SpecFloat Classical_Prop Sorting.Sorted.
From Verif Require Import Base F32 Geometry Mir Erd Heap Route Layout Parser Cli Render SpecMir SpecF32 SpecGeom SpecLayout SpecRoute SpecGraph SpecRender SpecLink SpecEnds SpecThrough SpecStack SpecGap SpecInk SpecNear SpecFall SpecHalt
  F32Facts GeomFacts SearchFacts MirFacts GridFacts LayoutFacts RenderFacts PipelineFacts GraphFacts PathFacts LatticeFacts
  ConnectFacts HubFacts DrawFacts OrderFacts RowFacts LineFacts MidFacts FarFacts TurnFacts ColumnFacts CalmFacts LinkFacts EndFacts ThroughFacts MiddleFacts GapFacts OuterFacts SideFacts RepeatFacts DiagFacts StackFacts NearFacts FallFacts.
Import ListNotations.
Local Open Scope Z_scope.

(** A way that starts upwards and comes down again turns. *)
Lemma turning (k : list Z) : forall b w e, b < w -> e < w -> In e (w :: k) -> (forall l1 x y l2, b :: w :: k = l1 ++ x :: y :: l2 -> x <> y) ->
  exists l1 x y z l2, b :: w :: k = l1 ++ x :: y :: z :: l2 /\ x < y /\ z < y.
Proof.
  induction k as [|v k IH]; intros b w e L Le I Nd; [destruct I as [->|[]]; lia|].
  pose proof (Nd [b] w v k eq_refl) as Ne. destruct (Z_lt_ge_dec v w) as [Lv|Lv]; [exists [], b, w, v, k; auto|].
  destruct (IH w v e) as (l1 & x & y & z & l2 & E & Q); [lia|lia|destruct I as [->|I]; [lia|exact I]| |].
  - intros l1 x y l2 E. apply (Nd (b :: l1) x y l2). rewrite E. reflexivity.
  - exists (b :: l1), x, y, z, l2. rewrite E. auto.
Qed.

Section Doc.
Variables (d : document) (hs : list nat).
Hypothesis FD : end_doc d hs.
Let GD := ed_grid d hs FD.
Variable g : route_graph.
Hypothesis R : routes d hs g.
Let ns := rg_nodes g.
Let es := rg_edges g.
Let cost := rg_cost ns.
Local Notation steps := (steps g).
Local Notation stop := (stop hs g).
Local Notation better := (better hs g).
Local Notation conn := (conn g).
Hypothesis Rk : ranked d hs.

(** ** The line under a table comes first *)

Section Over.
Variable B : nat.
Hypothesis LB : (B < length hs)%nat.
Let c := zl B.
Hypothesis Lower : forall a, end_at d hs a -> zl (tab a) = c -> low hs a -> high a \/ zb hs (tab a) <= zb hs B.
Hypothesis NoTop : forall a, end_at d hs a -> high a -> tab a <> B.
Hypothesis Tallest : forall i, (i < length hs)%nat -> (i <= B)%nat -> zb hs i <= zb hs B.

Lemma around_order' Y : zb hs B + 80 < Y ->
  preceded (fun j => hv (py j) (zb hs B + 80)) (fun j => hv (py j) Y) (junctions_around_shapes d).
Proof.
  intros H.
  assert (X : exists l1 r l2, shape_rects d = l1 ++ r :: l2 /\ hrect r (zl B) (zt hs B) 600 (zb hs B - zt hs B) /\
    forall s, In s l1 -> exists i, (i < length hs)%nat /\ (i < B)%nat /\ hrect s (zl i) (zt hs i) 600 (zb hs i - zt hs i)).
  { unfold ranked in Rk. replace (length hs) with (B + S (length hs - S B))%nat in Rk by lia. rewrite seq_app in Rk.
    apply Forall2_app_inv_l in Rk as (l1 & l2 & F1 & F2 & E). cbn [seq] in F2. inversion F2 as [|? r ? l2' Hr F2']; subst.
    exists l1, r, l2'. split; [exact E|]. split; [exact Hr|]. intros s Is.
    destruct (forall2_in_r _ _ _ _ F1 Is) as (i & Ii & Hi). apply in_seq in Ii. exists i. split; [lia|]. split; [lia|exact Hi]. }
  destruct X as (l1 & r & l2 & E & Hr & H1). unfold junctions_around_shapes. rewrite E.
  replace (l1 ++ r :: l2) with ((l1 ++ [r]) ++ l2) by now rewrite <- app_assoc. rewrite flat_map_app. apply preceded_after.
  - apply preceded_none. intros p Ip Hp. apply in_flat_map in Ip as (s & Is & Ip).
    assert (Q : exists i, (i < length hs)%nat /\ (i <= B)%nat /\ hrect s (zl i) (zt hs i) 600 (zb hs i - zt hs i)).
    { apply in_app_iff in Is as [Is|[<-|[]]]; [|exists B; auto]. destruct (H1 s Is) as (i & Li & Lb & Hi). exists i. split; [exact Li|]. split; [lia|exact Hi]. }
    destruct Q as (i & Li & Le & Hi). specialize (Tallest i Li Le). pose proof (table_bounds d hs GD i Li) as Bt.
    destruct (grown_box d hs GD s i Li Hi) as ((G1 & G2 & G3 & G4) & O). cbn zeta in *.
    destruct Ip as [<-|[<-|[<-|[<-|[]]]]]; rewrite ?O in Hp; cbn [px py] in Hp;
      first [pose proof (hv_unique _ _ _ Hp G2)|pose proof (hv_unique _ _ _ Hp G4)]; lia.
  - destruct (grown_box d hs GD r B LB Hr) as ((G1 & G2 & G3 & G4) & O). cbn zeta in *.
    eexists. split; [apply in_flat_map; exists r; split; [apply in_elt|right; right; left; reflexivity]|]. exact G4.
Qed.

Lemma ray_order' p t X Yp Y : (t < length hs)%nat -> hpoint (port_location p) X Yp -> port_on hs t (port_orientation p) X Yp ->
  (port_orientation p = Up /\ zb hs B + 80 <= Yp \/ port_orientation p = Down /\ Yp <= zb hs B + 80) -> zb hs B + 80 < Y ->
  preceded (fun q => hpoint q X (zb hs B + 80)) (fun q => hpoint q X Y) (junctions_from_port d p (junctions_around_shapes d)).
Proof.
  intros Lt Hp On Dir H. pose proof (table_bounds d hs GD B LB) as Bt. pose proof (zh_le d hs GD) as Zh.
  assert (Bd : 0 <= zb hs B + 80 <= M24).
  { pose proof (ys_bounds d hs GD (zb hs B + 80) ltac:(exists B; auto)). lia. }
  pose proof (around_order' Y H) as Ar. unfold junctions_from_port. fold (grown_rects d).
  destruct Dir as [[Eo Le]|[Eo Le]]; rewrite Eo in *; cbn match.
  - eapply preceded_filter_map; [| |exact Ar].
    + intros j _ [_ Hj]. exact Hj.
    + intros j _ Hj. split; [|split; [apply Hp|exact Hj]]. now apply (ray_up_iff d hs GD t _ X Yp _ _ Lt Hp On Hj Bd).
  - eapply preceded_filter_map; [| |exact Ar].
    + intros j _ [_ Hj]. exact Hj.
    + intros j _ Hj. split; [|split; [apply Hp|exact Hj]]. now apply (ray_down_iff d hs GD t _ X Yp _ _ Lt Hp On Hj Bd).
Qed.

Lemma under_first i j Y : zb hs B + 80 < Y -> spot ns i (c + 300) (zb hs B + 80) None -> spot ns j (c + 300) Y None -> (i < j)%nat.
Proof.
  intros Ly A J. pose proof (table_bounds d hs GD B LB) as Bb. assert (C : column c) by apply zl_column.
  apply (junction_order d hs g R i j _ _ _ _ A J). unfold edge_junctions, remove_overlapped.
  apply preceded_filter.
  { intros x _ Hx. apply (kept_iff d hs GD x _ _ Hx); [unfold column, M24 in *; lia|eapply (spot_range d hs FD g R); exact A|].
    destruct (spot_ok d hs GD g R _ _ _ _ A) as (_ & _ & K). apply K. }
  fold (crossing d). apply preceded_app.
  { apply preceded_none. intros p I Hp. destruct (around_in d hs GD p I) as (x & y & H' & C').
    destruct (hpoint_unique _ _ _ _ _ Hp H') as [<- _]. destruct (corner_xs hs _ _ C') as [Cx' _]. pose proof (xs_cases hs _ Cx').
    unfold column in C. lia. }
  apply preceded_flat_map. intros e Ie. unfold edge_end_ports.
  assert (Q : forall id n, id = e_source e \/ id = e_target e -> get_node d id = Some n ->
    preceded (fun p => hpoint p (c + 300) (zb hs B + 80)) (fun p => hpoint p (c + 300) Y)
      (flat_map (fun p => junctions_from_port d p (junctions_around_shapes d)) (n_ports n))).
  { intros id n Ei G. destruct (ed_end d hs FD e id n Ie Ei G) as (a & K & F). pose proof (proj1 K) as L.
    assert (Er : end_at d hs a) by (exists e, id, n; repeat split; auto; apply K).
    assert (P : forall o p, In p (n_ports n) -> port_orientation p = o -> hpoint (port_location p) (side_x (tab a) o) (side_y hs a o) ->
       exists t, (t < length hs)%nat /\ port_on hs t (port_orientation p) (side_x (tab a) o) (side_y hs a o)).
    { intros o p Ip Eo Hp'. assert (Ep : end_port d p) by (exists e, id, n; auto).
      destruct (gd_port d hs GD p Ep) as (t' & X' & Y' & Lt' & H' & On). destruct (hpoint_unique _ _ _ _ _ Hp' H') as [<- <-]. eauto. }
    assert (No : forall o p, In p (n_ports n) -> port_orientation p = o -> hpoint (port_location p) (side_x (tab a) o) (side_y hs a o) ->
       (o = Left \/ o = Right \/ zl (tab a) <> c \/ (o = Up /\ zt hs (tab a) < Y)) ->
       forall q, In q (junctions_from_port d p (junctions_around_shapes d)) -> ~ hpoint q (c + 300) Y).
    { intros o p Ip Eo Hp' Cs q Iq Hq. destruct (P o p Ip Eo Hp') as (t & Lt & On).
      destruct (ray_in d hs GD p t _ _ q Lt Hp' On Iq) as (x & y & Hq' & Ry). destruct (hpoint_unique _ _ _ _ _ Hq Hq') as [<- <-].
      rewrite Eo in Ry. pose proof (zl_cases (tab a)) as Zt. unfold column in C.
      destruct o; unfold side_x, side_y, ray in Ry.
      - destruct Cs as [Z|[Z|[Z|[_ Z]]]]; try discriminate; lia.
      - destruct Cs as [Z|[Z|[Z|[Z _]]]]; try discriminate; lia.
      - destruct Ry as (_ & Xq & _). apply xs_cases in Xq. lia.
      - destruct Ry as (_ & Xq & _). apply xs_cases in Xq. lia. }
    (* unless an upper port comes first, each port by itself *)
    assert (Each : zl (tab a) = c -> zt hs (tab a) < Y -> zb hs (tab a) <= zb hs B + 80 \/ ~ low hs a -> preceded (fun p => hpoint p (c + 300) (zb hs B + 80)) (fun p => hpoint p (c + 300) Y)
        (flat_map (fun p => junctions_from_port d p (junctions_around_shapes d)) (n_ports n))).
    { intros Ec Lu Ld. apply preceded_flat_map. intros p Ip. destruct (forall2_in_r _ _ _ _ F Ip) as (o & Io & Oo & Ho).
      destruct o.
      - apply preceded_none. apply (No Up p Ip Oo Ho); auto 6.
      - apply sides_in in Io; [|exact K]. assert (Lo : low hs a) by (destruct Io as [Z|[Z|[[_ Z]|[Z _]]]]; try discriminate; exact Z).
        destruct Ld as [Ld|Ld]; [|contradiction]. destruct (P Down p Ip Oo Ho) as (t & Lt & On). unfold side_x, side_y in Ho, On. rewrite Ec in Ho, On.
        exact (ray_order' p t _ _ Y Lt Ho On (or_intror (conj Oo Ld)) Ly).
      - apply preceded_none. apply (No Left p Ip Oo Ho); auto.
      - apply preceded_none. apply (No Right p Ip Oo Ho); auto. }
    destruct (Z.eq_dec (zl (tab a)) c) as [Ec|Nc].
    2:{ apply preceded_none. intros q Iq Hq. apply in_flat_map in Iq as (p & Ip & Iq).
        destruct (forall2_in_r _ _ _ _ F Ip) as (o & Io & Oo & Ho). exact (No o p Ip Oo Ho ltac:(auto) q Iq Hq). }
    pose proof (table_bounds d hs GD (tab a) L) as Bt.
    destruct (Z_le_gt_dec (zb hs (tab a)) (zb hs B)) as [Le|Gt]; [apply Each; [exact Ec|lia|left; lia]|].
    destruct a as [t k|t]; cbn [tab] in *.
    { destruct (classic (low hs (row_end t k))) as [Lo|Nl]; [exfalso; destruct (Lower _ Er Ec Lo) as [[]|Z]; cbn [tab] in Z; lia|].
      apply preceded_flat_map. intros p Ip. destruct (forall2_in_r _ _ _ _ F Ip) as (o & Io & Oo & Ho).
      apply sides_in in Io; [|exact K]. apply preceded_none. destruct Io as [-> | [-> | [[-> Lo]|[-> []]]]]; [| |contradiction].
      - apply (No _ p Ip Oo Ho); auto.
      - apply (No _ p Ip Oo Ho); auto. }
    cbn [anchor_sides] in *.
    assert (Ut : zb hs B + 80 <= zt hs t) by (destruct (col_apart hs t B Ec) as [-> | [Z|Z]]; lia).
    inversion F as [|? p1 ? l1 [O1 P1] F1 E0 E1]; subst.
    cbn [flat_map]. unfold side_x, side_y in *. cbn [tab] in *. rewrite <- Ec in *.
    assert (I1 : In p1 (n_ports n)) by (rewrite <- E1; now left).
    assert (Yb : ys hs (zb hs B + 80)) by (exists B; auto).
    destruct (P Up p1 I1 O1 P1) as (t' & Lt' & On). apply preceded_after.
    - exact (ray_order' p1 t' _ (zt hs t) Y Lt' P1 On (or_introl (conj O1 Ut)) Ly).
    - destruct (ray_all d hs GD p1 t' _ _ (zl t + 300) (zb hs B + 80) Lt' P1 On) as (q & Iq & Hq); [|exists q; auto].
      rewrite O1. split; [lia|]. split; [exact Yb|lia]. }
  destruct (get_node d (e_source e)) as [s|] eqn:Gs; [|apply preceded_none; intros x []].
  destruct (get_node d (e_target e)) as [t|] eqn:Gt; [|apply preceded_none; intros x []].
  rewrite flat_map_app. apply preceded_app; [apply (Q (e_source e) s)|apply (Q (e_target e) t)]; auto.
Qed.

(** Nodes below the line over the table are below the table. *)
Lemma past_table e Y o : spot ns e (c + 300) Y o -> zt hs B - 80 < Y -> faces o Up -> zb hs B + 80 <= Y.
Proof.
  intros Sp L Fo. assert (C : column c) by apply zl_column. pose proof (table_bounds d hs GD B LB) as Bb.
  destruct (column_spot d hs FD g R e c Y o C Sp) as [(_ & M)|(a & Ea & Za & [(-> & _)|(-> & Hi & ->)])].
  - pose proof (md_gap _ _ _ _ _ _ M B LB eq_refl). lia.
  - destruct Fo; discriminate.
  - pose proof (NoTop a Ea Hi) as Ne. pose proof (table_bounds d hs GD _ (end_range d hs a Ea)). destruct (col_apart hs (tab a) B Za) as [Q|[Q|Q]]; [contradiction|lia|lia].
Qed.

Lemma over_edge a b : spot ns a (c + 300) (zt hs B - 80) None -> spot ns b (c + 300) (zb hs B + 80) None -> joined es a b.
Proof.
  intros A Bp. pose proof (table_bounds d hs GD B LB) as Bb. assert (C : column c) by apply zl_column. pose proof (zl_cases B) as Zl. fold c in Zl.
  apply (rt_edges d hs g R). apply neighbor_edge_iff. pose proof A as (n & Hn & Ha & _). pose proof Bp as (m & Hm & Hb & _). exists n, Down, m. split; [exact Hn|].
  fold (shrunk d) ns. fold ns in Hn, Hm.
  assert (Cb : candidate Down n m = true) by (apply (proj2 (spot_candidate g a b _ _ _ _ _ _ Down A Bp n m Hn Hm)); split; [lia|split; now left]).
  destruct (near_some (shrunk d) n Down (enum ns) (b, m) (in_enum_ns g b m Hm) Cb) as (b' & m' & Nr). pose proof Nr as Nr'.
  apply near_first in Nr; [|apply (spot_ordered d hs g R)]. destruct Nr as (Im & Cm & _ & H). apply in_enum in Im as [_ Im]. rewrite Nat.sub_0_r in Im. fold ns in Im.
  destruct (nth_spot d hs g R b' m' Im) as (X' & Y' & S' & H').
  pose proof (proj1 (spot_candidate g a b' _ _ _ _ _ _ Down A S' n m' Hn Im) Cm) as ((E & L') & _ & Fu). symmetry in E. rewrite E in *. clear E.
  pose proof (past_table b' Y' _ S' L' Fu) as Pt.
  destruct (spot_ok d hs GD g R _ _ _ _ A) as (Ba & Ba' & _). destruct (spot_ok d hs GD g R _ _ _ _ S') as (Bs & Bs' & _).
  assert (Ne : b' = b).
  { destruct H as [H|(l1 & l2 & El & N)].
    - exfalso. apply (shrunk_iff d hs GD _ _ _ _ _ Y' Ha H' Ba Bs Ba' Bs' ltac:(right; lia)) in H.
      + specialize (H B LB). fold c in H. lia.
      + intros t Lt Q. apply (spot_outside d hs GD g R a _ _ _ t A Lt). lia.
    - destruct (Z.eq_dec Y' (zb hs B + 80)) as [->|Ny]; [now destruct (spot_index d hs g R b' b _ _ _ _ S' Bp)|]. exfalso.
      assert (Lt : (b < b')%nat).
      { destruct (rn_orient m') as [o|]; [exact (junction_first d hs g R b b' _ _ _ _ o Bp S')|]. apply (under_first b b' Y'); [lia|exact Bp|exact S']. }
      pose proof (enum_nth g l1 b' m' l2 El b m Hm Lt) as I1. specialize (N _ I1). cbn [snd] in N. congruence. }
  subst b'. rewrite Hm in Im. injection Im as <-. exact Nr'.
Qed.
End Over.

(** ** A table and the last row of the next one *)

Section Pair.
Variables p q : anchor.
Hypothesis Ep : end_at d hs p.
Hypothesis Eq : end_at d hs q.
Let tp := tab p.
Let tq := tab q.
Hypothesis Next : tq = (tp + 3)%nat.
Hypothesis Hp : high p.
Hypothesis Rows : (3 <= nth tp hs 0)%nat.
Hypothesis Lo : low hs q.
Hypothesis Nh : ~ high q.
Hypothesis Lower : forall a, end_at d hs a -> zl (tab a) = zl tq -> low hs a -> high a \/ zb hs (tab a) <= zb hs tq.
Hypothesis NoTop : forall a, end_at d hs a -> high a -> tab a <> tq.
Hypothesis Tallest : forall i, (i < length hs)%nat -> (i <= tq)%nat -> zb hs i <= zb hs tq.
Let A := zb hs tp - 105.
Let B := zb hs tq - 35.
Let r := (tp / 3)%nat.
Let S := tens hs r 2.
Let c := zl tp.
Let D := zb hs tq - zb hs tp.

Lemma halt_row : (tq / 3 = r + 1)%nat.
Proof. unfold r. rewrite Next. apply row_next. Qed.
Lemma halt_column : zl tq = c.
Proof. unfold c. rewrite Next. apply zl_next. Qed.
Lemma halt_apart : zb hs tp + 160 <= zt hs tq.
Proof. apply zb_zt. rewrite halt_row. unfold r. lia. Qed.
Lemma upper_table : p = table_end tp. Proof. unfold tp. destruct p; [contradiction|reflexivity]. Qed.
Lemma lower_bounds : zt hs tq + 70 <= zb hs tq.
Proof. pose proof (table_bounds d hs GD tq (end_range d hs q Eq)). lia. Qed.

Lemma upper_row : rowY hs p <= A /\ zt hs tp + 210 <= zb hs tp.
Proof. rewrite upper_table. cbn [rowY]. unfold A, zb, table_height. lia. Qed.
Lemma lower_row : rowY hs q = B.
Proof. unfold B, tq. destruct q as [t k|t]; [|exfalso; exact (Nh I)]. cbn [rowY tab low] in *. unfold zb, table_height. lia. Qed.

Lemma halt_lines : (exists a, A = 10 * a + 5) /\ (exists b, B = 10 * b + 5) /\ A <= B /\ (length S <= 22)%nat.
Proof.
  destruct (zb_ten hs tp) as (z & Ez). destruct (zb_ten hs tq) as (z' & Ez'). pose proof halt_apart. pose proof lower_bounds.
  split; [exists (z - 11); unfold A; lia|]. split; [exists (z' - 4); unfold B; lia|]. split; [unfold A, B; lia|].
  exact (tens_length hs r 2).
Qed.
Lemma halt_known a X Y o : spot ns a X Y o -> known A B S Y.
Proof.
  intros Sp. destruct (spot_five d hs FD g R a X Y o Sp) as (_ & k & E). exists k. split; [exact E|]. intros T [L1 L2].
  destruct (level_ten d hs FD g R a X Y o Sp T) as (u & Lu & H). apply (tens_in hs u); [|exact T|exact H].
  pose proof (table_bounds d hs GD tp (end_range d hs p Ep)) as Ip. pose proof (table_bounds d hs GD tq (end_range d hs q Eq)) as Iq.
  pose proof (table_bounds d hs GD u Lu) as Bu. pose proof (row_within d hs FD (table_end u) ltac:(split; [exact Lu|exact I])) as Wu. cbn [tab] in Wu.
  assert (L3 : zt hs u - 80 <= Y <= zb hs u + 80) by (clear - H Bu Wu; lia). pose proof halt_row as Nr.
  split.
  - destruct (le_lt_dec r (u / 3)) as [L|L]; [exact L|exfalso].
    pose proof (zb_zt hs u tp ltac:(unfold r in L; lia)) as Z. pose proof upper_row as [_ Ur]. unfold A in L1. clear - L1 L3 Ip Z Ur. lia.
  - destruct (le_lt_dec (u / 3) (r + 1)) as [L|L]; [lia|exfalso].
    pose proof (zb_zt hs tq u ltac:(lia)) as Z. unfold B in L2. clear - L2 L3 Iq Z. lia.
Qed.
Lemma halt_bound a b x : steps a b x -> forall X1 Y1 o X2 Y2 u, spot ns a X1 Y1 o -> spot ns b X2 Y2 u ->
  Z.abs (X1 - X2) + 2 * (GapFacts.climb A B S Y2 - GapFacts.climb A B S Y1) <= 2 * x.
Proof.
  destruct halt_lines as (HA & HB & HAB & _).
  intros W. induction W as [a|a b e x J W IH]; intros X1 Y1 o X2 Y2 u Sa Sc.
  - destruct (spot_place g a _ _ _ _ _ _ Sa Sc) as (-> & -> & _). lia.
  - destruct (joined_spots d hs g R a b J) as (X3 & Y3 & X4 & Y4 & o3 & o4 & Sa' & Sb).
    destruct (spot_place g a _ _ _ _ _ _ Sa' Sa) as (-> & -> & ->). clear Sa'. specialize (IH _ _ _ _ _ _ Sb Sc).
    assert (E : X1 = X4 \/ Y1 = Y4) by (destruct (edge_straight d hs g R a b _ _ _ _ _ _ J Sa Sb); lia).
    destruct E as [<-|<-].
    + pose proof (cost_v d hs FD g R a b _ _ _ _ _ Sa Sb) as Cv.
      pose proof (climb_step A B S HA HB HAB (tens_nodup hs r 2) (tens_ten hs r 2) Y1 Y4 (halt_known a _ _ _ Sa) (halt_known b _ _ _ Sb)) as Cl.
      unfold ns in *. rewrite Cv. clear - IH Cl. lia.
    + pose proof (cost_h d hs FD g R a b _ _ _ _ _ Sa Sb) as Ch. unfold ns in *. clear - IH Ch. lia.
Qed.

(** The way round the lower table from below. *)
Lemma halt_direct : exists i j z, stop p i /\ stop q j /\ conn i j z /\ 2 * z <= D + 160.
Proof.
  assert (Lp : low hs p) by (rewrite upper_table; exact I).
  destruct (low_stop d hs g R p Ep Lp) as (i & Si & Pi). destruct (low_stop d hs g R q Eq Lo) as (j & Sj & Pj).
  fold tp c in Pi. fold tq in Pj. rewrite halt_column in Pj. pose proof halt_apart as Na. pose proof lower_bounds as Lb. pose proof (zl_column tp) as C. fold c in C.
  assert (LQ : (tq < length hs)%nat) by exact (end_range d hs q Eq). assert (LP : (tp < length hs)%nat) by exact (end_range d hs p Ep).
  pose proof (table_bounds d hs GD tp LP) as Bp.
  assert (N : forall t, (t < length hs)%nat -> zl t = c -> (zb hs t <= zb hs tp /\ zt hs t < zb hs tp) \/ t = tq \/ zb hs tq + 160 <= zt hs t).
  { intros t Lt Et. pose proof (table_bounds d hs GD t Lt) as Bt. pose proof halt_row as Hr.
    destruct (le_lt_dec (t / 3) r) as [H|H].
    - left. destruct (Nat.eq_dec (t / 3) r) as [H'|H'].
      + assert (t = tp) as -> by (apply same_table; [exact H'|exact Et]). lia.
      + pose proof (zb_zt hs t tp ltac:(unfold r in *; lia)). lia.
    - right. destruct (Nat.eq_dec (t / 3) (r + 1)) as [H'|H'].
      + left. apply same_table; [lia|]. rewrite halt_column. exact Et.
      + right. apply zb_zt. lia. }
  assert (U : exists e, spot ns e (c + 300) (zt hs tq - 80) None).
  { apply (mid_spot d hs g R c); [exact C|exists tq; auto| |].
    - apply (gap_clear hs c (zt hs tq - 80) (zt hs tq - 80) C). intros t Lt Et. pose proof (table_bounds d hs GD t Lt). destruct (N t Lt Et) as [Z|[->|Z]]; lia.
    - exists p. split; [exact Ep|]. split; [reflexivity|]. left. split; [exact Lp|]. fold tp. lia. }
  assert (V : exists e, spot ns e (c + 300) (zb hs tq + 80) None).
  { apply (mid_spot d hs g R c); [exact C|exists tq; auto| |].
    - apply (gap_clear hs c (zb hs tq + 80) (zb hs tq + 80) C). intros t Lt Et. pose proof (table_bounds d hs GD t Lt). destruct (N t Lt Et) as [Z|[->|Z]]; lia.
    - exists q. split; [exact Eq|]. split; [exact halt_column|]. left. split; [exact Lo|]. fold tq. lia. }
  destruct U as (u & U), V as (v & V).
  assert (J : joined es u v).
  { apply (over_edge tq LQ Lower NoTop Tallest); rewrite halt_column; assumption. }
  assert (C1 : conn i u ((zt hs tq - 80 - zb hs tp) / 2)).
  { eapply (vline d hs GD g R (Z.to_nat (zt hs tq - 80 - zb hs tp))); [lia|exact Pi|exact U|lia|auto|auto| |].
    - intros t Lt. pose proof (zl_cases t) as Zt. destruct (Z.eq_dec (zl t) c) as [E|E]; [destruct (N t Lt E) as [Z|[->|Z]]; lia|]. unfold column in C. lia.
    - intros e Y w Se Be. destruct (column_spot d hs FD g R e c Y w C Se) as [(-> & _)|(t & Et & Zt & H)]; [reflexivity|exfalso].
      pose proof (end_range d hs t Et) as Lt. pose proof (table_bounds d hs GD _ Lt) as Bt. pose proof (N _ Lt Zt) as Nt. 
      assert (HY : Y = zb hs (tab t) \/ Y = zt hs (tab t)) by (destruct H as [(_ & _ & ->)|(_ & _ & ->)]; auto).
      destruct Nt as [Nt|[Nt|Nt]]; [lia|rewrite Nt in *; lia|lia]. }
  pose proof (conn_edge d hs GD g R u v _ _ _ _ _ _ U V ltac:(now left) J) as C2.
  assert (C3 : conn j v ((zb hs tq + 80 - zb hs tq) / 2)).
  { eapply (vline d hs GD g R 80%nat); [lia|exact Pj|exact V|lia|auto|auto| |].
    - intros t Lt. pose proof (zl_cases t) as Zt. destruct (Z.eq_dec (zl t) c) as [E|E]; [destruct (N t Lt E) as [Z|[->|Z]]; lia|]. unfold column in C. lia.
    - intros e Y w Se Be. destruct (column_spot d hs FD g R e c Y w C Se) as [(-> & _)|(t & Et & Zt & H)]; [reflexivity|exfalso].
      pose proof (end_range d hs t Et) as Lt. pose proof (table_bounds d hs GD _ Lt) as Bt. pose proof (N _ Lt Zt) as Nt. 
      assert (HY : Y = zb hs (tab t) \/ Y = zt hs (tab t)) by (destruct H as [(_ & _ & ->)|(_ & _ & ->)]; auto).
      destruct Nt as [Nt|[Nt|Nt]]; [lia|rewrite Nt in *; lia|lia]. }
  eexists i, j, _. split; [exact Si|]. split; [exact Sj|]. split; [exact (conn_trans g _ _ _ _ _ (conn_trans g _ _ _ _ _ C1 C2) (conn_sym g _ _ _ C3))|].
  replace (zb hs tq + 80 - zb hs tq) with (40 * 2) by lia. rewrite Z.div_mul by lia.
  pose proof (Z.mul_div_le (zt hs tq - 80 - zb hs tp) 2 ltac:(lia)).
  pose proof (Z.mul_div_le (Z.abs (c + 300 - (c + 300)) + Z.abs (zt hs tq - 80 - (zb hs tq + 80))) 2 ltac:(lia)). unfold D. lia.
Qed.

Section Walk.
Variables (a b : nat) (l : list nat).
Hypothesis Sa : stop p a.
Hypothesis Sb : stop q b.
Hypothesis W : walk es a b l.
Hypothesis Best : ~ better p q (Z.of_N (walk_cost cost l)).

Lemma halt_short : 2 * Z.of_N (walk_cost cost l) <= D + 160.
Proof.
  destruct (Z.le_gt_cases (2 * Z.of_N (walk_cost cost l)) (D + 160)) as [L|L]; [exact L|].
  exfalso. destruct halt_direct as (i & j & z & Si & Sj & Co & Lz). apply Best. exists i, j, z.
  split; [exact Si|]. split; [exact Sj|]. split; [exact Co|]. lia.
Qed.

Lemma halt_start : exists X Y o, spot ns a X Y (Some o) /\ (((X = c /\ o = Left \/ X = c + 600 /\ o = Right) /\ Y <= A) \/ (X = c + 300 /\ Y <= zb hs tp)).
Proof.
  pose proof (table_bounds d hs GD tp (end_range d hs p Ep)) as Bt.
  destruct (stop_at d hs g p a Ep Sa) as [H|[H|[H|H]]]; fold tp c in H; eexists _, _, _; (split; [exact H|]).
  - left. split; [now left|apply upper_row].
  - left. split; [now right|apply upper_row].
  - right. split; [reflexivity|lia].
  - right. split; [reflexivity|lia].
Qed.
Lemma halt_finish : exists X Y o, spot ns b X Y (Some o) /\ B <= Y /\ ((X = c /\ o = Left \/ X = c + 600 /\ o = Right) \/ (X = c + 300 /\ Y = zb hs tq /\ o = Down)).
Proof.
  pose proof lower_row as Lr. destruct Sb as (o & I & Sp). apply sides_in in I; [|exact (end_ok d hs _ Eq)].
  destruct I as [-> | [-> | [[-> Lw]|[-> Hi]]]]; [| | |contradiction]; unfold side_x, side_y in Sp; fold tq in Sp; rewrite halt_column in Sp;
    eexists _, _, _; (split; [exact Sp|]); (split; [unfold B in *; lia|]); auto.
Qed.

Lemma halt_narrow e i X Y o X1 Y1 o1 X2 Y2 o2 : In i l -> spot ns i X Y o -> spot ns a X1 Y1 o1 -> spot ns b X2 Y2 o2 -> 0 <= e -> Y1 <= A + e -> B <= Y2 ->
  Z.abs (X1 - X) + Z.abs (X - X2) <= 135 + 2 * e.
Proof.
  intros I Si S1 S2 Le L1 L2. destruct (walk_through hs g p q Next a b l i W I) as (x & y & W1 & W2 & E).
  pose proof (halt_bound a i x W1 _ _ _ _ _ _ S1 Si) as B1. pose proof (halt_bound i b y W2 _ _ _ _ _ _ Si S2) as B2.
  destruct halt_lines as (_ & _ & HAB & Ls). pose proof halt_short as Sh.
  pose proof (climb_near A B S HAB Y1 Y2 e Le L1 ltac:(lia)) as N.
  unfold A at 1, B at 1 in N. unfold cost in Sh. unfold ns in Sh. clear - B1 B2 N Ls Sh E. unfold D in Sh. lia.
Qed.

Lemma halt_differ : a <> b.
Proof.
  intros E. destruct halt_start as (X1 & Y1 & o1 & S1 & L1). destruct halt_finish as (X2 & Y2 & o2 & S2 & L2 & _). rewrite <- E in S2.
  destruct (spot_place g a _ _ _ _ _ _ S1 S2) as (_ & -> & _). pose proof halt_apart. pose proof lower_bounds. unfold A, B in *. lia.
Qed.

Lemma walk_before s t k : walk es s t k -> (k = [s] /\ s = t) \/ exists k' w, k = k' ++ [w; t] /\ joined es w t.
Proof.
  intros W'. induction W' as [s|s v t k J W' IH]; [now left|]. right.
  destruct IH as [(-> & <-)|(k' & w & -> & Jw)]; [exists [], s; auto|exists (s :: k'), w; auto].
Qed.

Lemma halt_ends : spot ns b (c + 300) (zb hs tq) (Some Down) /\ (exists Y, at_middle g c a Y /\ Y <= zb hs tp) /\ (forall i, In i l -> exists Y, at_middle g c i Y).
Proof.
  destruct halt_start as (X1 & Y1 & o1 & S1 & C1). destruct halt_finish as (X2 & Y2 & o2 & S2 & L2 & C2).
  assert (M1 : X1 = c + 300 /\ Y1 <= zb hs tp).
  { destruct C1 as [(C1 & L1)|C1]; [exfalso|exact C1].
    inversion W as [u Q1 Q2|u v w k J W' Q1 Q2 Q3]; [apply halt_differ; congruence|]. subst u w.
    destruct (joined_spots d hs g R a v J) as (X3 & Y3 & X4 & Y4 & o3 & o4 & _ & Sv).
    assert (I : In v l) by (rewrite <- Q3; right; destruct (walk_head _ _ _ _ W') as (k' & ->); now left).
    pose proof (halt_narrow 0 v _ _ _ _ _ _ _ _ _ I Sv S1 S2 ltac:(lia) ltac:(lia) L2) as Nar.
    destruct C1 as [(-> & ->)|(-> & ->)].
    - destruct (left_port_next d hs FD g R a v _ _ _ _ _ S1 Sv J) as (-> & _). lia.
    - destruct (right_port_next d hs FD g R a v _ _ _ _ _ S1 Sv J) as (-> & _). lia. }
  destruct M1 as (-> & L1).
  assert (Nar : forall i X Y o, In i l -> spot ns i X Y o -> Z.abs (c + 300 - X) + Z.abs (X - X2) <= 345).
  { intros i X Y o I Si. pose proof (halt_narrow 105 i X Y o _ _ _ _ _ _ I Si S1 S2 ltac:(lia) ltac:(unfold A; lia) L2). lia. }
  destruct C2 as [C2|(-> & -> & ->)].
  { exfalso. destruct (walk_before a b l W) as [(_ & E)|(k & w & El & J)]; [exact (halt_differ E)|].
    destruct (joined_spots d hs g R w b J) as (X3 & Y3 & X4 & Y4 & o3 & o4 & Sw & _). assert (J' : joined es b w) by (destruct J; [right|left]; assumption).
    specialize (Nar w _ _ _ ltac:(rewrite El; apply in_or_app; right; now left) Sw).
    destruct C2 as [(-> & ->)|(-> & ->)].
    - destruct (left_port_next d hs FD g R b w _ _ _ _ _ S2 Sw J') as (-> & _). lia.
    - destruct (right_port_next d hs FD g R b w _ _ _ _ _ S2 Sw J') as (-> & _). lia. }
  split; [exact S2|]. split; [exists Y1; split; [eexists; exact S1|exact L1]|].
  intros i I. assert (Sp : exists X Y o, spot ns i X Y o).
  { destruct (walk_through hs g p q Next a b l i W I) as (x & y & W1 & _ & _). eapply (steps_spot d hs g R); eauto. }
  destruct Sp as (X & Y & o & Sp). pose proof (Nar i X Y o I Sp) as N. exists Y, o.
  pose proof (spot_in_column d hs GD g R i X Y o tp Sp ltac:(fold c; lia)) as Q. fold c in Q. assert (X = c + 300) as -> by lia. exact Sp.
Qed.

Theorem halt_shape ps : places g l ps -> exists Ys l1 x y z l2, Forall2 (fun p Y => hpoint p (c + 300) Y) ps Ys /\ Ys = l1 ++ x :: y :: z :: l2 /\ x < y /\ z < y.
Proof.
  intros Pl. destruct halt_ends as (S2 & (Y1 & M1 & L1) & Mid). assert (C : column c) by apply zl_column.
  assert (F : exists Ys, Forall2 (at_middle g c) l Ys).
  { clear - Mid. induction l as [|i k IH]; [exists []; constructor|]. destruct (Mid i (or_introl eq_refl)) as (Y & M).
    destruct IH as (Ys & F); [intros; apply Mid; now right|]. exists (Y :: Ys). now constructor. }
  destruct F as (Ys & F).
  assert (Pp : Forall2 (fun p Y => hpoint p (c + 300) Y) ps Ys).
  { clear - F Pl. revert ps Pl. induction F as [|i Y k Ys (o & m & Hm & H & _) F IH]; intros ps Pl; inversion Pl as [|? z ? ? (n0 & Hn0 & <-) Pl']; subst; constructor; auto.
    rewrite Hm in Hn0. injection Hn0 as <-. exact H. }
  destruct (walk_before a b l W) as [(_ & E)|(k & w & El & J)]; [destruct (halt_differ E)|].
  assert (Yd : forall l1 x y l2, Ys = l1 ++ x :: y :: l2 -> x <> y).
  { clear - W F R FD. revert W Ys F. generalize a. induction l as [|i k IH]; intros s W Ys F l1 x y l2 E; [inversion W|].
    inversion F as [|? Y ? Ys' M F' Q1 Q2]. subst Ys. inversion W as [u Q1' Q2'|u v w k0 J W' Q1' Q2' Q3']; subst.
    - inversion F'. subst Ys'. destruct l1 as [|? [|? ?]]; discriminate.
    - destruct l1 as [|x' l1]; cbn in Q2; injection Q2 as -> E'; [|exact (IH v W' Ys' F' l1 x y l2 E')].
      destruct (walk_head _ _ _ _ W') as (k' & ->). rewrite E' in F'. inversion F' as [|? ? ? ? M' F'']. subst.
      destruct M as (o & M), M' as (u & M'). destruct (edge_straight d hs g R _ _ _ _ _ _ _ _ J M M') as [(_ & Ne)|[(_ & L & _)|(_ & L & _)]]; lia. }
  rewrite El in F. apply Forall2_app_inv_l in F as (Ka & Kb & F1 & F2 & ->). inversion F2 as [|? Yw ? Kc Mw F3 Q1 Q2]. subst Kb. inversion F3 as [|? Yb ? Kd Mb F4 Q1' Q2']. subst Kc. inversion F4. subst Kd.
  pose proof (middle_one g c b _ _ Mb ltac:(eexists; exact S2)) as ->.
  assert (Lw : zb hs tq + 80 <= Yw).
  { destruct Mw as (o & Mw). exact (below_port d hs FD g R tq b w c Yw o C (end_range d hs q Eq) halt_column S2 J Mw). }
  assert (Hd : exists K, Ka ++ [Yw; zb hs tq] = Y1 :: K).
  { destruct (walk_head _ _ _ _ W) as (l' & El'). rewrite El in El'. assert (F' : Forall2 (at_middle g c) (k ++ [w; b]) (Ka ++ [Yw; zb hs tq])) by (apply Forall2_app; [exact F1|repeat constructor; [exact Mw|exact Mb]]).
    rewrite El' in F'. inversion F' as [|? Y ? K M F'']. exists K. f_equal. exact (middle_one g c a _ _ M M1). }
  exists (Ka ++ [Yw; zb hs tq]). destruct Hd as (K & Hd).
  pose proof halt_apart as Na. pose proof lower_bounds as Lb.
  destruct (turning (rev Ka) (zb hs tq) Yw Y1) as (k1 & u1 & u2 & u3 & k2 & E & Lx & Lz).
  - lia.
  - lia.
  - destruct Ka as [|y0 Ka]; cbn in Hd; [injection Hd as -> _; left; reflexivity|]. injection Hd as -> _. right. apply in_rev. rewrite rev_involutive. now left.
  - intros k1 u1 u2 k2 E Q. symmetry in Q. revert Q. apply (Yd (rev k2) u2 u1 (rev k1)). apply (f_equal (@rev Z)) in E. cbn [rev] in E.
    rewrite rev_involutive, rev_app_distr in E. cbn [rev] in E. rewrite <- !app_assoc in E. exact E.
  - exists (rev k2), u3, u2, u1, (rev k1). split; [exact Pp|]. split; [|auto]. apply (f_equal (@rev Z)) in E. cbn [rev] in E.
    rewrite rev_involutive, rev_app_distr in E. cbn [rev] in E. rewrite <- !app_assoc in E. exact E.
Qed.
End Walk.
End Pair.
End Doc.

(** ** Modules *)

Lemma ports_table d hs a b ps : end_doc d hs -> has_ports hs a ps -> has_ports hs b ps -> tab a = tab b.
Proof.
  intros FD Pa Pb. pose proof (ports_column hs a b ps Pa Pb) as Zc. destruct Pa as (Ka & Fa), Pb as (Kb & Fb).
  assert (I : In Right (anchor_sides hs a)) by (apply sides_in; auto 6).
  apply In_nth_error in I as (j & I). destruct (forall2_nth_l _ _ _ Fa j Right I) as (p & Hp & O & Q).
  destruct (forall2_in_r _ _ _ _ Fb (nth_error_In _ _ Hp)) as (o & Io & O' & Q'). rewrite O in O'. subst o.
  destruct (ConnectFacts.hpoint_unique _ _ _ _ _ Q Q') as [_ E]. unfold side_y in E.
  pose proof (row_within d hs FD a Ka) as Wa. pose proof (row_within d hs FD b Kb) as Wb.
  destruct (col_apart hs (tab a) (tab b) Zc) as [Z|[Z|Z]]; [exact Z|exfalso; lia|exfalso; lia].
Qed.

Lemma places_from m vb g d ls : fits (table_rows m) -> layout_module m = Ret (vb, g, d) -> links [] (m_entries m) ls ->
  exists d2, end_doc d2 (table_rows m) /\ routes d2 (table_rows m) g /\ ranked d2 (table_rows m) /\
  (forall a, end_at d2 (table_rows m) a -> exists x, related ls x /\ tab a = place_table x /\
     (low (table_rows m) a -> low (table_rows m) (end_of x)) /\ (high (end_of x) -> high a) /\ (high a -> high (end_of x))) /\
  Forall2 (fun pq e => exists ps a b w, e_path e = Some ps /\
    end_at d2 (table_rows m) (end_of (fst pq)) /\ end_at d2 (table_rows m) (end_of (snd pq)) /\
    TurnFacts.stop (table_rows m) g (end_of (fst pq)) a /\ TurnFacts.stop (table_rows m) g (end_of (snd pq)) b /\
    walk (rg_edges g) a b w /\ ~ TurnFacts.better (table_rows m) g (end_of (fst pq)) (end_of (snd pq)) (Z.of_N (walk_cost (rg_cost (rg_nodes g)) w)) /\
    places g w ps) ls (d_edges d).
Proof.
  intros F L Ll. destruct (links_edges m vb g d ls F L Ll) as (d0 & M & H). cbn zeta in H.
  destruct (layout_routes m vb g d F L) as (d0' & M' & V & D & R). rewrite M in M'. injection M' as <-.
  pose proof (module_ends m d0 M F) as ED. pose proof (module_ranked m d0 M F) as Rk. set (d2 := place_terminal_ports (fst (place_nodes d0))) in *.
  destruct (draw_split _ _ _ _ D) as (_ & N & F2).
  exists d2. split; [exact ED|]. split; [exact R|]. split; [exact Rk|]. split.
  - intros a (e1 & i & n & I1 & Ei & G & Pa). destruct (forall2_in_l _ _ _ _ F2 I1) as (e' & Ie' & (E1' & E2') & _).
    destruct (forall2_in_r _ _ _ _ H Ie') as ([p' q'] & _ & _ & Ipq & s' & t' & Gs' & Gt' & Ps' & Pt'). cbn [fst snd] in *.
    assert (X : exists x, (x = p' \/ x = q') /\ has_ports (table_rows m) (end_of x) (n_ports n)).
    { destruct Ei as [Ei|Ei]; [exists p'|exists q']; (split; [auto|]); [rewrite Ei, <- E1', Gs' in G|rewrite Ei, <- E2', Gt' in G]; injection G as <-; assumption. }
    destruct X as (x & Xx & Px). exists x. split; [destruct Xx as [-> | ->]; [exists q'|exists p']; auto|].
    split; [rewrite <- tab_place; exact (ports_table d2 _ _ _ _ ED Pa Px)|]. split; [exact (ports_low _ _ _ _ Pa Px)|].
    split; [exact (ports_high _ _ _ _ Px Pa)|exact (ports_high _ _ _ _ Pa Px)].
  - eapply forall2_weaken; [exact H|]. intros [p q] e _ (Ie & _ & s & t & Gs & Gt & Ps & Pt). cbn [fst snd] in *.
    destruct (module_cheapest m vb g d F L e Ie) as (s' & t' & w & ps & Gs' & Gt' & Ep & Pl & ((x & y & a & b & Ix & Iy & Sx & Sy & W) & Min)).
    destruct (forall2_in_r _ _ _ _ F2 Ie) as (e0 & I0 & (E1 & E2) & _).
    unfold get_node in Gs, Gt, Gs', Gt'. rewrite N, Gs in Gs'. rewrite N, Gt in Gt'. injection Gs' as <-. injection Gt' as <-.
    assert (Es : end_at d2 (table_rows m) (end_of p)) by (exists e0, (e_source e0), s; unfold get_node; rewrite <- E1; auto).
    assert (Et : end_at d2 (table_rows m) (end_of q)) by (exists e0, (e_target e0), t; unfold get_node; rewrite <- E2; auto).
    pose proof (stands_stop d2 _ g R _ _ _ _ Ps Ix Sx) as Sa. pose proof (stands_stop d2 _ g R _ _ _ _ Pt Iy Sy) as Sb.
    assert (Best : ~ TurnFacts.better (table_rows m) g (end_of p) (end_of q) (Z.of_N (walk_cost (rg_cost (rg_nodes g)) w))).
    { intros (s' & t' & z & Ss & St & [(l' & W' & Lw) _] & Lt).
      destruct (stop_stands _ _ _ _ _ Ps Ss) as (p' & Ip' & Sp'). destruct (stop_stands _ _ _ _ _ Pt St) as (q' & Iq' & Sq').
      specialize (Min p' q' s' t' l' Ip' Iq' Sp' Sq' W'). lia. }
    exists ps, a, b, w. auto 10.
Qed.

Lemma peak_reverses ps X l1 x y z l2 : Forall2 (fun p Y => hpoint p X Y) ps (l1 ++ x :: y :: z :: l2) -> x < y -> z < y -> exists i, reverses_at ps i.
Proof.
  intros F Lx Lz. apply Forall2_app_inv_r in F as (k1 & k2 & F1 & F2 & ->).
  inversion F2 as [|a ? k3 ? [Ax Ay] F3]. subst. inversion F3 as [|b ? k4 ? [Bx By] F4]. subst. inversion F4 as [|e ? k5 ? [Ex Ey] F5]. subst.
  exists (S (length k1)), (length k1), a, b, e, Down. split; [reflexivity|].
  rewrite nth_error_app2, Nat.sub_diag by lia. split; [reflexivity|].
  rewrite nth_error_app2 by lia. replace (S (length k1) - length k1)%nat with 1%nat by lia. split; [reflexivity|].
  rewrite nth_error_app2 by lia. replace (S (S (length k1)) - length k1)%nat with 2%nat by lia. split; [reflexivity|]. split.
  - apply SpecRender.heading_down; [rewrite (hv_lt _ _ _ _ Bx Ax); apply Z.ltb_irrefl|rewrite (hv_lt _ _ _ _ Ax Bx); apply Z.ltb_irrefl|].
    rewrite (hv_lt _ _ _ _ By Ay). apply Z.ltb_ge. lia.
  - apply SpecRender.heading_up; [rewrite (hv_lt _ _ _ _ Ex Bx); apply Z.ltb_irrefl|rewrite (hv_lt _ _ _ _ Bx Ex); apply Z.ltb_irrefl|].
    rewrite (hv_lt _ _ _ _ Ey By). apply Z.ltb_lt. lia.
Qed.

Lemma zb_next hs k j : (k / 3 = j / 3)%nat -> (nth k hs 0 <= nth j hs 0)%nat -> zb hs k <= zb hs j.
Proof. intros E L. pose proof (zt_same hs k j E). unfold zb, table_height. lia. Qed.

(** The line turns. *)
Theorem last_row_turns m vb g d ls : fits (table_rows m) -> layout_module m = Ret (vb, g, d) -> links [] (m_entries m) ls ->
  Forall2 (fun pq e => forall p q, pq = (p, q) \/ pq = (q, p) -> over_last_row (table_rows m) p q -> on_its_own (table_rows m) ls (place_table q) ->
    exists ps i, e_path e = Some ps /\ reverses_at ps i) ls (d_edges d).
Proof.
  intros F L Ll. destruct (places_from m vb g d ls F L Ll) as (d2 & ED & R & Rk & En & H). set (hs := table_rows m) in *.
  eapply forall2_weaken; [exact H|]. intros pq e _ (ps & a & b & w & Ep & Es & Et & Sa & Sb & W & Best & Pl) p q Epq (i & k & -> & -> & Lk & Lr) (O1 & O2 & O3).
  cbn [place_table] in O1, O2, O3. exists ps.
  assert (Lower : forall a, end_at d2 hs a -> zl (tab a) = zl (i + 3) -> low hs a -> high a \/ zb hs (tab a) <= zb hs (i + 3)).
  { intros z Ez Zz Lz. destruct (En z Ez) as (x & Rx & Tx & Lx & Hx & _). specialize (Lx Lz). destruct x as [t|t k0]; [left; apply Hx; exact I|right].
    assert (Le : (t <= i + 3)%nat) by (apply (O2 (Row t k0) Rx Lx); apply zl_mod; rewrite <- Zz, Tx; reflexivity). rewrite Tx. cbn [place_table].
    destruct (Nat.eq_dec t (i + 3)) as [->|Ne]; [lia|]. rewrite Tx in Zz. cbn [place_table] in Zz.
    pose proof (Nat.div_le_mono t (i + 3) 3 ltac:(lia) Le) as Ld. pose proof (table_bounds d2 hs (ed_grid d2 hs ED) (i + 3)) as Bt.
    destruct (Nat.eq_dec (t / 3) ((i + 3) / 3)) as [E|N]; [exfalso; apply Ne; now apply same_table|].
    pose proof (zb_zt hs t (i + 3) ltac:(lia)). assert (Li : (i + 3 < length hs)%nat) by (destruct (le_lt_dec (length hs) (i + 3)) as [Z|Z]; [rewrite nth_overflow in Lk by exact Z; discriminate|exact Z]). specialize (Bt Li). lia. }
  assert (NoTop : forall a, end_at d2 hs a -> high a -> tab a <> (i + 3)%nat).
  { intros z Ez Hz Q. destruct (En z Ez) as (x & Rx & Tx & _ & _ & Hx). specialize (Hx Hz). destruct x as [t|t k0]; [|contradiction]. cbn in Tx. apply O1. rewrite <- Q, Tx. exact Rx. }
  assert (Tallest : forall k, (k < length hs)%nat -> (k <= i + 3)%nat -> zb hs k <= zb hs (i + 3)).
  { intros t Lt Le. destruct (Nat.eq_dec t (i + 3)) as [->|Ne]; [lia|]. pose proof (Nat.div_le_mono t (i + 3) 3 ltac:(lia) Le) as Ld.
    destruct (Nat.eq_dec (t / 3) ((i + 3) / 3)) as [E|N]; [apply zb_next; [exact E|apply O3; [lia|exact E]]|].
    pose proof (zb_zt hs t (i + 3) ltac:(lia)). unfold zb at 2, table_height. lia. }
  enough (Q : exists j, reverses_at ps j) by (destruct Q as (j & Q); eauto).
  destruct Epq as [-> | ->]; cbn [fst snd end_of] in *.
  - destruct (halt_shape d2 hs ED g R Rk (table_end i) (row_end (i + 3) k) Es Et eq_refl I Lr Lk ltac:(intros []) Lower NoTop Tallest a b w Sa Sb W Best ps Pl)
      as (Ys & l1 & x & y & z & l2 & Fp & -> & Lx & Lz). exact (peak_reverses _ _ _ _ _ _ _ Fp Lx Lz).
  - destruct (halt_shape d2 hs ED g R Rk (table_end i) (row_end (i + 3) k) Et Es eq_refl I Lr Lk ltac:(intros []) Lower NoTop Tallest b a (rev w) Sb Sa
      ltac:(now apply walk_reversed) ltac:(rewrite (walk_cost_rev d2 _ ED g R a b w W); intros Q; now apply Best, better_sym) (rev ps) ltac:(now apply places_rev))
      as (Ys & l1 & x & y & z & l2 & Fp & -> & Lx & Lz).
    assert (Fr : Forall2 (fun p Y => hpoint p (zl (tab (table_end i)) + 300) Y) ps (rev l2 ++ z :: y :: x :: rev l1)).
    { rewrite <- (rev_involutive ps). replace (rev l2 ++ z :: y :: x :: rev l1) with (rev (l1 ++ x :: y :: z :: l2)) by (rewrite rev_app_distr; cbn [rev]; rewrite <- !app_assoc; reflexivity).
      clear - Fp. induction Fp as [|u v k1 k2 Q Fp IH]; [constructor|]. cbn [rev]. apply Forall2_app; [exact IH|]. repeat constructor; apply Q. }
    exact (peak_reverses _ _ _ _ _ _ _ Fr Lz Lx).
Qed.

Theorem last_row_halts m ls p q : fits (table_rows m) -> links [] (m_entries m) ls -> In (p, q) ls \/ In (q, p) ls ->
  over_last_row (table_rows m) p q -> on_its_own (table_rows m) ls (place_table q) -> exists x, render_module m = Abort x.
Proof.
  intros F Ll I O1 O2. destruct (layout_returns m F) as (vb & g & d & L & _). pose proof (last_row_turns m vb g d ls F L Ll) as H.
  assert (Q : exists e ps i, In e (d_edges d) /\ e_path e = Some ps /\ reverses_at ps i).
  { destruct I as [I|I]; destruct (forall2_in_l _ _ _ _ H I) as (e & Ie & Q); destruct (Q p q ltac:(auto) O1 O2) as (ps & i & Ep & Rv); exists e, ps, i; auto. }
  destruct Q as (e & ps & i & Ie & Ep & Rv).
  destruct (render_module m) as [svg|x|x] eqn:E; [exfalso|exfalso; exact (modules_never_lack_geometry m x E)|eauto].
  unfold render_module in E. rewrite L in E. apply render_okay in E as ((_ & _ & B) & _). unfold none_of in B. rewrite Forall_forall in B. apply (B e Ie). right. exists ps. eauto.
Qed.
Theorem last_row_panics m ls p q : fits (table_rows m) -> links [] (m_entries m) ls -> In (p, q) ls \/ In (q, p) ls ->
  over_last_row (table_rows m) p q -> on_its_own (table_rows m) ls (place_table q) -> (forall a b, In (a, b) ls -> apart (table_rows m) a b) ->
  exists n, render_module m = Abort (PTurnaround n).
Proof.
  intros F Ll I O1 O2 Ap. destruct (last_row_halts m ls p q F Ll I O1 O2) as (x & E).
  destruct (stops_at m ls x F Ll E) as (a & b & Iab & [(_ & N)|((n & ->) & _)]); [destruct (N (Ap a b Iab))|eauto].
Qed.

(** Straight lines do not turn. *)
Lemma straight_calm Rl ps X Y1 Y2 : Rl = Z.lt \/ Rl = Z.gt -> straight Rl ps X Y1 Y2 -> Y1 <> Y2 -> (2 <= length ps)%nat /\ forall i, ~ reverses_at ps i.
Proof.
  intros Rt (l & F & (r & E) & (r' & E') & So) Ne. split.
  - rewrite (DiagFacts.forall2_length _ _ _ F). rewrite E in E' |- *. destruct r as [|y r]; [|cbn; lia]. exfalso. destruct r' as [|z [|? ?]]; cbn in E'; [injection E'; congruence|discriminate|discriminate].
  - intros i (k & a & b & c & o & -> & Ha & Hb & Hc & H1 & H2).
    destruct (forall2_nth_l _ _ _ F _ _ Ha) as (ya & Ya & Pa). destruct (forall2_nth_l _ _ _ F _ _ Hb) as (yb & Yb & Pb). destruct (forall2_nth_l _ _ _ F _ _ Hc) as (yc & Yc & Pc).
    assert (So' : forall j u v, nth_error l j = Some u -> nth_error l (S j) = Some v -> Rl u v).
    { clear - So. induction So as [|x l So IH Fo]; intros j u v Hu Hv; [destruct j; discriminate|]. destruct j as [|j]; cbn in Hu, Hv; [|exact (IH j u v Hu Hv)].
      injection Hu as <-. rewrite Forall_forall in Fo. apply Fo. exact (nth_error_In l 0 Hv). }
    pose proof (So' _ _ _ Ya Yb) as R1. pose proof (So' _ _ _ Yb Yc) as R2.
    destruct o; cbn [opposite] in H2.
    + apply (CalmFacts.heading_up _ _ _ _ _ _ Pa Pb) in H1. apply (CalmFacts.heading_down _ _ _ _ _ _ Pb Pc) in H2. destruct Rt as [-> | ->]; lia.
    + apply (CalmFacts.heading_down _ _ _ _ _ _ Pa Pb) in H1. apply (CalmFacts.heading_up _ _ _ _ _ _ Pb Pc) in H2. destruct Rt as [-> | ->]; lia.
    + apply (CalmFacts.heading_left _ _ _ _ _ _ Pa Pb) in H1. lia.
    + apply (CalmFacts.heading_right _ _ _ _ _ _ Pa Pb) in H1. lia.
Qed.

Lemma below_apart hs p q : directly_below hs p q -> foot hs p <> head hs q.
Proof.
  intros Bl. destruct (below_ends _ _ _ Bl) as (Nx & _ & _). rewrite !tab_end in Nx.
  pose proof (zb_zt hs (place_table p) (place_table q) ltac:(rewrite Nx, row_next; lia)) as Z. unfold foot, SpecFall.head. unfold zb, zt in Z. lia.
Qed.
Theorem below_calm m vb g d ls : fits (table_rows m) -> layout_module m = Ret (vb, g, d) -> links [] (m_entries m) ls ->
  Forall2 (fun pq e => directly_below (table_rows m) (fst pq) (snd pq) \/ directly_below (table_rows m) (snd pq) (fst pq) -> calm_path e) ls (d_edges d).
Proof.
  intros F L Ll. eapply forall2_weaken; [exact (below_straight m vb g d ls F L Ll)|]. intros [p q] e _ (H1 & H2) [Bl|Bl]; cbn [fst snd] in *.
  - destruct (H1 Bl) as (ps & Ep & St). exists ps. split; [exact Ep|]. exact (straight_calm Z.lt _ _ _ _ ltac:(now left) St (below_apart _ _ _ Bl)).
  - destruct (H2 Bl) as (ps & Ep & St). exists ps. split; [exact Ep|]. refine (straight_calm Z.gt _ _ _ _ ltac:(now right) St _). intros Q. exact (below_apart _ _ _ Bl (eq_sym Q)).
Qed.

Theorem turns_not_below m ls n : fits (table_rows m) -> links [] (m_entries m) ls -> render_module m = Abort (PTurnaround n) ->
  exists p q, In (p, q) ls /\ apart (table_rows m) p q /\ stacked (table_rows m) p q /\ column_with_last_row (table_rows m) ls p /\
    ~ directly_below (table_rows m) p q /\ ~ directly_below (table_rows m) q p.
Proof.
  intros F Ll E. destruct (layout_returns m F) as (vb & g & d & L & _).
  pose proof (forall2_both _ _ _ _ (short_paths m vb g d ls F L Ll) (forall2_both _ _ _ _ (settled_calm m vb g d ls F L Ll) (below_calm m vb g d ls F L Ll))) as H.
  unfold render_module in E. rewrite L in E. apply render_abort_iff in E as (_ & _ & e & ps & (l1 & l2 & El & _) & Ep & Bad).
  assert (Ie : In e (d_edges d)) by (rewrite El; apply in_elt).
  destruct (forall2_in_r _ _ _ _ H Ie) as ([p q] & I & (ps' & Ep' & Lp & Q) & K1 & K2). cbn [fst snd] in *. rewrite Ep in Ep'. injection Ep' as <-.
  destruct Bad as [[_ Z]|(Z & i & Rv & _)]; [discriminate|]. exists p, q. split; [exact I|].
  assert (Ap : apart (table_rows m) p q) by (apply NNPP; intros Na; apply Q in Na; lia). split; [exact Ap|].
  assert (Nc : ~ calm_path e) by (intros (ps' & Ep' & _ & NR); rewrite Ep in Ep'; injection Ep' as <-; exact (NR i Rv)).
  assert (S0 : stacked (table_rows m) p q /\ column_with_last_row (table_rows m) ls p) by (apply NNPP; intros Ns; exact (Nc (K1 Ap Ns))).
  destruct S0 as (S1 & S2). split; [exact S1|]. split; [exact S2|]. split; intros Bl; apply Nc, K2; auto.
Qed.

(** ** Samples *)

Definition six (x y : nat) (rels : list module_entry) : module := mkModule None
  ([EDef (mkEntity (lit "a") (letters x)); EDef (mkEntity (lit "b") (letters 1)); EDef (mkEntity (lit "c") (letters 5)); EDef (mkEntity (lit "d") (letters y));
    EDef (mkEntity (lit "e") (letters 4)); EDef (mkEntity (lit "f") [])] ++ rels).
(** The last field of [d] with [a], and [b] with [e]. *)
Definition halting : module := six 5 3 [rel_entities "b" "e"; field_entity "d" "c" "a"].
Definition halting_places : list (place * place) := [(Table 1, Table 4); (Row 3 3, Table 0)].
(** The same with a relation of the whole of [d]. *)
Definition going : module := six 5 3 [rel_entities "b" "d"; field_entity "d" "c" "a"].
Definition going_places : list (place * place) := [(Table 1, Table 3); (Row 3 3, Table 0)].
Lemma halting_links : links [] (m_entries halting) halting_places.
Proof.
  do 6 apply links_def. cbn [app]. apply links_rel; [eapply refers_table; seventh|eapply refers_table; seventh|].
  apply links_rel; [eapply refers_row; [seventh|field_tac]|eapply refers_table; seventh|]. constructor.
Qed.
Lemma going_links : links [] (m_entries going) going_places.
Proof.
  do 6 apply links_def. cbn [app]. apply links_rel; [eapply refers_table; seventh|eapply refers_table; seventh|].
  apply links_rel; [eapply refers_row; [seventh|field_tac]|eapply refers_table; seventh|]. constructor.
Qed.

(** A relation of this kind that is drawn. *)
Theorem lower_table_as_end :
  exists m ls p q svg, fits (table_rows m) /\ links [] (m_entries m) ls /\ In (q, p) ls /\ over_last_row (table_rows m) p q /\ related ls (Table (place_table q)) /\
  render_module m = Okay svg.
Proof.
  destruct (render_module going) as [svg|e|x] eqn:E; [|vm_compute in E; discriminate|vm_compute in E; discriminate].
  exists going, going_places, (Table 0), (Row 3 3), svg. split; [unfold fits; vm_compute; discriminate|]. split; [exact going_links|]. split; [right; now left|].
  split; [exists 0%nat, 3%nat; vm_compute; auto 8|]. split; [exists (Table 1); right; now left|exact E].
Qed.
