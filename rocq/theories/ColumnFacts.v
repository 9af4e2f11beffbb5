(** Walks within the column through the middle of tables. *)
From Coq Require Import List Arith NArith ZArith Bool Lia SpecFloat Classical_Prop.
From Verif Require Import Base F32 Geometry Mir Erd Heap Route Layout SpecMir SpecF32 SpecGeom SpecLayout SpecRoute SpecGraph
  F32Facts GeomFacts SearchFacts MirFacts GridFacts LayoutFacts RenderFacts PipelineFacts GraphFacts PathFacts LatticeFacts
  ConnectFacts HubFacts OrderFacts RowFacts LineFacts MidFacts TurnFacts.
Import ListNotations.
Local Open Scope Z_scope.

Lemma preceded_filter_map {A B} (P' Q' : A -> Prop) (P Q : B -> Prop) (c : A -> bool) (f : A -> B) l :
  (forall j, In j l -> Q (f j) -> Q' j) -> (forall j, In j l -> P' j -> c j = true /\ P (f j)) -> preceded P' Q' l ->
  preceded P Q (filter_map (fun j => if c j then Some (f j) else None) l).
Proof.
  intros HQ HP Pr l1 q l2 E Hq.
  assert (X : exists m1 j m2, l = m1 ++ j :: m2 /\ q = f j /\ l1 = filter_map (fun j => if c j then Some (f j) else None) m1).
  { clear - E. revert l1 E. induction l as [|x l IH]; intros l1 E; cbn in E; [destruct l1; discriminate|].
    destruct (c x) eqn:F.
    - destruct l1 as [|y l1]; cbn in E; injection E as E1 E.
      + exists [], x, l. auto.
      + destruct (IH l1 E) as (m1 & j & m2 & -> & -> & ->). exists (x :: m1), j, m2. cbn. rewrite F. subst y. auto.
    - destruct (IH l1 E) as (m1 & j & m2 & -> & -> & ->). exists (x :: m1), j, m2. cbn. rewrite F. auto. }
  destruct X as (m1 & j & m2 & -> & -> & ->).
  destruct (Pr m1 j m2 eq_refl) as (i & Ii & Hi); [apply HQ; [apply in_elt|exact Hq]|].
  destruct (HP i) as [C Pi]; [apply in_app_iff; now left|exact Hi|]. exists (f i). split; [|exact Pi].
  apply in_filter_if. eauto.
Qed.

(** The rectangles of the tables in order. *)
Definition ranked (d : document) (hs : list nat) : Prop :=
  Forall2 (fun i r => hrect r (zl i) (zt hs i) 600 (zb hs i - zt hs i)) (seq 0 (length hs)) (shape_rects d).

Section Doc.
Variables (d : document) (hs : list nat).
Hypothesis FD : end_doc d hs.
Let GD := ed_grid d hs FD.
Variable g : route_graph.
Hypothesis R : routes d hs g.
Let ns := rg_nodes g.
Let es := rg_edges g.

(** ** Edges in the column *)

(** Going up nothing is hidden. *)
Lemma up_visible a b c Y1 Y2 o u n m : column c -> spot ns a (c + 300) Y1 o -> spot ns b (c + 300) Y2 u -> Y2 < Y1 ->
  nth_error ns a = Some n -> nth_error ns b = Some m ->
  existsb (fun r => intersects_line r (rn_loc n) (rn_loc m)) (shrunk d) = false.
Proof.
  intros C A B L Hn Hm.
  destruct (spot_ok d hs GD g R _ _ _ _ A) as (Ba & Ba' & _). destruct (spot_ok d hs GD g R _ _ _ _ B) as (Bb & Bb' & _).
  pose proof A as (n' & Hn' & Ha & _). pose proof B as (m' & Hm' & Hb & _). fold ns in Hn', Hm'.
  rewrite Hn in Hn'. rewrite Hm in Hm'. injection Hn' as <-. injection Hm' as <-.
  pose proof (zh_le d hs GD) as Zh. assert (Hv1 : hv (f32_of_Z 1) 2) by (apply (hv_of_Z 1); lia).
  apply not_true_iff_false. intros E. apply existsb_exists in E as (s & I & Q). apply in_map_iff in I as (r & <- & I). apply in_shape_rects in I.
  destruct (gd_rect d hs GD r I) as (t & Lt & Hr). pose proof (table_bounds d hs GD t Lt) as Bt.
  pose proof (grown_rect d hs GD 2 r t Lt Hr ltac:(lia) _ Hv1) as G.
  pose proof (hrect_box_window 0 _ _ _ _ _ G ltac:(unfold M24; lia) ltac:(unfold window, M24 in *; lia) ltac:(unfold window, M24 in *; lia)) as Gb.
  rewrite (intersects_exact 0 _ _ _ _ _ _ _ _ _ _ _ Gb Ha Hb) in Q; try (unfold window, M24 in *; lia).
  pose proof (spot_outside d hs GD g R a _ _ _ t A Lt) as Oa. pose proof (spot_outside d hs GD g R b _ _ _ t B Lt) as Ob. unfold zexit, zmeets in Q. rewrite Z.ltb_irrefl in Q.
  pose proof (zl_cases t) as Zl. unfold column in C. apply andb_prop in Q as [Q1 Q2].
  rewrite !andb_true_iff, !Z.leb_le in Q1. rewrite negb_true_iff, !andb_false_iff, !Z.ltb_ge in Q2. lia.
Qed.

Lemma in_enum_ns a n : nth_error ns a = Some n -> In (a, n) (enum ns).
Proof. intros H. apply in_enum. rewrite Nat.sub_0_r. split; [lia|exact H]. Qed.

Lemma pick_up a b c Ya Yb oa ob : column c -> In (b, a) es -> spot ns a (c + 300) Ya oa -> spot ns b (c + 300) Yb ob -> Ya < Yb ->
  forall e Y v, spot ns e (c + 300) Y v -> Y < Yb -> faces v Down -> Y <= Ya.
Proof.
  intros C I A B L e Y v E Le Fe. apply (rt_sound d hs g R) in I. apply neighbor_edge_iff in I as (n & w & m & Hn & Nr).
  fold (shrunk d) ns in Nr. fold ns in Hn. apply near_first in Nr; [|apply (spot_ordered d hs g R)].
  destruct Nr as (Im & Cm & F & _). apply in_enum in Im as [_ Im]. rewrite Nat.sub_0_r in Im.
  pose proof (proj1 (spot_candidate g b a _ _ _ _ _ _ w B A n m Hn Im) Cm) as (D & Fo & Fu).
  assert (w = Up) as -> by (destruct w; try (exfalso; lia); reflexivity).
  pose proof E as (k & Hk & [_ He] & _). fold ns in Hk.
  assert (Ck : candidate Up n k = true) by (apply (proj2 (spot_candidate g b e _ _ _ _ _ _ Up B E n k Hn Hk)); auto).
  specialize (F (e, k) (in_enum_ns e k Hk) Ck (up_visible b e c Yb Y ob v n k C B E Le Hn Hk)). cbn [snd before] in F.
  pose proof A as (m' & Hm' & [_ Ha] & _). fold ns in Hm'. rewrite Im in Hm'. injection Hm' as <-.
  rewrite (hv_lt _ _ _ _ Ha He) in F. lia.
Qed.

Lemma pick_down a b c Ya Yb oa ob : column c -> In (a, b) es -> spot ns a (c + 300) Ya oa -> spot ns b (c + 300) Yb ob -> Ya < Yb ->
  forall e Y v, spot ns e (c + 300) Y v -> Ya < Y -> faces v Up ->
    (misses hs (c + 300) Ya (c + 300) Y -> Yb <= Y) /\ (misses hs (c + 300) Ya (c + 300) Yb \/ (b <= e)%nat).
Proof.
  intros C I A B L e Y v E Le Fe. apply (rt_sound d hs g R) in I. apply neighbor_edge_iff in I as (n & w & m & Hn & Nr).
  fold (shrunk d) ns in Nr. fold ns in Hn. apply near_first in Nr; [|apply (spot_ordered d hs g R)].
  destruct Nr as (Im & Cm & F & H). apply in_enum in Im as [_ Im]. rewrite Nat.sub_0_r in Im.
  pose proof (proj1 (spot_candidate g a b _ _ _ _ _ _ w A B n m Hn Im) Cm) as (D & Fo & Fu).
  assert (w = Down) as -> by (destruct w; try (exfalso; lia); reflexivity).
  pose proof E as (k & Hk & He & _). fold ns in Hk.
  assert (Ck : candidate Down n k = true) by (apply (proj2 (spot_candidate g a e _ _ _ _ _ _ Down A E n k Hn Hk)); auto).
  pose proof B as (m' & Hm' & Hb & _). fold ns in Hm'. rewrite Im in Hm'. injection Hm' as <-.
  pose proof A as (n' & Hn' & Ha & _). fold ns in Hn'. rewrite Hn in Hn'. injection Hn' as <-.
  destruct (spot_ok d hs GD g R _ _ _ _ A) as (Ba & Ba' & _). destruct (spot_ok d hs GD g R _ _ _ _ B) as (Bb & Bb' & _). destruct (spot_ok d hs GD g R _ _ _ _ E) as (Be & Be' & _).
  assert (Out : forall t, (t < length hs)%nat -> ~ (zl t + 2 < c + 300 < zl t + 598 /\ zt hs t + 2 < Ya < zb hs t - 2)).
  { intros t Lt Q. apply (spot_outside d hs GD g R a _ Ya oa t A Lt). lia. }
  split.
  - intros M. apply (shrunk_iff d hs GD _ _ _ Ya _ Y Ha He Ba Be Ba' Be' ltac:(right; lia) Out) in M.
    specialize (F (e, k) (in_enum_ns e k Hk) Ck M). cbn [snd before] in F. destruct He as [_ He], Hb as [_ Hb].
    rewrite (hv_lt _ _ _ _ He Hb) in F. lia.
  - destruct H as [H|(l1 & l2 & El & N)].
    + left. now apply (shrunk_iff d hs GD _ _ _ Ya _ Yb Ha Hb Ba Bb Ba' Bb' ltac:(right; lia) Out).
    + right. destruct (le_lt_dec b e) as [Lb|Lb]; [exact Lb|]. exfalso.
      pose proof (enum_nth g l1 b m l2 El e k Hk Lb) as I1. specialize (N _ I1). cbn [snd] in N. congruence.
Qed.

(** Climbing past tables that are no ends. *)
Lemma step_up a b c Ya Yb oa ob : column c -> spot ns a (c + 300) Ya oa -> spot ns b (c + 300) Yb ob -> Ya < Yb -> faces oa Down -> faces ob Up ->
  (forall e Y v, spot ns e (c + 300) Y v -> ~ Ya < Y < Yb) -> joined es a b.
Proof.
  intros C A B L Fa Fb N. assert (J : joined es b a); [|destruct J; [right|left]; assumption].
  apply (rt_edges d hs g R). apply neighbor_edge_iff. pose proof A as (m & Hm & Ha & _). pose proof B as (n & Hn & Hb & _).
  exists n, Up, m. split; [exact Hn|]. fold (shrunk d). apply near_complete.
  - now apply in_enum_ns.
  - apply (proj2 (spot_candidate g b a _ _ _ _ _ _ Up B A n m Hn Hm)). auto.
  - exact (up_visible b a c Yb Ya ob oa n m C B A L Hn Hm).
  - intros b' m' I Cm. apply in_enum in I as [_ I]. rewrite Nat.sub_0_r in I. fold ns in I.
    destruct (nth_spot d hs g R b' m' I) as (X' & Y' & S & H').
    pose proof (proj1 (spot_candidate g b b' _ _ _ _ _ _ Up B S n m' Hn I) Cm) as ((E & L') & _). symmetry in E. rewrite E in *. clear E.
    destruct (Z.eq_dec Y' Ya) as [->|Ne].
    + left. destruct (spot_index d hs g R b' a _ _ _ _ S A) as [-> _]. fold ns in Hm. rewrite Hm in I. congruence.
    + right. cbn [before]. destruct Ha as [_ Ha], H' as [_ H']. rewrite (hv_lt _ _ _ _ H' Ha). specialize (N b' Y' _ S). lia.
Qed.
Lemma climb k : forall a b c Ya Yb oa ob, Yb - Ya <= Z.of_nat k -> column c -> spot ns a (c + 300) Ya oa -> spot ns b (c + 300) Yb ob -> Ya < Yb ->
  faces oa Down -> faces ob Up -> (forall e Y v, spot ns e (c + 300) Y v -> Ya < Y < Yb -> v = None) -> conn g a b ((Yb - Ya) / 2).
Proof.
  induction k as [|k IH]; intros a b c Ya Yb oa ob Bd C A B L Fa Fb N; [lia|].
  destruct (classic (exists e Y v, spot ns e (c + 300) Y v /\ Ya < Y < Yb)) as [(e & Y & v & S & Be)|No].
  - pose proof (N e Y v S Be) as ->. eapply conn_le; [eapply conn_trans|apply half_add with (x := Y - Ya) (y := Yb - Y); lia].
    + eapply (IH a e c Ya Y); eauto; try lia; [now left|]. intros e' Y' v' S' B'. eapply N; eauto; lia.
    + eapply (IH e b c Y Yb); eauto; try lia; [now left|]. intros e' Y' v' S' B'. eapply N; eauto; lia.
  - eapply conn_le; [eapply (conn_edge d hs GD g R a b); eauto|].
    + eapply (step_up a b c Ya Yb); eauto. intros e Y v S Q. apply No. eauto.
    + apply Z.div_le_mono; lia.
Qed.

(** ** The order of the nodes of the column *)

Hypothesis Rk : ranked d hs.

Lemma around_order B Y : (B < length hs)%nat -> (forall i, (i < length hs)%nat -> (i / 3 <= B / 3)%nat -> zb hs i + 80 < Y) ->
  preceded (fun j => hv (py j) (zb hs B + 80)) (fun j => hv (py j) Y) (junctions_around_shapes d).
Proof.
  intros LB H.
  assert (X : exists l1 r l2, shape_rects d = l1 ++ r :: l2 /\ hrect r (zl B) (zt hs B) 600 (zb hs B - zt hs B) /\
    forall s, In s l1 -> exists i, (i < length hs)%nat /\ (i < B)%nat /\ hrect s (zl i) (zt hs i) 600 (zb hs i - zt hs i)).
  { unfold ranked in Rk. replace (length hs) with (B + S (length hs - S B))%nat in Rk by lia. rewrite seq_app in Rk.
    apply Forall2_app_inv_l in Rk as (l1 & l2 & F1 & F2 & E). cbn [seq] in F2. inversion F2 as [|? r ? l2' Hr F2']; subst.
    exists l1, r, l2'. split; [exact E|]. split; [exact Hr|]. intros s Is.
    destruct (forall2_in_r _ _ _ _ F1 Is) as (i & Ii & Hi). apply in_seq in Ii. exists i. split; [lia|]. split; [lia|exact Hi]. }
  destruct X as (l1 & r & l2 & E & Hr & H1). unfold junctions_around_shapes. rewrite E.
  replace (l1 ++ r :: l2) with ((l1 ++ [r]) ++ l2) by now rewrite <- app_assoc. rewrite flat_map_app. apply preceded_after.
  - apply preceded_none. intros p Ip Hp. apply in_flat_map in Ip as (s & Is & Ip).
    assert (Q : exists i, (i < length hs)%nat /\ (i / 3 <= B / 3)%nat /\ hrect s (zl i) (zt hs i) 600 (zb hs i - zt hs i)).
    { apply in_app_iff in Is as [Is|[<-|[]]]; [|exists B; auto]. destruct (H1 s Is) as (i & Li & Lb & Hi). exists i. split; [exact Li|]. split; [apply Nat.div_le_mono; lia|exact Hi]. }
    destruct Q as (i & Li & Le & Hi). specialize (H i Li Le). pose proof (table_bounds d hs GD i Li) as Bt.
    destruct (grown_box d hs GD s i Li Hi) as ((G1 & G2 & G3 & G4) & O). cbn zeta in *.
    destruct Ip as [<-|[<-|[<-|[<-|[]]]]]; rewrite ?O in Hp; cbn [px py] in Hp;
      first [pose proof (hv_unique _ _ _ Hp G2)|pose proof (hv_unique _ _ _ Hp G4)]; lia.
  - destruct (grown_box d hs GD r B LB Hr) as ((G1 & G2 & G3 & G4) & O). cbn zeta in *.
    eexists. split; [apply in_flat_map; exists r; split; [apply in_elt|right; right; left; reflexivity]|]. exact G4.
Qed.

(** Lines of tables in the order of the tables, as seen from one port. *)
Lemma ray_order p t X Yp B Y : (t < length hs)%nat -> hpoint (port_location p) X Yp -> port_on hs t (port_orientation p) X Yp ->
  (port_orientation p = Up /\ zb hs B + 80 <= Yp \/ port_orientation p = Down /\ Yp <= zb hs B + 80) ->
  (B < length hs)%nat -> (forall i, (i < length hs)%nat -> (i / 3 <= B / 3)%nat -> zb hs i + 80 < Y) ->
  preceded (fun q => hpoint q X (zb hs B + 80)) (fun q => hpoint q X Y) (junctions_from_port d p (junctions_around_shapes d)).
Proof.
  intros Lt Hp On Dir LB H. pose proof (table_bounds d hs GD B LB) as Bt. pose proof (zh_le d hs GD) as Zh.
  assert (Bd : 0 <= zb hs B + 80 <= M24).
  { pose proof (ys_bounds d hs GD (zb hs B + 80) ltac:(exists B; auto)). lia. }
  pose proof (around_order B Y LB H) as Ar. unfold junctions_from_port. fold (grown_rects d).
  destruct Dir as [[Eo Le]|[Eo Le]]; rewrite Eo in *; cbn match.
  - eapply preceded_filter_map; [| |exact Ar].
    + intros j _ [_ Hj]. exact Hj.
    + intros j _ Hj. split; [|split; [apply Hp|exact Hj]]. now apply (ray_up_iff d hs GD t _ X Yp _ _ Lt Hp On Hj Bd).
  - eapply preceded_filter_map; [| |exact Ar].
    + intros j _ [_ Hj]. exact Hj.
    + intros j _ Hj. split; [|split; [apply Hp|exact Hj]]. now apply (ray_down_iff d hs GD t _ X Yp _ _ Lt Hp On Hj Bd).
Qed.

(** The ends in the column with a port below are whole tables. *)
Variable c : Z.
Hypothesis Settled : forall a, end_at d hs a -> zl (tab a) = c -> low hs a -> high a.

Lemma shelf_first i j B W Y : column c -> (B < length hs)%nat -> (W < length hs)%nat -> zl B = c -> zl W = c ->
  zb hs B + 160 <= zt hs W -> zb hs W <= Y -> spot ns i (c + 300) (zb hs B + 80) None -> spot ns j (c + 300) Y None -> (i < j)%nat.
Proof.
  intros C LB LW ZB ZW Ap Ly A J. pose proof (table_bounds d hs GD B LB) as Bb. pose proof (table_bounds d hs GD W LW) as Bw.
  assert (Rw : (B / 3 < W / 3)%nat).
  { destruct (Nat.lt_trichotomy (B / 3) (W / 3)) as [L|[E|L]]; [exact L| |]; exfalso.
    - pose proof (zt_same hs B W E). lia.
    - pose proof (zb_zt hs W B L). lia. }
  assert (H : forall i, (i < length hs)%nat -> (i / 3 <= B / 3)%nat -> zb hs i + 80 < Y).
  { intros k _ Lk. pose proof (zb_zt hs k W ltac:(lia)). lia. }
  apply (junction_order d hs g R i j _ _ _ _ A J). unfold edge_junctions, remove_overlapped.
  apply preceded_filter.
  { intros x _ Hx. apply (kept_iff d hs GD x _ _ Hx); [unfold column, M24 in *; lia|eapply (spot_range d hs FD g R); exact A|].
    destruct (spot_ok d hs GD g R _ _ _ _ A) as (_ & _ & K). apply K. }
  fold (crossing d). apply preceded_app.
  { apply preceded_none. intros p I Hp. destruct (around_in d hs GD p I) as (x & y & H' & C').
    destruct (hpoint_unique _ _ _ _ _ Hp H') as [<- _]. destruct (corner_xs hs _ _ C') as [Cx' _]. pose proof (xs_cases hs _ Cx').
    unfold column in C. lia. }
  apply preceded_flat_map. intros e Ie. unfold edge_end_ports.
  assert (Q : forall id n, id = e_source e \/ id = e_target e -> get_node d id = Some n ->
    preceded (fun p => hpoint p (c + 300) (zb hs B + 80)) (fun p => hpoint p (c + 300) Y)
      (flat_map (fun p => junctions_from_port d p (junctions_around_shapes d)) (n_ports n))).
  { intros id n Ei G. destruct (ed_end d hs FD e id n Ie Ei G) as (a & K & F). pose proof (proj1 K) as L.
    assert (Er : end_at d hs a) by (exists e, id, n; repeat split; auto; apply K).
    assert (P : forall o p, In p (n_ports n) -> port_orientation p = o -> hpoint (port_location p) (side_x (tab a) o) (side_y hs a o) ->
       exists t, (t < length hs)%nat /\ port_on hs t (port_orientation p) (side_x (tab a) o) (side_y hs a o)).
    { intros o p Ip Eo Hp'. assert (Ep : end_port d p) by (exists e, id, n; auto).
      destruct (gd_port d hs GD p Ep) as (t' & X' & Y' & Lt' & H' & On). destruct (hpoint_unique _ _ _ _ _ Hp' H') as [<- <-]. eauto. }
    (* junctions of ports at the sides, and those that do not reach the line *)
    assert (No : forall o p, In p (n_ports n) -> port_orientation p = o -> hpoint (port_location p) (side_x (tab a) o) (side_y hs a o) ->
       (o = Left \/ o = Right \/ zl (tab a) <> c \/ (o = Up /\ zt hs (tab a) < Y) \/ (o = Down /\ Y < zb hs (tab a))) ->
       forall q, In q (junctions_from_port d p (junctions_around_shapes d)) -> ~ hpoint q (c + 300) Y).
    { intros o p Ip Eo Hp' Cs q Iq Hq. destruct (P o p Ip Eo Hp') as (t & Lt & On).
      destruct (ray_in d hs GD p t _ _ q Lt Hp' On Iq) as (x & y & Hq' & Ry). destruct (hpoint_unique _ _ _ _ _ Hq Hq') as [<- <-].
      rewrite Eo in Ry. pose proof (zl_cases (tab a)) as Zt. unfold column in C.
      destruct o; unfold side_x, side_y, ray in Ry.
      - destruct Cs as [Z|[Z|[Z|[[_ Z]|[Z _]]]]]; try discriminate; lia.
      - destruct Cs as [Z|[Z|[Z|[[Z _]|[_ Z]]]]]; try discriminate; lia.
      - destruct Ry as (_ & Xq & _). apply xs_cases in Xq. lia.
      - destruct Ry as (_ & Xq & _). apply xs_cases in Xq. lia. }
    assert (NoAll : (forall o, In o (anchor_sides hs a) -> o = Left \/ o = Right \/ zl (tab a) <> c \/ (o = Up /\ zt hs (tab a) < Y) \/ (o = Down /\ Y < zb hs (tab a))) ->
       preceded (fun p => hpoint p (c + 300) (zb hs B + 80)) (fun p => hpoint p (c + 300) Y)
        (flat_map (fun p => junctions_from_port d p (junctions_around_shapes d)) (n_ports n))).
    { intros All. apply preceded_none. intros q Iq Hq. apply in_flat_map in Iq as (p & Ip & Iq).
      destruct (forall2_in_r _ _ _ _ F Ip) as (o & Io & Oo & Ho). exact (No o p Ip Oo Ho (All o Io) q Iq Hq). }
    destruct (classic (high a)) as [Hi|Nh].
    2:{ apply NoAll. intros o Io. apply sides_in in Io; [|exact K]. destruct Io as [-> | [-> | [[-> Lo]|[-> Hi]]]]; auto; [|contradiction].
        destruct (Z.eq_dec (zl (tab a)) c) as [Ec|Nc]; [exfalso; exact (Nh (Settled a Er Ec Lo))|auto]. }
    destruct (Z.eq_dec (zl (tab a)) c) as [Ec|Nc]; [|apply NoAll; auto].
    destruct a as [t k|t]; [contradiction|]. cbn [anchor_sides tab] in *.
    inversion F as [|? p1 ? l1 [O1 P1] F1 E0 E1]; subst. inversion F1 as [|? p2 ? l2 [O2 P2] F2 E0 E2]; subst.
    inversion F2 as [|? p3 ? l3 [O3 P3] F3 E0 E3]; subst. inversion F3 as [|? p4 ? l4 [O4 P4] F4 E0 E4]; subst. inversion F4; subst.
    cbn [flat_map]. pose proof (table_bounds d hs GD t L) as Bt. unfold side_x, side_y in *. cbn [tab] in *.
    rewrite <- Ec in *.
    assert (I1 : In p1 (n_ports n)) by (rewrite <- E1; now left). assert (I3 : In p3 (n_ports n)) by (rewrite <- E1; right; right; now left).
    assert (Yb : ys hs (zb hs B + 80)) by (exists B; auto).
    destruct (Z_le_gt_dec (zb hs B + 80) (zt hs t)) as [Le|Gt].
    + destruct (P Up p1 I1 O1 P1) as (t' & Lt' & On). apply preceded_after.
      * exact (ray_order p1 t' _ (zt hs t) B Y Lt' P1 On (or_introl (conj O1 Le)) LB H).
      * destruct (ray_all d hs GD p1 t' _ _ (zl t + 300) (zb hs B + 80) Lt' P1 On) as (q & Iq & Hq); [|exists q; auto].
        rewrite O1. split; [lia|]. split; [exact Yb|lia].
    + assert (Zt : zb hs t <= zb hs B + 80) by (destruct (col_apart hs t B ltac:(lia)) as [-> | [Q|Q]]; lia).
      assert (I2 : In p2 (n_ports n)) by (rewrite <- E1; right; now left). assert (I4 : In p4 (n_ports n)) by (rewrite <- E1; right; right; right; now left).
      apply preceded_app; [apply preceded_none; apply (No Up p1 I1 O1 P1); right; right; right; left; split; [reflexivity|lia]|].
      apply preceded_app; [apply preceded_none; apply (No Right p2 I2 O2 P2); auto|].
      apply preceded_app; [|apply preceded_app; [apply preceded_none; apply (No Left p4 I4 O4 P4); auto|apply preceded_none; intros x []]].
      destruct (P Down p3 I3 O3 P3) as (t' & Lt' & On). exact (ray_order p3 t' _ (zb hs t) B Y Lt' P3 On (or_intror (conj O3 Zt)) LB H). }
  destruct (get_node d (e_source e)) as [s|] eqn:Gs; [|apply preceded_none; intros x []].
  destruct (get_node d (e_target e)) as [t|] eqn:Gt; [|apply preceded_none; intros x []].
  rewrite flat_map_app. apply preceded_app; [apply (Q (e_source e) s)|apply (Q (e_target e) t)]; auto.
Qed.

(** ** No edge of the column passes over a table that is an end *)

Lemma no_cross W a b Ya Yb oa ob : column c -> end_at d hs (table_end W) -> zl W = c -> joined es a b ->
  spot ns a (c + 300) Ya oa -> spot ns b (c + 300) Yb ob -> Ya <= zt hs W -> zb hs W <= Yb -> False.
Proof.
  intros C Ew Zw J A B La Lb. pose proof (end_range d hs _ Ew) as LW. cbn [tab] in LW. pose proof (table_bounds d hs GD W LW) as Bw.
  destruct (high_stop d hs g R _ Ew I) as (e & _ & Se). destruct (low_stop d hs g R _ Ew I) as (e' & _ & Se'). cbn [tab] in Se, Se'. rewrite Zw in Se, Se'.
  destruct (edge_straight d hs g R a b _ _ _ _ _ _ J A B) as [(Q & _)|[(_ & L & Fa & Fb)|(_ & L & _)]]; [lia| |lia].
  assert (Na : Ya < zt hs W).
  { destruct (Z.eq_dec Ya (zt hs W)) as [E|E]; [|lia]. subst Ya. destruct (spot_index d hs g R _ _ _ _ _ _ A Se) as [_ ->]. destruct Fa; discriminate. }
  assert (Nb : zb hs W < Yb).
  { destruct (Z.eq_dec Yb (zb hs W)) as [E|E]; [|lia]. subst Yb. destruct (spot_index d hs g R _ _ _ _ _ _ B Se') as [_ ->]. destruct Fb; discriminate. }
  destruct J as [J|J].
  2:{ pose proof (pick_up a b c Ya Yb oa ob C J A B L e' (zb hs W) _ Se' Nb ltac:(now right)). lia. }
  pose proof (proj1 (pick_down a b c Ya Yb oa ob C J A B L e (zt hs W) _ Se Na ltac:(now right))) as Pd.
  assert (X : exists T, (T < length hs)%nat /\ zl T = c /\ Ya <= zt hs T /\ zb hs T + 160 <= zt hs W).
  { apply NNPP. intros No. assert (M : misses hs (c + 300) Ya (c + 300) (zt hs W)); [|specialize (Pd M); lia].
    intros t Lt. rewrite !Z.max_id, !Z.min_id. pose proof (zl_cases t) as Zl. destruct (Z.eq_dec (zl t) c) as [Et|Nt]; [|unfold column in C; lia].
    pose proof (spot_outside d hs GD g R a _ _ _ t A Lt) as Oa. destruct (col_apart hs t W ltac:(lia)) as [-> | [Q|Q]]; try lia.
    destruct (Z_le_gt_dec Ya (zt hs t)) as [Q'|Q']; [exfalso; apply No; eauto|]. lia. }
  destruct X as (T & LT & ZT & LaT & Ap). pose proof (table_bounds d hs GD T LT) as BT.
  assert (G : gap hs c (zb hs T + 80) (zb hs T + 80)).
  { intros t Lt Et. pose proof (table_bounds d hs GD t Lt). destruct (col_apart hs t T ltac:(lia)) as [-> | [Q|Q]]; lia. }
  destruct (mid_spot d hs g R c (zb hs T + 80) C) as (k & Sk).
  { exists T. auto. } { exact (gap_clear hs c _ _ C G). }
  { exists (table_end W). split; [exact Ew|]. split; [exact Zw|]. right. split; [exact I|]. cbn [tab]. lia. }
  destruct (pick_down a b c Ya Yb oa ob C J A B L k (zb hs T + 80) _ Sk ltac:(lia) ltac:(now left)) as [_ [M|Le]].
  - specialize (M W LW). pose proof (table_bounds d hs GD W LW). rewrite Zw in M. lia.
  - destruct ob as [o|]; [pose proof (junction_first d hs g R k b _ _ _ _ o Sk B); lia|].
    pose proof (shelf_first k b T W Yb C LT LW ZT Zw Ap ltac:(lia) Sk B). lia.
Qed.

Lemma settled_table a : end_at d hs a -> zl (tab a) = c -> low hs a \/ high a -> a = table_end (tab a).
Proof. intros E Z [Lo|Hi]; [pose proof (Settled a E Z Lo) as Hi|]; destruct a; [contradiction|reflexivity|contradiction|reflexivity]. Qed.

Lemma inside_over W a b : inside g c a b -> column c -> end_at d hs (table_end W) -> zl W = c -> forall Ya oa Yb ob,
  spot ns a (c + 300) Ya oa -> spot ns b (c + 300) Yb ob -> Ya <= zt hs W -> zb hs W <= Yb -> False.
Proof.
  intros In' C Ew Zw. pose proof (end_range d hs _ Ew) as LW. cbn [tab] in LW. pose proof (table_bounds d hs GD W LW) as Bw.
  induction In' as [a Y o A'|a b e Y o A' J In' IH]; intros Ya oa Yb ob A B La Lb.
  - pose proof (spot_place g _ _ _ _ _ _ _ A B). lia.
  - destruct (inside_spot g c b e In') as (Y' & o' & S). pose proof (spot_outside d hs GD g R b _ _ _ W S LW) as Ob.
    destruct (Z_le_gt_dec Y' (zt hs W)) as [Q|Q]; [exact (IH Y' o' Yb ob S B Q Lb)|].
    apply (no_cross W a b Ya Y' oa o' C Ew Zw J A S La). unfold column in C. lia.
Qed.

Lemma fair_tables i j s t Y1 w1 Y2 w2 w : column c -> inside g c s t -> spot ns s (c + 300) Y1 (Some w1) -> spot ns t (c + 300) Y2 (Some w2) ->
  end_at d hs (table_end i) -> end_at d hs (table_end j) -> zl i = c -> zl j = c -> zb hs i + 160 <= zt hs j -> Y1 <= zb hs i -> zt hs j <= Y2 ->
  Y2 - Y1 + 20 <= 2 * w -> better hs g (table_end i) (table_end j) w.
Proof.
  intros C In' A B Ei Ej Zi Zj Ap L1 L2 Hw.
  destruct (low_stop d hs g R _ Ei I) as (e & Pe & Se). destruct (high_stop d hs g R _ Ej I) as (f & Pf & Sf). cbn [tab] in Se, Sf. rewrite Zi in Se. rewrite Zj in Sf.
  destruct (classic (exists W, end_at d hs (table_end W) /\ zl W = c /\ zb hs i <= zt hs W /\ zb hs W <= zt hs j)) as [(W & Ew & Zw & Lw & Lw')|No].
  - exfalso. apply (inside_over W s t In' C Ew Zw Y1 _ Y2 _ A B); lia.
  - exists e, f, ((zt hs j - zb hs i) / 2). split; [exact Pe|]. split; [exact Pf|].
    assert (Z : (zt hs j - zb hs i) / 2 < w) by (apply Z.div_lt_upper_bound; lia). split; [|exact Z].
    apply (climb (Z.to_nat (zt hs j - zb hs i)) e f c (zb hs i) (zt hs j) (Some Down) (Some Up)); auto; try lia; [now right|now right|].
    intros x Y v Sx Bx. destruct (column_spot d hs FD g R x c Y v C Sx) as [(-> & _)|(a & Ea & Za & H)]; [reflexivity|exfalso].
    assert (Et : a = table_end (tab a)) by (apply settled_table; [exact Ea|exact Za|]; destruct H as [(_ & Lo & _)|(_ & Hi & _)]; auto).
    apply No. exists (tab a). rewrite <- Et. split; [exact Ea|]. split; [exact Za|]. pose proof (end_range d hs a Ea) as La. pose proof (table_bounds d hs GD _ La).
    assert (HY : Y = zb hs (tab a) \/ Y = zt hs (tab a)) by (destruct H as [(_ & _ & ->)|(_ & _ & ->)]; auto). clear H Et.
    pose proof (table_bounds d hs GD _ (end_range d hs _ Ei)). pose proof (table_bounds d hs GD _ (end_range d hs _ Ej)). cbn [tab] in *.
    destruct (col_apart hs (tab a) i ltac:(lia)) as [E|Qi]; [rewrite E in *|]; destruct (col_apart hs (tab a) j ltac:(lia)) as [E'|Qj]; try rewrite E' in *; lia.
Qed.

Lemma fair_settled p q : end_at d hs p -> end_at d hs q -> zl (tab p) = c -> p <> q -> fair hs g p q.
Proof.
  intros Ep Eq Zp Ne c' s t Y1 w1 Y2 w2 w C In' A B Op Oq Zp' Zq Hw _. assert (Ec : c' = c) by congruence. clear Zp'. revert Ec. intros ->.
  assert (Tp : p = table_end (tab p)) by (apply settled_table; [exact Ep|exact Zp|left; exact (outlet_low hs p Y1 w1 Op)]).
  assert (Tq : q = table_end (tab q)) by (apply settled_table; [exact Eq|exact Zq|left; exact (outlet_low hs q Y2 w2 Oq)]).
  pose proof (end_range d hs p Ep) as Lp. pose proof (end_range d hs q Eq) as Lq.
  pose proof (table_bounds d hs GD _ Lp) as Bp. pose proof (table_bounds d hs GD _ Lq) as Bq.
  assert (R1 : zt hs (tab p) <= Y1 <= zb hs (tab p)) by (destruct Op as [(_ & -> & _)|(_ & -> & _)]; lia).
  assert (R2 : zt hs (tab q) <= Y2 <= zb hs (tab q)) by (destruct Oq as [(_ & -> & _)|(_ & -> & _)]; lia).
  rewrite Tp, Tq in *. cbn [tab] in *.
  destruct (col_apart hs (tab p) (tab q) ltac:(lia)) as [E|[Q|Q]]; [exfalso; apply Ne; congruence| |].
  - eapply (fair_tables _ _ s t Y1 w1 Y2 w2 w); eauto; lia.
  - apply better_sym. eapply (fair_tables _ _ t s Y2 w2 Y1 w1 w); eauto; try lia. now apply inside_sym.
Qed.
End Doc.
