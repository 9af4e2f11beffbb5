(** Lines between columns do not depend on the order of the relations. *)
From Coq Require Import String List Arith NArith ZArith Bool Lia Reals Lra SpecFloat Classical_Prop.
From Verif Require Import Base F32 Geometry Mir Erd Heap Route Layout Parser Cli SpecMir SpecF32 SpecGeom SpecLayout SpecRoute SpecGraph SpecRender SpecLink SpecEnds SpecThrough SpecRepeat SpecMore
  F32Facts GeomFacts SearchFacts MirFacts GridFacts LayoutFacts RenderFacts PipelineFacts GraphFacts PathFacts LatticeFacts
  ConnectFacts HubFacts DrawFacts OrderFacts RowFacts LineFacts MidFacts FarFacts TurnFacts CalmFacts LinkFacts EndFacts ThroughFacts RepeatFacts ClipFacts OuterFacts MoreFacts.
Import ListNotations.
Local Open Scope Z_scope.

Section One.
Variables (d : document) (hs : list nat).
Hypothesis FD : end_doc d hs.
Let GD := ed_grid d hs FD.
Variable g : route_graph.
Hypothesis R : routes d hs g.
Let ns := rg_nodes g.
Let es := rg_edges g.

(** ** Through the table in the middle *)

Lemma chooses_right a X1 Y o c X v : spot ns a X1 Y o -> faces o Right -> spot ns c X Y v -> X1 < X -> faces v Left ->
  exists b X2 u, joined es a b /\ spot ns b X2 Y u /\ X1 < X2 /\ picks_right hs g a b X1 X2 Y.
Proof.
  intros B Fu C L Fv. pose proof B as (n & Hn & _). pose proof C as (k & Hk & _).
  assert (Ck : candidate Right n k = true) by (apply (proj2 (spot_candidate g a c _ _ _ _ _ _ Right B C n k Hn Hk)); auto).
  assert (Ik : In (c, k) (enum ns)) by (apply in_enum; rewrite Nat.sub_0_r; split; [lia|exact Hk]).
  destruct (near_some (shrunk d) n Right (enum ns) (c, k) Ik Ck) as (b & m & Nr).
  pose proof Nr as Nr'. apply near_first in Nr'; [|apply (spot_ordered d hs g R)]. destruct Nr' as (Im & Cm & F & H).
  apply in_enum in Im as [_ Im]. rewrite Nat.sub_0_r in Im. fold ns in Im.
  destruct (nth_spot d hs g R b m Im) as (X2 & Y1 & A & Ha).
  pose proof (proj1 (spot_candidate g a b _ _ _ _ _ _ Right B A n m Hn Im) Cm) as ((E & L1) & _ & _). symmetry in E. rewrite E in *. clear E Y1.
  exists b, X2, (rn_orient m). assert (J : joined es a b).
  { apply (rt_edges d hs g R). apply neighbor_edge_iff. exists n, Right, m. auto. }
  split; [exact J|]. split; [exact A|]. split; [exact L1|].
  assert (Q : forall q X' w, spot ns q X' Y w -> X1 < X' -> faces w Left ->
    (misses hs X1 Y X' Y -> X2 <= X') /\ (misses hs X1 Y X2 Y \/ (b <= q)%nat)).
  { intros q X' w Sq Lq Fq. pose proof Sq as (kq & Hq & [Hx _] & _). fold ns in Hq.
    assert (Cq : candidate Right n kq = true) by (apply (proj2 (spot_candidate g a q _ _ _ _ _ _ Right B Sq n kq Hn Hq)); auto).
    assert (Iq : In (q, kq) (enum ns)) by (apply in_enum; rewrite Nat.sub_0_r; split; [lia|exact Hq]).
    split.
    - intros M. apply (hidden_iff d hs GD g R a q X1 X' Y _ _ n kq B Sq Hn Hq) in M.
      specialize (F (q, kq) Iq Cq M). cbn [snd before] in F. destruct Ha as [Ha _]. rewrite (hv_lt _ _ _ _ Hx Ha) in F. lia.
    - destruct H as [H|(l1 & l2 & E & N)]; [left; now apply (hidden_iff d hs GD g R a b X1 X2 Y _ _ n m B A Hn Im)|].
      right. destruct (le_lt_dec b q) as [Z|Z]; [exact Z|]. exfalso.
      pose proof (enum_nth g l1 b m l2 E q kq Hq Z) as I1. specialize (N _ I1). cbn [snd] in N. congruence. }
  split.
  - intros q X' w Sq Lq Fq M. now apply (Q q X' w).
  - destruct (classic (misses hs X1 Y X2 Y)) as [M|M]; [now left|]. right. intros q X' w Sq Lq Fq.
    destruct (Q q X' w Sq Lq Fq) as [_ [Z|Z]]; [contradiction|exact Z].
Qed.

Lemma far_ray_first Y i j : odd hs Y -> ~ rel d hs 860 Y -> ~ free hs 860 Y ->
  spot ns i 2300 Y None -> spot ns j 1540 Y None -> (i < j)%nat.
Proof.
  intros O Nr Nf A B. apply (order_by d hs FD g R 2300 Y 1540 i j); auto; [unfold corridor; auto|]. apply preceded_app.
  - apply preceded_none. intros p I H. destruct (around_in d hs GD p I) as (x & y & H' & C').
    destruct (hpoint_unique _ _ _ _ _ H H') as [_ <-]. destruct (corner_xs hs _ _ C') as [_ Cy].
    exact (O Cy).
  - apply preceded_flat_map. intros e Ie. unfold edge_end_ports.
    assert (Q : forall i n, i = e_source e \/ i = e_target e -> get_node d i = Some n ->
      preceded (fun p => hpoint p 2300 Y) (fun p => hpoint p 1540 Y) (flat_map (fun p => junctions_from_port d p (junctions_around_shapes d)) (n_ports n))).
    { intros id n Ei G. destruct (ed_end d hs FD e id n Ie Ei G) as (a & K & F). pose proof (proj1 K) as L. set (t := tab a) in *.
      assert (Er : end_at d hs a) by (exists e, id, n; repeat split; auto; apply K).
      assert (P : forall o p, In p (n_ports n) -> port_orientation p = o -> hpoint (port_location p) (side_x t o) (side_y hs a o) -> In o (anchor_sides hs a) ->
         forall q, In q (junctions_from_port d p (junctions_around_shapes d)) -> hpoint q 1540 Y -> o = Left /\ zl t = 1620 /\ rowY hs a = Y).
      { intros o p Ip Eo Hp' Io q Iq Hq.
        assert (Ep : end_port d p) by (exists e, id, n; auto).
        destruct (gd_port d hs GD p Ep) as (t' & X' & Y' & Lt' & H' & On). destruct (hpoint_unique _ _ _ _ _ Hp' H') as [<- <-].
        destruct (ray_in d hs GD p t' _ _ q Lt' H' On Iq) as (x & y & Hq' & Ry). destruct (hpoint_unique _ _ _ _ _ Hq Hq') as [<- <-].
        rewrite Eo in Ry. apply sides_in in Io; [|exact K]. pose proof (zl_cases t) as Zt.
        destruct Io as [-> | [-> | [[-> _]|[-> _]]]]; unfold side_x, side_y in *.
        - exfalso. pose proof Ry as (Ey & _ & Z & _). rewrite Ey in *.
          destruct Zt as [Zt|[Zt|Zt]].
          + apply Nf. apply (ray_right_blocked d hs FD _ _ _ Ry 860); unfold column; lia.
          + apply Nr. exists a. split; [exact Er|]. split; [fold t; lia|reflexivity].
          + lia.
        - pose proof Ry as (Ey & _ & Z & _). split; [reflexivity|]. split; [|congruence]. lia.
        - destruct Ry as (Z & _). lia.
        - destruct Ry as (Z & _). lia. }
      destruct (classic (zl t = 1620 /\ rowY hs a = Y)) as [[E1 E2]|Ne].
      - assert (Sd : exists pre rest, anchor_sides hs a = pre ++ Right :: rest /\ ~ In Left pre).
        { destruct a as [t' k|t']; cbn [anchor_sides].
          - exists []. unfold row_sides. destruct K as [_ K]. destruct (Nat.eqb_spec k 0); [lia|]. cbn. eauto.
          - exists [Up], [Down; Left]. split; [reflexivity|]. intros [Z|[]]. discriminate. }
        destruct Sd as (pre & rest & Sd & Nl). rewrite Sd in F. apply Forall2_app_inv_l in F as (ps1 & ps2 & F1 & F2 & En).
        inversion F2 as [|o' p' ? ps' [Op Hp'] F' E3 E4]. subst o' ps2. rewrite En in *.
        rewrite flat_map_app. apply preceded_app; [|cbn [flat_map]; apply preceded_after].
        + apply preceded_none. intros q Iq Hq. apply in_flat_map in Iq as (p & Ip & Iq).
          destruct (forall2_in_r _ _ _ _ F1 Ip) as (o & Io & Oo & Ho).
          destruct (P o p) with (q := q) as (-> & _); auto; [apply in_or_app; now left|rewrite Sd; apply in_or_app; now left].
        + apply preceded_none. intros q Iq Hq.
          assert (Z : Right = Left); [|discriminate].
          apply (P Right p') with (q := q); auto; [apply in_or_app; right; now left|rewrite Sd; apply in_or_app; right; now left].
        + assert (Ep : end_port d p') by (exists e, id, n; repeat split; auto; rewrite En; apply in_or_app; right; now left).
          destruct (gd_port d hs GD p' Ep) as (t' & X' & Y' & Lt' & H' & On). destruct (hpoint_unique _ _ _ _ _ Hp' H') as [<- <-].
          destruct (ray_all d hs GD p' t' _ _ 2300 Y Lt' H' On) as (q & Iq & Hq).
          * rewrite Op. unfold side_x, side_y. split; [symmetry; exact E2|]. split; [exists t; split; [exact L|lia]|]. split; [lia|].
            intros s Ls Z _. pose proof (zl_cases s). lia.
          * exists q. auto.
      - apply preceded_none. intros q Iq Hq. apply in_flat_map in Iq as (p & Ip & Iq).
        destruct (forall2_in_r _ _ _ _ F Ip) as (o & Io & Op & Hp').
        destruct (P o p Ip Op Hp' Io q Iq Hq) as (_ & Z1 & Z2). auto. }
    destruct (get_node d (e_source e)) as [s|] eqn:Gs; [|apply preceded_none; intros x []].
    destruct (get_node d (e_target e)) as [t|] eqn:Gt; [|apply preceded_none; intros x []].
    rewrite flat_map_app. apply preceded_app; [apply (Q (e_source e) s)|apply (Q (e_target e) t)]; auto.
Qed.

Lemma odd_through a b Y : odd hs Y -> spot ns a 780 Y None -> spot ns b 2300 Y None -> rel d hs 1620 Y -> ~ rel d hs 860 Y -> ~ free hs 860 Y ->
  joined es a b.
Proof.
  intros O A B Rl R1 F1. destruct (chooses_right a 780 Y None b 2300 None A (or_introl eq_refl) B ltac:(lia) (or_introl eq_refl)) as (c & X & o & J & C & L & P1 & P2).
  assert (M : ~ misses hs 780 Y X Y).
  { intros M. apply F1. destruct (odd_spot d hs FD g R c X Y o O C) as [(_ & K)|[(_ & K)|[(_ & K)|Ud]]].
    4:{ destruct (edge_h d hs GD g R a c 780 X Y None o J A C L) as (_ & [Fo|Fo] & _), Ud as [Ud|Ud]; congruence. }
    - apply (misses_free_inv hs 780 X Y 860 M); unfold corridor in K; lia.
    - pose proof (rel_column d hs X Y K) as Cx. apply (misses_free_inv hs 780 X Y 860 M); [lia|]. destruct Cx as [-> | [-> | ->]]; [lia|contradiction|lia].
    - pose proof (rel_column d hs _ Y K) as Cx. apply (misses_free_inv hs 780 X Y 860 M); [lia|].
      destruct Cx as [Cx|[Cx|Cx]]; [lia|rewrite Cx in K; contradiction|lia]. }
  destruct P2 as [P2|P2]; [contradiction|]. pose proof (P2 b 2300 None B ltac:(lia) (or_introl eq_refl)) as Le.
  assert (c = b) as ->; [|exact J].
  destruct (Nat.eq_dec c b) as [E|E]; [exact E|]. exfalso.
  destruct o as [o|]; [pose proof (junction_first d hs g R b c _ _ _ _ _ B C); lia|].
  destruct (odd_spot d hs FD g R c X Y None O C) as [(_ & K)|[(K & _)|[(K & _)|[K|K]]]]; try discriminate.
  destruct K as [-> | [-> | [-> | ->]]]; try lia.
  - pose proof (far_ray_first Y b c O R1 F1 B C). lia.
  - destruct (spot_index d hs g R _ _ _ _ _ _ B C) as [-> _]. now apply E.
Qed.

(** ** Into and out of a column *)

Notation mid := (mid d hs g).
Notation gap := (gap hs).

Lemma crossing_gap c Y L : gap c Y Y -> ~ gap c Y L -> exists t, (t < length hs)%nat /\ zl t = c /\
  ((zb hs t + 80 <= Y /\ L < zb hs t + 80) \/ (Y <= zt hs t - 80 /\ zt hs t - 80 < L)).
Proof.
  intros G N. apply NNPP. intros X. apply N. intros t Lt Et. specialize (G t Lt Et).
  destruct (classic ((zb hs t + 80 <= Y /\ zb hs t + 80 <= L) \/ (Y <= zt hs t - 80 /\ L <= zt hs t - 80))) as [?|Q]; [assumption|].
  exfalso. apply X. exists t. split; [exact Lt|]. split; [exact Et|]. lia.
Qed.

(** The way out of a gap towards a line outside it passes a corner. *)
Lemma way_out e c Y L : mid e c Y -> ~ gap c Y L -> exists y, line hs c y /\ gap c Y y /\ (L < y <= Y \/ Y <= y < L).
Proof.
  intros M N. pose proof (md_gap _ _ _ _ _ _ M) as G. destruct (crossing_gap c Y L G N) as (t & Lt & Et & [[B1 B2]|[B1 B2]]).
  - destruct (nearest_above d hs FD c Y G) as (T & LT & ET & BT & GT & Max); [exists t; repeat split; auto; lia|].
    specialize (Max t Lt Et ltac:(lia)). exists (zb hs T + 80). split; [exists T; auto|]. split; [exact GT|]. lia.
  - destruct (nearest_below d hs FD c Y G) as (T & LT & ET & BT & GT & Max); [exists t; repeat split; auto; lia|].
    specialize (Max t Lt Et ltac:(lia)). exists (zt hs T - 80). split; [exists T; auto|]. split; [exact GT|]. lia.
Qed.

Lemma corr_le K a b Y Y' z : corridor K -> spot ns a K Y None -> spot ns b K Y' None -> Z.abs (Y - Y') <= 2 * z -> conn g a b z.
Proof.
  intros C A B H. eapply conn_le; [eapply (corr_vline d hs FD g R); eauto|]. apply Z.div_le_upper_bound; lia.
Qed.
Lemma hub_le e k c K Y Yo z : mid e c Y -> (K = c - 80 \/ K = c + 680) -> spot ns k K Yo None -> ys hs Yo -> gap c Y Yo ->
  380 + Z.abs (Y - Yo) <= 2 * z -> conn g e k z.
Proof.
  intros M Ek A Yy G H. destruct (hub_conn d hs FD g R e k c K Y Yo M Ek A Yy G) as (w & C & L). eapply conn_le; [exact C|]. lia.
Qed.
Lemma line_le a b X1 X2 Y z : ys hs Y -> spot ns a X1 Y None -> spot ns b X2 Y None -> Z.abs (X1 - X2) <= 2 * z -> conn g a b z.
Proof.
  intros Yy A B H. destruct (Z.le_ge_cases X1 X2) as [L|L].
  - eapply conn_le; [exact (even_line d hs FD g R a b X1 X2 Y Yy A B L)|]. apply Z.div_le_upper_bound; lia.
  - apply conn_sym. eapply conn_le; [exact (even_line d hs FD g R b a X2 X1 Y Yy B A L)|]. apply Z.div_le_upper_bound; lia.
Qed.
Lemma mid_le e f c Y Y' z : mid e c Y -> mid f c Y' -> gap c Y Y' -> Z.abs (Y - Y') <= 2 * z -> conn g e f z.
Proof.
  intros A B G H. eapply conn_le; [exact (mid_line d hs FD g R e f c Y Y' A B G)|]. apply Z.div_le_upper_bound; lia.
Qed.
Lemma corner_line_at c K Y : line hs c Y -> K = c - 80 \/ K = c + 680 -> exists k, spot ns k K Y None.
Proof. apply (corner_at d hs g R). Qed.

(** From a node of a column to a line next to a table in a corridor beside it. *)
Lemma beside_any e k c K Y L z : mid e c Y -> (K = c - 80 \/ K = c + 680) -> spot ns k K L None -> ys hs L ->
  380 + Z.abs (Y - L) <= 2 * z -> conn g e k z.
Proof.
  intros M Ek A Yy H. pose proof (column_corridor c K (md_col _ _ _ _ _ _ M) Ek) as Co.
  destruct (classic (gap c Y L)) as [G|N]; [now apply (hub_le e k c K Y L)|].
  destruct (way_out e c Y L M N) as (y & Ly & Gy & By). destruct (corner_line_at c K y Ly Ek) as (f & F).
  pose proof (line_ys hs c y Ly) as Yl.
  destruct (even_div Y y (mid_even d hs g e c Y M) (ys_even hs y Yl)) as (q1 & _ & Q1).
  destruct (even_div y L (ys_even hs y Yl) (ys_even hs L Yy)) as (q2 & _ & Q2).
  eapply conn_le; [eapply (conn_trans g e f k (190 + 5 * q1) (5 * q2))|lia].
  - apply (hub_le e f c K Y y); auto. lia.
  - apply (corr_le K f k y L); auto. lia.
Qed.

(** Between neighbouring columns: [e] and [f] are on the same line. *)
Lemma columns_next c c' : column c -> column c' -> c - c' = 760 \/ c' - c = 760 ->
  exists K, (K = c - 80 \/ K = c + 680) /\ (K = c' - 80 \/ K = c' + 680).
Proof. intros C C' [H|H]; [exists (c - 80)|exists (c + 680)]; lia. Qed.

Lemma mid_mid e0 e f f0 c c' Y0 Y Y2 z : mid e0 c Y0 -> mid e c Y -> mid f c' Y -> mid f0 c' Y2 -> c - c' = 760 \/ c' - c = 760 ->
  760 + Z.abs (Y0 - Y) + Z.abs (Y - Y2) <= 2 * z -> conn g e0 f0 z.
Proof.
  intros M0 M N N0 Nx H. pose proof (md_col _ _ _ _ _ _ M) as C. pose proof (md_col _ _ _ _ _ _ N) as C'.
  destruct (columns_next c c' C C' Nx) as (K & K1 & K2). pose proof (md_ys _ _ _ _ _ _ M) as Yy.
  pose proof (mid_even d hs g _ _ _ M0) as E0. pose proof (mid_even d hs g _ _ _ N0) as E2. pose proof (ys_even hs Y Yy) as E1.
  destruct (classic (gap c Y0 Y)) as [G|G].
  - destruct (even_div Y0 Y E0 E1) as (q1 & _ & Q1). destruct (even_div Y Y2 E1 E2) as (q2 & _ & Q2).
    pose proof (mid_le e0 e c Y0 Y (5 * q1) M0 M G ltac:(lia)) as C1.
    destruct (classic (gap c' Y2 Y)) as [G'|G'].
    + pose proof (line_le e f _ _ Y 380 Yy (md_spot _ _ _ _ _ _ M) (md_spot _ _ _ _ _ _ N) ltac:(lia)) as C2.
      pose proof (mid_le f f0 c' Y Y2 (5 * q2) N N0 (gap_sym _ _ _ _ G') ltac:(lia)) as C3.
      eapply conn_le; [exact (conn_trans g _ _ _ _ _ C1 (conn_trans g _ _ _ _ _ C2 C3))|]. lia.
    + destruct (way_out f0 c' Y2 Y N0 G') as (y & Ly & Gy & By). destruct (corner_line_at c' K y Ly K2) as (k & Sk).
      pose proof (line_ys hs _ _ Ly) as Yl. pose proof (ys_even hs y Yl) as Ey.
      destruct (even_div Y y E1 Ey) as (q3 & _ & Q3). destruct (even_div Y2 y E2 Ey) as (q4 & _ & Q4).
      pose proof (beside_any e k c K Y y (190 + 5 * q3) M K1 Sk Yl ltac:(lia)) as C2.
      pose proof (beside_any f0 k c' K Y2 y (190 + 5 * q4) N0 K2 Sk Yl ltac:(lia)) as C3.
      eapply conn_le; [exact (conn_trans g _ _ _ _ _ C1 (conn_trans g _ _ _ _ _ C2 (conn_sym g _ _ _ C3)))|]. lia.
  - destruct (way_out e0 c Y0 Y M0 G) as (y & Ly & Gy & By). destruct (corner_line_at c K y Ly K1) as (k & Sk).
    pose proof (line_ys hs _ _ Ly) as Yl. pose proof (ys_even hs y Yl) as Ey.
    destruct (even_div Y0 y E0 Ey) as (q3 & _ & Q3). destruct (even_div Y2 y E2 Ey) as (q4 & _ & Q4).
    pose proof (beside_any e0 k c K Y0 y (190 + 5 * q3) M0 K1 Sk Yl ltac:(lia)) as C2.
    pose proof (beside_any f0 k c' K Y2 y (190 + 5 * q4) N0 K2 Sk Yl ltac:(lia)) as C3.
    eapply conn_le; [exact (conn_trans g _ _ _ _ _ C2 (conn_sym g _ _ _ C3))|]. lia.
Qed.

(** From an outer column across the middle one. *)
Definition beyond (c c' X : Z) : Prop := (c = 100 /\ c' = 1620 /\ 1540 <= X) \/ (c = 1620 /\ c' = 100 /\ X <= 780).

Lemma mid_far v e e0 c c' X Y Y0 z : beyond c c' X -> spot ns v X Y None -> mid e c Y -> mid e0 c Y0 -> ~ line hs c Y -> line hs c' Y ->
  Z.abs (X - (c + 300)) + Z.abs (Y - Y0) <= 2 * z -> conn g e0 v z.
Proof.
  intros B V M M0 Nl Ln H. pose proof (md_ys _ _ _ _ _ _ M) as Yy.
  assert (O : outer c c') by (unfold beyond in B; unfold outer; tauto).
  assert (Ks : exists K K', (K = c - 80 \/ K = c + 680) /\ (K' = c' - 80 \/ K' = c' + 680) /\ corridor K /\ corridor K' /\
     (K = 780 /\ K' = 1540 \/ K = 1540 /\ K' = 780) /\
     Z.abs (X - (c + 300)) = Z.abs (X - K') + 1140).
  { destruct B as [(-> & -> & B)|(-> & -> & B)]; [exists 780, 1540|exists 1540, 780]; unfold corridor; lia. }
  destruct Ks as (K & K' & K1 & K2 & Co & Co' & Kk & Dx).
  destruct (corner_line_at c' K' Y Ln K2) as (k0 & S0).
  assert (Ex : exists a, X = 10 * a) by (destruct (even_spot d hs FD g R v X Y None Yy V) as (_ & Kx); exists (X / 10);
    assert (Kz : X = 20 \/ X = 400 \/ X = 780 \/ X = 1160 \/ X = 1540 \/ X = 1920 \/ X = 2300) by tauto;
    destruct Kz as [-> | [-> | [-> | [-> | [-> | [-> | ->]]]]]]; reflexivity).
  destruct Ex as (ax & Ex). assert (Ek : exists b, Z.abs (X - K') = 10 * b) by (destruct Kk as [[_ Z]|[_ Z]]; [exists (Z.abs (ax - 154))|exists (Z.abs (ax - 78))]; lia).
  destruct Ek as (bx & Ek).
  pose proof (line_le k0 v K' X Y (5 * bx) Yy S0 V ltac:(lia)) as C0.
  pose proof (mid_even d hs g _ _ _ M0) as E0. pose proof (ys_even hs Y Yy) as E1. destruct (even_div Y0 Y E0 E1) as (q & _ & Q).
  enough (C1 : conn g e0 k0 (570 + 5 * q)) by (eapply conn_le; [exact (conn_trans g _ _ _ _ _ C1 C0)|lia]).
  destruct (classic (gap c Y0 Y)) as [G|G].
  { pose proof (mid_le e0 e c Y0 Y (5 * q) M0 M G ltac:(lia)) as C1.
    pose proof (line_le e k0 _ _ Y 570 Yy (md_spot _ _ _ _ _ _ M) S0 ltac:(lia)) as C2.
    eapply conn_le; [exact (conn_trans g _ _ _ _ _ C1 C2)|lia]. }
  assert (W : exists y, line hs 860 y /\ (Y0 <= y <= Y \/ Y <= y <= Y0)).
  { destruct (crossing_gap c Y Y0 (md_gap _ _ _ _ _ _ M)) as (t & Lt & Et & [[B1 B2]|[B1 B2]]).
    - intros Q'. apply G. now apply gap_sym.
    - assert (B3 : Y0 <= zt hs t - 80) by (destruct (md_gap _ _ _ _ _ _ M0 t Lt Et) as [[Z _]|[Z _]]; lia).
      destruct (full_row d hs FD c c' t Y O Lt Et B1 Ln) as (L1 & _). pose proof (table_bounds d hs GD t Lt). exists (zt hs t - 80). split; [exact L1|]. lia.
    - assert (B3 : zb hs t + 80 <= Y0) by (destruct (md_gap _ _ _ _ _ _ M0 t Lt Et) as [[Z _]|[Z _]]; lia).
      destruct (middle_reaches d hs FD g e c c' Y t O M Nl Ln Lt Et B1) as (T & LT & ET & T1 & T2 & T3).
      pose proof (table_bounds d hs GD t Lt). exists (zb hs T + 80). split; [exists T; auto|]. lia. }
  destruct W as (y & Ly & By). pose proof (line_ys hs _ _ Ly) as Yl. pose proof (ys_even hs y Yl) as Ey.
  destruct (corner_line_at 860 K y Ly ltac:(lia)) as (k1 & S1). destruct (corner_line_at 860 K' y Ly ltac:(lia)) as (k2 & S2).
  destruct (even_div Y0 y E0 Ey) as (q1 & _ & Q1). destruct (even_div y Y Ey E1) as (q2 & _ & Q2).
  pose proof (beside_any e0 k1 c K Y0 y (190 + 5 * q1) M0 K1 S1 Yl ltac:(lia)) as C1.
  pose proof (line_le k1 k2 K K' y 380 Yl S1 S2 ltac:(lia)) as C2.
  pose proof (corr_le K' k2 k0 y Y (5 * q2) Co' S2 S0 ltac:(lia)) as C3.
  eapply conn_le; [exact (conn_trans g _ _ _ _ _ C1 (conn_trans g _ _ _ _ _ C2 C3))|lia].
Qed.

(** The neighbours of a column on a line, by the tables. *)
Definition next_to (c X Y : Z) : Prop :=
  X = c - 80 \/ X = c + 680 \/ (exists c', column c' /\ X = c' + 300 /\ (c - c' = 760 \/ c' - c = 760)) \/
  (exists c', beyond c c' X /\ ~ line hs c Y /\ line hs c' Y /\ X <> 400 /\ X <> 1920).

Lemma enters_next e h c Y X Y' o : mid e c Y -> joined es e h -> spot ns h X Y' o -> X <> c + 300 -> Y' = Y /\ o = None /\ next_to c X Y.
Proof.
  intros M J H Ne. destruct (next_outside d hs FD g R e h c Y X Y' o M J H Ne) as (-> & -> & _). split; [reflexivity|]. split; [reflexivity|].
  pose proof (md_col _ _ _ _ _ _ M) as C.
  destruct (Z.eq_dec X (c - 80)) as [E1|N1]; [now left|]. destruct (Z.eq_dec X (c + 680)) as [E2|N2]; [right; now left|]. right. right.
  assert (Far : forall c', outer c c' -> next_to c X Y).
  { intros c' O. destruct (far_outer d hs FD g R e h c c' Y X None O M J H Ne N1 N2) as (_ & A1 & A2 & A3 & B).
    destruct (even_spot d hs FD g R h X Y None (md_ys _ _ _ _ _ _ M) H) as (_ & Kx).
    assert (B' : X = 1160 \/ beyond c c' X).
    { destruct B as [B|B]; [now left|]. right. destruct O as [[-> ->]|[-> ->]]; cbn in B; unfold beyond; auto. }
    destruct B' as [->|B']; [right; right; left; exists 860; unfold column; split; [auto|split; [reflexivity|]]; destruct O as [[-> ->]|[-> ->]]; lia|].
    assert (Nx : X <> c' + 300).
    { intros ->. assert (Cc : column c') by (unfold column; destruct O as [[_ ->]|[_ ->]]; auto).
      assert (J' : joined es h e) by (destruct J; [right|left]; assumption).
      destruct (next_outside d hs FD g R h e c' Y (c + 300) Y None (spot_mid d hs FD g R h c' Y Cc H) J' (md_spot _ _ _ _ _ _ M) ltac:(lia)) as (_ & _ & Z).
      destruct (line_corner hs c' Y A3) as [Z1 Z2]. destruct O as [[-> ->]|[-> ->]]; destruct Z as [Z|[Z|[[Z Z']|[Z Z']]]]; try lia; contradiction. }
    right. right. right. exists c'. split; [exact B'|]. split; [exact A1|]. split; [exact A3|]. 
    unfold beyond in B'. destruct B' as [(E1 & E2 & B')|(E1 & E2 & B')]; subst; lia. }
  destruct C as [-> | [-> | ->]].
  - destruct (Far 1620) as [?|[?|?]]; [left; auto|contradiction|contradiction|assumption].
  - destruct (far_middle d hs FD g R e h Y X None M J H Ne N1 N2) as (_ & B & _). left. unfold column.
    destruct B as [-> | ->]; [exists 100|exists 1620]; lia.
  - destruct (Far 100) as [?|[?|?]]; [right; auto|contradiction|contradiction|assumption].
Qed.

(** Straight up or down a column and then to a neighbour of it. *)
Lemma leaves v e e0 c X Y Y0 z : next_to c X Y -> spot ns v X Y None -> mid e c Y -> mid e0 c Y0 ->
  Z.abs (X - (c + 300)) + Z.abs (Y - Y0) <= 2 * z -> conn g e0 v z.
Proof.
  intros Nx V M M0 H. pose proof (md_ys _ _ _ _ _ _ M) as Yy.
  destruct Nx as [E|[E|[(c' & C' & -> & E)|(c' & B & Nl & Ln & _)]]].
  - subst X. apply (beside_any e0 v c (c - 80) Y0 Y z); auto. lia.
  - subst X. apply (beside_any e0 v c (c + 680) Y0 Y z); auto. lia.
  - pose proof (spot_mid d hs FD g R v c' Y C' V) as Mv. apply (mid_mid e0 e v v c c' Y0 Y Y z); auto. lia.
  - now apply (mid_far v e e0 c c' X Y Y0 z).
Qed.
End One.

Section Two.
Variables (d d' : document) (hs : list nat).
Hypothesis ED : end_doc d hs.
Hypothesis ED' : end_doc d' hs.
Variables g g' : route_graph.
Hypothesis R : routes d hs g.
Hypothesis R' : routes d' hs g'.
Hypothesis More : forall o X Y, port_at d o X Y -> port_at d' o X Y.
Hypothesis More_rel : forall c Y, rel d hs c Y -> rel d' hs c Y.
Hypothesis Same : forall Y, rel d' hs 860 Y -> rel d hs 860 Y.
Let GD := ed_grid d hs ED.
Let GD' := ed_grid d' hs ED'.
Let ns := rg_nodes g.
Let ns' := rg_nodes g'.

Definition outside (X : Z) : Prop := X <> 400 /\ X <> 1160 /\ X <> 1920.
Lemma inside X : outside X \/ exists c, column c /\ X = c + 300.
Proof.
  destruct (Z.eq_dec X 400) as [->|N1]; [right; exists 100; unfold column; lia|]. destruct (Z.eq_dec X 1160) as [->|N2]; [right; exists 860; unfold column; lia|].
  destruct (Z.eq_dec X 1920) as [->|N3]; [right; exists 1620; unfold column; lia|]. left. unfold outside. auto.
Qed.

(** Edges outside the middles of columns. *)
Lemma odd_more a b X1 X2 Y o u a' b' : odd hs Y -> joined (rg_edges g) a b -> spot ns a X1 Y o -> spot ns b X2 Y u -> X1 < X2 ->
  spot ns' a' X1 Y o -> spot ns' b' X2 Y u -> conn g' a' b' ((X2 - X1) / 2).
Proof.
  intros O J A B L A' B'. destruct (edge_h d hs GD g R a b X1 X2 Y o u J A B L) as (Fo & Fu & _).
  destruct (odd_edge d hs ED g R a b X1 X2 Y o u O J A B L) as [M|(-> & E & -> & -> & R1 & R2 & N & F)].
  - apply (hline_over d' hs ED' g' R' (Z.to_nat (X2 - X1)) a' b' X1 X2 Y o u); auto; [lia|].
    intros c X w C Bc. exact (odd_mid_none d' hs ED' g' R' a' b' c X1 X2 X Y o u w O A' B' Fo Fu M C Bc).
  - assert (N' : ~ rel d' hs 860 Y) by auto. destruct E as [-> | ->].
    + pose proof (odd_across d' hs ED' g' R' a' b' Y O A' B' (More_rel _ _ R1) N' F) as J'.
      pose proof (conn_edge d' hs GD' g' R' a' b' _ _ _ _ _ _ A' B' (or_intror eq_refl) J') as Q. now rewrite Z.sub_diag in Q.
    + pose proof (odd_through d' hs ED' g' R' a' b' Y O A' B' (More_rel _ _ R2) N' F) as J'.
      pose proof (conn_edge d' hs GD' g' R' a' b' _ _ _ _ _ _ A' B' (or_intror eq_refl) J') as Q. now rewrite Z.sub_diag in Q.
Qed.
Lemma outside_corridor a X Y o : spot ns a X Y o -> outside X -> faces o Up \/ faces o Down -> corridor X.
Proof.
  intros A (N1 & N2 & N3) F. destruct (spot_kind d hs ED g R a X Y o A) as [(_ & C & _)|[(_ & C & _)|[(_ & c & C & E & _)|[(_ & _ & E)|[(_ & _ & E)|(e & _ & E & _)]]]]]; auto.
  - unfold column in C. lia.
  - destruct F as [F|F]; destruct F; congruence.
  - destruct F as [F|F]; destruct F; congruence.
  - pose proof (zl_cases (tab e)). lia.
Qed.
Lemma outside_more a b X1 Y1 X2 Y2 o u a' b' : joined (rg_edges g) a b -> spot ns a X1 Y1 o -> spot ns b X2 Y2 u -> outside X1 -> outside X2 ->
  spot ns' a' X1 Y1 o -> spot ns' b' X2 Y2 u -> conn g' a' b' ((Z.abs (X1 - X2) + Z.abs (Y1 - Y2)) / 2).
Proof.
  intros J A B O1 O2 A' B'. destruct (edge_straight d hs g R a b _ _ _ _ _ _ J A B) as [(<- & Ne)|[(<- & L & Fo & Fu)|(<- & L & Fo & Fu)]].
  - destruct (classic (ys hs Y1)) as [Yy|O].
    + destruct (even_spot d hs ED g R a X1 Y1 o Yy A) as (-> & _). destruct (even_spot d hs ED g R b X2 Y1 u Yy B) as (-> & _).
      replace (Z.abs (X1 - X2) + Z.abs (Y1 - Y1)) with (Z.abs (X1 - X2)) by lia.
      destruct (Z.le_ge_cases X1 X2) as [L|L].
      * rewrite Z.abs_neq by lia. replace (- (X1 - X2)) with (X2 - X1) by lia. now apply (even_line d' hs ED' g' R' a' b' X1 X2 Y1).
      * rewrite Z.abs_eq by lia. apply conn_sym. now apply (even_line d' hs ED' g' R' b' a' X2 X1 Y1).
    + destruct (Z.lt_ge_cases X1 X2) as [L|L].
      * replace (Z.abs (X1 - X2) + Z.abs (Y1 - Y1)) with (X2 - X1) by lia. now apply (odd_more a b X1 X2 Y1 o u).
      * replace (Z.abs (X1 - X2) + Z.abs (Y1 - Y1)) with (X1 - X2) by lia. apply conn_sym. apply (odd_more b a X2 X1 Y1 u o); auto; [destruct J; [right|left]; assumption|lia].
  - replace (Z.abs (X1 - X1) + Z.abs (Y1 - Y2)) with (Z.abs (Y1 - Y2)) by lia.
    apply (corr_vline d' hs ED' g' R' X1 a' b' Y1 Y2 o u); auto. apply (outside_corridor a X1 Y1 o A O1). auto.
  - replace (Z.abs (X1 - X1) + Z.abs (Y1 - Y2)) with (Z.abs (Y1 - Y2)) by lia.
    apply (corr_vline d' hs ED' g' R' X1 a' b' Y1 Y2 o u); auto. apply (outside_corridor a X1 Y1 o A O1). auto.
Qed.

(** ** Walks from a column of a table *)

Variable p : anchor.
Hypothesis Pd : end_at d' hs p.
Hypothesis Row_p : ~ high p.

Definition reach (x : nat) (z : Z) : Prop := exists s, stop hs g' p s /\ conn g' s x z.
Lemma reach_le x z w : reach x z -> z <= w -> reach x w.
Proof. intros (s & S & C) L. exists s. split; [exact S|]. eapply conn_le; eauto. Qed.
Lemma reach_on x y z w v : reach x z -> conn g' x y w -> z + w <= v -> reach y v.
Proof. intros (s & S & C) C' L. exists s. split; [exact S|]. eapply conn_le; [exact (conn_trans g' _ _ _ _ _ C C')|exact L]. Qed.

(** Where the walk is after the length [z]: outside of columns; in a column, come in from beside it; in the column of
    the table it started from. *)
Definition came (c Y : Z) (o : option orientation) (x' : nat) (z : Z) : Prop :=
  (forall Y2 e, mid d' hs g' e c Y2 -> reach e (z + Z.abs (Y - Y2) / 2)) /\ (o = Some Down -> reach x' z).
Definition began (c Y : Z) (o : option orientation) (z : Z) : Prop :=
  low hs p /\ zl (tab p) = c /\ 0 <= z /\
  ((Y = zb hs (tab p) /\ o = Some Down) \/
   (80 + Z.abs (Y - zb hs (tab p) - 80) <= 2 * z /\ (o = Some Down -> 160 + Z.abs (Y - zb hs (tab p)) <= 2 * z))).
Definition at_length (x : nat) (z : Z) : Prop := exists X Y o x', spot ns x X Y o /\ spot ns' x' X Y o /\
  ((outside X /\ reach x' z) \/ exists c, column c /\ X = c + 300 /\ (came c Y o x' z \/ began c Y o z)).

(** A port on the lower side and the node below it. *)
Lemma below_port i t : (t < length hs)%nat -> spot ns' i (zl t + 300) (zb hs t) (Some Down) ->
  exists e, mid d' hs g' e (zl t) (zb hs t + 80) /\ conn g' i e 40.
Proof.
  intros Lt Sp. pose proof (zl_column t) as C.
  assert (Ln : line hs (zl t) (zb hs t + 80)) by (exists t; auto). pose proof (line_ys hs _ _ Ln) as Yy.
  assert (G : gap hs (zl t) (zb hs t + 80) (zb hs t + 80)).
  { intros u Lu Eu. pose proof (line_free d' hs ED' _ _ u Ln Lu Eu). lia. }
  destruct (column_spot d' hs ED' g' R' i (zl t) _ _ C Sp) as [(Z & _)|(a & Ea & Za & [(_ & Lo & Yb)|(Z & _)])]; try discriminate.
  destruct (mid_spot d' hs g' R' (zl t) (zb hs t + 80) C Yy) as (e & Se); [exact (gap_clear hs _ _ _ C G)| |].
  { exists a. split; [exact Ea|]. split; [exact Za|]. left. split; [exact Lo|]. lia. }
  pose proof (spot_mid d' hs ED' g' R' e (zl t) _ C Se) as M. exists e. split; [exact M|].
  pose proof (port_line d' hs ED' g' R' i e (zl t) t _ C Sp Lt eq_refl M ltac:(lia)) as C1.
  replace (zb hs t + 80 - zb hs t) with (40 * 2) in C1 by lia. rewrite Z.div_mul in C1 by lia. apply C1.
  intros u Lu Eu. pose proof (line_free d' hs ED' _ _ u Ln Lu Eu). lia.
Qed.
Lemma start_mid : low hs p -> exists e, mid d' hs g' e (zl (tab p)) (zb hs (tab p) + 80) /\ reach e 40.
Proof.
  intros Lo. destruct (low_stop d' hs g' R' p Pd Lo) as (i & Si & Sp).
  destruct (below_port i (tab p) (end_range d' hs p Pd) Sp) as (e & M & C). exists e. split; [exact M|]. exists i. auto.
Qed.

(** Horizontal edges end in the middle of a column at a line next to a table. *)
Lemma into_mid a b X1 Y1 o c Y2 u : joined (rg_edges g) a b -> spot ns a X1 Y1 o -> spot ns b (c + 300) Y2 u -> column c -> X1 <> c + 300 ->
  mid d hs g b c Y2.
Proof.
  intros J A B C Ne. destruct (column_spot d hs ED g R b c Y2 u C B) as [(_ & M)|(e & _ & _ & Q)]; [exact M|exfalso].
  destruct (edge_straight d hs g R a b _ _ _ _ _ _ J A B) as [(<- & _)|[(E & _)|(E & _)]]; [|congruence|congruence].
  destruct (Z.lt_ge_cases X1 (c + 300)) as [L|L].
  - destruct (edge_h d hs GD g R a b _ _ _ _ _ J A B L) as (_ & [F|F] & _), Q as [(Q & _)|(Q & _)]; congruence.
  - assert (J' : joined (rg_edges g) b a) by (destruct J; [right|left]; assumption).
    destruct (edge_h d hs GD g R b a _ _ _ _ _ J' B A ltac:(lia)) as ([F|F] & _ & _), Q as [(Q & _)|(Q & _)]; congruence.
Qed.
Lemma even_x a X Y o : ys hs Y -> spot ns a X Y o -> exists k, X = 10 * k.
Proof.
  intros Yy A. destruct (even_spot d hs ED g R a X Y o Yy A) as (_ & Kx).
  assert (Kz : X = 20 \/ X = 400 \/ X = 780 \/ X = 1160 \/ X = 1540 \/ X = 1920 \/ X = 2300) by tauto.
  destruct Kz as [-> | [-> | [-> | [-> | [-> | [-> | ->]]]]]]; [exists 2|exists 40|exists 78|exists 116|exists 154|exists 192|exists 230]; reflexivity.
Qed.

(** Into the lower side of a table from below. *)
Lemma from_below a b c Y1 Y2 o : column c -> joined (rg_edges g) a b -> spot ns a (c + 300) Y1 o -> spot ns b (c + 300) Y2 (Some Down) ->
  Y2 + 80 <= Y1 /\ (o = Some Down -> False) /\ exists t, (t < length hs)%nat /\ zl t = c /\ Y2 = zb hs t.
Proof.
  intros C J A B. destruct (column_spot d hs ED g R b c Y2 _ C B) as [(Z & _)|(e & Ee & Ze & [(_ & Lo & Yb)|(Z & _)])]; try discriminate.
  pose proof (end_range d hs e Ee) as Lt. 
  destruct (edge_straight d hs g R a b _ _ _ _ _ _ J A B) as [(_ & E)|[(_ & L & Fo & Fu)|(_ & L & Fo & Fu)]]; [congruence|destruct Fu; discriminate|].
  split; [|split; [intros ->; destruct Fo; discriminate|exists (tab e); auto]].
  destruct (column_spot d hs ED g R a c Y1 o C A) as [(_ & M)|(e' & Ee' & Ze' & [(E & _)|(_ & _ & E)])].
  - pose proof (md_gap _ _ _ _ _ _ M (tab e) Lt Ze). pose proof (table_bounds d hs GD (tab e) Lt). lia.
  - exfalso. subst o. destruct Fo; discriminate.
  - pose proof (end_range d hs e' Ee') as Lt'. pose proof (table_bounds d hs GD (tab e) Lt). pose proof (table_bounds d hs GD (tab e') Lt').
    destruct (rows_apart hs (tab e) (tab e')) as [[Z _]|[Z|Z]]; lia.
Qed.
(** Out of the lower side of a table, downwards. *)
Lemma to_below a b c t Y2 o : column c -> joined (rg_edges g) a b -> spot ns a (c + 300) (zb hs t) (Some Down) -> spot ns b (c + 300) Y2 o ->
  zb hs t + 80 <= Y2 /\ (o = Some Down -> False).
Proof.
  intros C J A B. destruct (from_below b a c Y2 (zb hs t) o C) as (L & N & _); auto. destruct J; [right|left]; assumption.
Qed.

Lemma abs_even a b : even a -> even b -> exists k, Z.abs (a - b) / 2 = 5 * k /\ Z.abs (a - b) = 10 * k.
Proof. apply even_div. Qed.

Lemma step_length a b X1 Y1 o X2 Y2 u z : at_length a z -> joined (rg_edges g) a b -> spot ns a X1 Y1 o -> spot ns b X2 Y2 u ->
  at_length b (z + (Z.abs (X1 - X2) + Z.abs (Y1 - Y2)) / 2).
Proof.
  intros (X & Y & o' & a' & A & A' & St) J Sa B. destruct (spot_place g a _ _ _ _ _ _ A Sa) as (-> & -> & ->). clear Sa.
  destruct (spot_more d d' hs ED g g' R R' More b X2 Y2 u B) as (b' & B'). fold ns' in B'. exists X2, Y2, u, b'. split; [exact B|]. split; [exact B'|].
  assert (J' : joined (rg_edges g) b a) by (destruct J; [right|left]; assumption).
  destruct St as [(O1 & Rc)|(c & C & -> & St)].
  { destruct (inside X2) as [O2|(c & C & ->)].
    - left. split; [exact O2|]. eapply reach_on; [exact Rc|exact (outside_more a b X1 Y1 X2 Y2 o u a' b' J A B O1 O2 A' B')|lia].
    - right. exists c. split; [exact C|]. split; [reflexivity|]. left.
      assert (Ne : X1 <> c + 300) by (unfold outside in O1; unfold column in C; lia).
      pose proof (into_mid a b X1 Y1 o c Y2 u J A B C Ne) as M.
      destruct (enters_next d hs ED g R b a c Y2 X1 Y1 o M J' A Ne) as (-> & -> & Nx).
      pose proof (md_ys _ _ _ _ _ _ M) as Yy. destruct (even_x a X1 Y2 None Yy A) as (kx & Kx).
      destruct (spot_place g b _ _ _ _ _ _ B (md_spot _ _ _ _ _ _ M)) as (_ & _ & ->).
      pose proof (spot_mid d' hs ED' g' R' b' c Y2 C B') as M'.
      split; [|discriminate]. intros Y3 e Me. 
      assert (Ec : exists kc, c + 300 = 10 * kc) by (destruct C as [-> | [-> | ->]]; [exists 40|exists 116|exists 192]; reflexivity). destruct Ec as (kc & Ec).
      destruct (abs_even Y2 Y3 (ys_even hs Y2 Yy) (mid_even d' hs g' _ _ _ Me)) as (k & K1 & K2).
      destruct (abs_even X1 (c + 300)) as (k' & K3 & K4); [now exists kx|now exists kc|].
      eapply reach_on; [exact Rc|apply conn_sym; apply (leaves d' hs ED' g' R' a' b' e c X1 Y2 Y3 (5 * k' + 5 * k)); auto; lia|].
      rewrite Z.sub_diag, Z.add_0_r, K1, K3. lia. }
  destruct (Z.eq_dec X2 (c + 300)) as [->|Ne].
  { (* within the column *)
    right. exists c. split; [exact C|]. split; [reflexivity|].
    pose proof (column_even d hs ED g R a c Y1 o C A) as E1. pose proof (column_even d hs ED g R b c Y2 u C B) as E2.
    destruct (abs_even Y1 Y2 E1 E2) as (k & K1 & K2). rewrite Z.sub_diag. cbn [Z.abs Z.add]. rewrite K1.
    destruct St as [(Cm & _)|(Lo & Zp & Pz & Bg)]; [left|right].
    - split.
      + intros Y3 e Me. pose proof (mid_even d' hs g' _ _ _ Me) as E3. destruct (abs_even Y1 Y3 E1 E3) as (k1 & Q1 & Q2). destruct (abs_even Y2 Y3 E2 E3) as (k2 & Q3 & Q4).
        eapply reach_le; [exact (Cm Y3 e Me)|]. rewrite Q1, Q3. lia.
      + intros ->. destruct (from_below a b c Y1 Y2 o C J A B) as (L & _ & t & Lt & Et & Eb). subst Y2. subst c.
        destruct (below_port b' t Lt B') as (e & Me & Ce). eapply reach_on; [exact (Cm _ e Me)|apply conn_sym; exact Ce|].
        destruct (abs_even Y1 (zb hs t + 80) E1 (mid_even d' hs g' _ _ _ Me)) as (k1 & Q1 & Q2). rewrite Q1. lia.
    - split; [exact Lo|]. split; [exact Zp|]. split; [lia|]. right. destruct Bg as [(-> & ->)|(G1 & G2)].
      + destruct (to_below a b c (tab p) Y2 u C J A B) as (L & N). split; [lia|]. intros Z. destruct (N Z).
      + split; [lia|]. intros ->. destruct (from_below a b c Y1 Y2 o C J A B) as (L & N & _). lia. }
  (* out of the column *)
  pose proof (into_mid b a X2 Y2 u c Y1 o J' B A C Ne) as M.
  destruct (enters_next d hs ED g R a b c Y1 X2 Y2 u M J B Ne) as (-> & -> & Nx).
  destruct (spot_place g a _ _ _ _ _ _ A (md_spot _ _ _ _ _ _ M)) as (_ & _ & ->).
  pose proof (md_ys _ _ _ _ _ _ M) as Yy. pose proof (ys_even hs Y1 Yy) as E1.
  pose proof (spot_mid d' hs ED' g' R' a' c Y1 C A') as M'.
  destruct (even_x b X2 Y1 None Yy B) as (kx & Kx).
  assert (Ec : exists kc, c + 300 = 10 * kc) by (destruct C as [-> | [-> | ->]]; [exists 40|exists 116|exists 192]; reflexivity). destruct Ec as (kc & Ec).
  destruct (abs_even (c + 300) X2) as (k & K1 & K2); [now exists kc|now exists kx|].
  rewrite Z.sub_diag, Z.add_0_r, K1.
  destruct (inside X2) as [O2|(c2 & C2 & ->)].
  - left. split; [exact O2|]. destruct St as [(Cm & _)|(Lo & Zp & Pz & Bg)].
    + eapply reach_on; [exact (Cm Y1 a' M')|apply (line_le d' hs ED' g' R' a' b' (c + 300) X2 Y1 (5 * k)); auto; lia|].
      rewrite Z.sub_diag. change (Z.abs 0 / 2) with 0. lia.
    + destruct Bg as [(_ & Z)|(G1 & _)]; [discriminate|]. destruct (start_mid Lo) as (m & Mm & Rm). rewrite Zp in Mm.
      destruct (abs_even Y1 (zb hs (tab p) + 80) E1 (mid_even d' hs g' _ _ _ Mm)) as (q & Q1 & Q2).
      eapply reach_on; [exact Rm|apply (leaves d' hs ED' g' R' b' a' m c X2 Y1 (zb hs (tab p) + 80) (5 * k + 5 * q)); auto; lia|]. lia.
  - right. exists c2. split; [exact C2|]. split; [reflexivity|]. left. split; [|discriminate]. intros Y3 e Me.
    pose proof (spot_mid d' hs ED' g' R' b' c2 Y1 C2 B') as N'.
    assert (Ad : c - c2 = 760 \/ c2 - c = 760).
    { destruct Nx as [Z|[Z|[(c' & C' & Z & Ad)|(c' & Bd & _ & _ & Z1 & Z2)]]].
      - unfold column in C, C2. lia.
      - unfold column in C, C2. lia.
      - lia.
      - unfold column in C, C2. unfold beyond in Bd. lia. }
    pose proof (mid_even d' hs g' _ _ _ Me) as E3. destruct (abs_even Y1 Y3 E1 E3) as (q3 & Q3 & Q4). rewrite Q3.
    destruct St as [(Cm & _)|(Lo & Zp & Pz & Bg)].
    + eapply reach_on; [exact (Cm Y1 a' M')|apply (mid_mid d' hs ED' g' R' a' a' b' e c c2 Y1 Y1 Y3 (5 * k + 5 * q3)); auto; lia|].
      rewrite Z.sub_diag. change (Z.abs 0 / 2) with 0. lia.
    + destruct Bg as [(_ & Z)|(G1 & _)]; [discriminate|]. destruct (start_mid Lo) as (m & Mm & Rm). rewrite Zp in Mm.
      destruct (abs_even (zb hs (tab p) + 80) Y1 (mid_even d' hs g' _ _ _ Mm) E1) as (q & Q1 & Q2).
      eapply reach_on; [exact Rm|apply (mid_mid d' hs ED' g' R' m a' b' e c c2 (zb hs (tab p) + 80) Y1 Y3 (5 * k + 5 * q + 5 * q3)); auto; lia|]. lia.
Qed.
Lemma walk_length a b l : walk (rg_edges g) a b l -> forall zs z, Forall2 (fun i z => exists o, spot ns i (fst z) (snd z) o) l zs ->
  at_length a z -> at_length b (z + travelled zs).
Proof.
  induction 1 as [a|a b c l J W IH]; intros zs z F H; inversion F as [|? w ? zs' (o & A) F1]; subst.
  - inversion F1; subst. cbn [travelled]. now rewrite Z.add_0_r.
  - destruct l as [|x l]; [inversion W|]. assert (x = b) as -> by (inversion W; reflexivity).
    inversion F1 as [|? w' ? zs2 (u & B) F2]; subst.
    change (travelled (w :: w' :: zs2)) with ((Z.abs (fst w - fst w') + Z.abs (snd w - snd w')) / 2 + travelled (w' :: zs2)).
    rewrite Z.add_assoc. apply (IH _ _ F1). exact (step_length a b _ _ o _ _ u z H J A B).
Qed.

Lemma start_length a : stop hs g p a -> at_length a 0.
Proof.
  intros (o & Io & A). pose proof (end_ok d' hs p Pd) as K. fold ns in A.
  destruct (spot_more d d' hs ED g g' R R' More a _ _ _ A) as (a' & A'). fold ns' in A'.
  exists (side_x (tab p) o), (side_y hs p o), (Some o), a'. split; [exact A|]. split; [exact A'|].
  assert (Sp : stop hs g' p a') by (exists o; auto). pose proof (zl_cases (tab p)) as Z.
  apply (sides_in hs p o K) in Io. destruct Io as [-> | [-> | [[-> Lo]|[-> Hi]]]].
  - left. split; [unfold outside, side_x; lia|]. exists a'. split; [exact Sp|apply conn_refl].
  - left. split; [unfold outside, side_x; lia|]. exists a'. split; [exact Sp|apply conn_refl].
  - right. exists (zl (tab p)). split; [apply zl_column|]. split; [reflexivity|]. right. split; [exact Lo|]. split; [reflexivity|]. split; [lia|]. left. auto.
  - destruct (Row_p Hi).
Qed.

Lemma end_length q b z : end_at d' hs q -> ~ high q -> stop hs g q b -> at_length b z -> exists s t, stop hs g' p s /\ stop hs g' q t /\ conn g' s t z.
Proof.
  intros Q Row_q (o & Io & B) (X & Y & o' & b' & B1 & B' & St). destruct (spot_place g b _ _ _ _ _ _ B1 B) as (-> & -> & ->).
  assert (Sq : stop hs g' q b') by (exists o; auto). pose proof (zl_cases (tab q)) as Zq.
  assert (Fin : reach b' z -> exists s t, stop hs g' p s /\ stop hs g' q t /\ conn g' s t z) by (intros (s & S & C); exists s, b'; auto).
  destruct St as [(_ & Rc)|(c & C & Ex & [(_ & Cm)|(Lo & Zp & Pz & Bg)])]; [auto| |];
    (apply (sides_in hs q o (end_ok d' hs q Q)) in Io; destruct Io as [-> | [-> | [[-> Lq]|[-> Hi]]]];
      [exfalso; unfold side_x in Ex; unfold column in C; lia|exfalso; unfold side_x in Ex; unfold column in C; lia| |destruct (Row_q Hi)]); [auto|].
  unfold side_x, side_y in *. assert (Eq : zl (tab q) = zl (tab p)) by lia.
  destruct p as [tp kp|tp] eqn:Ep; [|destruct (Row_p I)]. destruct q as [tq kq|tq] eqn:Eqq; [|destruct (Row_q I)]. cbn [tab low] in *.
  destruct (col_apart hs tq tp Eq) as [E|Ap].
  - subst tq. assert (kp = kq) as <- by lia. destruct (low_stop d' hs g' R' (row_end tp kp) Pd Lo) as (i & Si & _). exists i, i.
    split; [exact Si|]. split; [exact Si|]. eapply conn_le; [apply conn_refl|exact Pz].
  - pose proof (end_range d' hs _ Pd) as Lp. pose proof (end_range d' hs _ Q) as Lqq. cbn [tab] in Lp, Lqq.
    pose proof (table_bounds d' hs GD' tp Lp). pose proof (table_bounds d' hs GD' tq Lqq).
    destruct Bg as [(Z & _)|(_ & G2)]; [lia|]. specialize (G2 eq_refl).
    destruct (side_corridor d' hs ED' g' R' (row_end tp kp) (zl tp - 80) Pd (or_introl eq_refl)) as (i & j & Si & Sj & C1).
    destruct (side_corridor d' hs ED' g' R' (row_end tq kq) (zl tp - 80) Q ltac:(cbn [tab]; left; lia)) as (i' & j' & Si' & Sj' & C2).
    assert (Rp : rowY hs (row_end tp kp) = zb hs tp - 35) by (cbn [rowY]; rewrite zb_rows, <- Lo; lia).
    assert (Rq : rowY hs (row_end tq kq) = zb hs tq - 35) by (cbn [rowY]; rewrite zb_rows, <- Lq; lia).
    rewrite Rp in Sj. rewrite Rq in Sj'.
    assert (Co : corridor (zl tp - 80)) by (pose proof (zl_cases tp); unfold corridor; lia).
    pose proof (corr_le d' hs ED' g' R' _ j j' _ _ (z - 80) Co Sj Sj' ltac:(lia)) as C3.
    exists i, i'. split; [exact Si|]. split; [exact Si'|].
    eapply conn_le; [exact (conn_trans g' _ _ _ _ _ C1 (conn_trans g' _ _ _ _ _ C3 (conn_sym g' _ _ _ C2)))|]. lia.
Qed.
End Two.

(** ** Modules *)

(** The ends of the links are ends in the document, and the only ones. *)
Lemma link_ends m vb g d ls d0 : fits (table_rows m) -> layout_module m = Ret (vb, g, d) -> links [] (m_entries m) ls -> into_mir m = Ret d0 ->
  let d2 := place_terminal_ports (fst (place_nodes d0)) in
  (forall x, In x (ends ls) -> end_at d2 (table_rows m) (end_of x)) /\
  (forall a, end_at d2 (table_rows m) a -> exists x, In x (ends ls) /\ zl (tab (end_of x)) = zl (tab a) /\ rowY (table_rows m) (end_of x) = rowY (table_rows m) a).
Proof.
  intros F L Ll M. cbn zeta. destruct (links_edges m vb g d ls F L Ll) as (d1 & M1 & Fe). rewrite M in M1. injection M1 as <-. cbn zeta in Fe.
  destruct (layout_routes m vb g d F L) as (d1 & M1 & V & D & R). rewrite M in M1. injection M1 as <-.
  destruct (draw_split _ _ _ _ D) as (_ & N & F2). set (d2 := place_terminal_ports (fst (place_nodes d0))) in *. split.
  - intros x Ix. apply in_flat_map in Ix as ([p q] & Ipq & Ix). destruct (forall2_in_l _ _ _ _ Fe Ipq) as (e & Ie & _ & _ & s & t & Gs & Gt & Ps & Pt).
    cbn [fst snd] in *. destruct (forall2_in_r _ _ _ _ F2 Ie) as (e0 & I0 & (E1 & E2) & _).
    destruct Ix as [<-|[<-|[]]]; [exists e0, (e_source e0), s|exists e0, (e_target e0), t]; rewrite <- ?E1, <- ?E2; auto.
  - intros a (e0 & i & n & I0 & Ei & G & Ha). destruct (forall2_in_l _ _ _ _ F2 I0) as (e & Ie & (E1 & E2) & _).
    destruct (forall2_in_r _ _ _ _ Fe Ie) as ([p q] & Ip & _ & Ipq & s & t & Gs & Gt & Ps & Pt). cbn [fst snd] in *.
    assert (Hx : exists x, In x (ends ls) /\ has_ports (table_rows m) (end_of x) (n_ports n)).
    { destruct Ei as [Ei|Ei]; [exists p|exists q]; (split; [apply in_flat_map; exists (p, q); cbn; auto|]);
        [rewrite Ei, <- E1, Gs in G|rewrite Ei, <- E2, Gt in G]; injection G as <-; assumption. }
    destruct Hx as (x & Ix & Kx & Px). exists x. split; [exact Ix|]. destruct Ha as (Ka & Pa).
    assert (Il : In Left (anchor_sides (table_rows m) (end_of x))) by (apply sides_in; auto). apply In_nth_error in Il as (k & Hk).
    destruct (forall2_nth_l _ _ _ Px k Left Hk) as (tp & Hp & Op & Lp). pose proof (nth_error_In _ _ Hp) as Ip'.
    destruct (forall2_in_r _ _ _ _ Pa Ip') as (o & Io & Oo & Lo). rewrite Op in Oo. subst o.
    unfold side_x, side_y in *. destruct (hpoint_unique _ _ _ _ _ Lp Lo) as [Z1 Z2]. auto.
Qed.

Lemma middle_zl i : zl i = 860 -> (i mod 3 = 1)%nat.
Proof. intros E. change 860 with (zl 1) in E. apply zl_col in E. exact E. Qed.

Theorem outer_relations m m' vb g d vb' g' d' ls ls' i j ti ki tj kj e e' ps : fits (table_rows m) -> table_rows m' = table_rows m ->
  layout_module m = Ret (vb, g, d) -> layout_module m' = Ret (vb', g', d') ->
  links [] (m_entries m) ls -> links [] (m_entries m') ls' -> incl (ends ls) (ends ls') ->
  (forall x, In x (ends ls') -> in_middle x -> In x (ends ls)) ->
  nth_error ls i = Some (Row ti ki, Row tj kj) -> nth_error ls' j = Some (Row ti ki, Row tj kj) \/ nth_error ls' j = Some (Row tj kj, Row ti ki) ->
  nth_error (d_edges d) i = Some e -> nth_error (d_edges d') j = Some e' ->
  e_path e = Some ps -> exists ps', e_path e' = Some ps' /\ no_farther ps' ps.
Proof.
  intros F T L L' Ll Ll' Inc Mi Hi Hj He He' Ep. pose proof F as F'. rewrite <- T in F'.
  destruct (layout_routes m vb g d F L) as (d0 & M & V & D & R). destruct (layout_routes m' vb' g' d' F' L') as (d0' & M' & V' & D' & R').
  pose proof (ports_more m m' vb g d vb' g' d' ls ls' d0 d0' F T L L' Ll Ll' Inc M M') as More.
  pose proof (module_ends m d0 M F) as ED. pose proof (module_ends m' d0' M' F') as ED'.
  destruct (link_ends m vb g d ls d0 F L Ll M) as (At & Only). destruct (link_ends m' vb' g' d' ls' d0' F' L' Ll' M') as (At' & Only').
  rewrite T in R', ED', At', Only'.
  set (d2 := place_terminal_ports (fst (place_nodes d0))) in *. set (d2' := place_terminal_ports (fst (place_nodes d0'))) in *. set (hs := table_rows m) in *.
  assert (More_rel : forall c Y, rel d2 hs c Y -> rel d2' hs c Y).
  { intros c Y (a & Ea & Za & ->). destruct (Only a Ea) as (x & Ix & E1 & E2). exists (end_of x). split; [apply At'; auto|]. split; congruence. }
  assert (Same : forall Y, rel d2' hs 860 Y -> rel d2 hs 860 Y).
  { intros Y (a & Ea & Za & ->). destruct (Only' a Ea) as (x & Ix & E1 & E2). exists (end_of x). split; [|split; congruence]. apply At. apply Mi; [exact Ix|].
    assert (Z : zl (tab (end_of x)) = 860) by congruence. apply middle_zl in Z. destruct x; exact Z. }
  set (p := Row ti ki) in *. set (q := Row tj kj) in *.
  destruct (line_best m vb g d ls i p q e F L Ll Hi He) as (ps0 & l & a & b & Ep0 & Pl & Sa & Sb & W & _).
  rewrite Ep in Ep0. injection Ep0 as <-.
  destruct (places_spots d2 _ g R l ps Pl) as (zs & Fz & Hz).
  assert (Ip : In p (ends ls')) by (apply Inc, in_flat_map; exists (p, q); split; [exact (nth_error_In _ _ Hi)|cbn; auto]).
  assert (Iq : In q (ends ls')) by (apply Inc, in_flat_map; exists (p, q); split; [exact (nth_error_In _ _ Hi)|cbn; auto]).
  pose proof (start_length d2 d2' hs ED g g' R R' More (end_of p) (At' p Ip) (fun x => x) a Sa) as H0.
  pose proof (walk_length d2 d2' hs ED ED' g g' R R' More More_rel Same (end_of p) (At' p Ip) a b l W zs 0 Fz H0) as H1. rewrite Z.add_0_l in H1.
  destruct (end_length d2' hs ED' g g' R' (end_of p) (At' p Ip) (fun x => x) (end_of q) b (travelled zs) (At' q Iq) (fun x => x) Sb H1) as (a' & b' & Sa' & Sb' & C).
  destruct C as [(w1 & W1 & C1) (w2 & W2 & C2)].
  assert (Hb : exists ps' l' a1 b1, e_path e' = Some ps' /\ places g' l' ps' /\ walk (rg_edges g') a1 b1 l' /\
    (Z.of_N (walk_cost (rg_cost (rg_nodes g')) l') <= travelled zs)).
  { destruct Hj as [Hj|Hj]; destruct (line_best m' vb' g' d' ls' j _ _ e' F' L' Ll' Hj He') as (ps' & l' & a1 & b1 & Ep' & Pl' & _ & _ & W' & Min);
      rewrite T in Min; exists ps', l', a1, b1; (split; [exact Ep'|]); (split; [exact Pl'|]); (split; [exact W'|]).
    - specialize (Min a' b' w1 Sa' Sb' W1). lia.
    - specialize (Min b' a' w2 Sb' Sa' W2). lia. }
  destruct Hb as (ps' & l' & a1 & b1 & Ep' & Pl' & W' & Le).
  destruct (places_spots d2' _ g' R' l' ps' Pl') as (ws & Fw & Hw).
  exists ps'. split; [exact Ep'|]. exists ws, zs. split; [exact Hw|]. split; [exact Hz|].
  now rewrite <- (walk_travelled d2' _ (ed_grid _ _ ED') g' R' a1 b1 l' W' ws Fw).
Qed.

Theorem fields_any_order m m' vb g d vb' g' d' ls ls' i j ti ki tj kj e e' ps ps' : fits (table_rows m) -> table_rows m' = table_rows m ->
  layout_module m = Ret (vb, g, d) -> layout_module m' = Ret (vb', g', d') ->
  links [] (m_entries m) ls -> links [] (m_entries m') ls' -> incl (ends ls) (ends ls') -> incl (ends ls') (ends ls) ->
  nth_error ls i = Some (Row ti ki, Row tj kj) -> nth_error ls' j = Some (Row ti ki, Row tj kj) \/ nth_error ls' j = Some (Row tj kj, Row ti ki) ->
  nth_error (d_edges d) i = Some e -> nth_error (d_edges d') j = Some e' ->
  e_path e = Some ps -> e_path e' = Some ps' -> as_far ps ps'.
Proof.
  intros F T L L' Ll Ll' I1 I2 Hi Hj He He' Ep Ep'.
  destruct (outer_relations m m' vb g d vb' g' d' ls ls' i j _ _ _ _ e e' ps F T L L' Ll Ll' I1 (fun x I _ => I2 x I) Hi Hj He He' Ep) as (x & Ex & (ws & zs & Hw & Hz & Le)).
  rewrite Ep' in Ex. injection Ex as <-. pose proof F as F'. rewrite <- T in F'.
  assert (B : exists x, e_path e = Some x /\ no_farther x ps').
  { destruct Hj as [Hj|Hj].
    - exact (outer_relations m' m vb' g' d' vb g d ls' ls j i _ _ _ _ e' e ps' F' (eq_sym T) L' L Ll' Ll I2 (fun x I _ => I1 x I) Hj (or_introl Hi) He' He Ep').
    - exact (outer_relations m' m vb' g' d' vb g d ls' ls j i _ _ _ _ e' e ps' F' (eq_sym T) L' L Ll' Ll I2 (fun x I _ => I1 x I) Hj (or_intror Hi) He' He Ep'). }
  destruct B as (x & Ex & (zs' & ws' & Hz' & Hw' & Le')). rewrite Ep in Ex. injection Ex as <-.
  pose proof (points_unique _ _ _ Hz Hz') as Ez. pose proof (points_unique _ _ _ Hw Hw') as Ew. subst zs' ws'.
  exists zs, ws. split; [exact Hz|]. split; [exact Hw|]. lia.
Qed.

(** ** Samples *)

Definition one_way : module := three 2 2 2 [rel_fields "a" "a" "c" "a"; rel_fields "c" "b" "a" "b"].
Definition other_way : module := three 2 2 2 [rel_fields "a" "b" "c" "b"; rel_fields "c" "a" "a" "a"].
Definition few : module := three 1 1 2 [rel_fields "a" "a" "c" "a"].
Definition more_outside : module := three 1 1 2 [rel_fields "c" "b" "c" "a"; rel_fields "a" "a" "c" "a"].
Lemma one_way_links : links [] (m_entries one_way) [(Row 0 1, Row 2 1); (Row 2 2, Row 0 2)]. Proof. links_tac. Qed.
Lemma other_way_links : links [] (m_entries other_way) [(Row 0 2, Row 2 2); (Row 2 1, Row 0 1)]. Proof. links_tac. Qed.
Lemma few_links : links [] (m_entries few) [(Row 0 1, Row 2 1)]. Proof. links_tac. Qed.
Lemma more_outside_links : links [] (m_entries more_outside) [(Row 2 2, Row 2 1); (Row 0 1, Row 2 1)]. Proof. links_tac. Qed.

Lemma not_past m vb g d l1 X1 X2 Y l2 t : fits (table_rows m) -> layout_module m = Ret (vb, g, d) -> forallb small (l1 ++ (X1, Y) :: (X2, Y) :: l2) = true ->
  (t < length (table_rows m))%nat -> zt (table_rows m) t < Y < zb (table_rows m) t -> X1 <= zl t -> zl t + 600 <= X2 ->
  ~ past_tables d (half_path (l1 ++ (X1, Y) :: (X2, Y) :: l2)).
Proof.
  intros F L Sm Lt By Lx Rx P. destruct (layout_routes m vb g d F L) as (d0 & M & V & D & R). pose proof (module_grid m d0 M F) as GD.
  apply draw_split in D as (_ & N & _). destruct (gd_table _ _ GD t Lt) as (r & (k & n1 & Ib & Gi & Ri) & Hr).
  assert (T' : table_rect d r) by (exists k, n1; unfold body_children, get_node in *; rewrite N; auto).
  rewrite forallb_app in Sm. apply andb_true_iff in Sm as [_ Sm]. cbn [forallb] in Sm. apply andb_true_iff in Sm as [S1 Sm]. apply andb_true_iff in Sm as [S2 _].
  unfold small in S1, S2. cbn [fst snd] in S1, S2. apply andb_true_iff in S1 as [S1 S3]. apply andb_true_iff in S2 as [S2 _].
  refine (P (half_path l1) (halfpoint X1 Y) (halfpoint X2 Y) (half_path l2) X1 Y X2 Y r _ _ _ _ _ _ _ T' Hr _).
  - unfold half_path. now rewrite map_app.
  - apply halfpoint_h; lia.
  - apply halfpoint_h; lia.
  - apply crosses_h; lia.
Qed.

Theorem other_way_sample : fits (table_rows one_way) /\ table_rows other_way = table_rows one_way /\
  let ls := [(Row 0 1, Row 2 1); (Row 2 2, Row 0 2)] in let ls' := [(Row 0 2, Row 2 2); (Row 2 1, Row 0 1)] in
  links [] (m_entries one_way) ls /\ links [] (m_entries other_way) ls' /\ incl (ends ls) (ends ls') /\ incl (ends ls') (ends ls) /\
  exists vb g d e ps vb' g' d' e' ps', layout_module one_way = Ret (vb, g, d) /\ nth_error (d_edges d) 0 = Some e /\ e_path e = Some ps /\ ~ past_tables d ps /\
  layout_module other_way = Ret (vb', g', d') /\ nth_error (d_edges d') 1 = Some e' /\ e_path e' = Some ps' /\ ps' = rev ps.
Proof.
  assert (F : fits (table_rows one_way)) by (unfold fits; vm_compute; discriminate).
  assert (F' : fits (table_rows other_way)) by (unfold fits; vm_compute; discriminate).
  split; [exact F|]. split; [reflexivity|]. cbn zeta. split; [exact one_way_links|]. split; [exact other_way_links|].
  split; [intros x Ix; cbn in *; tauto|]. split; [intros x Ix; cbn in *; tauto|].
  destruct (drawn_path _ 0 straight_path F) as (vb & g & d & e & L & He & Ep); [vm_compute; reflexivity|].
  destruct (drawn_path _ 1 (rev straight_path) F') as (vb' & g' & d' & e' & L' & He' & Ep'); [vm_compute; reflexivity|].
  exists vb, g, d, e, (half_path straight_path), vb', g', d', e', (half_path (rev straight_path)). do 3 (split; [assumption|]).
  split; [|do 3 (split; [assumption|]); reflexivity].
  apply (not_past one_way vb g d [(700, 205)] 780 1540 205 [(1620, 205)] 1 F L); [reflexivity|vm_compute; lia|vm_compute; split; reflexivity|vm_compute; discriminate|vm_compute; discriminate].
Qed.

Theorem more_outside_sample : fits (table_rows few) /\ table_rows more_outside = table_rows few /\
  let ls := [(Row 0 1, Row 2 1)] in let ls' := [(Row 2 2, Row 2 1); (Row 0 1, Row 2 1)] in
  links [] (m_entries few) ls /\ links [] (m_entries more_outside) ls' /\ incl (ends ls) (ends ls') /\
  (forall x, In x (ends ls') -> in_middle x -> In x (ends ls)) /\ ~ incl (ends ls') (ends ls) /\
  exists vb g d e ps vb' g' d' e' ps', layout_module few = Ret (vb, g, d) /\ nth_error (d_edges d) 0 = Some e /\ e_path e = Some ps /\ ~ past_tables d ps /\
  layout_module more_outside = Ret (vb', g', d') /\ nth_error (d_edges d') 1 = Some e' /\ e_path e' = Some ps' /\ ps' = ps.
Proof.
  assert (F : fits (table_rows few)) by (unfold fits; vm_compute; discriminate).
  assert (F' : fits (table_rows more_outside)) by (unfold fits; vm_compute; discriminate).
  split; [exact F|]. split; [reflexivity|]. cbn zeta. split; [exact few_links|]. split; [exact more_outside_links|].
  split; [intros x Ix; cbn in *; tauto|]. split; [|split].
  { intros x Ix. cbn in Ix. destruct Ix as [<-|[<-|[<-|[<-|[]]]]]; cbn; intros Z; discriminate Z. }
  { intros I. specialize (I (Row 2 2) ltac:(cbn; auto)). cbn in I. destruct I as [Z|[Z|[]]]; discriminate Z. }
  destruct (drawn_path _ 0 straight_path F) as (vb & g & d & e & L & He & Ep); [vm_compute; reflexivity|].
  destruct (drawn_path _ 1 straight_path F') as (vb' & g' & d' & e' & L' & He' & Ep'); [vm_compute; reflexivity|].
  exists vb, g, d, e, (half_path straight_path), vb', g', d', e', (half_path straight_path). do 3 (split; [assumption|]).
  split; [|do 3 (split; [assumption|]); reflexivity].
  apply (not_past few vb g d [(700, 205)] 780 1540 205 [(1620, 205)] 1 F L); [reflexivity|vm_compute; lia|vm_compute; split; reflexivity|vm_compute; discriminate|vm_compute; discriminate].
Qed.
