(** Relations between places at nearly the same height. *)
From Coq Require Import String List Arith NArith ZArith Bool Lia SpecFloat Classical_Prop Sorting.Sorted.
From Verif Require Import Base F32 Geometry Mir Erd Heap Route Layout Parser Cli SpecMir SpecF32 SpecGeom SpecLayout SpecRoute SpecGraph SpecRender SpecLink SpecEnds SpecThrough SpecStack SpecGap SpecInk SpecNear
  F32Facts GeomFacts SearchFacts MirFacts GridFacts LayoutFacts RenderFacts PipelineFacts GraphFacts PathFacts LatticeFacts
  ConnectFacts HubFacts DrawFacts OrderFacts RowFacts LineFacts MidFacts FarFacts TurnFacts CalmFacts LinkFacts EndFacts ThroughFacts MiddleFacts GapFacts OuterFacts SideFacts.
Import ListNotations.
Local Open Scope Z_scope.

Section Doc.
Variables (d : document) (hs : list nat).
Hypothesis FD : end_doc d hs.
Let GD := ed_grid d hs FD.
Variable g : route_graph.
Hypothesis R : routes d hs g.
Let ns := rg_nodes g.
Let es := rg_edges g.
Let cost := rg_cost ns.
Local Notation steps := (steps g).
Local Notation stop := (stop hs g).
Local Notation better := (better hs g).
Local Notation conn := (conn g).

(** Walks are as long as they are wide. *)
Lemma wide a b x : steps a b x -> forall X1 Y1 o X2 Y2 u, spot ns a X1 Y1 o -> spot ns b X2 Y2 u -> Z.abs (X1 - X2) <= 2 * x.
Proof.
  intros W. induction W as [a|a b c x J W IH]; intros X1 Y1 o X2 Y2 u Sa Sc.
  - destruct (spot_place g a _ _ _ _ _ _ Sa Sc) as (-> & -> & _). lia.
  - destruct (joined_spots d hs g R a b J) as (X3 & Y3 & X4 & Y4 & o3 & o4 & Sa' & Sb).
    destruct (spot_place g a _ _ _ _ _ _ Sa' Sa) as (-> & -> & ->). clear Sa'. specialize (IH _ _ _ _ _ _ Sb Sc).
    assert (E : X1 = X4 \/ Y1 = Y4) by (destruct (edge_straight d hs g R a b _ _ _ _ _ _ J Sa Sb); lia).
    destruct E as [<-|<-].
    + clear - IH. lia.
    + pose proof (cost_h d hs FD g R a b _ _ _ _ _ Sa Sb) as Ch. unfold ns in *. clear - IH Ch. lia.
Qed.

Section Pair.
Variables p q : anchor.
Hypothesis Ep : end_at d hs p.
Hypothesis Eq : end_at d hs q.
Let tp := tab p.
Let tq := tab q.
Let Yp := rowY hs p.
Let Yq := rowY hs q.
Hypothesis Hn : Z.abs (Yp - Yq) < 380.

(** From an upper or lower side the way is 40 longer. *)
Lemma wider e a b x X2 Y2 u : end_at d hs e -> steps a b x ->
  spot ns a (zl (tab e) + 300) (zb hs (tab e)) (Some Down) \/ spot ns a (zl (tab e) + 300) (zt hs (tab e)) (Some Up) ->
  spot ns b X2 Y2 u -> X2 <> zl (tab e) + 300 -> Z.abs (zl (tab e) + 300 - X2) + 80 <= 2 * x.
Proof.
  intros E W Sa Sb Ne. pose proof (end_range d hs e E) as Le. pose proof (zl_column (tab e)) as C.
  destruct W as [a|a b c x J W].
  { exfalso. destruct Sa as [Sa|Sa]; destruct (spot_place g a _ _ _ _ _ _ Sa Sb) as (Q & _); congruence. }
  destruct (joined_spots d hs g R a b J) as (X3 & Y3 & X4 & Y4 & o3 & o4 & Sa' & Sc).
  assert (Q : X4 = zl (tab e) + 300 /\ 80 <= 2 * Z.of_N (rg_cost (rg_nodes g) a b)).
  { destruct Sa as [Sa|Sa].
    - assert (X4 = zl (tab e) + 300) as ->.
      { destruct (edge_straight d hs g R a b _ _ _ _ _ _ J Sa Sc) as [(Ey & Nx)|[(Ex & _)|(Ex & _)]]; [|congruence|congruence].
        exfalso. rewrite <- Ey in Sc. destruct (Z.lt_total (zl (tab e) + 300) X4) as [L|[L|L]]; [|congruence|].
        - destruct (edge_h d hs GD g R a b _ _ _ _ _ J Sa Sc L) as ([Q|Q] & _); discriminate.
        - destruct (edge_h d hs GD g R b a _ _ _ _ _ (joined_sym _ _ _ J) Sc Sa L) as (_ & [Q|Q] & _); discriminate. }
      split; [reflexivity|]. pose proof (below_port d hs FD g R (tab e) a b _ _ _ C Le eq_refl Sa (joined_sym _ _ _ J) Sc) as B.
      rewrite (cost_v d hs FD g R a b _ _ _ _ _ Sa Sc). pose proof (Z.div_le_mono 80 (Z.abs (zb hs (tab e) - Y4)) 2 ltac:(lia) ltac:(lia)) as Q. change (80 / 2) with 40 in Q. lia.
    - assert (X4 = zl (tab e) + 300) as ->.
      { destruct (edge_straight d hs g R a b _ _ _ _ _ _ J Sa Sc) as [(Ey & Nx)|[(Ex & _)|(Ex & _)]]; [|congruence|congruence].
        exfalso. rewrite <- Ey in Sc. destruct (Z.lt_total (zl (tab e) + 300) X4) as [L|[L|L]]; [|congruence|].
        - destruct (edge_h d hs GD g R a b _ _ _ _ _ J Sa Sc L) as ([Q|Q] & _); discriminate.
        - destruct (edge_h d hs GD g R b a _ _ _ _ _ (joined_sym _ _ _ J) Sc Sa L) as (_ & [Q|Q] & _); discriminate. }
      split; [reflexivity|]. pose proof (above_port d hs FD g R (tab e) a b _ _ _ C Le eq_refl Sa (joined_sym _ _ _ J) Sc) as B.
      rewrite (cost_v d hs FD g R a b _ _ _ _ _ Sa Sc). pose proof (Z.div_le_mono 80 (Z.abs (zt hs (tab e) - Y4)) 2 ltac:(lia) ltac:(lia)) as Q. change (80 / 2) with 40 in Q. lia. }
  destruct Q as (-> & Q). pose proof (wide b c x W _ _ _ _ _ _ Sc Sb) as Wd. unfold ns in *. clear - Q Wd. lia.
Qed.

Lemma stop_at e a : end_at d hs e -> stop e a ->
  spot ns a (zl (tab e)) (rowY hs e) (Some Left) \/ spot ns a (zl (tab e) + 600) (rowY hs e) (Some Right) \/
  spot ns a (zl (tab e) + 300) (zb hs (tab e)) (Some Down) \/ spot ns a (zl (tab e) + 300) (zt hs (tab e)) (Some Up).
Proof.
  intros E (o & I & Sp). apply sides_in in I; [|exact (end_ok d hs _ E)].
  destruct I as [-> | [-> | [[-> Lw]|[-> Hi]]]]; unfold side_x, side_y in Sp; cbn [tab] in Sp; auto.
Qed.

(** The way along a corridor beside both. *)
Lemma direct K w : (K = zl tp - 80 \/ K = zl tp + 680) -> (K = zl tq - 80 \/ K = zl tq + 680) -> Z.abs (Yp - Yq) + 160 < 2 * w -> better p q w.
Proof.
  intros Kp Kq L. destruct (side_corridor d hs FD g R p K Ep Kp) as (i & j & Si & Sj & C1).
  destruct (side_corridor d hs FD g R q K Eq Kq) as (i' & j' & Si' & Sj' & C2).
  destruct (corr_conn d hs FD g R K j j' _ _ ltac:(pose proof (zl_cases tp); unfold corridor; lia) Sj Sj') as (z & Cz & Lz).
  exists i, i', (40 + (z + 40)). split; [exact Si|]. split; [exact Si'|]. split.
  - eapply conn_trans; [exact C1|]. eapply conn_trans; [exact Cz|]. now apply conn_sym.
  - fold Yp Yq in Lz. lia.
Qed.

(** A walk that cannot be improved runs along the corridor if its ends are beside it. *)
Section Walk.
Variables (a b : nat) (l : list nat).
Hypothesis Sa : stop p a.
Hypothesis Sb : stop q b.
Hypothesis W : walk es a b l.
Hypothesis Best : ~ better p q (Z.of_N (walk_cost cost l)).
Hypothesis Once : NoDup l.

Lemma best_short K : (K = zl tp - 80 \/ K = zl tp + 680) -> (K = zl tq - 80 \/ K = zl tq + 680) ->
  2 * Z.of_N (walk_cost cost l) <= Z.abs (Yp - Yq) + 160.
Proof.
  intros Kp Kq. destruct (Z.le_gt_cases (2 * Z.of_N (walk_cost cost l)) (Z.abs (Yp - Yq) + 160)) as [L|L]; [exact L|].
  exfalso. apply Best, (direct K); [exact Kp|exact Kq|lia].
Qed.

Section Beside.
Variables (K X1 X2 : Z) (o1 o2 : orientation).
Hypothesis Co : corridor K.
Hypothesis Short : 2 * Z.of_N (walk_cost cost l) <= Z.abs (Yp - Yq) + 160.
Hypothesis Sa1 : spot ns a X1 Yp (Some o1).
Hypothesis Sb1 : spot ns b X2 Yq (Some o2).
Hypothesis C1 : (X1 = K - 80 /\ o1 = Right) \/ (X1 = K + 80 /\ o1 = Left).
Hypothesis C2 : (X2 = K - 80 /\ o2 = Right) \/ (X2 = K + 80 /\ o2 = Left).
Hypothesis Nab : a <> b.

Lemma gap_inside k u i v : nth_error l k = Some u -> nth_error l (Datatypes.S k) = Some i -> nth_error l (Datatypes.S (Datatypes.S k)) = Some v ->
  exists Y, spot ns i K Y None.
Proof.
  intros Hu Hi Hv. destruct (walk_cut g k a b l u i v W Hu Hi Hv) as (x & y & W1 & J1 & J2 & W2 & E).
  destruct (joined_spots d hs g R u i J1) as (Xu & Yu & Xi & Yi & ou & oi & Su & Si).
  destruct (joined_spots d hs g R i v J2) as (X' & Y' & Xv & Yv & o' & ov & _ & Sv). clear X' Y' o'.
  assert (W3 : steps a i (x + (Z.of_N (cost u i) + 0))) by (eapply steps_app; [exact W1|]; constructor; [exact J1|constructor]).
  pose proof (steps_next g i v b y J2 W2) as W4.
  assert (N : Z.abs (X1 - Xi) + Z.abs (Xi - X2) < 540).
  { pose proof Short as Sh. pose proof (wide a i _ W3 _ _ _ _ _ _ Sa1 Si) as N1. pose proof (wide i b _ W4 _ _ _ _ _ _ Si Sb1) as N2.
    unfold cost, ns in *. clear - N1 N2 Sh E Hn. lia. }
  assert (Side : forall X, (oi = Some Right /\ X = Xi + 80) \/ (oi = Some Left /\ X = Xi - 80) -> False).
  { intros X H.
    assert (Q : (Xu = X /\ Yu = Yi) /\ (Xv = X /\ Yv = Yi)).
    { destruct H as [(-> & ->)|(-> & ->)].
      - destruct (right_port_next d hs FD g R i u _ _ _ _ _ Si Su (joined_sym _ _ _ J1)) as (-> & -> & _).
        destruct (right_port_next d hs FD g R i v _ _ _ _ _ Si Sv J2) as (-> & -> & _). auto.
      - destruct (left_port_next d hs FD g R i u _ _ _ _ _ Si Su (joined_sym _ _ _ J1)) as (-> & -> & _).
        destruct (left_port_next d hs FD g R i v _ _ _ _ _ Si Sv J2) as (-> & -> & _). auto. }
    destruct Q as [[-> ->] [-> ->]]. destruct (spot_index d hs g R u v _ _ _ _ Su Sv) as [-> _].
    assert (Z : k = Datatypes.S (Datatypes.S k)); [|lia]. apply (proj1 (NoDup_nth_error l) Once); [apply nth_error_Some; congruence|congruence]. }
  destruct (gap_places d hs FD g R K i Xi Yi oi Co Si) as [L|[(-> & ->)|[->|[(-> & ->)|L]]]].
  - exfalso. clear - N L C1 C2. lia.
  - exfalso. apply (Side K). left. split; [reflexivity|lia].
  - assert (oi = None) as -> by (eapply (corridor_none d hs GD g R); [exact Co|exact Si]). eauto.
  - exfalso. apply (Side K). right. split; [reflexivity|lia].
  - exfalso. clear - N L C1 C2. lia.
Qed.

Lemma gap_straight k u i v Yu Yi Yv : nth_error l k = Some u -> nth_error l (Datatypes.S k) = Some i -> nth_error l (Datatypes.S (Datatypes.S k)) = Some v ->
  spot ns u K Yu None -> spot ns i K Yi None -> spot ns v K Yv None -> Yu <> Yi /\ ~ beyond Yu Yi Yv.
Proof.
  intros Hu Hi Hv Su Si Sv. destruct (walk_cut g k a b l u i v W Hu Hi Hv) as (x & y & W1 & J1 & J2 & W2 & E). split.
  - destruct (edge_straight d hs g R u i _ _ _ _ _ _ J1 Su Si) as [(_ & Ne)|[(_ & L & _)|(_ & L & _)]]; lia.
  - intros Bd. apply Best. eapply (turn_corridor d hs FD g R p q a b u i v K Yu Yi Yv); eauto.
    + apply (steps_sym d hs FD g R). exact W1.
Qed.

(** The walk as a list. *)
Lemma walk_ends : exists inner, l = a :: inner ++ [b].
Proof.
  destruct (walk_head _ _ _ _ W) as (l' & E). destruct (exists_last (l := l')) as (inner & z & E').
  { intros ->. subst l. inversion W as [x Q1 Q2|x y z l' J W' Q1 Q2]; [congruence|]. subst. inversion W'. }
  exists inner. rewrite E, E'. f_equal. f_equal. f_equal. pose proof (walk_last _ _ _ _ W) as Q. rewrite E, E' in Q.
  replace (length (a :: inner ++ [z]) - 1)%nat with (Datatypes.S (length inner + 0)) in Q by (cbn [length]; rewrite app_length; cbn [length]; lia).
  cbn [nth_error] in Q. rewrite Nat.add_0_r, nth_error_app2, Nat.sub_diag in Q by lia. cbn in Q. congruence.
Qed.

Theorem beside_shape ps : places g l ps -> along K ps X1 Yp X2 Yq.
Proof.
  intros Pl. pose proof Sa1 as Sa'. pose proof Sb1 as Sb'.
  assert (Next : forall c X Y o, joined es a c -> spot ns c X Y o -> X = K /\ Y = Yp).
  { intros c X Y o J Sc. pose proof Sa1 as S1. destruct C1 as [(E & Eo)|(E & Eo)]; rewrite Eo in S1.
    - destruct (right_port_next d hs FD g R a c _ _ _ _ _ S1 Sc J) as (-> & -> & _). lia.
    - destruct (left_port_next d hs FD g R a c _ _ _ _ _ S1 Sc J) as (-> & -> & _). lia. }
  assert (Prev : forall c X Y o, joined es c b -> spot ns c X Y o -> X = K /\ Y = Yq).
  { intros c X Y o J Sc. apply joined_sym in J. pose proof Sb1 as S1. destruct C2 as [(E & Eo)|(E & Eo)]; rewrite Eo in S1.
    - destruct (right_port_next d hs FD g R b c _ _ _ _ _ S1 Sc J) as (-> & -> & _). lia.
    - destruct (left_port_next d hs FD g R b c _ _ _ _ _ S1 Sc J) as (-> & -> & _). lia. }
  destruct walk_ends as (inner & El).
  assert (Ix : forall k i, nth_error inner k = Some i -> nth_error l (Datatypes.S k) = Some i).
  { intros k i H. rewrite El. cbn [nth_error]. rewrite nth_error_app1; [exact H|]. apply nth_error_Some. congruence. }
  assert (In' : forall i, In i inner -> exists Y, spot ns i K Y None).
  { intros i I. apply In_nth_error in I as (k & Hk).
    assert (Lk : (k < length inner)%nat) by (apply nth_error_Some; congruence).
    assert (Hl : length l = Datatypes.S (Datatypes.S (length inner))) by (rewrite El; cbn [length]; rewrite app_length; cbn [length]; lia).
    destruct (nth_error l k) as [u|] eqn:Hu; [|apply nth_error_None in Hu; lia].
    destruct (nth_error l (Datatypes.S (Datatypes.S k))) as [v|] eqn:Hv; [|apply nth_error_None in Hv; lia].
    exact (gap_inside k u i v Hu (Ix k i Hk) Hv). }
  assert (Ys : exists Ys, Forall2 (fun i Y => spot ns i K Y None) inner Ys).
  { clear - In'. induction inner as [|i inner IH]; [exists []; constructor|].
    destruct (In' i (or_introl eq_refl)) as (Y & Si). destruct IH as (Ys & F); [intros; apply In'; now right|]. exists (Y :: Ys). now constructor. }
  destruct Ys as (Ys & Fy).
  rewrite El in Pl. inversion Pl as [|a' pa l1 ps1 Pa Pl1]. subst a' l1 ps. apply Forall2_app_inv_l in Pl1 as (psi & psb & Pi & Pb & ->).
  inversion Pb as [|b' pb l2 ps2 Pb1 Pb2]. subst b' l2 psb. inversion Pb2. subst ps2.
  assert (Loc : forall i X Y o z, spot ns i X Y o -> (exists n0, nth_error (rg_nodes g) i = Some n0 /\ rn_loc n0 = z) -> hpoint z X Y).
  { intros i X Y o z (m & Hm & H & _) (n0 & Hn0 & <-). unfold ns in Hm. rewrite Hm in Hn0. injection Hn0 as <-. exact H. }
  (* the nodes next to the ends *)
  assert (Nn : inner <> []).
  { intros Q. rewrite Q in El. cbn in El. pose proof (walk_adjacent _ _ _ _ [] a b [] W El) as J.
    destruct (Next b X2 Yq (Some o2) J Sb') as (Q' & _). clear - Q' C2. lia. }
  exists pa, psi, pb, Ys. split; [reflexivity|]. split; [exact (Loc a _ _ _ _ Sa' Pa)|]. split; [exact (Loc b _ _ _ _ Sb' Pb1)|].
  split; [|split; [|split]].
  - clear - Fy Pi Loc. revert psi Pi. induction Fy as [|i Y inner Ys Si F IH]; intros psi Pi; inversion Pi; subst; constructor; eauto.
  - destruct inner as [|i inner]; [congruence|]. pose proof (walk_adjacent _ _ _ _ [] a i (inner ++ [b]) W El) as J.
    inversion Fy as [|i0 Y l0 Ys' Si F Q1 Q2]. exists Ys'. f_equal. apply (Next i K Y None J Si).
  - destruct (exists_last Nn) as (inner' & i & Ei).
    assert (El' : l = (a :: inner') ++ i :: b :: []) by (rewrite El, Ei; cbn; rewrite <- app_assoc; reflexivity).
    pose proof (walk_adjacent _ _ _ _ _ i b [] W El') as J.
    rewrite Ei in Fy. apply Forall2_app_inv_l in Fy as (Ys1 & Ys2 & _ & F2 & ->). exists Ys1. f_equal.
    inversion F2 as [|i0 Y l0 Ys0 Si F3 Q1 Q2]. inversion F3. f_equal. apply (Prev i K Y None J Si).
  - apply straight_sorted.
    + intros k y1 y2 H1 H2. destruct (forall2_nth_r _ _ _ Fy _ _ H1) as (i1 & I1 & S1). destruct (forall2_nth_r _ _ _ Fy _ _ H2) as (i2 & I2 & S2).
      pose proof (Ix _ _ I1) as J1. pose proof (Ix _ _ I2) as J2.
      destruct (walk_pair g _ a b l i1 i2 W J1 J2) as (x & y & _ & J & _).
      destruct (edge_straight d hs g R i1 i2 _ _ _ _ _ _ J S1 S2) as [(_ & Ne)|[(_ & L & _)|(_ & L & _)]]; lia.
    + intros k y1 y2 y3 H1 H2 H3. destruct (forall2_nth_r _ _ _ Fy _ _ H1) as (i1 & I1 & S1). destruct (forall2_nth_r _ _ _ Fy _ _ H2) as (i2 & I2 & S2).
      destruct (forall2_nth_r _ _ _ Fy _ _ H3) as (i3 & I3 & S3).
      apply (gap_straight _ i1 i2 i3 y1 y2 y3 (Ix _ _ I1) (Ix _ _ I2) (Ix _ _ I3) S1 S2 S3).
Qed.
End Beside.

Section Neighbours.
Variable K : Z.
Hypothesis Hc : (zl tp + 680 = K /\ zl tq - 80 = K) \/ (zl tq + 680 = K /\ zl tp - 80 = K).

Lemma gap_corridor : corridor K.
Proof. pose proof (zl_cases tp). pose proof (zl_cases tq). unfold corridor. lia. Qed.

Lemma gap_ends : exists X1 X2, X1 + X2 = 2 * K /\
  ((X1 = K - 80 /\ zl tp + 680 = K /\ spot ns a X1 Yp (Some Right) /\ spot ns b X2 Yq (Some Left)) \/
   (X1 = K + 80 /\ zl tp - 80 = K /\ spot ns a X1 Yp (Some Left) /\ spot ns b X2 Yq (Some Right))).
Proof.
  pose proof (best_short K ltac:(lia) ltac:(lia)) as Sh. pose proof (walk_steps g a b l W) as Ws. fold ns cost in Ws.
  pose proof (steps_sym d hs FD g R _ _ _ Ws) as Wb.
  assert (Fb : forall X Y o, spot ns b X Y o -> X <> zl tp + 300 -> 
     spot ns a (zl tp + 300) (zb hs tp) (Some Down) \/ spot ns a (zl tp + 300) (zt hs tp) (Some Up) -> Z.abs (zl tp + 300 - X) + 80 <= 2 * Z.of_N (walk_cost cost l)).
  { intros X Y o Sx Nx H. exact (wider p a b _ X Y o Ep Ws H Sx Nx). }
  assert (Fa : forall X Y o, spot ns a X Y o -> X <> zl tq + 300 -> 
     spot ns b (zl tq + 300) (zb hs tq) (Some Down) \/ spot ns b (zl tq + 300) (zt hs tq) (Some Up) -> Z.abs (zl tq + 300 - X) + 80 <= 2 * Z.of_N (walk_cost cost l)).
  { intros X Y o Sx Nx H. exact (wider q b a _ X Y o Eq Wb H Sx Nx). }
  pose proof (stop_at p a Ep Sa) as Ta. pose proof (stop_at q b Eq Sb) as Tb. fold tp Yp in Ta. fold tq Yq in Tb.
  assert (Ta' : spot ns a (zl tp) Yp (Some Left) \/ spot ns a (zl tp + 600) Yp (Some Right) \/
    (exists Y o, spot ns a (zl tp + 300) Y o) /\ (forall X Y o, spot ns b X Y o -> X <> zl tp + 300 -> Z.abs (zl tp + 300 - X) + 80 <= 2 * Z.of_N (walk_cost cost l))).
  { destruct Ta as [T|[T|[T|T]]]; auto; right; right; (split; [eauto|]); intros X Y o Sx Nx; apply (Fb X Y o Sx Nx); auto. }
  assert (Tb' : spot ns b (zl tq) Yq (Some Left) \/ spot ns b (zl tq + 600) Yq (Some Right) \/
    (exists Y o, spot ns b (zl tq + 300) Y o) /\ (forall X Y o, spot ns a X Y o -> X <> zl tq + 300 -> Z.abs (zl tq + 300 - X) + 80 <= 2 * Z.of_N (walk_cost cost l))).
  { destruct Tb as [T|[T|[T|T]]]; auto; right; right; (split; [eauto|]); intros X Y o Sx Nx; apply (Fa X Y o Sx Nx); auto. }
  clear Ta Tb Fa Fb. pose proof Hn as Hn'.
  destruct Ta' as [Ta|[Ta|((Y1 & o1 & Ta) & Fa)]]; destruct Tb' as [Tb|[Tb|((Y2 & o2 & Tb) & Fb)]]; try (pose proof (wide a b _ Ws _ _ _ _ _ _ Ta Tb) as Wd);
    try (specialize (Fa _ _ _ Tb)); try (specialize (Fb _ _ _ Ta)).
  - exfalso. lia.
  - destruct Hc as [Hc'|Hc']; [exfalso; lia|]. exists (zl tp), (zl tq + 600). split; [lia|]. right. repeat split; auto; lia.
  - exfalso. lia.
  - destruct Hc as [Hc'|Hc']; [|exfalso; lia]. exists (zl tp + 600), (zl tq). split; [lia|]. left. repeat split; auto; lia.
  - exfalso. lia.
  - exfalso. lia.
  - exfalso. lia.
  - exfalso. lia.
  - exfalso. lia.
Qed.

Theorem gap_shape ps : places g l ps ->
  exists X1 X2, X1 + X2 = 2 * K /\ (X1 = K - 80 /\ zl tp + 680 = K \/ X1 = K + 80 /\ zl tp - 80 = K) /\ in_the_gap ps X1 Yp X2 Yq.
Proof.
  intros Pl. destruct gap_ends as (X1 & X2 & Ex & Ce). pose proof (best_short K ltac:(lia) ltac:(lia)) as Sh.
  exists X1, X2. split; [exact Ex|]. split; [clear - Ce; tauto|]. exists K. split; [lia|].
  destruct Ce as [(E1 & _ & S1 & S2)|(E1 & _ & S1 & S2)].
  - apply (beside_shape K X1 X2 Right Left gap_corridor Sh S1 S2); [left; auto|right; split; [lia|reflexivity]| |exact Pl].
    intros <-. destruct (spot_place g a _ _ _ _ _ _ S1 S2) as (_ & _ & Q). discriminate Q.
  - apply (beside_shape K X1 X2 Left Right gap_corridor Sh S1 S2); [right; auto|left; split; [lia|reflexivity]| |exact Pl].
    intros <-. destruct (spot_place g a _ _ _ _ _ _ S1 S2) as (_ & _ & Q). discriminate Q.
Qed.
End Neighbours.

End Walk.

End Pair.
End Doc.

(** ** Modules *)

Lemma places_walk m vb g d ls : fits (table_rows m) -> layout_module m = Ret (vb, g, d) -> links [] (m_entries m) ls ->
  exists d2, end_doc d2 (table_rows m) /\ routes d2 (table_rows m) g /\
  Forall2 (fun pq e => exists ps a b w, e_path e = Some ps /\
    end_at d2 (table_rows m) (end_of (fst pq)) /\ end_at d2 (table_rows m) (end_of (snd pq)) /\
    TurnFacts.stop (table_rows m) g (end_of (fst pq)) a /\ TurnFacts.stop (table_rows m) g (end_of (snd pq)) b /\
    walk (rg_edges g) a b w /\ ~ TurnFacts.better (table_rows m) g (end_of (fst pq)) (end_of (snd pq)) (Z.of_N (walk_cost (rg_cost (rg_nodes g)) w)) /\
    NoDup w /\ places g w ps) ls (d_edges d).
Proof.
  intros F L Ll. destruct (links_edges m vb g d ls F L Ll) as (d0 & M & H). cbn zeta in H.
  destruct (layout_routes m vb g d F L) as (d0' & M' & V & D & R). rewrite M in M'. injection M' as <-.
  pose proof (module_ends m d0 M F) as ED. set (d2 := place_terminal_ports (fst (place_nodes d0))) in *.
  exists d2. split; [exact ED|]. split; [exact R|].
  eapply forall2_weaken; [exact H|]. intros [p q] e _ (Ie & _ & s & t & Gs & Gt & Ps & Pt). cbn [fst snd] in *.
  destruct (module_cheapest m vb g d F L e Ie) as (s' & t' & w & ps & Gs' & Gt' & Ep & Pl & ((x & y & a & b & Ix & Iy & Sx & Sy & W) & Min)).
  destruct (draw_split _ _ _ _ D) as (_ & N & F2). destruct (forall2_in_r _ _ _ _ F2 Ie) as (e0 & I0 & (E1 & E2) & _).
  unfold get_node in Gs, Gt, Gs', Gt'. rewrite N, Gs in Gs'. rewrite N, Gt in Gt'. injection Gs' as <-. injection Gt' as <-.
  assert (Es : end_at d2 (table_rows m) (end_of p)) by (exists e0, (e_source e0), s; unfold get_node; rewrite <- E1; auto).
  assert (Et : end_at d2 (table_rows m) (end_of q)) by (exists e0, (e_target e0), t; unfold get_node; rewrite <- E2; auto).
  pose proof (stands_stop d2 _ g R _ _ _ _ Ps Ix Sx) as Sa. pose proof (stands_stop d2 _ g R _ _ _ _ Pt Iy Sy) as Sb.
  assert (Once : NoDup w).
  { apply (cheapest_once (rg_edges g) (rg_cost (rg_nodes g)) a b w); [apply (edge_dear _ _ ED g R)|exact W|].
    intros l' W'. exact (Min _ _ _ _ _ Ix Iy Sx Sy W'). }
  assert (Best : ~ TurnFacts.better (table_rows m) g (end_of p) (end_of q) (Z.of_N (walk_cost (rg_cost (rg_nodes g)) w))).
  { intros (s' & t' & z & Ss & St & [(l' & W' & Lw) _] & Lt).
    destruct (stop_stands _ _ _ _ _ Ps Ss) as (p' & Ip' & Sp'). destruct (stop_stands _ _ _ _ _ Pt St) as (q' & Iq' & Sq').
    specialize (Min p' q' s' t' l' Ip' Iq' Sp' Sq' W'). lia. }
  exists ps, a, b, w. auto 10.
Qed.

Lemma middle_end hs p : rowY hs (end_of p) = middle_height hs p.
Proof. destruct p as [i|i k]; cbn [end_of rowY middle_height]; unfold row_middle, zt, table_height; lia. Qed.
Lemma tab_end p : tab (end_of p) = place_table p. Proof. now destruct p. Qed.

Theorem level_in_gap m vb g d ls : fits (table_rows m) -> layout_module m = Ret (vb, g, d) -> links [] (m_entries m) ls ->
  Forall2 (fun pq e => level (table_rows m) (fst pq) (snd pq) ->
    exists ps, e_path e = Some ps /\
      ((column_of (snd pq) = S (column_of (fst pq)))%nat -> in_the_gap ps (right_side (fst pq)) (middle_height (table_rows m) (fst pq)) (left_side (snd pq)) (middle_height (table_rows m) (snd pq))) /\
      ((column_of (fst pq) = S (column_of (snd pq)))%nat -> in_the_gap ps (left_side (fst pq)) (middle_height (table_rows m) (fst pq)) (right_side (snd pq)) (middle_height (table_rows m) (snd pq)))) ls (d_edges d).
Proof.
  intros F L Ll. destruct (places_walk m vb g d ls F L Ll) as (d2 & ED & R & H).
  eapply forall2_weaken; [exact H|]. intros [p q] e _ (ps & a & b & w & Ep & Es & Et & Sa & Sb & W & Best & Once & Pl) Lv. cbn [fst snd] in *.
  exists ps. split; [exact Ep|]. unfold level in Lv. rewrite <- !middle_end in *.
  assert (Go : forall K, (zl (place_table p) + 680 = K /\ zl (place_table q) - 80 = K) \/ (zl (place_table q) + 680 = K /\ zl (place_table p) - 80 = K) ->
    exists X1 X2, X1 + X2 = 2 * K /\ (X1 = K - 80 /\ zl (place_table p) + 680 = K \/ X1 = K + 80 /\ zl (place_table p) - 80 = K) /\
      in_the_gap ps X1 (rowY (table_rows m) (end_of p)) X2 (rowY (table_rows m) (end_of q))).
  { intros K HK. rewrite <- !tab_end in *. exact (gap_shape d2 (table_rows m) ED g R (end_of p) (end_of q) Es Et Lv a b w Sa Sb W Best Once K HK ps Pl). }
  assert (Zc : forall u, zl u = 100 + 760 * Z.of_nat (u mod 3)) by (intros u; unfold zl, table_left; lia).
  assert (Zd : forall u, 2 * table_left u = zl u) by reflexivity.
  unfold column_of, left_side, right_side. split; intros Cm.
  - destruct (Go (zl (place_table p) + 680) ltac:(left; rewrite !Zc, Cm; lia)) as (X1 & X2 & Ex & Cx & Sh).
    assert (Q : zl (place_table q) = zl (place_table p) + 760) by (rewrite !Zc, Cm; lia).
    replace (2 * (table_left (place_table p) + 300)) with X1 by (clear - Ex Cx Zd; specialize (Zd (place_table p)); lia).
    replace (2 * table_left (place_table q)) with X2 by (clear - Ex Cx Zd Q; specialize (Zd (place_table q)); lia). exact Sh.
  - destruct (Go (zl (place_table q) + 680) ltac:(right; rewrite !Zc, Cm; lia)) as (X1 & X2 & Ex & Cx & Sh).
    assert (Q : zl (place_table p) = zl (place_table q) + 760) by (rewrite !Zc, Cm; lia).
    replace (2 * table_left (place_table p)) with X1 by (clear - Ex Cx Zd Q; specialize (Zd (place_table p)); lia).
    replace (2 * (table_left (place_table q) + 300)) with X2 by (clear - Ex Cx Zd Q; pose proof (Zd (place_table p)); pose proof (Zd (place_table q)); lia). exact Sh.
Qed.

Theorem level_clear m vb g d ls : fits (table_rows m) -> layout_module m = Ret (vb, g, d) -> links [] (m_entries m) ls ->
  Forall2 (fun pq e => level (table_rows m) (fst pq) (snd pq) ->
    (column_of (snd pq) = S (column_of (fst pq)) \/ column_of (fst pq) = S (column_of (snd pq)))%nat ->
    forall l1 p q l2 X1 Y1 X2 Y2 r x y w h, e_path e = Some (l1 ++ p :: q :: l2) -> hpoint p X1 Y1 -> hpoint q X2 Y2 ->
    table_rect d r -> hrect r x y w h -> ~ enters x y w h X1 Y1 X2 Y2) ls (d_edges d).
Proof.
  intros F L Ll. eapply forall2_weaken; [exact (level_in_gap m vb g d ls F L Ll)|]. cbn beta.
  intros [p0 q0] e _ H Lv Cm l1 p q l2 X1 Y1 X2 Y2 r x y w h Ep Hp Hq T Hr. cbn [fst snd] in *.
  destruct (H Lv) as (ps & Ep' & H1 & H2). rewrite Ep in Ep'. injection Ep' as <-. unfold column_of, left_side, right_side in *.
  set (i := place_table p0) in *. set (j := place_table q0) in *.
  assert (Zc : forall u, 2 * table_left u = 100 + 760 * Z.of_nat (u mod 3)) by (intros u; unfold table_left; lia).
  pose proof (left_cases i) as Zi. pose proof (left_cases j) as Zj. pose proof (Zc i) as Ci. pose proof (Zc j) as Cj.
  destruct Cm as [Cm|Cm].
  - destruct (H1 Cm) as (K & EK & A). rewrite Cm in Cj. apply (along_clear m vb g d F L K _ _ _ _ _ l1 p q l2 X1 Y1 X2 Y2 r x y w h) in A; auto; unfold corridor; clear - EK Zi Zj Ci Cj; lia.
  - destruct (H2 Cm) as (K & EK & A). rewrite Cm in Ci. apply (along_clear m vb g d F L K _ _ _ _ _ l1 p q l2 X1 Y1 X2 Y2 r x y w h) in A; auto; unfold corridor; clear - EK Zi Zj Ci Cj; lia.
Qed.

(** Entities in one row of the grid with similar numbers of fields. *)
Lemma top_same hs i j : (i / 3 = j / 3)%nat -> table_top hs i = table_top hs j.
Proof. intros E. pose proof (zt_same hs i j E) as Q. unfold zt in Q. lia. Qed.
Theorem similar_level hs i j : (i / 3 = j / 3)%nat -> (nth i hs 0 <= nth j hs 0 + 10 /\ nth j hs 0 <= nth i hs 0 + 10)%nat -> level hs (Table i) (Table j).
Proof. intros E N. unfold level, middle_height. rewrite (top_same hs i j E). unfold table_height. lia. Qed.

(** ** Samples *)

Definition rel_entities (a b : string) : module_entry := ERel (mkRelation (PEntity (lit a)) (PEntity (lit b))).
Definition field_entity (a x b : string) : module_entry := ERel (mkRelation (PField (lit a) (lit x)) (PEntity (lit b))).
Definition slope : module := three 3 12 5 [rel_entities "a" "b"; field_entity "b" "c" "c"].
Definition slope_lines : list (list (Z * Z)) :=
  [[(700, 240); (780, 240); (780, 345); (780, 460); (780, 555); (860, 555)]; [(1460, 345); (1540, 345); (1540, 310); (1620, 310)]].

(** A field of the first table is related to a large table in the next row. *)
Definition lower : module := mkModule None
  [EDef (mkEntity (lit "a") (letters 1)); EDef (mkEntity (lit "b") []); EDef (mkEntity (lit "c") []); EDef (mkEntity (lit "d") []); EDef (mkEntity (lit "e") (letters 8));
   field_entity "a" "a" "e"].
Definition lower_line : list (Z * Z) := [(700, 205); (780, 205); (780, 250); (780, 320); (1160, 320); (1160, 400)].

Ltac is_last := split; [reflexivity|split; [vm_compute; auto 20|
  let j := fresh in let L := fresh in let H := fresh in intros j ? L H; do 5 (destruct j as [|j]; [first [exfalso; lia|discriminate H|injection H as <-; (let Q := fresh in intros Q; first [discriminate Q|destruct Q; discriminate])]|]); destruct j; discriminate]].
Lemma lower_links : links [] (m_entries lower) [(Row 0 1, Table 4)].
Proof. do 5 apply links_def. cbn [app]. apply links_rel; [eapply refers_row; [is_last|field_tac]|eapply refers_table; is_last|constructor]. Qed.
Lemma slope_links : links [] (m_entries slope) [(Table 0, Table 1); (Row 1 3, Table 2)].
Proof. do 3 apply links_def. cbn [app]. apply links_rel; [eapply refers_table; is_last|eapply refers_table; is_last|]. apply links_rel; [row_tac|eapply refers_table; is_last|constructor]. Qed.
Lemma lower_drawn : exists vb g d, layout_module lower = Ret (vb, g, d) /\ lines d [lower_line]. Proof. drawn_tac. Qed.
Lemma slope_drawn : exists vb g d, layout_module slope = Ret (vb, g, d) /\ lines d slope_lines. Proof. drawn_tac. Qed.

Theorem farther_off : exists m vb g d p q n e ps, fits (table_rows m) /\ layout_module m = Ret (vb, g, d) /\ (exists ls, links [] (m_entries m) ls /\ nth_error ls n = Some (p, q)) /\
  nth_error (d_edges d) n = Some e /\ e_path e = Some ps /\ column_of q = S (column_of p) /\ Z.abs (middle_height (table_rows m) p - middle_height (table_rows m) q) = 510 /\
  ~ in_the_gap ps (right_side p) (middle_height (table_rows m) p) (left_side q) (middle_height (table_rows m) q).
Proof.
  destruct lower_drawn as (vb & g & d & L & Ln). unfold lines in Ln. inversion Ln as [|e zs es pss (ps & Ep & F) N E1 E2]. subst.
  exists lower, vb, g, d, (Row 0 1), (Table 4), 0%nat, e, ps. split; [unfold fits; vm_compute; discriminate|]. split; [exact L|].
  split; [exists [(Row 0 1, Table 4)]; split; [exact lower_links|reflexivity]|]. split; [now rewrite <- E1|]. split; [exact Ep|]. split; [reflexivity|]. split; [reflexivity|].
  intros G. destruct (forall2_nth_r _ _ _ F 4%nat (1160, 320) eq_refl) as (u & Hu & Hp). cbn [fst snd] in Hp.
  destruct (gap_points _ _ _ _ _ u G (nth_error_In _ _ Hu)) as (X & Y & H & B). destruct (hpoint_unique _ _ _ _ _ Hp H) as [<- _]. vm_compute in B. destruct B as [_ B]. now apply B.
Qed.
