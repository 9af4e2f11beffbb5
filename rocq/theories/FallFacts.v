(** Relations between a table and the next one below it. *)
From Coq Require Import String List Arith NArith ZArith Bool Lia SpecFloat Classical_Prop Sorting.Sorted.
From Verif Require Import Base F32 Geometry Mir Erd Heap Route Layout Parser Cli SpecMir SpecF32 SpecGeom SpecLayout SpecRoute SpecGraph SpecRender SpecLink SpecEnds SpecThrough SpecStack SpecGap SpecInk SpecNear SpecFall
  F32Facts GeomFacts SearchFacts MirFacts GridFacts LayoutFacts RenderFacts PipelineFacts GraphFacts PathFacts LatticeFacts
  ConnectFacts HubFacts DrawFacts OrderFacts RowFacts LineFacts MidFacts FarFacts TurnFacts CalmFacts LinkFacts EndFacts ThroughFacts MiddleFacts GapFacts OuterFacts SideFacts RepeatFacts NearFacts.
Import ListNotations.
Local Open Scope Z_scope.

Lemma zl_next t : zl (t + 3) = zl t.
Proof. unfold zl, table_left. replace (t + 3)%nat with (t + 1 * 3)%nat by lia. rewrite Nat.mod_add; lia. Qed.
Lemma row_next t : ((t + 3) / 3 = t / 3 + 1)%nat.
Proof. replace (t + 3)%nat with (t + 1 * 3)%nat by lia. rewrite Nat.div_add; lia. Qed.

Section Doc.
Variables (d : document) (hs : list nat).
Hypothesis FD : end_doc d hs.
Let GD := ed_grid d hs FD.
Variable g : route_graph.
Hypothesis R : routes d hs g.
Let ns := rg_nodes g.
Let es := rg_edges g.
Let cost := rg_cost ns.
Local Notation steps := (steps g).
Local Notation stop := (stop hs g).
Local Notation better := (better hs g).
Local Notation conn := (conn g).

(** ** Walks on the middle line of a column *)

Definition at_middle (c : Z) (i : nat) (Y : Z) : Prop := exists o, spot ns i (c + 300) Y o.

Lemma middle_even c i Y : column c -> at_middle c i Y -> even Y.
Proof.
  intros C (o & S). destruct (column_spot d hs FD g R i c Y o C S) as [(_ & M)|(e & _ & _ & [(_ & _ & ->)|(_ & _ & ->)])].
  - eapply (mid_even d hs g). exact M.
  - apply zb_ten.
  - apply zt_ten.
Qed.
Lemma middle_cost c i j Y Y' : column c -> at_middle c i Y -> at_middle c j Y' -> 2 * Z.of_N (cost i j) = Z.abs (Y - Y').
Proof.
  intros C A B. pose proof (middle_even c i Y C A) as Ea. pose proof (middle_even c j Y' C B) as Eb. destruct A as (o & A), B as (u & B).
  unfold cost, ns. rewrite (cost_v d hs FD g R i j _ _ _ _ _ A B). now apply half_even.
Qed.
Lemma middle_one c i Y Y' : at_middle c i Y -> at_middle c i Y' -> Y = Y'.
Proof. intros (o & A) (u & B). now destruct (spot_place g i _ _ _ _ _ _ A B) as (_ & -> & _). Qed.

(** Such a walk is as long as it is high, and sorted if it is no longer. *)
Lemma middle_walk c a b l : column c -> walk es a b l -> forall Ys Y1 Y2, Forall2 (at_middle c) l Ys -> at_middle c a Y1 -> at_middle c b Y2 ->
  Y2 - Y1 <= 2 * Z.of_N (walk_cost cost l) /\ (2 * Z.of_N (walk_cost cost l) <= Y2 - Y1 -> StronglySorted Z.lt Ys).
Proof.
  intros C W. induction W as [a|a b z l J W IH]; intros Ys Y1 Y2 F A B.
  - pose proof (middle_one c a Y1 Y2 A B) as ->. cbn [walk_cost]. split; [lia|]. intros _. inversion F as [|? Y ? ? _ F']. inversion F'. repeat constructor.
  - inversion F as [|? Y ? Ys' Sa F' Q1 Q2]. clear Q1. subst Ys. pose proof (middle_one c a Y1 Y A Sa) as <-. clear Sa.
    destruct (walk_head _ _ _ _ W) as (l' & ->). inversion F' as [|? Yb ? Ys'' Sb F'' Q1 Q2]. clear Q1. subst Ys'.
    destruct (IH _ Yb Y2 F' Sb B) as (I1 & I2). pose proof (middle_cost c a b Y1 Yb C A Sb) as Co.
    change (walk_cost cost (a :: b :: l')) with (cost a b + walk_cost cost (b :: l'))%N.
    assert (Ne : Y1 <> Yb).
    { destruct A as (o & A), Sb as (u & Sb). destruct (edge_straight d hs g R a b _ _ _ _ _ _ J A Sb) as [(_ & Ne)|[(_ & L & _)|(_ & L & _)]]; lia. }
    split; [lia|]. intros L. assert (L' : 2 * Z.of_N (walk_cost cost (b :: l')) <= Y2 - Yb) by lia. specialize (I2 L').
    constructor; [exact I2|]. inversion I2 as [|? ? I3 I4]. subst. assert (Y1 < Yb) by lia. constructor; [assumption|].
    eapply Forall_impl; [|exact I4]. cbn. intros. lia.
Qed.

(** ** A table and the next one in its column *)

Section Pair.
Variables p q : anchor.
Hypothesis Ep : end_at d hs p.
Hypothesis Eq : end_at d hs q.
Let tp := tab p.
Let tq := tab q.
Hypothesis Next : tq = (tp + 3)%nat.
Hypothesis Lo : low hs p.
Hypothesis Hi : high q.
Let A := zb hs tp - 35.
Let B := zt hs tq + 35.
Let r := (tp / 3)%nat.
Let S := tens hs r 2.
Let c := zl tp.

Lemma next_row : (tq / 3 = r + 1)%nat.
Proof. unfold r. rewrite Next. apply row_next. Qed.
Lemma next_column : zl tq = c.
Proof. unfold c. rewrite Next. apply zl_next. Qed.
Lemma next_apart : zb hs tp + 160 <= zt hs tq.
Proof. apply zb_zt. rewrite next_row. unfold r. lia. Qed.
(** No other table of the column is between the two. *)
Lemma next_none t : (t < length hs)%nat -> zl t = c -> (zb hs t <= zb hs tp /\ zt hs t < zb hs tp) \/ (zt hs tq <= zt hs t /\ zt hs tq < zb hs t).
Proof.
  intros L E. pose proof (table_bounds d hs GD t L) as Bt. pose proof next_row as Nr. pose proof next_column as Nc.
  destruct (le_lt_dec (t / 3) r) as [H|H].
  - left. destruct (Nat.eq_dec (t / 3) r) as [H'|H'].
    + assert (t = tp) as -> by (apply same_table; [exact H'|exact E]). lia.
    + pose proof (zb_zt hs t tp ltac:(unfold r in *; lia)). pose proof (table_bounds d hs GD tp (end_range d hs p Ep)). lia.
  - right. destruct (Nat.eq_dec (t / 3) (r + 1)) as [H'|H'].
    + assert (t = tq) as -> by (apply same_table; [lia|lia]). lia.
    + pose proof (zb_zt hs tq t ltac:(lia)). pose proof (table_bounds d hs GD tq (end_range d hs q Eq)). unfold tq in *. lia.
Qed.

Lemma fall_lines : (exists a, A = 10 * a + 5) /\ (exists b, B = 10 * b + 5) /\ A <= B /\ (length S <= 22)%nat.
Proof.
  destruct (zb_ten hs tp) as (z & Ez). destruct (zt_ten hs tq) as (z' & Ez'). pose proof next_apart.
  split; [exists (z - 4); unfold A; lia|]. split; [exists (z' + 3); unfold B; lia|]. split; [unfold A, B; lia|].
  exact (tens_length hs r 2).
Qed.
Lemma fall_known a X Y o : spot ns a X Y o -> known A B S Y.
Proof.
  intros Sp. destruct (spot_five d hs FD g R a X Y o Sp) as (_ & k & E). exists k. split; [exact E|]. intros T [L1 L2].
  destruct (level_ten d hs FD g R a X Y o Sp T) as (u & Lu & H). apply (tens_in hs u); [|exact T|exact H].
  pose proof (table_bounds d hs GD tp (end_range d hs p Ep)) as Ip. pose proof (table_bounds d hs GD tq (end_range d hs q Eq)) as Iq.
  pose proof (table_bounds d hs GD u Lu) as Bu. pose proof (row_within d hs FD (table_end u) ltac:(split; [exact Lu|exact I])) as Wu. cbn [tab] in Wu.
  assert (L3 : zt hs u - 80 <= Y <= zb hs u + 80) by (clear - H Bu Wu; lia). pose proof next_row as Nr.
  split.
  - destruct (le_lt_dec r (u / 3)) as [L|L]; [exact L|exfalso].
    pose proof (zb_zt hs u tp ltac:(unfold r in L; lia)) as Z. unfold A in L1. clear - L1 L3 Ip Z. lia.
  - destruct (le_lt_dec (u / 3) (r + 1)) as [L|L]; [lia|exfalso].
    pose proof (zb_zt hs tq u ltac:(lia)) as Z. unfold B in L2. clear - L2 L3 Iq Z. lia.
Qed.
Lemma fall_bound a b x : steps a b x -> forall X1 Y1 o X2 Y2 u, spot ns a X1 Y1 o -> spot ns b X2 Y2 u ->
  Z.abs (X1 - X2) + 2 * (climb A B S Y2 - climb A B S Y1) <= 2 * x.
Proof.
  destruct fall_lines as (HA & HB & HAB & _).
  intros W. induction W as [a|a b e x J W IH]; intros X1 Y1 o X2 Y2 u Sa Sc.
  - destruct (spot_place g a _ _ _ _ _ _ Sa Sc) as (-> & -> & _). lia.
  - destruct (joined_spots d hs g R a b J) as (X3 & Y3 & X4 & Y4 & o3 & o4 & Sa' & Sb).
    destruct (spot_place g a _ _ _ _ _ _ Sa' Sa) as (-> & -> & ->). clear Sa'. specialize (IH _ _ _ _ _ _ Sb Sc).
    assert (E : X1 = X4 \/ Y1 = Y4) by (destruct (edge_straight d hs g R a b _ _ _ _ _ _ J Sa Sb); lia).
    destruct E as [<-|<-].
    + pose proof (cost_v d hs FD g R a b _ _ _ _ _ Sa Sb) as Cv.
      pose proof (climb_step A B S HA HB HAB (tens_nodup hs r 2) (tens_ten hs r 2) Y1 Y4 (fall_known a _ _ _ Sa) (fall_known b _ _ _ Sb)) as Cl.
      unfold ns in *. rewrite Cv. clear - IH Cl. lia.
    + pose proof (cost_h d hs FD g R a b _ _ _ _ _ Sa Sb) as Ch. unfold ns in *. clear - IH Ch. lia.
Qed.

(** The straight way down. *)
Lemma fall_direct : exists i j, stop p i /\ stop q j /\ conn i j ((zt hs tq - zb hs tp) / 2).
Proof.
  destruct (low_stop d hs g R p Ep Lo) as (i & Si & Pi). destruct (high_stop d hs g R q Eq Hi) as (j & Sj & Pj).
  fold tp c in Pi. fold tq in Pj. rewrite next_column in Pj. exists i, j. split; [exact Si|]. split; [exact Sj|].
  pose proof next_apart as Na. pose proof (zl_column tp) as C. fold c in C.
  eapply (vline d hs GD g R (Z.to_nat (zt hs tq - zb hs tp))); [lia|exact Pi|exact Pj|lia|auto|auto| |].
  - intros t Lt. pose proof (zl_cases t) as Zt. destruct (Z.eq_dec (zl t) c) as [E|E]; [pose proof (next_none t Lt E); lia|].
    unfold column in C. lia.
  - intros e Y w Se Be. destruct (column_spot d hs FD g R e c Y w C Se) as [(-> & _)|(t & Et & Zt & H)]; [reflexivity|exfalso].
    pose proof (next_none (tab t) (end_range d hs t Et) Zt) as N. clear - H N Be. destruct H as [(_ & _ & ->)|(_ & _ & ->)]; lia.
Qed.

Section Walk.
Variables (a b : nat) (l : list nat).
Hypothesis Sa : stop p a.
Hypothesis Sb : stop q b.
Hypothesis W : walk es a b l.
Hypothesis Best : ~ better p q (Z.of_N (walk_cost cost l)).

Lemma fall_short : 2 * Z.of_N (walk_cost cost l) <= zt hs tq - zb hs tp.
Proof.
  destruct (Z.le_gt_cases (2 * Z.of_N (walk_cost cost l)) (zt hs tq - zb hs tp)) as [L|L]; [exact L|].
  exfalso. destruct fall_direct as (i & j & Si & Sj & Co). apply Best. exists i, j, ((zt hs tq - zb hs tp) / 2).
  split; [exact Si|]. split; [exact Sj|]. split; [exact Co|]. pose proof (Z.mul_div_le (zt hs tq - zb hs tp) 2 ltac:(lia)). lia.
Qed.

(** Both ends are at the middle or at the sides, at most as low and at least as low as the facing sides. *)
Lemma fall_start : exists X Y o, spot ns a X Y (Some o) /\ Y <= zb hs tp /\ ((X = c /\ o = Left) \/ (X = c + 600 /\ o = Right) \/ (X = c + 300 /\ (Y = zb hs tp \/ Y = zt hs tp))).
Proof.
  pose proof (table_bounds d hs GD tp (end_range d hs p Ep)) as Bt. pose proof (row_within d hs FD p (end_ok d hs p Ep)) as Wp. fold tp in Wp.
  destruct (stop_at d hs g p a Ep Sa) as [H|[H|[H|H]]]; fold tp c in H; eexists _, _, _; (split; [exact H|]); (split; [lia|]); tauto.
Qed.
Lemma fall_finish : exists X Y o, spot ns b X Y (Some o) /\ zt hs tq <= Y /\ ((X = c /\ o = Left) \/ (X = c + 600 /\ o = Right) \/ (X = c + 300 /\ (Y = zb hs tq \/ Y = zt hs tq))).
Proof.
  pose proof (table_bounds d hs GD tq (end_range d hs q Eq)) as Bt. pose proof (row_within d hs FD q (end_ok d hs q Eq)) as Wp. fold tq in Wp.
  destruct (stop_at d hs g q b Eq Sb) as [H|[H|[H|H]]]; fold tq in H; rewrite next_column in H; eexists _, _, _; (split; [exact H|]); (split; [lia|]); tauto.
Qed.

Lemma walk_through a' b' l' i : walk es a' b' l' -> In i l' -> exists x y, steps a' i x /\ steps i b' y /\ Z.of_N (walk_cost cost l') = x + y.
Proof.
  intros W'. induction W' as [u|u v w k J W' IH]; intros I.
  - destruct I as [<-|[]]. exists 0, 0. split; [constructor|]. split; [constructor|reflexivity].
  - destruct (walk_head _ _ _ _ W') as (k' & ->). 
    change (walk_cost cost (u :: v :: k')) with (cost u v + walk_cost cost (v :: k'))%N.
    destruct I as [<-|I].
    + exists 0, (Z.of_N (cost u v) + Z.of_N (walk_cost cost (v :: k'))). split; [constructor|]. split; [|lia].
      constructor; [exact J|]. now apply (walk_steps g).
    + destruct (IH I) as (x & y & S1 & S2 & E). exists (Z.of_N (cost u v) + x), y. split; [constructor; [exact J|exact S1]|]. split; [exact S2|]. lia.
Qed.

(** It cannot leave the middle of the column. *)
Lemma fall_narrow i X Y o X1 Y1 o1 X2 Y2 o2 : In i l -> spot ns i X Y o -> spot ns a X1 Y1 o1 -> spot ns b X2 Y2 o2 -> Y1 <= zb hs tp -> zt hs tq <= Y2 ->
  Z.abs (X1 - X) + Z.abs (X - X2) <= 45.
Proof.
  intros I Si S1 S2 L1 L2. destruct (walk_through a b l i W I) as (x & y & W1 & W2 & E).
  pose proof (fall_bound a i x W1 _ _ _ _ _ _ S1 Si) as B1. pose proof (fall_bound i b y W2 _ _ _ _ _ _ Si S2) as B2.
  destruct fall_lines as (_ & _ & HAB & Ls). pose proof fall_short as Sh.
  pose proof (climb_near A B S HAB Y1 Y2 35 ltac:(lia) ltac:(unfold A; lia) ltac:(unfold B; lia)) as N.
  unfold A at 1, B at 1 in N. clear - B1 B2 N Ls Sh E. lia.
Qed.

Lemma fall_apart : a <> b.
Proof.
  intros E. destruct fall_start as (X1 & Y1 & o1 & S1 & L1 & _). destruct fall_finish as (X2 & Y2 & o2 & S2 & L2 & _). rewrite <- E in S2.
  destruct (spot_place g a _ _ _ _ _ _ S1 S2) as (_ & -> & _). pose proof next_apart. lia.
Qed.

Lemma fall_ends : spot ns a (c + 300) (zb hs tp) (Some Down) /\ spot ns b (c + 300) (zt hs tq) (Some Up) /\ (forall i, In i l -> exists Y, at_middle c i Y).
Proof.
  destruct fall_start as (X1 & Y1 & o1 & S1 & L1 & C1). destruct fall_finish as (X2 & Y2 & o2 & S2 & L2 & C2).
  assert (Nar : forall i X Y o, In i l -> spot ns i X Y o -> Z.abs (X1 - X) + Z.abs (X - X2) <= 45).
  { intros i X Y o I Si. exact (fall_narrow i X Y o X1 Y1 _ X2 Y2 _ I Si S1 S2 L1 L2). }
  destruct (walk_head _ _ _ _ W) as (l' & El).
  assert (M1 : X1 = c + 300).
  { inversion W as [u Q1 Q2|u v w k J W' Q1 Q2 Q3]; [exfalso; apply fall_apart; congruence|]. subst u w.
    destruct (joined_spots d hs g R a v J) as (X3 & Y3 & X4 & Y4 & o3 & o4 & _ & Sv).
    assert (I : In v l) by (rewrite <- Q3; right; destruct (walk_head _ _ _ _ W') as (k' & ->); now left).
    specialize (Nar v _ _ _ I Sv). destruct C1 as [(-> & ->)|[(-> & ->)|(-> & _)]]; [exfalso|exfalso|reflexivity].
    - destruct (left_port_next d hs FD g R a v _ _ _ _ _ S1 Sv J) as (-> & _). lia.
    - destruct (right_port_next d hs FD g R a v _ _ _ _ _ S1 Sv J) as (-> & _). lia. }
  subst X1. assert (Ia : In a l) by (rewrite El; now left). pose proof (Nar a _ _ _ Ia S1) as Na.
  assert (X2 = c + 300) as -> by lia.
  assert (Mid : forall i, In i l -> exists Y, at_middle c i Y).
  { intros i I. assert (Sp : exists X Y o, spot ns i X Y o).
    { destruct (walk_through a b l i W I) as (x & y & W1 & _ & _). eapply (steps_spot d hs g R); eauto. }
    destruct Sp as (X & Y & o & Sp). pose proof (Nar i X Y o I Sp) as N. exists Y, o.
    pose proof (spot_in_column d hs GD g R i X Y o tp Sp ltac:(fold c; lia)) as Q. fold c in Q. assert (X = c + 300) as -> by lia. exact Sp. }
  assert (C : column c) by apply zl_column.
  assert (F : exists Ys, Forall2 (at_middle c) l Ys).
  { clear - Mid. induction l as [|i k IH]; [exists []; constructor|]. destruct (Mid i (or_introl eq_refl)) as (Y & M).
    destruct IH as (Ys & F); [intros; apply Mid; now right|]. exists (Y :: Ys). now constructor. }
  destruct F as (Ys & F). destruct (middle_walk c a b l C W Ys Y1 Y2 F ltac:(eexists; exact S1) ltac:(eexists; exact S2)) as (Bd & _).
  pose proof fall_short as Sh. assert (Y1 = zb hs tp) as -> by lia. assert (Y2 = zt hs tq) as -> by lia.
  assert (Or : forall e t Y w, spot ns e (c + 300) Y (Some w) -> (t < length hs)%nat -> zl t = c -> (Y = zb hs t -> w = Down) /\ (Y = zt hs t -> w = Up)).
  { intros e t Y w Se Lt Zt. destruct (column_spot d hs FD g R e c Y (Some w) C Se) as [(Q & _)|(z & Ez & Zz & H)]; [discriminate|].
    pose proof (table_bounds d hs GD t Lt) as Bt. pose proof (table_bounds d hs GD (tab z) (end_range d hs z Ez)) as Bz.
    destruct (col_apart hs (tab z) t ltac:(congruence)) as [Q|Q]; [rewrite Q in *|]; destruct H as [(W0 & _ & ->)|(W0 & _ & ->)]; injection W0 as ->; (split; intros Q'; [|]); try reflexivity; exfalso; lia. }
  split; [|split; [|exact Mid]].
  - destruct (Or a tp _ _ S1 (end_range d hs p Ep) eq_refl) as (Q & _). rewrite (Q eq_refl) in S1. exact S1.
  - destruct (Or b tq _ _ S2 (end_range d hs q Eq) next_column) as (_ & Q). rewrite (Q eq_refl) in S2. exact S2.
Qed.

Theorem fall_shape ps : places g l ps -> straight_down ps (c + 300) (zb hs tp) (zt hs tq).
Proof.
  intros Pl. destruct fall_ends as (S1 & S2 & Mid). assert (C : column c) by apply zl_column.
  assert (F : exists Ys, Forall2 (at_middle c) l Ys).
  { clear - Mid. induction l as [|i k IH]; [exists []; constructor|]. destruct (Mid i (or_introl eq_refl)) as (Y & M).
    destruct IH as (Ys & F); [intros; apply Mid; now right|]. exists (Y :: Ys). now constructor. }
  destruct F as (Ys & F). destruct (middle_walk c a b l C W Ys _ _ F ltac:(eexists; exact S1) ltac:(eexists; exact S2)) as (_ & So).
  specialize (So fall_short). exists Ys. split; [|split; [|split; [|exact So]]].
  - clear - F Pl. revert ps Pl. induction F as [|i Y k Ys (o & m & Hm & H & _) F IH]; intros ps Pl; inversion Pl as [|? z ? ? (n0 & Hn0 & <-) Pl']; subst; constructor; auto.
    unfold ns in Hm. rewrite Hm in Hn0. injection Hn0 as <-. exact H.
  - destruct (walk_head _ _ _ _ W) as (l' & El). rewrite El in F. inversion F as [|? Y ? Ys' M F' Q1 Q2].
    exists Ys'. f_equal. eapply (middle_one c a); [exact M|]. eexists. exact S1.
  - pose proof (walk_last _ _ _ _ W) as Q. destruct (exists_last (l := l)) as (k & z & El).
    { intros E. rewrite E in W. inversion W. }
    rewrite El in Q, F. rewrite app_length in Q. cbn [length] in Q. replace (length k + 1 - 1)%nat with (length k) in Q by lia.
    rewrite nth_error_app2, Nat.sub_diag in Q by lia. cbn in Q. injection Q as ->.
    apply Forall2_app_inv_l in F as (Y1 & Y2 & _ & F2 & ->). inversion F2 as [|? Y ? ? M F3]. inversion F3. exists Y1. f_equal. f_equal.
    eapply (middle_one c b); [exact M|]. eexists. exact S2.
Qed.
End Walk.
End Pair.
End Doc.

(** ** Modules *)

Lemma sorted_rev (l : list Z) : StronglySorted Z.lt l -> StronglySorted Z.gt (rev l).
Proof.
  induction 1 as [|x l So IH F]; [constructor|]. cbn [rev].
  assert (H : forall k, StronglySorted Z.gt k -> Forall (Z.lt x) k -> StronglySorted Z.gt (k ++ [x])).
  { clear. induction k as [|y k IH]; intros So F; [repeat constructor|]. inversion So. inversion F. subst. cbn. constructor; [auto|].
    apply Forall_app. split; [assumption|]. constructor; [lia|constructor]. }
  apply H; [exact IH|]. now apply Forall_rev.
Qed.
Lemma straight_rev ps X Y1 Y2 : straight_down ps X Y1 Y2 -> straight_up (rev ps) X Y2 Y1.
Proof.
  intros (l & F & (r & E) & (r' & E') & So). exists (rev l). split.
  - clear - F. induction F as [|p Y ps l H F IH]; [constructor|]. cbn [rev]. apply Forall2_app; [exact IH|]. repeat constructor; apply H.
  - split; [|split].
    + exists (rev r'). rewrite E', rev_app_distr. reflexivity.
    + exists (rev r). rewrite E. reflexivity.
    + now apply sorted_rev.
Qed.
Lemma places_rev g l ps : places g l ps -> places g (rev l) (rev ps).
Proof. intros F. induction F as [|i p l ps H F IH]; [constructor|]. cbn [rev]. apply Forall2_app; [exact IH|]. repeat constructor. exact H. Qed.

Lemma below_ends hs p q : directly_below hs p q -> tab (end_of q) = (tab (end_of p) + 3)%nat /\ low hs (end_of p) /\ high (end_of q).
Proof. intros (F & i & -> & E). split; [rewrite (tab_end p); exact E|]. split; [|exact I]. destruct p; exact F. Qed.

Theorem below_straight m vb g d ls : fits (table_rows m) -> layout_module m = Ret (vb, g, d) -> links [] (m_entries m) ls ->
  Forall2 (fun pq e =>
    (directly_below (table_rows m) (fst pq) (snd pq) -> exists ps, e_path e = Some ps /\
      straight_down ps (middle_x (fst pq)) (foot (table_rows m) (fst pq)) (head (table_rows m) (snd pq))) /\
    (directly_below (table_rows m) (snd pq) (fst pq) -> exists ps, e_path e = Some ps /\
      straight_up ps (middle_x (fst pq)) (head (table_rows m) (fst pq)) (foot (table_rows m) (snd pq)))) ls (d_edges d).
Proof.
  intros F L Ll. destruct (places_walk m vb g d ls F L Ll) as (d2 & ED & R & H).
  eapply forall2_weaken; [exact H|]. intros [p q] e _ (ps & a & b & w & Ep & Es & Et & Sa & Sb & W & Best & Once & Pl). cbn [fst snd] in *.
  assert (Fo : forall z, foot (table_rows m) z = zb (table_rows m) (tab (end_of z))) by (intros z; rewrite tab_end; unfold foot, zb, zt; lia).
  assert (He : forall z, head (table_rows m) z = zt (table_rows m) (tab (end_of z))) by (intros z; rewrite tab_end; unfold SpecFall.head, zt; lia).
  assert (Mx : forall z, middle_x z = zl (tab (end_of z)) + 300) by (intros z; rewrite tab_end; unfold middle_x, zl; lia).
  rewrite !Fo, !He, !Mx. split; intros Bl; destruct (below_ends _ _ _ Bl) as (Nx & Lo & Hi); exists ps; (split; [exact Ep|]).
  - exact (fall_shape d2 _ ED g R (end_of p) (end_of q) Es Et Nx Lo Hi a b w Sa Sb W Best ps Pl).
  - rewrite <- (rev_involutive ps). apply straight_rev.
    replace (zl (tab (end_of p))) with (zl (tab (end_of q))) by (rewrite Nx; symmetry; apply zl_next).
    apply (fall_shape d2 _ ED g R (end_of q) (end_of p) Et Es Nx Lo Hi b a (rev w) Sb Sa).
    + now apply walk_reversed.
    + rewrite (walk_cost_rev d2 _ ED g R a b w W). intros Q. now apply Best, better_sym.
    + now apply places_rev.
Qed.

Lemma straight_points Rl ps X Y1 Y2 p : Rl = Z.lt \/ Rl = Z.gt -> straight Rl ps X Y1 Y2 -> In p ps -> exists Y, hpoint p X Y /\ Z.min Y1 Y2 <= Y <= Z.max Y1 Y2.
Proof.
  intros Rt (l & F & (r & E) & (r' & E') & So) I. apply In_nth_error in I as (k & Hk). destruct (forall2_nth_l _ _ _ F k _ Hk) as (Y & HY & Hp).
  exists Y. split; [exact Hp|]. apply nth_error_In in HY.
  assert (B1 : Y = Y1 \/ Rl Y1 Y).
  { rewrite E in So, HY. destruct HY as [->|HY]; [now left|right]. inversion So as [|? ? _ Fo]. rewrite Forall_forall in Fo. now apply Fo. }
  assert (B2 : Y = Y2 \/ Rl Y Y2).
  { rewrite E' in So, HY. clear - So HY. induction r' as [|z r' IH]; cbn in *; [destruct HY as [->|[]]; now left|].
    inversion So as [|? ? So' Fo]. destruct HY as [->|HY]; [right|auto]. rewrite Forall_forall in Fo. apply Fo. apply in_or_app. right. now left. }
  destruct Rt as [-> | ->]; lia.
Qed.

Lemma forall2_and {X Y} (P Q : X -> Y -> Prop) l k : Forall2 P l k -> Forall2 Q l k -> Forall2 (fun x y => P x y /\ Q x y) l k.
Proof. induction 1; intros H'; inversion H'; constructor; auto. Qed.

Theorem below_clear m vb g d ls : fits (table_rows m) -> layout_module m = Ret (vb, g, d) -> links [] (m_entries m) ls ->
  Forall2 (fun pq e => directly_below (table_rows m) (fst pq) (snd pq) \/ directly_below (table_rows m) (snd pq) (fst pq) ->
    forall l1 p q l2 X1 Y1 X2 Y2 r x y w h, e_path e = Some (l1 ++ p :: q :: l2) -> hpoint p X1 Y1 -> hpoint q X2 Y2 ->
    table_rect d r -> hrect r x y w h -> ~ enters x y w h X1 Y1 X2 Y2) ls (d_edges d).
Proof.
  intros F L Ll. destruct (places_walk m vb g d ls F L Ll) as (d2 & ED & _ & Hw).
  eapply forall2_weaken; [exact (forall2_and _ _ _ _ (below_straight m vb g d ls F L Ll) Hw)|]. cbn beta.
  intros [p0 q0] e _ ((H1 & H2) & ps0 & a & b & w0 & _ & Es & Et & _) Bl l1 p q l2 X1 Y1 X2 Y2 r x y w h Ep Hp Hq T Hr (z & Bz & Ex & Ey). cbn [fst snd] in *.
  apply between in Ex; [|exact Bz]. apply between in Ey; [|exact Bz].
  assert (P : exists u v, directly_below (table_rows m) u v /\ end_at d2 (table_rows m) (end_of u) /\ end_at d2 (table_rows m) (end_of v) /\
    forall i X Y, In i (l1 ++ p :: q :: l2) -> hpoint i X Y -> X = zl (tab (end_of u)) + 300 /\ zb (table_rows m) (tab (end_of u)) <= Y <= zt (table_rows m) (tab (end_of v))).
  { destruct Bl as [Bl|Bl].
    - destruct (H1 Bl) as (ps & Ep' & St). rewrite Ep in Ep'. injection Ep' as <-. exists p0, q0. split; [exact Bl|]. split; [exact Es|]. split; [exact Et|].
      intros i X Y I Hi. destruct (straight_points Z.lt _ _ _ _ i ltac:(now left) St I) as (Y' & Hi' & B). destruct (hpoint_unique _ _ _ _ _ Hi Hi') as [-> ->].
      rewrite !tab_end. split; [reflexivity|]. destruct (below_ends _ _ _ Bl) as (Nx & _ & _). rewrite !tab_end in Nx.
      pose proof (zb_zt (table_rows m) (place_table p0) (place_table q0) ltac:(rewrite Nx, row_next; lia)) as Z. rewrite Nx in Z |- *.
      unfold foot, head in B. rewrite Nx in B. unfold zb, zt in *. lia.
    - destruct (H2 Bl) as (ps & Ep' & St). rewrite Ep in Ep'. injection Ep' as <-. exists q0, p0. split; [exact Bl|]. split; [exact Et|]. split; [exact Es|].
      intros i X Y I Hi. destruct (straight_points Z.gt _ _ _ _ i ltac:(now right) St I) as (Y' & Hi' & B). destruct (hpoint_unique _ _ _ _ _ Hi Hi') as [-> ->].
      destruct (below_ends _ _ _ Bl) as (Nx & _ & _). assert (Nc : zl (tab (end_of p0)) = zl (tab (end_of q0))) by (rewrite Nx; apply zl_next). rewrite !tab_end in *. split; [unfold middle_x, zl in *; lia|].
      pose proof (zb_zt (table_rows m) (place_table q0) (place_table p0) ltac:(rewrite Nx, row_next; lia)) as Z. rewrite Nx in Z |- *.
      unfold foot, head in B. rewrite Nx in B. unfold zb, zt in *. lia. }
  destruct P as (u & v & Bu & Eu & Ev & P).
  destruct (P p X1 Y1 ltac:(apply in_or_app; right; now left) Hp) as (-> & B1). destruct (P q X2 Y2 ltac:(apply in_or_app; right; right; now left) Hq) as (-> & B2).
  destruct (layout_routes m vb g d F L) as (d0 & M & V & D & R). pose proof (module_grid m d0 M F) as GD.
  apply draw_split in D as (_ & N & _). set (d3 := place_terminal_ports (fst (place_nodes d0))) in *.
  assert (T' : table_rect d3 r) by (destruct T as (i' & n1 & Ib & Gi & Ri); exists i', n1; unfold body_children, get_node in *; rewrite N in Ib, Gi; auto).
  destruct (gd_rect _ _ GD r T') as (tb & Lt & Hr'). destruct Hr as ([Hx Hy] & Hw' & Hh), Hr' as ([Hx' Hy'] & Hw'' & Hh').
  rewrite (hv_unique _ _ _ Hx Hx'), (hv_unique _ _ _ Hw' Hw''), (hv_unique _ _ _ Hy Hy'), (hv_unique _ _ _ Hh Hh') in *.
  destruct (below_ends _ _ _ Bu) as (Nx & _ & _). pose proof (zl_cases tb) as Zt. pose proof (zl_cases (tab (end_of u))) as Zu.
  pose proof (next_none d2 (table_rows m) ED (end_of u) (end_of v) Eu Ev Nx tb Lt) as Nn. pose proof (table_bounds _ _ GD tb Lt) as Bt.
  assert (Q : zl tb = zl (tab (end_of u))) by (clear - Ex Zt Zu; lia). specialize (Nn Q). clear - Ey B1 B2 Nn Bt. lia.
Qed.

(** ** Samples *)

Definition seven (rels : list module_entry) : module := mkModule None
  ([EDef (mkEntity (lit "a") (letters 3)); EDef (mkEntity (lit "b") (letters 1)); EDef (mkEntity (lit "c") (letters 5)); EDef (mkEntity (lit "d") (letters 2));
    EDef (mkEntity (lit "e") (letters 4)); EDef (mkEntity (lit "f") []); EDef (mkEntity (lit "g") (letters 1))] ++ rels).
(** Up, down, and past the table between. *)
Definition ladder : module := seven [rel_entities "a" "d"; rel_entities "e" "b"; field_entity "d" "b" "g"; rel_entities "a" "g"; field_entity "a" "b" "d"].
Definition ladder_places : list (place * place) := [(Table 0, Table 3); (Table 4, Table 1); (Row 3 2, Table 6); (Table 0, Table 6); (Row 0 2, Table 3)].
Definition ladder_lines : list (list (Z * Z)) :=
  [[(400, 380); (400, 460); (400, 600); (400, 680)];
   [(1160, 680); (1160, 600); (1160, 460); (1160, 320); (1160, 240)];
   [(400, 890); (400, 970); (400, 1110); (400, 1190)];
   [(700, 240); (780, 240); (780, 275); (780, 320); (780, 460); (780, 600); (780, 785); (780, 855); (780, 970); (780, 1110); (780, 1260); (700, 1260)];
   [(700, 275); (780, 275); (780, 320); (780, 460); (780, 600); (780, 785); (700, 785)]].

Ltac seventh := split; [reflexivity|split; [vm_compute; auto 20|
  let j := fresh in let L := fresh in let H := fresh in intros j ? L H; do 7 (destruct j as [|j]; [first [exfalso; lia|discriminate H|injection H as <-; (let Q := fresh in intros Q; first [discriminate Q|destruct Q; discriminate])]|]); destruct j; discriminate]].
Lemma ladder_links : links [] (m_entries ladder) ladder_places.
Proof.
  do 7 apply links_def. cbn [app].
  apply links_rel; [eapply refers_table; seventh|eapply refers_table; seventh|]. apply links_rel; [eapply refers_table; seventh|eapply refers_table; seventh|].
  apply links_rel; [eapply refers_row; [seventh|field_tac]|eapply refers_table; seventh|]. apply links_rel; [eapply refers_table; seventh|eapply refers_table; seventh|].
  apply links_rel; [eapply refers_row; [seventh|field_tac]|eapply refers_table; seventh|]. constructor.
Qed.
Lemma ladder_drawn : exists vb g d, layout_module ladder = Ret (vb, g, d) /\ lines d ladder_lines. Proof. drawn_tac. Qed.

Lemma not_straight Rl ps X Y1 Y2 zs : Rl = Z.lt \/ Rl = Z.gt -> Forall2 (fun z p => hpoint z (fst p) (snd p)) ps zs -> straight Rl ps X Y1 Y2 -> Forall (fun p => fst p = X) zs.
Proof.
  intros Rt F St. apply Forall_forall. intros z I. apply In_nth_error in I as (k & Hk). destruct (forall2_nth_r _ _ _ F k _ Hk) as (u & Hu & Hp).
  destruct (straight_points Rl _ _ _ _ u Rt St (nth_error_In _ _ Hu)) as (Y & H & _). now destruct (hpoint_unique _ _ _ _ _ Hp H) as [<- _].
Qed.

(** A table two below, and a row that is not the last. *)
Theorem farther_down : exists m vb g d ls, fits (table_rows m) /\ layout_module m = Ret (vb, g, d) /\ links [] (m_entries m) ls /\
  (exists n i e ps, nth_error ls n = Some (Table i, Table (i + 6)) /\ nth_error (d_edges d) n = Some e /\ e_path e = Some ps /\
     forall X Y1 Y2, ~ straight_down ps X Y1 Y2) /\
  (exists n i k e ps, nth_error ls n = Some (Row i k, Table (i + 3)) /\ nth_error (d_edges d) n = Some e /\ e_path e = Some ps /\
     forall X Y1 Y2, ~ straight_down ps X Y1 Y2).
Proof.
  destruct ladder_drawn as (vb & g & d & L & Ln). unfold lines in Ln.
  exists ladder, vb, g, d, ladder_places. split; [unfold fits; vm_compute; discriminate|]. split; [exact L|]. split; [exact ladder_links|]. split.
  - destruct (forall2_nth_r _ _ _ Ln 3%nat _ eq_refl) as (e & He & ps & Ep & F). exists 3%nat, 0%nat, e, ps.
    split; [reflexivity|]. split; [exact He|]. split; [exact Ep|]. intros X Y1 Y2 St.
    pose proof (not_straight Z.lt _ _ _ _ _ ltac:(now left) F St) as Q. inversion Q as [|? ? Q1 Q2]. inversion Q2 as [|? ? Q3 Q4]. cbn in Q1, Q3. congruence.
  - destruct (forall2_nth_r _ _ _ Ln 4%nat _ eq_refl) as (e & He & ps & Ep & F). exists 4%nat, 0%nat, 2%nat, e, ps.
    split; [reflexivity|]. split; [exact He|]. split; [exact Ep|]. intros X Y1 Y2 St.
    pose proof (not_straight Z.lt _ _ _ _ _ ltac:(now left) F St) as Q. inversion Q as [|? ? Q1 Q2]. inversion Q2 as [|? ? Q3 Q4]. cbn in Q1, Q3. congruence.
Qed.
