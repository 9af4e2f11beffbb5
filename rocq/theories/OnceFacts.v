(** Lines do not return to a corridor they have left. *)
From Coq Require Import String List Arith NArith ZArith Bool Lia SpecFloat Classical_Prop Sorting.Sorted.
From Verif Require Import Base F32 Geometry Mir Erd Heap Route Layout Parser Cli SpecMir SpecF32 SpecGeom SpecLayout SpecRoute SpecGraph SpecRender SpecLink SpecEnds SpecThrough SpecGap
  F32Facts GeomFacts SearchFacts MirFacts GridFacts LayoutFacts RenderFacts PipelineFacts GraphFacts PathFacts LatticeFacts
  ConnectFacts HubFacts DrawFacts OrderFacts RowFacts LineFacts MidFacts FarFacts TurnFacts CalmFacts LinkFacts EndFacts ThroughFacts MiddleFacts GapFacts.
Import ListNotations.
Local Open Scope Z_scope.

(** ** Lists in which the elements of a kind follow each other *)

Lemma one_stretch {A} (P : A -> Prop) (l : list A) :
  (forall i j k x y z, (i < j < k)%nat -> nth_error l i = Some x -> nth_error l j = Some y -> nth_error l k = Some z -> P x -> P z -> P y) ->
  exists l1 l2 l3, l = l1 ++ l2 ++ l3 /\ (forall x, In x l1 \/ In x l3 -> ~ P x) /\ Forall P l2.
Proof.
  induction l as [|a l IH]; intros H; [exists [], [], []; repeat split; auto; intros x [[]|[]]|].
  destruct IH as (l1 & l2 & l3 & E & N & F).
  { intros i j k x y z L Hi Hj Hk. apply (H (S i) (S j) (S k)); auto. lia. }
  destruct (classic (P a)) as [Pa|Na].
  - destruct l2 as [|y l2].
    + exists [], [a], l. split; [reflexivity|]. split; [|auto]. intros x [[]|I]. apply N. rewrite E in I. cbn in I. apply in_app_or in I. exact I.
    + destruct l1 as [|x l1].
      * exists [], (a :: y :: l2), l3. split; [now rewrite E|]. split; [|auto]. intros z [[]|I]. apply N; auto.
      * exfalso. apply (N x); [left; now left|]. inversion F as [|? ? Py Fy]; subst.
        apply (H 0%nat 1%nat (S (S (length l1))) a x y); auto; [lia|]. cbn [nth_error app]. rewrite nth_error_app2, Nat.sub_diag by lia. reflexivity.
  - exists (a :: l1), l2, l3. split; [now rewrite E|]. split; [|exact F]. intros x [[<-|I]|I]; auto.
Qed.

Lemma nth_error_skip {A} (l : list A) n k : nth_error (skipn n l) k = nth_error l (n + k).
Proof. revert l. induction n as [|n IH]; intros [|x l]; cbn; auto. now destruct k. Qed.

Section Doc.
Variables (d : document) (hs : list nat).
Hypothesis FD : end_doc d hs.
Let GD := ed_grid d hs FD.
Variable g : route_graph.
Hypothesis R : routes d hs g.
Let ns := rg_nodes g.
Let es := rg_edges g.
Let cost := rg_cost ns.
Local Notation steps := (steps g).
Local Notation stop := (stop hs g).
Local Notation better := (better hs g).
Local Notation conn := (conn g).
Hypothesis Small : (length hs <= 102)%nat.

Let S := tens hs 0 34.

Lemma all_known A B a X Y o : spot ns a X Y o -> known A B S Y.
Proof.
  intros Sp. destruct (spot_five d hs FD g R a X Y o Sp) as (_ & k & E). exists k. split; [exact E|]. intros T _.
  destruct (level_ten d hs FD g R a X Y o Sp T) as (u & Lu & H). apply (tens_in hs u); [|exact T|exact H].
  pose proof (Nat.div_mod u 3 ltac:(lia)). lia.
Qed.

Lemma all_bound A B : (exists a, A = 10 * a + 5) -> (exists b, B = 10 * b + 5) -> A <= B -> forall a b x, steps a b x ->
  forall X1 Y1 o X2 Y2 u, spot ns a X1 Y1 o -> spot ns b X2 Y2 u -> Z.abs (X1 - X2) + 2 * (climb A B S Y2 - climb A B S Y1) <= 2 * x.
Proof.
  intros HA HB HAB a b x W. induction W as [a|a b c x J W IH]; intros X1 Y1 o X2 Y2 u Sa Sc.
  - destruct (spot_place g a _ _ _ _ _ _ Sa Sc) as (-> & -> & _). lia.
  - destruct (joined_spots d hs g R a b J) as (X3 & Y3 & X4 & Y4 & o3 & o4 & Sa' & Sb).
    destruct (spot_place g a _ _ _ _ _ _ Sa' Sa) as (-> & -> & ->). clear Sa'. specialize (IH _ _ _ _ _ _ Sb Sc).
    assert (E : X1 = X4 \/ Y1 = Y4) by (destruct (edge_straight d hs g R a b _ _ _ _ _ _ J Sa Sb); lia).
    destruct E as [<-|<-].
    + pose proof (cost_v d hs FD g R a b _ _ _ _ _ Sa Sb) as Cv.
      pose proof (climb_step A B S HA HB HAB (tens_nodup hs 0 34) (tens_ten hs 0 34) Y1 Y4 (all_known A B a _ _ _ Sa) (all_known A B b _ _ _ Sb)) as Cl.
      unfold ns in *. rewrite Cv. clear - IH Cl. lia.
    + pose proof (cost_h d hs FD g R a b _ _ _ _ _ Sa Sb) as Ch. unfold ns in *. clear - IH Ch. lia.
Qed.

(** The cost of a walk by way of a place to the side. *)
Lemma detour_up a m b x y X1 Y1 o X Y w X2 Y2 u : steps a m x -> steps m b y -> spot ns a X1 Y1 o -> spot ns m X Y w -> spot ns b X2 Y2 u -> Y1 <= Y2 ->
  Z.abs (X1 - X) + Z.abs (X - X2) + (Y2 - Y1) - 749 <= 2 * (x + y).
Proof.
  intros W1 W2 Sa Sm Sb Le. set (A := 10 * (Y1 / 10) - 5). set (B := 10 * (Y2 / 10) + 15).
  assert (HA : exists a, A = 10 * a + 5) by (exists (Y1 / 10 - 1); unfold A; lia).
  assert (HB : exists b, B = 10 * b + 5) by (exists (Y2 / 10 + 1); unfold B; lia).
  pose proof (Z.div_mod Y1 10 ltac:(lia)) as D1. pose proof (Z.mod_pos_bound Y1 10 ltac:(lia)) as M1.
  pose proof (Z.div_mod Y2 10 ltac:(lia)) as D2. pose proof (Z.mod_pos_bound Y2 10 ltac:(lia)) as M2.
  assert (L1 : A <= Y1 /\ Y2 <= B) by (unfold A, B; lia). destruct L1 as [L1 L2].
  pose proof (all_bound A B HA HB ltac:(lia) a m x W1 _ _ _ _ _ _ Sa Sm) as B1. pose proof (all_bound A B HA HB ltac:(lia) m b y W2 _ _ _ _ _ _ Sm Sb) as B2.
  pose proof (tens_length hs 0 34) as Ls. fold S in Ls.
  assert (C : Y2 - Y1 - 749 <= 2 * (climb A B S Y2 - climb A B S Y1)).
  { unfold climb. pose proof (count_range S (clamp A B Y1)) as C1. pose proof (count_range S (clamp A B Y2)) as C2.
    assert (E1 : clamp A B Y1 = Y1) by (unfold clamp; lia). assert (E2 : clamp A B Y2 = Y2) by (unfold clamp; lia). rewrite E1, E2 in *.
    pose proof (half_le (Y2 - A) ltac:(lia)). pose proof (half_le (Y1 - A) ltac:(lia)). clear - C1 C2 Ls H H0. lia. }
  clear - B1 B2 C. lia.
Qed.
Lemma detour_dear a m b x y X1 Y1 o X Y w X2 Y2 u : steps a m x -> steps m b y -> spot ns a X1 Y1 o -> spot ns m X Y w -> spot ns b X2 Y2 u ->
  Z.abs (X1 - X) + Z.abs (X - X2) + Z.abs (Y1 - Y2) - 749 <= 2 * (x + y).
Proof.
  intros W1 W2 Sa Sm Sb. destruct (Z.le_ge_cases Y1 Y2) as [L|L].
  - pose proof (detour_up a m b x y X1 Y1 o X Y w X2 Y2 u W1 W2 Sa Sm Sb L). lia.
  - pose proof (detour_up b m a y x X2 Y2 u X Y w X1 Y1 o (steps_sym d hs FD g R _ _ _ W2) (steps_sym d hs FD g R _ _ _ W1) Sb Sm Sa L). lia.
Qed.

Lemma walk_split k : forall a b l x, walk es a b l -> nth_error l k = Some x ->
  walk es a x (firstn (Datatypes.S k) l) /\ walk es x b (skipn k l) /\
  Z.of_N (walk_cost cost l) = Z.of_N (walk_cost cost (firstn (Datatypes.S k) l)) + Z.of_N (walk_cost cost (skipn k l)).
Proof.
  induction k as [|k IH]; intros a b l x W H.
  - destruct (walk_head _ _ _ _ W) as (l' & E). rewrite E in H. cbn in H. injection H as <-. rewrite E at 1 4. cbn [firstn skipn walk_cost].
    split; [constructor|]. split; [exact W|]. lia.
  - inversion W as [a'|a1 b1 c1 l1 J1 W1]; subst; cbn [nth_error] in H; [destruct k; discriminate|].
    destruct (IH b1 b l1 x W1 H) as (V1 & V2 & E). change (firstn (Datatypes.S (Datatypes.S k)) (a :: l1)) with (a :: firstn (Datatypes.S k) l1).
    change (skipn (Datatypes.S k) (a :: l1)) with (skipn k l1).
    split; [econstructor; eauto|]. split; [exact V2|].
    destruct (walk_head _ _ _ _ W1) as (l2 & E2). rewrite E2 in E |- *. cbn [firstn walk_cost] in *. lia.
Qed.

Section Walk.
Variables (p q : anchor) (a b : nat) (l : list nat).
Hypothesis Sa : stop p a.
Hypothesis Sb : stop q b.
Hypothesis W : walk es a b l.
Hypothesis Best : ~ better p q (Z.of_N (walk_cost cost l)).
Hypothesis Once : NoDup l.

Lemma no_return K i j k u m v Y1 Y2 o1 o2 : corridor K -> (i < j < k)%nat ->
  nth_error l i = Some u -> nth_error l j = Some m -> nth_error l k = Some v ->
  spot ns u K Y1 o1 -> spot ns v K Y2 o2 -> exists Y, spot ns m K Y None.
Proof.
  intros Co L Hi Hj Hk Su Sv.
  assert (o1 = None) as -> by (eapply (corridor_none d hs GD g R); [exact Co|exact Su]).
  assert (o2 = None) as -> by (eapply (corridor_none d hs GD g R); [exact Co|exact Sv]).
  destruct (walk_split i a b l u W Hi) as (V1 & V & E1).
  assert (Hj1 : nth_error (skipn i l) (j - i) = Some m) by (rewrite nth_error_skip, <- Hj; f_equal; lia).
  destruct (walk_split (j - i) u b _ m V Hj1) as (V2 & V' & E2).
  assert (Hk1 : nth_error (skipn (j - i) (skipn i l)) (k - j) = Some v) by (rewrite !nth_error_skip, <- Hk; f_equal; lia).
  destruct (walk_split (k - j) m b _ v V' Hk1) as (V3 & V4 & E3).
  apply (walk_steps g) in V1. apply (walk_steps g) in V2. apply (walk_steps g) in V3. apply (walk_steps g) in V4.
  assert (Sm : exists X Y o, spot ns m X Y o).
  { inversion V2 as [x Q|x y z c J Q]; subst; [eauto|]. inversion V3 as [x' Q'|x' y' z' c' J' Q']; subst; [eauto|].
    destruct (joined_spots d hs g R m y' J') as (X1 & Y1' & X2 & Y2' & oa & ob & A & _). eauto. }
  destruct Sm as (X & Y & o & Sm).
  pose proof (detour_dear u m v _ _ K Y1 None X Y o K Y2 None V2 V3 Su Sm Sv) as Dear.
  assert (Far : 380 <= Z.abs (X - K) -> False).
  { intros Hx. destruct (corr_conn d hs FD g R K u v Y1 Y2 Co Su Sv) as (z & Cz & Lz).
    apply Best. apply (better_mid d hs FD g R p q a b u v _ _ z _ Sa Sb (steps_sym d hs FD g R _ _ _ V1) V4 Cz).
    unfold cost, ns in *. clear - Dear Hx Lz E1 E2 E3. lia. }
  assert (Next : exists r w, nth_error l (j - 1) = Some r /\ nth_error l (Datatypes.S j) = Some w).
  { assert (Lj : (Datatypes.S j < length l)%nat) by (assert (nth_error l k <> None) by congruence; apply nth_error_Some in H; lia).
    destruct (nth_error l (j - 1)) as [r|] eqn:Er; [|apply nth_error_None in Er; lia].
    destruct (nth_error l (Datatypes.S j)) as [w|] eqn:Ew; [|apply nth_error_None in Ew; lia]. eauto. }
  destruct Next as (r & w & Hr & Hw).
  assert (Hm : nth_error l (Datatypes.S (j - 1)) = Some m) by (rewrite <- Hj; f_equal; lia).
  assert (Hw' : nth_error l (Datatypes.S (Datatypes.S (j - 1))) = Some w) by (rewrite <- Hw; f_equal; lia).
  destruct (walk_cut g (j - 1) a b l r m w W Hr Hm Hw') as (_ & _ & _ & J1 & J2 & _).
  destruct (joined_spots d hs g R r m J1) as (Xr & Yr & X' & Y' & or & o' & Sr & _). clear X' Y' o'.
  destruct (joined_spots d hs g R m w J2) as (X' & Y' & Xw & Yw & o' & ow & _ & Sw). clear X' Y' o'.
  assert (Side : forall x, (o = Some Right /\ x = X + 80) \/ (o = Some Left /\ x = X - 80) -> False).
  { intros x H.
    assert (Q : (Xr = x /\ Yr = Y) /\ (Xw = x /\ Yw = Y)).
    { destruct H as [(-> & ->)|(-> & ->)].
      - destruct (right_port_next d hs FD g R m r _ _ _ _ _ Sm Sr (joined_sym _ _ _ J1)) as (-> & -> & _).
        destruct (right_port_next d hs FD g R m w _ _ _ _ _ Sm Sw J2) as (-> & -> & _). auto.
      - destruct (left_port_next d hs FD g R m r _ _ _ _ _ Sm Sr (joined_sym _ _ _ J1)) as (-> & -> & _).
        destruct (left_port_next d hs FD g R m w _ _ _ _ _ Sm Sw J2) as (-> & -> & _). auto. }
    destruct Q as [[-> ->] [-> ->]]. destruct (spot_index d hs g R r w _ _ _ _ Sr Sw) as [-> _].
    assert (Z : (j - 1)%nat = Datatypes.S j); [|lia]. apply (proj1 (NoDup_nth_error l) Once); [apply nth_error_Some; congruence|congruence]. }
  destruct (gap_places d hs FD g R K m X Y o Co Sm) as [Q|[(-> & ->)|[->|[(-> & ->)|Q]]]].
  - exfalso. apply Far. lia.
  - exfalso. apply (Side K). left. split; [reflexivity|lia].
  - assert (o = None) as -> by (eapply (corridor_none d hs GD g R); [exact Co|exact Sm]). eauto.
  - exfalso. apply (Side K). right. split; [reflexivity|lia].
  - exfalso. apply Far. lia.
Qed.

Theorem run_once K ps : corridor K -> places g l ps -> one_run K ps.
Proof.
  intros Co Pl. set (P := fun r => exists Y, hpoint r K Y).
  assert (At : forall k r Y, nth_error ps k = Some r -> hpoint r K Y -> exists i, nth_error l k = Some i /\ spot ns i K Y None).
  { intros k r Y Hk Hr. destruct (forall2_nth_r _ _ _ Pl _ _ Hk) as (i & Hi & n & Hn & E). exists i. split; [exact Hi|].
    assert (Sp : spot ns i K Y (rn_orient n)) by (exists n; rewrite E; auto).
    rewrite (corridor_none d hs GD g R _ _ _ _ Co Sp) in Sp. exact Sp. }
  destruct (one_stretch P ps) as (l1 & l2 & l3 & E & N & F).
  { intros i j k x y z L Hi Hj Hk (Y1 & P1) (Y2 & P2). destruct (At _ _ _ Hi P1) as (u & Lu & Su). destruct (At _ _ _ Hk P2) as (v & Lv & Sv).
    destruct (forall2_nth_r _ _ _ Pl _ _ Hj) as (m & Hm & n & Hn & En).
    destruct (no_return K i j k u m v Y1 Y2 None None Co L Lu Hm Lv Su Sv) as (Y & (n' & Hn' & Hp & _)). exists Y.
    unfold ns in Hn'. rewrite Hn in Hn'. injection Hn' as <-. rewrite <- En. exact Hp. }
  assert (Ys : exists Ys, Forall2 (fun r Y => hpoint r K Y) l2 Ys).
  { clear - F. induction F as [|r l2 (Y & H) F (Ys & IH)]; [exists []; constructor|exists (Y :: Ys); constructor; auto]. }
  destruct Ys as (Ys & Fy). exists l1, l2, l3, Ys. split; [exact E|]. split; [exact Fy|].
  split; [intros r Y I H; apply (N r I); now exists Y|].
  assert (Ix : forall k Y, nth_error Ys k = Some Y -> exists i, nth_error l (length l1 + k) = Some i /\ spot ns i K Y None).
  { intros k Y H. destruct (forall2_nth_r _ _ _ Fy _ _ H) as (r & Hr & Hp). apply (At _ r); [|exact Hp].
    assert (Lk : (k < length l2)%nat) by (apply nth_error_Some; congruence).
    rewrite E, nth_error_app2 by lia. rewrite nth_error_app1 by lia. rewrite <- Hr. f_equal. lia. }
  assert (Ps : forall k, (length l1 + Datatypes.S k = Datatypes.S (length l1 + k))%nat) by (intros; lia).
  apply straight_sorted.
  - intros k y1 y2 H1 H2. destruct (Ix _ _ H1) as (i1 & I1 & S1). destruct (Ix _ _ H2) as (i2 & I2 & S2). rewrite Ps in I2.
    destruct (walk_pair g _ a b l i1 i2 W I1 I2) as (x & y & _ & J & _).
    destruct (edge_straight d hs g R i1 i2 _ _ _ _ _ _ J S1 S2) as [(_ & Ne)|[(_ & Q & _)|(_ & Q & _)]]; lia.
  - intros k y1 y2 y3 H1 H2 H3 Bd. destruct (Ix _ _ H1) as (i1 & I1 & S1). destruct (Ix _ _ H2) as (i2 & I2 & S2). destruct (Ix _ _ H3) as (i3 & I3 & S3).
    rewrite !Ps in I3. rewrite Ps in I2. destruct (walk_cut g _ a b l i1 i2 i3 W I1 I2 I3) as (x & y & W1 & J1 & J2 & W2 & Ec).
    apply Best. eapply (turn_corridor d hs FD g R p q a b i1 i2 i3 K y1 y2 y3); eauto. apply (steps_sym d hs FD g R). exact W1.
Qed.
End Walk.
End Doc.

Theorem corridor_once m vb g d : fits (table_rows m) -> layout_module m = Ret (vb, g, d) -> (length (table_rows m) <= 102)%nat ->
  forall e ps K, In e (d_edges d) -> e_path e = Some ps -> corridor K -> one_run K ps.
Proof.
  intros F L Small e ps K I Ep Co.
  destruct (module_cheapest m vb g d F L e I) as (s & t & l & ps' & Gs & Gt & Ep' & Pl & ((x & y & a & b & Ix & Iy & Sx & Sy & W) & Min)).
  rewrite Ep in Ep'. injection Ep' as <-.
  destruct (layout_routes m vb g d F L) as (d0 & M & V & D & R). pose proof (module_ends m d0 M F) as ED.
  apply draw_split in D as (_ & N & F2). set (d2 := place_terminal_ports (fst (place_nodes d0))) in *.
  destruct (forall2_in_r _ _ _ _ F2 I) as (e0 & I0 & (E1 & E2) & _).
  assert (Gs' : get_node d2 (e_source e0) = Some s) by (unfold get_node in *; rewrite <- E1, <- N; exact Gs).
  assert (Gt' : get_node d2 (e_target e0) = Some t) by (unfold get_node in *; rewrite <- E2, <- N; exact Gt).
  destruct (ed_end _ _ ED e0 _ s I0 (or_introl eq_refl) Gs') as (p & Hp). destruct (ed_end _ _ ED e0 _ t I0 (or_intror eq_refl) Gt') as (q & Hq).
  apply (run_once d2 (table_rows m) ED g R Small p q a b l).
  - exact (stands_stop d2 (table_rows m) g R _ _ _ _ Hp Ix Sx).
  - exact (stands_stop d2 (table_rows m) g R _ _ _ _ Hq Iy Sy).
  - exact W.
  - intros (s' & t' & z & Ss & St & [(l' & W' & Lw) _] & Lt).
    destruct (stop_stands _ _ _ _ _ Hp Ss) as (p' & Ip' & Sp'). destruct (stop_stands _ _ _ _ _ Hq St) as (q' & Iq' & Sq').
    specialize (Min p' q' s' t' l' Ip' Iq' Sp' Sq' W'). lia.
  - apply (cheapest_once (rg_edges g) (rg_cost (rg_nodes g)) a b l); [apply (edge_dear _ _ ED g R)|exact W|].
    intros l' W'. exact (Min _ _ _ _ _ Ix Iy Sx Sy W').
  - exact Co.
  - exact Pl.
Qed.

Theorem corridors_once m vb g d : fits (table_rows m) -> layout_module m = Ret (vb, g, d) -> (length (table_rows m) <= 102)%nat ->
  forall e ps i, In e (d_edges d) -> e_path e = Some ps -> one_run (2 * table_left i - 80) ps /\ one_run (2 * table_left i + 680) ps.
Proof.
  intros F L Small e ps i I Ep. pose proof (Nat.mod_upper_bound i 3 ltac:(lia)) as B.
  split; apply (corridor_once m vb g d F L Small e ps _ I Ep); unfold corridor, table_left; lia.
Qed.

(** Six tables in two rows; the table in the middle of the first row is tall. *)
Definition across : module :=
  mkModule None
   [EDef (mkEntity (lit "a") [mkField (lit "x") TInt None; mkField (lit "y") TInt None]);
    EDef (mkEntity (lit "b") [mkField (lit "p") TInt None; mkField (lit "q") TInt None; mkField (lit "r") TInt None; mkField (lit "s") TInt None]);
    EDef (mkEntity (lit "c") [mkField (lit "x") TInt None]); EDef (mkEntity (lit "d") [mkField (lit "x") TInt None]);
    EDef (mkEntity (lit "e") [mkField (lit "x") TInt None]); EDef (mkEntity (lit "f") [mkField (lit "x") TInt None]);
    ERel (mkRelation (PField (lit "a") (lit "x")) (PField (lit "f") (lit "x")))].
