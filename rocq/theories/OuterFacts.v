(** Lines between the outer columns. *)
From Coq Require Import String List Arith NArith ZArith Bool Lia Reals SpecFloat Classical_Prop Sorting.Sorted.
From Verif Require Import Base F32 Geometry Mir Erd Heap Route Layout Parser Cli SpecMir SpecF32 SpecGeom SpecLayout SpecRoute SpecGraph SpecRender SpecLink SpecEnds SpecThrough SpecGap
  F32Facts GeomFacts SearchFacts MirFacts GridFacts LayoutFacts RenderFacts PipelineFacts GraphFacts PathFacts LatticeFacts
  ConnectFacts HubFacts DrawFacts OrderFacts RowFacts LineFacts MidFacts FarFacts TurnFacts CalmFacts LinkFacts EndFacts ThroughFacts MiddleFacts GapFacts RepeatFacts OnceFacts.
Import ListNotations.
Local Open Scope Z_scope.

(** ** Lists in three stages *)

Lemma stages {A} (P1 P2 P3 : A -> Prop) (l : list A) : Forall (fun x => P1 x \/ P2 x \/ P3 x) l ->
  (forall i j x y, (i < j)%nat -> nth_error l i = Some x -> nth_error l j = Some y -> (P2 x -> ~ P1 y) /\ (P3 x -> P3 y)) ->
  exists l1 l2 l3, l = l1 ++ l2 ++ l3 /\ Forall P1 l1 /\ Forall P2 l2 /\ Forall P3 l3.
Proof.
  induction l as [|x l IH]; intros F H; [exists [], [], []; auto|].
  inversion F as [|? ? Fx Fl]; subst. destruct IH as (l1 & l2 & l3 & E & F1 & F2 & F3); [exact Fl|intros i j; intros; apply (H (S i) (S j)); auto; lia|].
  destruct Fx as [Px|[Px|Px]].
  - exists (x :: l1), l2, l3. split; [now rewrite E|auto].
  - destruct l1 as [|y l1]; [exists [], (x :: l2), l3; split; [now rewrite E|auto]|]. exfalso.
    inversion F1; subst. destruct (H 0%nat 1%nat x y ltac:(lia) eq_refl eq_refl) as [Q _]. now apply Q.
  - exists [], [], (x :: l). split; [reflexivity|]. split; [auto|]. split; [auto|]. constructor; [exact Px|]. apply Forall_forall. intros y I.
    apply In_nth_error in I as (k & Hk). exact (proj2 (H 0%nat (S k) x y ltac:(lia) eq_refl Hk) Px).
Qed.

Lemma passes_rev K1 M K2 ps X1 Y1 X2 Y2 : passes K1 M K2 (rev ps) X1 Y1 X2 Y2 -> passes K2 M K1 ps X2 Y2 X1 Y1.
Proof.
  intros (p & u & l1 & l2 & l3 & v & q & E & Hp & Hu & Hv & Hq & F1 & F2 & F3). exists q, v, (rev l3), (rev l2), (rev l1), u, p.
  split; [|auto 10 using Forall_rev]. rewrite <- (rev_involutive ps), E.
  change (p :: (u :: l1) ++ l2 ++ (l3 ++ [v]) ++ [q]) with ([p] ++ ([u] ++ l1) ++ l2 ++ (l3 ++ [v]) ++ [q]).
  rewrite !rev_app_distr. cbn [rev app]. rewrite <- !app_assoc. reflexivity.
Qed.

Lemma passes_points K1 M K2 ps X1 Y1 X2 Y2 r : passes K1 M K2 ps X1 Y1 X2 Y2 -> In r ps ->
  exists X Y, hpoint r X Y /\ (X = X1 \/ X = K1 \/ X = M \/ X = K2 \/ X = X2).
Proof.
  intros (p & u & l1 & l2 & l3 & v & q & -> & Hp & Hu & Hv & Hq & F1 & F2 & F3) I. rewrite Forall_forall in F1, F2, F3.
  destruct I as [<-|I]; [eauto 10|]. apply in_app_or in I as [[<-|I]|I]; [eauto 10|destruct (F1 _ I); eauto 10|].
  apply in_app_or in I as [I|I]; [destruct (F2 _ I); eauto 10|]. apply in_app_or in I as [I|[<-|[]]]; [|eauto 10].
  apply in_app_or in I as [I|[<-|[]]]; [destruct (F3 _ I); eauto 10|eauto 10].
Qed.

Section Doc.
Variables (d : document) (hs : list nat).
Hypothesis FD : end_doc d hs.
Let GD := ed_grid d hs FD.
Variable g : route_graph.
Hypothesis R : routes d hs g.
Let ns := rg_nodes g.
Let es := rg_edges g.
Let cost := rg_cost ns.
Local Notation steps := (steps g).
Local Notation stop := (stop hs g).
Local Notation better := (better hs g).
Local Notation conn := (conn g).

(** Nodes in the leftmost corridor have one to their right. *)
Lemma left_corridor c Y : spot ns c 20 Y None -> exists a, spot ns a 780 Y None.
Proof.
  intros C. destruct (spot_kind d hs FD g R c _ _ _ C) as [(_ & _ & Q & _)|[(_ & _ & _ & c0 & Rl & Ry)|[(_ & q & Q & E & _)|[(_ & _ & Q)|[(_ & _ & Q)|(u & _ & _ & [(_ & _ & Q)|(_ & _ & Q)])]]]]]; try discriminate.
  - apply corner_line in Q as (c' & Ln & H). pose proof (line_column hs c' Y Ln) as Cc.
    apply (corner_at d hs g R c' 780 Y Ln). unfold column in Cc. lia.
  - pose proof (rel_column d hs c0 Y Rl) as Cc. destruct Ry as [Ry|(_ & _ & Q & _)]; [|unfold column in Cc; lia].
    destruct Cc as [-> | [-> | ->]].
    + exact (rel_next_right d hs g R _ _ Rl).
    + exact (rel_next_left d hs g R _ _ Rl).
    + destruct Rl as (e & Ee & Ze & ->). apply (rt_junction d hs g R). split; [|apply corridor_clear; unfold corridor; auto].
      right. exists Left, 1620, (rowY hs e). split; [rewrite <- Ze; now apply row_left|].
      destruct Ry as (_ & (i & Li & Hx) & _ & Bl). split; [reflexivity|]. pose proof (zl_cases i) as Zi. split; [exists i; split; [exact Li|lia]|]. split; [lia|].
      intros u Lu H1 H2. pose proof (Bl u Lu H1 H2). pose proof (zl_cases u). lia.
  - unfold column in Q. lia.
Qed.

(** What can be reached from the outermost corridors can be reached from the inner ones. *)
Lemma skip_left u w Y X o : spot ns u 20 Y None -> spot ns w X Y o -> joined es u w -> 780 <= X ->
  exists c z, spot ns c 780 Y None /\ conn c w z /\ 2 * z = X - 780.
Proof.
  intros U W J L. destruct (left_corridor u Y U) as (c & C). exists c.
  destruct (classic (ys hs Y)) as [Yy|O].
  - destruct (even_spot d hs FD g R w X Y o Yy W) as (-> & _). destruct (line_conn d hs FD g R c w _ _ Y Yy C W) as (z & Cz & Ez).
    exists z. split; [exact C|]. split; [exact Cz|]. lia.
  - destruct (Z.eq_dec X 780) as [->|Nx].
    { destruct (spot_index d hs g R w c _ _ _ _ W C) as [-> _]. exists 0. split; [exact C|]. split; [apply conn_refl|lia]. }
    destruct (edge_h d hs GD g R u w 20 X Y None o J U W ltac:(lia)) as (_ & Fo & _).
    assert (E : o = None /\ corridor X).
    { destruct (odd_spot d hs FD g R w X Y o O W) as [K|[(-> & K)|[(-> & K)|K]]]; [exact K|exfalso|exfalso|exfalso].
      - destruct (left_port_next d hs FD g R w u _ _ _ _ _ W U (joined_sym _ _ _ J)) as (Q & _). lia.
      - destruct (right_port_next d hs FD g R w u _ _ _ _ _ W U (joined_sym _ _ _ J)) as (Q & _). lia.
      - destruct Fo as [Q|Q], K as [K|K]; congruence. }
    destruct E as [-> Co].
    destruct (odd_edge d hs FD g R u w 20 X Y None None O J U W ltac:(lia)) as [M|(Q & _)]; [|discriminate].
    exists ((X - 780) / 2). split; [exact C|]. split.
    + eapply (hline_over d hs FD g R (Z.to_nat (X - 780)) c w 780 X Y None None); eauto; try lia.
      * apply (misses_sub hs 20 X); [exact M|lia|lia|lia].
      * intros e Xe w' Se Be. eapply (odd_mid_none d hs FD g R u w e 20 X Xe Y); eauto; try solve [now left]; lia.
    + destruct Co as [-> | [-> | [-> | ->]]]; reflexivity || lia.
Qed.
Lemma skip_right w v Y X o : spot ns w X Y o -> spot ns v 2300 Y None -> joined es w v -> X <= 1540 ->
  exists c z, spot ns c 1540 Y None /\ conn w c z /\ 2 * z = 1540 - X.
Proof.
  intros W V J L. destruct (right_corridor d hs FD g R v Y V) as (c & C). exists c.
  destruct (classic (ys hs Y)) as [Yy|O].
  - destruct (even_spot d hs FD g R w X Y o Yy W) as (-> & _). destruct (line_conn d hs FD g R w c _ _ Y Yy W C) as (z & Cz & Ez).
    exists z. split; [exact C|]. split; [exact Cz|]. lia.
  - destruct (Z.eq_dec X 1540) as [->|Nx].
    { destruct (spot_index d hs g R w c _ _ _ _ W C) as [-> _]. exists 0. split; [exact C|]. split; [apply conn_refl|lia]. }
    destruct (edge_h d hs GD g R w v X 2300 Y o None J W V ltac:(lia)) as (Fo & _ & _).
    assert (E : o = None /\ corridor X).
    { destruct (odd_spot d hs FD g R w X Y o O W) as [K|[(-> & K)|[(-> & K)|K]]]; [exact K|exfalso|exfalso|exfalso].
      - destruct (left_port_next d hs FD g R w v _ _ _ _ _ W V J) as (Q & _). lia.
      - destruct (right_port_next d hs FD g R w v _ _ _ _ _ W V J) as (Q & _). lia.
      - destruct Fo as [Q|Q], K as [K|K]; congruence. }
    destruct E as [-> Co].
    destruct (odd_edge d hs FD g R w v X 2300 Y None None O J W V ltac:(lia)) as [M|(Xe & _ & _ & _ & R0 & _ & R1 & F1)].
    + exists ((1540 - X) / 2). split; [exact C|]. split.
      * eapply (hline_over d hs FD g R (Z.to_nat (1540 - X)) w c X 1540 Y None None); eauto; try lia.
        -- apply (misses_sub hs X 2300); [exact M|lia|lia|lia].
        -- intros e Xe w' Se Be. eapply (odd_mid_none d hs FD g R w v e X 2300 Xe Y); eauto; try solve [now left]; lia.
      * destruct Co as [-> | [-> | [-> | ->]]]; reflexivity || lia.
    + subst X.
      pose proof (odd_across d hs FD g R w c Y O W C R0 R1 F1) as J'. pose proof (cost_h d hs FD g R w c _ _ _ _ _ W C) as Cn.
      exists (Z.of_N (cost w c)). split; [exact C|]. split; [exact (edge_conn d hs FD g R w c J')|]. unfold cost, ns in *. lia.
Qed.

Lemma walk_cost_snoc c l x y : walk_cost c (l ++ [x; y]) = (walk_cost c (l ++ [x]) + c x y)%N.
Proof.
  induction l as [|a l IH]; [cbn; lia|]. destruct l as [|b l]; [cbn; lia|].
  change ((a :: b :: l) ++ [x; y]) with (a :: b :: (l ++ [x; y])). change ((a :: b :: l) ++ [x]) with (a :: b :: (l ++ [x])).
  change ((b :: l) ++ [x; y]) with (b :: (l ++ [x; y])) in IH. change ((b :: l) ++ [x]) with (b :: (l ++ [x])) in IH.
  change (walk_cost c (a :: b :: (l ++ [x; y]))) with (c a b + walk_cost c (b :: (l ++ [x; y])))%N.
  change (walk_cost c (a :: b :: (l ++ [x]))) with (c a b + walk_cost c (b :: (l ++ [x])))%N. rewrite IH. lia.
Qed.
Lemma walk_cost_rev a b l : walk es a b l -> walk_cost cost (rev l) = walk_cost cost l.
Proof.
  induction 1 as [a|a b c l J W IH]; [reflexivity|]. destruct (walk_head _ _ _ _ W) as (l' & ->). cbn [rev] in *.
  rewrite <- app_assoc. cbn [app]. rewrite walk_cost_snoc, IH. change (walk_cost cost (a :: b :: l')) with (cost a b + walk_cost cost (b :: l'))%N.
  pose proof (cost_sym d hs FD g R a b J) as E. unfold cost, ns. rewrite E. lia.
Qed.

Hypothesis Small : (length hs <= 102)%nat.
(** No end in the outer columns is the whole of a table or its last row. *)
Hypothesis Flat : forall e, end_at d hs e -> zl (tab e) <> 860 -> ~ low hs e /\ ~ high e.

Lemma no_outer_mid a X Y o : spot ns a X Y o -> X <> 400 /\ X <> 1920.
Proof.
  intros A. destruct (spot_kind d hs FD g R a X Y o A) as [(_ & C & _)|[(_ & C & _)|[(_ & c & C & -> & _ & _ & e & Ee & Ze & H)|[(_ & C & _)|[(_ & C & _)|(e & Ee & -> & H)]]]]].
  - unfold corridor in C. lia.
  - unfold corridor in C. lia.
  - destruct (Z.eq_dec c 860) as [->|N]; [lia|]. exfalso. rewrite <- Ze in N. destruct (Flat e Ee N) as [N1 N2]. tauto.
  - apply rel_column in C. unfold column in C. lia.
  - apply rel_column in C. unfold column in C. lia.
  - destruct (Z.eq_dec (zl (tab e)) 860) as [->|N]; [lia|]. exfalso. destruct (Flat e Ee N) as [N1 N2]. tauto.
Qed.

Lemma spot_xs a X Y o : spot ns a X Y o ->
  (o = None /\ corridor X) \/ X = 1160 \/ (o = Some Left /\ (X = 100 \/ X = 860 \/ X = 1620)) \/ (o = Some Right /\ (X = 700 \/ X = 1460 \/ X = 2220)).
Proof.
  intros A. pose proof (no_outer_mid a X Y o A) as N.
  destruct (spot_kind d hs FD g R a X Y o A) as [(-> & C & _)|[(-> & C & _)|[(-> & c & C & -> & _)|[(_ & C & ->)|[(_ & C & ->)|(e & _ & -> & _)]]]]]; auto.
  - unfold column in C. lia.
  - apply rel_column in C. unfold column in C. right. right. left. split; [reflexivity|lia].
  - apply rel_column in C. unfold column in C. right. right. right. split; [reflexivity|lia].
  - pose proof (zl_cases (tab e)). lia.
Qed.

Section Walk.
Variables (p q : anchor) (a b : nat) (l : list nat).
Hypothesis Ep : end_at d hs p.
Hypothesis Eq : end_at d hs q.
Hypothesis Zp : zl (tab p) = 100.
Hypothesis Zq : zl (tab q) = 1620.
Hypothesis Sa : stop p a.
Hypothesis Sb : stop q b.
Hypothesis W : walk es a b l.
Hypothesis Best : ~ better p q (Z.of_N (walk_cost cost l)).
Hypothesis Once : NoDup l.

Lemma flat_stop e i : end_at d hs e -> zl (tab e) <> 860 -> stop e i ->
  spot ns i (zl (tab e)) (rowY hs e) (Some Left) \/ spot ns i (zl (tab e) + 600) (rowY hs e) (Some Right).
Proof.
  intros Ee N (o & I & Sp). destruct (Flat e Ee N) as [N1 N2]. apply sides_in in I; [|exact (end_ok d hs _ Ee)].
  destruct I as [-> | [-> | [[-> Lw]|[-> Lw]]]]; unfold side_x, side_y in Sp; auto; contradiction.
Qed.
Lemma start_spot : spot ns a 100 (rowY hs p) (Some Left) \/ spot ns a 700 (rowY hs p) (Some Right).
Proof. pose proof (flat_stop p a Ep ltac:(lia) Sa) as H. rewrite Zp in H. exact H. Qed.
Lemma end_spot : spot ns b 1620 (rowY hs q) (Some Left) \/ spot ns b 2220 (rowY hs q) (Some Right).
Proof. pose proof (flat_stop q b Eq ltac:(lia) Sb) as H. rewrite Zq in H. exact H. Qed.

Lemma walk_on n u : nth_error l n = Some u -> u = b \/ exists w, nth_error l (S n) = Some w.
Proof.
  intros H. destruct (walk_split hs g Small n a b l u W H) as (_ & V & _). inversion V as [x Ex|x w y l1 J V1 Ex Ey El]; [now left|right; exists w].
  replace (S n) with (n + 1)%nat by lia. rewrite <- nth_error_skip, <- El. destruct (walk_head _ _ _ _ V1) as (l2 & ->). reflexivity.
Qed.
Lemma spot_of n u : nth_error l n = Some u -> exists X Y o, spot ns u X Y o.
Proof.
  intros H. destruct (walk_on n u H) as [->|(w & Hw)]; [destruct end_spot as [Q|Q]; eauto|].
  destruct (walk_pair g n a b l u w W H Hw) as (_ & _ & _ & J & _). destruct (joined_spots d hs g R u w J) as (X1 & Y1 & X2 & Y2 & oa & ob & A & _). eauto.
Qed.

Lemma no_left k : forall n u Y o, (length l - n <= k)%nat -> nth_error l n = Some u -> spot ns u 20 Y o -> False.
Proof.
  induction k as [|k IH]; intros n u Y o Lk H U.
  { assert (n < length l)%nat by (apply nth_error_Some; congruence). lia. }
  assert (o = None) as -> by (eapply (corridor_none d hs GD g R); [|exact U]; unfold corridor; auto).
  destruct (walk_on n u H) as [->|(w & Hw)].
  { destruct end_spot as [Q|Q]; destruct (spot_place g b _ _ _ _ _ _ Q U) as (Q' & _); discriminate. }
  destruct (walk_pair g n a b l u w W H Hw) as (x & y & W1 & J & W2 & E).
  destruct (joined_spots d hs g R u w J) as (X1 & Y1 & X & Y2 & o1 & o & U' & Sw). destruct (spot_place g u _ _ _ _ _ _ U' U) as (-> & -> & ->). clear U'.
  destruct (Z.eq_dec X 20) as [->|Nx].
  { apply (IH (S n) w Y2 o); auto. assert (n < length l)%nat by (apply nth_error_Some; congruence). lia. }
  destruct (edge_straight d hs g R u w _ _ _ _ _ _ J U Sw) as [(<- & _)|[(Q & _)|(Q & _)]]; [|congruence|congruence].
  assert (L : X = 100 /\ o = Some Left \/ 780 <= X).
  { destruct (spot_xs w X Y o Sw) as [(_ & Q)|[Q|[(-> & Q)|(-> & Q)]]].
    - unfold corridor in Q. lia.
    - lia.
    - destruct Q as [-> | [-> | ->]]; auto; lia.
    - destruct (right_port_next d hs FD g R w u _ _ _ _ _ Sw U (joined_sym _ _ _ J)) as (Q' & _). lia. }
  destruct L as [(-> & ->)|L].
  - destruct (walk_on (S n) w Hw) as [->|(w2 & Hw2)].
    { destruct end_spot as [Q'|Q']; destruct (spot_place g b _ _ _ _ _ _ Q' Sw) as (Q2 & _); lia. }
    destruct (walk_pair g (S n) a b l w w2 W Hw Hw2) as (_ & _ & _ & J2 & _).
    destruct (joined_spots d hs g R w w2 J2) as (X1 & Y1 & X3 & Y3 & o1 & o3 & _ & S3).
    destruct (left_port_next d hs FD g R w w2 _ _ _ _ _ Sw S3 J2) as (-> & -> & ->).
    apply (IH (S (S n)) w2 Y None); auto. assert (n < length l)%nat by (apply nth_error_Some; congruence). lia.
  - destruct (skip_left u w Y X o U Sw J L) as (c & z & C & Cz & Ez).
    destruct (side_corridor d hs FD g R p 780 Ep ltac:(right; rewrite Zp; reflexivity)) as (i & j & Si & Sj & C1).
    destruct (corr_conn d hs FD g R 780 j c _ _ ltac:(unfold corridor; auto) Sj C) as (z2 & C2 & L2).
    pose proof (cost_h d hs FD g R u w _ _ _ _ _ U Sw) as Ch.
    apply Best. apply (better_start d hs FD g R p q i b w y (40 + z2 + z) _ Si Sb W2 (conn_trans g _ _ _ _ _ (conn_trans g _ _ _ _ _ C1 C2) Cz)).
    assert (B : 80 + Z.abs (rowY hs p - Y) - 749 <= 2 * x).
    { destruct start_spot as [Q'|Q'].
      - pose proof (detour_dear d hs FD g R Small a u u x 0 _ _ _ _ _ _ _ _ _ W1 (steps_here g u) Q' U U). lia.
      - pose proof (detour_dear d hs FD g R Small a u u x 0 _ _ _ _ _ _ _ _ _ W1 (steps_here g u) Q' U U). lia. }
    unfold cost, ns in *. clear - B L2 Ch E Ez L. lia.
Qed.
Lemma no_right : forall n v Y o, nth_error l n = Some v -> spot ns v 2300 Y o -> False.
Proof.
  intros n. induction n as [n IH] using (well_founded_induction Wf_nat.lt_wf). intros v Y o H V.
  assert (o = None) as -> by (eapply (corridor_none d hs GD g R); [|exact V]; unfold corridor; auto).
  destruct (walk_head _ _ _ _ W) as (l' & El).
  destruct n as [|n].
  { rewrite El in H. cbn in H. injection H as <-. destruct start_spot as [Q|Q]; destruct (spot_place g a _ _ _ _ _ _ Q V) as (Q' & _); discriminate. }
  destruct (nth_error l n) as [w|] eqn:Hw; [|apply nth_error_None in Hw; assert (S n < length l)%nat by (apply nth_error_Some; congruence); lia].
  destruct (walk_pair g n a b l w v W Hw H) as (x & y & W1 & J & W2 & E).
  destruct (joined_spots d hs g R w v J) as (X & Y1 & X2 & Y2 & o & o2 & Sw & V'). destruct (spot_place g v _ _ _ _ _ _ V' V) as (-> & -> & ->). clear V'.
  destruct (Z.eq_dec X 2300) as [->|Nx]; [apply (IH n ltac:(lia) w Y1 o Hw Sw)|].
  destruct (edge_straight d hs g R w v _ _ _ _ _ _ J Sw V) as [(-> & _)|[(Q & _)|(Q & _)]]; [|congruence|congruence].
  assert (L : X = 2220 /\ o = Some Right \/ X <= 1540).
  { destruct (spot_xs w X Y o Sw) as [(_ & Q)|[Q|[(-> & Q)|(-> & Q)]]].
    - unfold corridor in Q. lia.
    - lia.
    - destruct (left_port_next d hs FD g R w v _ _ _ _ _ Sw V J) as (Q' & _). lia.
    - destruct Q as [-> | [-> | ->]]; auto; lia. }
  destruct L as [(-> & ->)|L].
  - destruct n as [|n].
    { rewrite El in Hw. cbn in Hw. injection Hw as <-. destruct start_spot as [Q|Q]; destruct (spot_place g a _ _ _ _ _ _ Q Sw) as (Q' & _); discriminate. }
    destruct (nth_error l n) as [r|] eqn:Hr; [|apply nth_error_None in Hr; assert (S n < length l)%nat by (apply nth_error_Some; congruence); lia].
    destruct (walk_pair g n a b l r w W Hr Hw) as (_ & _ & _ & J2 & _).
    destruct (joined_spots d hs g R r w J2) as (X3 & Y3 & X4 & Y4 & o3 & o4 & S3 & _).
    destruct (right_port_next d hs FD g R w r _ _ _ _ _ Sw S3 (joined_sym _ _ _ J2)) as (-> & -> & ->).
    apply (IH n ltac:(lia) r Y None Hr S3).
  - destruct (skip_right w v Y X o Sw V J L) as (c & z & C & Cz & Ez).
    destruct (side_corridor d hs FD g R q 1540 Eq ltac:(left; rewrite Zq; reflexivity)) as (i & j & Si & Sj & C1).
    destruct (corr_conn d hs FD g R 1540 j c _ _ ltac:(unfold corridor; auto) Sj C) as (z2 & C2 & L2).
    pose proof (cost_h d hs FD g R w v _ _ _ _ _ Sw V) as Ch.
    apply Best. apply better_sym. apply (better_start d hs FD g R q p i a w x (40 + z2 + z) _ Si Sa (steps_sym d hs FD g R _ _ _ W1) (conn_trans g _ _ _ _ _ (conn_trans g _ _ _ _ _ C1 C2) (conn_sym g _ _ _ Cz))).
    assert (B : 80 + Z.abs (rowY hs q - Y) - 749 <= 2 * y).
    { destruct end_spot as [Q'|Q'].
      - pose proof (detour_dear d hs FD g R Small v v b 0 y _ _ _ _ _ _ _ _ _ (steps_here g v) W2 V V Q'). lia.
      - pose proof (detour_dear d hs FD g R Small v v b 0 y _ _ _ _ _ _ _ _ _ (steps_here g v) W2 V V Q'). lia. }
    unfold cost, ns in *. clear - B L2 Ch E Ez L. lia.
Qed.

(** The nodes between the ends. *)
Lemma inner_places n r m w X Y o : nth_error l n = Some r -> nth_error l (S n) = Some m -> nth_error l (S (S n)) = Some w -> spot ns m X Y o ->
  X = 780 \/ X = 1160 \/ X = 1540.
Proof.
  intros Hr Hm Hw Sm. destruct (walk_cut g n a b l r m w W Hr Hm Hw) as (_ & _ & _ & J1 & J2 & _).
  destruct (joined_spots d hs g R r m J1) as (Xr & Yr & X' & Y' & or & o' & Sr & _). clear X' Y' o'.
  destruct (joined_spots d hs g R m w J2) as (X' & Y' & Xw & Yw & o' & ow & _ & Sw). clear X' Y' o'.
  assert (Side : (Xr = Xw /\ Yr = Yw) -> False).
  { intros [-> ->]. destruct (spot_index d hs g R r w _ _ _ _ Sr Sw) as [-> _].
    assert (Z : n = S (S n)); [|lia]. apply (proj1 (NoDup_nth_error l) Once); [apply nth_error_Some; congruence|congruence]. }
  destruct (spot_xs m X Y o Sm) as [(-> & Q)|[Q|[(-> & Q)|(-> & Q)]]].
  - destruct Q as [-> | [-> | [-> | ->]]]; auto; exfalso; [exact (no_left _ (S n) m Y None (le_n _) Hm Sm)|exact (no_right (S n) m Y None Hm Sm)].
  - auto.
  - exfalso. destruct (left_port_next d hs FD g R m r _ _ _ _ _ Sm Sr (joined_sym _ _ _ J1)) as (-> & -> & _).
    destruct (left_port_next d hs FD g R m w _ _ _ _ _ Sm Sw J2) as (-> & -> & _). now apply Side.
  - exfalso. destruct (right_port_next d hs FD g R m r _ _ _ _ _ Sm Sr (joined_sym _ _ _ J1)) as (-> & -> & _).
    destruct (right_port_next d hs FD g R m w _ _ _ _ _ Sm Sw J2) as (-> & -> & _). now apply Side.
Qed.

Theorem outer_shape ps : places g l ps -> passes 780 1160 1540 ps 700 (rowY hs p) 1620 (rowY hs q).
Proof.
  intros Pl. destruct (walk_head _ _ _ _ W) as (l' & El).
  assert (Ab : a <> b).
  { intros Q0. destruct start_spot as [Q|Q], end_spot as [Q'|Q']; rewrite Q0 in Q; destruct (spot_place g b _ _ _ _ _ _ Q Q') as (Z & _); discriminate. }
  assert (El' : exists il, l' = il ++ [b]).
  { pose proof (walk_reversed _ _ _ _ W) as Wr. destruct (walk_head _ _ _ _ Wr) as (r & Er). rewrite El in Er. cbn [rev] in Er.
    destruct l' as [|x l'] using rev_ind; [cbn in Er; congruence|]. rewrite rev_app_distr in Er. cbn in Er. injection Er as -> _. now exists l'. }
  destruct El' as (il & ->).
  assert (Nx : forall k, (k < length il)%nat -> nth_error l (S k) = nth_error il k).
  { intros k Lk. rewrite El. cbn [nth_error]. now apply nth_error_app1. }
  assert (Len : length l = S (S (length il))) by (rewrite El; cbn; rewrite app_length; cbn; lia).
  assert (H0 : nth_error l 0 = Some a) by now rewrite El.
  assert (Hb : nth_error l (S (length il)) = Some b) by (rewrite El; cbn [nth_error]; rewrite nth_error_app2, Nat.sub_diag by lia; reflexivity).
  (* the first step *)
  assert (First : spot ns a 700 (rowY hs p) (Some Right) /\ exists u, nth_error l 1 = Some u /\ spot ns u 780 (rowY hs p) None).
  { destruct (walk_on 0 a H0) as [Q|(u & Hu)]; [contradiction|].
    destruct (walk_pair g 0 a b l a u W H0 Hu) as (_ & _ & _ & J & _). destruct (joined_spots d hs g R a u J) as (X1 & Y1 & X & Y & o1 & o & _ & Su).
    destruct start_spot as [Q|Q].
    - exfalso. destruct (left_port_next d hs FD g R a u _ _ _ _ _ Q Su J) as (-> & -> & ->). exact (no_left _ 1%nat u _ None (le_n _) Hu Su).
    - split; [exact Q|]. exists u. split; [exact Hu|]. destruct (right_port_next d hs FD g R a u _ _ _ _ _ Q Su J) as (-> & -> & ->). exact Su. }
  destruct First as (Pa & u & Hu & Su).
  assert (Last : spot ns b 1620 (rowY hs q) (Some Left) /\ exists v, nth_error l (length il) = Some v /\ spot ns v 1540 (rowY hs q) None).
  { destruct (nth_error l (length il)) as [v|] eqn:Hv; [|apply nth_error_None in Hv; lia].
    destruct (walk_pair g _ a b l v b W Hv Hb) as (_ & _ & _ & J & _). destruct (joined_spots d hs g R v b J) as (X & Y & X1 & Y1 & o & o1 & Sv & _).
    destruct end_spot as [Q|Q].
    - split; [exact Q|]. exists v. split; [reflexivity|]. destruct (left_port_next d hs FD g R b v _ _ _ _ _ Q Sv (joined_sym _ _ _ J)) as (-> & -> & ->). exact Sv.
    - exfalso. destruct (right_port_next d hs FD g R b v _ _ _ _ _ Q Sv (joined_sym _ _ _ J)) as (-> & -> & ->). exact (no_right _ v _ None Hv Sv). }
  destruct Last as (Pb & v & Hv & Sv).
  assert (Ni : il <> []).
  { intros ->. cbn [length] in Hb. rewrite Hb in Hu. injection Hu as <-. destruct (spot_place g b _ _ _ _ _ _ Su Pb) as (Q & _). discriminate. }
  set (P := fun K i => exists Y o, spot ns i K Y o).
  assert (Pu : forall K K' i, P K i -> P K' i -> K = K').
  { intros K K' i (Y & o & S1) (Y' & o' & S2). exact (proj1 (spot_place g i _ _ _ _ _ _ S1 S2)). }
  assert (In3 : forall k i, nth_error il k = Some i -> P 780 i \/ P 1160 i \/ P 1540 i).
  { intros k i Hi. assert (Lk : (k < length il)%nat) by (apply nth_error_Some; congruence). rewrite <- (Nx k Lk) in Hi.
    destruct (nth_error l k) as [r|] eqn:Hr; [|apply nth_error_None in Hr; lia].
    destruct (nth_error l (S (S k))) as [w|] eqn:Hw; [|apply nth_error_None in Hw; lia].
    destruct (spot_of _ i Hi) as (X & Y & o & Si). destruct (inner_places k r i w X Y o Hr Hi Hw Si) as [-> | [-> | ->]]; [left|right; left|right; right]; exists Y, o; exact Si. }
  destruct (stages (P 780) (P 1160) (P 1540) il) as (l1 & l2 & l3 & E & F1 & F2 & F3).
  { apply Forall_forall. intros i I. apply In_nth_error in I as (k & Hk). exact (In3 k i Hk). }
  { intros i j x y L Hx Hy. assert (Lj : (j < length il)%nat) by (apply nth_error_Some; congruence).
    rewrite <- (Nx i ltac:(lia)) in Hx. rewrite <- (Nx j Lj) in Hy. split.
    - intros Px (Yy & oy & Sy). destruct i as [|i].
      + rewrite Hu in Hx. injection Hx as <-. assert (780 = 1160); [|discriminate]. apply (Pu _ _ u); [now exists (rowY hs p), None|exact Px].
      + destruct (no_return d hs FD g R Small p q a b l Sa Sb W Best Once 780 1%nat (S (S i)) (S j) u x y _ _ _ _ ltac:(unfold corridor; auto) ltac:(lia) Hu Hx Hy Su Sy) as (Yx & Sx).
        assert (780 = 1160); [|discriminate]. apply (Pu _ _ x); [now exists Yx, None|exact Px].
    - intros (Yx & ox & Sx). destruct (Nat.eq_dec (S j) (length il)) as [Q|Q].
      + rewrite <- Q, Hy in Hv. injection Hv as ->. now exists (rowY hs q), None.
      + destruct (no_return d hs FD g R Small p q a b l Sa Sb W Best Once 1540 (S i) (S j) (length il) x y v _ _ _ _ ltac:(unfold corridor; auto) ltac:(lia) Hx Hy Hv Sx Sv) as (Yy & Sy).
        now exists Yy, None. }
  assert (E1 : exists l1', l1 = u :: l1').
  { assert (Hi : nth_error il 0 = Some u) by (rewrite <- Nx; [exact Hu|destruct il; [congruence|cbn; lia]]). rewrite E in Hi.
    destruct l1 as [|x l1]; [exfalso|cbn in Hi; injection Hi as ->; now exists l1]. cbn [app] in Hi. apply nth_error_In in Hi.
    rewrite Forall_forall in F2, F3. assert (Q : P 780 u) by now exists (rowY hs p), None.
    apply in_app_or in Hi as [I|I]; [specialize (Pu _ _ u Q (F2 u I))|specialize (Pu _ _ u Q (F3 u I))]; discriminate. }
  assert (E3 : exists l3', l3 = l3' ++ [v]).
  { assert (Hi : nth_error il (length il - 1) = Some v).
    { rewrite <- Nx by (destruct il; [congruence|cbn; lia]). rewrite <- Hv. f_equal. destruct il; [congruence|cbn; lia]. }
    destruct l3 as [|x l3 _] using rev_ind.
    - exfalso. apply nth_error_In in Hi. rewrite E, app_nil_r in Hi. rewrite Forall_forall in F1, F2. assert (Q : P 1540 v) by now exists (rowY hs q), None.
      apply in_app_or in Hi as [I|I]; [specialize (Pu _ _ v Q (F1 v I))|specialize (Pu _ _ v Q (F2 v I))]; discriminate.
    - exists l3. f_equal. rewrite E, !app_assoc in Hi. rewrite app_length in Hi. cbn [length] in Hi. rewrite Nat.add_sub, nth_error_app2, Nat.sub_diag in Hi by lia. cbn in Hi. congruence. }
  destruct E1 as (l1' & ->). destruct E3 as (l3' & ->). inversion F1 as [|? ? _ F1']; subst. apply Forall_app in F3 as [F3 _].
  assert (Po : forall i r K Y o, (exists n, nth_error (rg_nodes g) i = Some n /\ rn_loc n = r) -> spot ns i K Y o -> hpoint r K Y).
  { intros i r K Y o (n & Hn & <-) (n' & Hn' & Hp & _). unfold ns in Hn'. rewrite Hn in Hn'. injection Hn' as <-. exact Hp. }
  assert (Fp : forall K ks rs, places g ks rs -> Forall (P K) ks -> Forall (fun r => exists Y, hpoint r K Y) rs).
  { intros K ks rs Q. induction Q as [|i r ks rs Hi Q IH]; intros F; constructor; inversion F as [|? ? (Y & o & Si) F']; subst; [exists Y; eapply Po; eauto|auto]. }
  unfold places in Pl. inversion Pl as [|? p0 ? ps1 Hp0 Pl1]; subst. cbn [app] in Pl1. inversion Pl1 as [|? u0 ? ps2 Hu0 Q1]; subst. clear Pl Pl1.
  apply Forall2_app_inv_l in Q1 as (r0 & r5 & Q1 & Q2 & ->). inversion Q2 as [|? q0 ? z Hq0 Q2']; subst. inversion Q2'; subst. clear Q2 Q2'.
  apply Forall2_app_inv_l in Q1 as (r1 & r3 & G1 & G2 & ->). apply Forall2_app_inv_l in G2 as (r2 & r4 & G2 & G3 & ->).
  apply Forall2_app_inv_l in G3 as (r3 & r4' & G3 & G4 & ->). inversion G4 as [|? v0 ? z Hv0 G4']; subst. inversion G4'; subst. clear G4 G4'.
  exists p0, u0, r1, r2, r3, v0, q0. split; [now cbn [app]; rewrite <- !app_assoc|].
  split; [eapply Po; eauto|]. split; [eapply Po; eauto|]. split; [eapply Po; eauto|]. split; [eapply Po; eauto|].
  split; [eapply Fp; eauto|]. split; [eapply Fp; eauto|eapply Fp; eauto].
Qed.
End Walk.
End Doc.

(** ** Modules *)

Lemma ports_column hs a b ps : has_ports hs a ps -> has_ports hs b ps -> zl (tab a) = zl (tab b).
Proof.
  intros (Ka & Fa) (Kb & Fb). assert (I : In Left (anchor_sides hs a)) by (apply sides_in; auto).
  apply In_nth_error in I as (j & I). destruct (forall2_nth_l _ _ _ Fa j Left I) as (p & Hp & O & H).
  destruct (forall2_in_r _ _ _ _ Fb (nth_error_In _ _ Hp)) as (o & _ & O' & H'). rewrite O in O'. subst o.
  destruct (hpoint_unique _ _ _ _ _ H H') as [Q _]. exact Q.
Qed.

Lemma zl_mod u : zl u = 100 + 760 * Z.of_nat (u mod 3).
Proof. unfold zl, table_left. lia. Qed.

Theorem outer_columns m vb g d ls : fits (table_rows m) -> layout_module m = Ret (vb, g, d) -> links [] (m_entries m) ls ->
  (length (table_rows m) <= 102)%nat -> (forall p q, In (p, q) ls -> plain_place (table_rows m) p /\ plain_place (table_rows m) q) ->
  Forall2 (fun pq e => forall i k j l, pq = (Row i k, Row j l) -> exists ps, e_path e = Some ps /\
      ((i mod 3 = 0 /\ j mod 3 = 2)%nat ->
        passes (2 * table_left 1 - 80) (2 * table_left 1 + 300) (2 * table_left 1 + 680) ps
          (2 * (table_left i + 300)) (row_middle (table_rows m) i k) (2 * table_left j) (row_middle (table_rows m) j l)) /\
      ((i mod 3 = 2 /\ j mod 3 = 0)%nat ->
        passes (2 * table_left 1 + 680) (2 * table_left 1 + 300) (2 * table_left 1 - 80) ps
          (2 * table_left i) (row_middle (table_rows m) i k) (2 * (table_left j + 300)) (row_middle (table_rows m) j l))) ls (d_edges d).
Proof.
  intros F L Ll Small Pl. destruct (rows_walk m vb g d ls F L Ll) as (d2 & ED & R & Ends & H).
  assert (Flat : forall e, end_at d2 (table_rows m) e -> zl (tab e) <> 860 -> ~ low (table_rows m) e /\ ~ high e).
  { intros e Ee N. destruct (Ends e Ee) as (p & q & x & ports & Ipq & Ex & Px & Pe). destruct (Pl p q Ipq) as [P1 P2].
    assert (Q : plain_place (table_rows m) x) by (destruct Ex as [-> | ->]; assumption).
    rewrite <- (ports_column _ _ _ _ Px Pe) in N. split.
    - intros Lw. pose proof (ports_low _ _ _ _ Pe Px Lw) as Lx. destruct x as [i|i k]; cbn [plain_place end_of tab low] in *.
      + apply N. rewrite zl_mod, Q. reflexivity.
      + destruct Q as [Q|Q]; [apply N; rewrite zl_mod, Q; reflexivity|contradiction].
    - intros Hi. pose proof (ports_high _ _ _ _ Pe Px Hi) as Hx. destruct x as [i|i k]; cbn [plain_place end_of tab high] in *; [|exact Hx].
      apply N. rewrite zl_mod, Q. reflexivity. }
  eapply forall2_weaken; [exact H|]. intros pq e _ Hw i k j l E. destruct (Hw i k j l E) as (ps & a & b & w & Ep & Es & Et & Sa & Sb & W & Best & Once & Ps).
  exists ps. split; [exact Ep|]. change (2 * table_left 1 - 80) with 780. change (2 * table_left 1 + 300) with 1160. change (2 * table_left 1 + 680) with 1540.
  split; intros [Ci Cj].
  - assert (Zi : zl i = 100) by now rewrite zl_mod, Ci. assert (Zj : zl j = 1620) by now rewrite zl_mod, Cj.
    replace (2 * (table_left i + 300)) with 700 by (unfold zl in Zi; lia). replace (2 * table_left j) with 1620 by (unfold zl in Zj; lia).
    exact (outer_shape d2 (table_rows m) ED g R Small Flat (row_end i k) (row_end j l) a b w Es Et Zi Zj Sa Sb W Best Once ps Ps).
  - assert (Zi : zl i = 1620) by now rewrite zl_mod, Ci. assert (Zj : zl j = 100) by now rewrite zl_mod, Cj.
    replace (2 * (table_left j + 300)) with 700 by (unfold zl in Zj; lia). replace (2 * table_left i) with 1620 by (unfold zl in Zi; lia).
    apply passes_rev.
    apply (outer_shape d2 (table_rows m) ED g R Small Flat (row_end j l) (row_end i k) b a (rev w) Et Es Zj Zi Sb Sa (walk_reversed _ _ _ _ W)).
    + intros Bt. apply better_sym in Bt. rewrite (walk_cost_rev d2 (table_rows m) ED g R a b w W) in Bt. exact (Best Bt).
    + now apply NoDup_rev.
    + unfold places. now apply forall2_rev.
Qed.

Theorem outer_clear m vb g d ls : fits (table_rows m) -> layout_module m = Ret (vb, g, d) -> links [] (m_entries m) ls ->
  (length (table_rows m) <= 102)%nat -> (forall p q, In (p, q) ls -> plain_place (table_rows m) p /\ plain_place (table_rows m) q) ->
  Forall2 (fun pq e => forall i k j l, pq = (Row i k, Row j l) -> (i mod 3 = 0 /\ j mod 3 = 2 \/ i mod 3 = 2 /\ j mod 3 = 0)%nat ->
    forall l1 p q l2 X1 Y1 X2 Y2 r x y w h, e_path e = Some (l1 ++ p :: q :: l2) -> hpoint p X1 Y1 -> hpoint q X2 Y2 ->
    table_rect d r -> hrect r x y w h -> enters x y w h X1 Y1 X2 Y2 -> x = 2 * table_left 1) ls (d_edges d).
Proof.
  intros F L Ll Small Pl. eapply forall2_weaken; [exact (outer_columns m vb g d ls F L Ll Small Pl)|]. cbn beta.
  intros pq e _ H i k j l E Cm l1 p q l2 X1 Y1 X2 Y2 r x y w h Ep Hp Hq T Hr (z & Bz & Ex & _).
  destruct (H i k j l E) as (ps & Ep' & H1 & H2). rewrite Ep in Ep'. injection Ep' as Eps.
  change (2 * table_left 1 - 80) with 780 in *. change (2 * table_left 1 + 300) with 1160 in *. change (2 * table_left 1 + 680) with 1540 in *. change (2 * table_left 1) with 860.
  apply between in Ex; [|exact Bz].
  assert (P : forall u X Y, In u ps -> hpoint u X Y -> 700 <= X <= 1620).
  { intros u X Y I Hu. destruct Cm as [Cm|Cm].
    - pose proof (H1 Cm) as Sh. destruct Cm as [Ci Cj]. pose proof (zl_mod i) as Zi. pose proof (zl_mod j) as Zj. rewrite Ci in Zi. rewrite Cj in Zj. unfold zl in Zi, Zj.
      destruct (passes_points _ _ _ _ _ _ _ _ u Sh I) as (X' & Y' & H' & B). destruct (hpoint_unique _ _ _ _ _ Hu H') as [-> _]. clear - B Zi Zj. lia.
    - pose proof (H2 Cm) as Sh. destruct Cm as [Ci Cj]. pose proof (zl_mod i) as Zi. pose proof (zl_mod j) as Zj. rewrite Ci in Zi. rewrite Cj in Zj. unfold zl in Zi, Zj.
      destruct (passes_points _ _ _ _ _ _ _ _ u Sh I) as (X' & Y' & H' & B). destruct (hpoint_unique _ _ _ _ _ Hu H') as [-> _]. clear - B Zi Zj. lia. }
  pose proof (P p X1 Y1 ltac:(rewrite <- Eps; apply in_or_app; right; now left) Hp) as Bp.
  pose proof (P q X2 Y2 ltac:(rewrite <- Eps; apply in_or_app; right; right; now left) Hq) as Bq.
  destruct (layout_routes m vb g d F L) as (d0 & M & V & D & R). pose proof (module_grid m d0 M F) as GD.
  apply draw_split in D as (_ & N & _). set (d2 := place_terminal_ports (fst (place_nodes d0))) in *.
  assert (T' : table_rect d2 r) by (destruct T as (i' & n1 & Ib & Gi & Ri); exists i', n1; unfold body_children, get_node in *; rewrite N in Ib, Gi; auto).
  destruct (gd_rect _ _ GD r T') as (tb & Lt & Hr'). destruct Hr as ([Hx Hy] & Hw & Hh), Hr' as ([Hx' Hy'] & Hw' & Hh').
  rewrite (hv_unique _ _ _ Hx Hx'), (hv_unique _ _ _ Hw Hw') in *.
  pose proof (zl_cases tb) as Zt. clear - Ex Bp Bq Zt. lia.
Qed.

(** ** Samples *)

Definition letters (n : nat) : list entity_field := map (fun k => mkField [N.of_nat (97 + k)] TInt None) (seq 0 n).
Definition three (x y z : nat) (rs : list module_entry) : module :=
  mkModule None ([EDef (mkEntity (lit "a") (letters x)); EDef (mkEntity (lit "b") (letters y)); EDef (mkEntity (lit "c") (letters z))] ++ rs).
Definition rel_fields (a x b y : string) : module_entry := ERel (mkRelation (PField (lit a) (lit x)) (PField (lit b) (lit y))).

(** Three tables side by side; the tall one is in the middle. *)
Definition there_and_back : module := three 7 14 8 [rel_fields "a" "g" "b" "a"; rel_fields "a" "f" "c" "h"].
Definition bridge : module := three 7 5 8 [rel_fields "b" "e" "b" "a"; rel_fields "a" "a" "c" "g"; rel_fields "c" "b" "a" "f"].
Definition in_halves (m : module) :=
  match layout_module m with
  | Ret (_, _, d) => map (fun e => option_map (map (fun p => (f32_to_u32 (fadd (px p) (px p)), f32_to_u32 (fadd (py p) (py p))))) (e_path e)) (d_edges d)
  | Panic _ => []
  end.

Ltac latest_tac := split; [reflexivity|split; [vm_compute; auto 20|
  let j := fresh in let L := fresh in let H := fresh in intros j ? L H; do 3 (destruct j as [|j]; [first [exfalso; lia|injection H as <-; intros [? _]; discriminate]|]); destruct j; discriminate]].
Ltac field_tac := split; [eexists; split; reflexivity|
  let j := fresh in let L := fresh in let H := fresh in intros j ? L H; do 14 (destruct j as [|j]; [first [exfalso; lia|discriminate H|injection H as <-; discriminate]|]); destruct j; discriminate H].
Ltac row_tac := eapply refers_row; [latest_tac|field_tac].

Lemma back_links : links [] (m_entries there_and_back) [(Row 0 7, Row 1 1); (Row 0 6, Row 2 8)].
Proof. do 3 apply links_def. cbn [app]. apply links_rel; [row_tac|row_tac|]. apply links_rel; [row_tac|row_tac|]. constructor. Qed.
Lemma bridge_links : links [] (m_entries bridge) [(Row 1 5, Row 1 1); (Row 0 1, Row 2 7); (Row 2 2, Row 0 6)].
Proof. do 3 apply links_def. cbn [app]. apply links_rel; [row_tac|row_tac|]. apply links_rel; [row_tac|row_tac|]. apply links_rel; [row_tac|row_tac|]. constructor. Qed.

(** The fourth and the fifth point of the second path. *)
Definition fourth_step (m : module) : option (list point * point * point * list point) :=
  match layout_module m with
  | Ret (_, _, d) => match nth_error (d_edges d) 1 with
      | Some e => match e_path e with
          | Some (a :: b :: c :: p :: q :: l) => Some ([a; b; c], p, q, l)
          | _ => None
          end
      | None => None
      end
  | Panic _ => None
  end.
Lemma back_step : exists l1 l2, fourth_step there_and_back = Some (l1, mkPoint (f32_of_Z 390) (f32_of_Z 370), mkPoint (f32_of_Z 200) (f32_of_Z 370), l2).
Proof. vm_compute. eauto. Qed.

Theorem outer_doubles_back : exists m vb g d ls, fits (table_rows m) /\ layout_module m = Ret (vb, g, d) /\ links [] (m_entries m) ls /\
  exists n i k j l e l1 p q l2 X1 X2 Y, nth_error ls n = Some (Row i k, Row j l) /\ nth_error (d_edges d) n = Some e /\
    (i mod 3 = 0 /\ j mod 3 = 2)%nat /\ e_path e = Some (l1 ++ p :: q :: l2) /\ hpoint p X1 Y /\ hpoint q X2 Y /\ X2 < X1.
Proof.
  assert (F : fits (table_rows there_and_back)) by (unfold fits; vm_compute; discriminate).
  destruct (layout_returns there_and_back F) as (vb & g & d & L & _). destruct back_step as (l1 & l2 & H). unfold fourth_step in H. rewrite L in H.
  destruct (nth_error (d_edges d) 1) as [e|] eqn:Ee; [|discriminate H].
  destruct (e_path e) as [[|a [|b [|c [|p [|q r]]]]]|] eqn:Ep; try discriminate H.
  assert (E : p = mkPoint (f32_of_Z 390) (f32_of_Z 370) /\ q = mkPoint (f32_of_Z 200) (f32_of_Z 370)) by (split; congruence). destruct E as [-> ->]. clear H.
  exists there_and_back, vb, g, d, [(Row 0 7, Row 1 1); (Row 0 6, Row 2 8)]. split; [exact F|]. split; [exact L|]. split; [exact back_links|].
  exists 1%nat, 0%nat, 6%nat, 2%nat, 8%nat, e, [a; b; c], (mkPoint (f32_of_Z 390) (f32_of_Z 370)), (mkPoint (f32_of_Z 200) (f32_of_Z 370)), r, 780, 400, 740.
  split; [reflexivity|]. split; [exact Ee|]. split; [split; reflexivity|]. split; [exact Ep|].
  split; [split; apply hv_of_Z; lia|]. split; [split; apply hv_of_Z; lia|lia].
Qed.
