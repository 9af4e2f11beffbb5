(** Lines and the circles at the ends of other lines. *)
From Coq Require Import String List Arith NArith ZArith Bool Lia Lra Reals Classical_Prop.
From Verif Require Import Base F32 Geometry Mir Erd Heap Route Layout Parser Cli SpecMir SpecF32 SpecGeom SpecLayout SpecRoute SpecGraph SpecThrough SpecLink SpecInk SpecStack SpecCircle
  F32Facts GeomFacts SearchFacts MirFacts GridFacts LayoutFacts RenderFacts PipelineFacts GraphFacts PathFacts LatticeFacts
  ConnectFacts HubFacts DrawFacts OrderFacts RowFacts LineFacts MidFacts FarFacts TurnFacts CalmFacts LinkFacts EndFacts ThroughFacts MiddleFacts RepeatFacts InkFacts.
Import ListNotations.
Local Open Scope Z_scope.

Section Doc.
Variables (d : document) (hs : list nat).
Hypothesis FD : end_doc d hs.
Let GD := ed_grid d hs FD.
Variable g : route_graph.
Hypothesis R : routes d hs g.
Let ns := rg_nodes g.
Let es := rg_edges g.

(** No node is at nearly the same height as the side of an end. *)
Lemma level_ten e a X Y o : end_at d hs e -> spot ns a X Y o -> Y = rowY hs e \/ 10 <= Z.abs (Y - rowY hs e).
Proof.
  intros Ee A. pose proof (rows_apart hs) as RA. pose proof (end_ok d hs e Ee) as K.
  assert (M : forall u, exists m, rowY hs u = zt hs (tab u) + 35 * m).
  { intros [t r|t]; cbn [rowY tab]; [exists (2 * Z.of_nat r + 1)|eexists; reflexivity]. lia. }
  pose proof (row_within d hs FD e K) as W. destruct (M e) as (m1 & E1).
  assert (Ro : forall u, anchor_ok hs u -> rowY hs u = rowY hs e \/ 10 <= Z.abs (rowY hs u - rowY hs e)).
  { intros u Ku. pose proof (row_within d hs FD u Ku) as W2. destruct (M u) as (m2 & E2). rewrite E1, E2 in *.
    destruct (RA (tab e) (tab u)) as [(E & _)|[Q|Q]]; [rewrite E in *|right|right]; lia. }
  assert (Ed : forall t, (t < length hs)%nat -> forall y, y = zt hs t - 80 \/ y = zb hs t + 80 -> 10 <= Z.abs (y - rowY hs e)).
  { intros t Lt y Hy. destruct K as [Lc _]. pose proof (table_bounds d hs GD t Lt). pose proof (table_bounds d hs GD _ Lc).
    pose proof (zb_rows hs t). rewrite E1 in *. destruct (RA (tab e) t) as [(E & _)|[Q|Q]]; destruct Hy as [-> | ->]; lia. }
  destruct (spot_kind d hs FD g R a X Y o A) as [(_ & _ & _ & (t & Lt & Q))|[(_ & _ & _ & u & (e' & E' & _ & ->) & _)|[(_ & u & _ & _ & (t & Lt & Q) & _)|[(_ & (e' & E' & _ & ->) & _)|[(_ & (e' & E' & _ & ->) & _)|(e' & E' & _ & H)]]]]];
    try (right; apply (Ed t Lt); tauto); try (apply Ro, (end_ok d hs e' E')).
  destruct (end_ok d hs e' E') as [Lt _]. pose proof (table_bounds d hs GD _ Lt). pose proof (table_bounds d hs GD _ (proj1 K)).
  pose proof (zb_rows hs (tab e')). rewrite E1 in *. destruct (RA (tab e) (tab e')) as [(E & _)|[Q|Q]]; destruct H as [(_ & -> & _)|(_ & -> & _)]; lia.
Qed.

(** An edge that comes over the side of an end begins or ends there. *)
Lemma side_edge e a b X1 X2 x o u : end_at d hs e -> joined es a b -> spot ns a X1 (rowY hs e) o -> spot ns b X2 (rowY hs e) u -> X1 < X2 ->
  (forall c, column c -> ~ free hs c (rowY hs e) -> X1 <= c -> c + 600 <= X2 -> c = 860) ->
  x = zl (tab e) \/ x = zl (tab e) + 600 -> X1 < x + 25 -> x - 25 < X2 -> X1 = x \/ X2 = x.
Proof.
  intros Ee J A B L Md Hx L1 L2. pose proof (row_off d hs FD e (end_ok d hs e Ee)) as O.
  assert (Rl : rel d hs (zl (tab e)) (rowY hs e)) by (exists e; auto).
  pose proof (rel_column d hs _ _ Rl) as C. pose proof (rel_not_free d hs FD _ _ Rl) as Nf. specialize (Md _ C Nf).
  destruct (edge_h d hs GD g R a b X1 X2 _ o u J A B L) as (Fo & Fu & _).
  assert (K1 : corridor X1 \/ column (X1 - 600)).
  { destruct (odd_spot d hs FD g R a X1 _ o O A) as [(_ & K)|[(-> & K)|[(_ & K)|K]]]; auto.
    - destruct Fo; discriminate.
    - right. exact (rel_column d hs _ _ K).
    - destruct Fo, K; congruence. }
  assert (K2 : corridor X2 \/ column X2).
  { destruct (odd_spot d hs FD g R b X2 _ u O B) as [(_ & K)|[(_ & K)|[(-> & K)|K]]]; auto.
    - right. exact (rel_column d hs _ _ K).
    - destruct Fu; discriminate.
    - destruct Fu, K; congruence. }
  unfold corridor in K1, K2. unfold column in *.
  destruct (odd_edge d hs FD g R a b X1 X2 _ o u O J A B L) as [M|(-> & Q & _ & _ & _ & _ & N & _)].
  - pose proof (row_within d hs FD e (end_ok d hs e Ee)) as W. specialize (M (tab e) (proj1 (end_ok d hs e Ee))). lia.
  - destruct (Z.eq_dec (zl (tab e)) 860) as [E|E]; [rewrite E in Rl; contradiction|]. lia.
Qed.

(** A walk without repetitions comes to the side of an end only at its beginning and end. *)
Lemma side_last k1 a k2 i j X Y o : walk es i j (k1 ++ a :: k2) -> NoDup (k1 ++ a :: k2) -> spot ns a X Y (Some o) -> o = Left \/ o = Right -> k1 = [] \/ k2 = [].
Proof.
  intros W ND A Ho. destruct k2 as [|c k2]; [now right|]. destruct k1 as [|b0 k1]; [now left|exfalso].
  destruct (@exists_last _ (b0 :: k1) ltac:(discriminate)) as (k3 & b & E). rewrite E in *. clear E b0 k1.
  pose proof (walk_adjacent _ _ _ _ _ _ _ _ W (eq_sym (app_assoc k3 [b] _))) as J1. cbn [app] in J1.
  pose proof (walk_adjacent _ _ _ _ _ _ _ _ W eq_refl) as J2.
  assert (b = c).
  { destruct (joined_spots d hs g R b a J1) as (X1 & Y1 & X2 & Y2 & o1 & o2 & B & A'). destruct (joined_spots d hs g R a c J2) as (X3 & Y3 & X4 & Y4 & o3 & o4 & A'' & C).
    clear A' A''. apply joined_sym in J1. destruct Ho as [-> | ->].
    - destruct (left_port_next d hs FD g R a b _ _ _ _ _ A B J1) as (-> & -> & ->). destruct (left_port_next d hs FD g R a c _ _ _ _ _ A C J2) as (-> & -> & ->).
      exact (proj1 (spot_index d hs g R b c _ _ _ _ B C)).
    - destruct (right_port_next d hs FD g R a b _ _ _ _ _ A B J1) as (-> & -> & ->). destruct (right_port_next d hs FD g R a c _ _ _ _ _ A C J2) as (-> & -> & ->).
      exact (proj1 (spot_index d hs g R b c _ _ _ _ B C)). }
  subst c. rewrite <- app_assoc in ND. cbn [app] in ND. apply NoDup_remove_2 in ND. apply ND. apply in_or_app. right. right. now left.
Qed.

(** A piece of a best route near the side of an end begins or ends there. *)
Lemma best_side e s t p q k1 a b k2 X1 Y1 X2 Y2 oa ob x r : has_ports hs p (n_ports s) -> has_ports hs q (n_ports t) ->
  end_at d hs p -> end_at d hs q -> best_route g s t (k1 ++ a :: b :: k2) -> spot ns a X1 Y1 oa -> spot ns b X2 Y2 ob ->
  end_at d hs e -> x = zl (tab e) \/ x = zl (tab e) + 600 -> r <= 25 ->
  (forall c X Y o, spot ns c X Y o -> Y = rowY hs e \/ r <= Z.abs (Y - rowY hs e)) ->
  Z.min X1 X2 < x + r -> x - r < Z.max X1 X2 -> Z.min Y1 Y2 < rowY hs e + r -> rowY hs e - r < Z.max Y1 Y2 ->
  (k1 = [] /\ X1 = x /\ Y1 = rowY hs e) \/ (k2 = [] /\ X2 = x /\ Y2 = rowY hs e).
Proof.
  intros Hs Ht Es Et Br A B Ee Hx Lr Lv L1 L2 L3 L4.
  pose proof Br as ((x0 & y0 & i & j & Ip & Iq & Sp & Sq & W) & Min).
  pose proof (walk_adjacent _ _ _ _ _ _ _ _ W eq_refl) as J.
  assert (ND : NoDup (k1 ++ a :: b :: k2)).
  { apply (cheapest_once (rg_edges g) (rg_cost (rg_nodes g)) i j); [apply (edge_dear d hs FD g R)|exact W|].
    intros l' W'. exact (Min _ _ _ _ _ Ip Iq Sp Sq W'). }
  destruct (edge_straight d hs g R a b _ _ _ _ _ _ J A B) as [[E Ne]|Q].
  2:{ exfalso. assert (E : X1 = X2) by tauto. assert (F : oa = None \/ oa = Some Up \/ oa = Some Down) by (unfold faces in Q; tauto).
      pose proof (zl_cases (tab e)) as Ze.
      destruct (spot_kind d hs FD g R a X1 Y1 oa A) as [(_ & K & _)|[(_ & K & _)|[(_ & c & K & Kx & _)|[(_ & _ & K)|[(_ & _ & K)|(e' & E' & Kx & H)]]]]].
      - unfold corridor in K. lia.
      - unfold corridor in K. lia.
      - unfold column in K. lia.
      - destruct F as [F|[F|F]]; congruence.
      - destruct F as [F|[F|F]]; congruence.
      - pose proof (zl_cases (tab e')). lia. }
  subst Y2. assert (Y1 = rowY hs e) as -> by (destruct (Lv a _ _ _ A) as [H|H]; lia).
  assert (Md : forall c, column c -> ~ free hs c (rowY hs e) -> Z.min X1 X2 <= c -> c + 600 <= Z.max X1 X2 -> c = 860).
  { intros c Cc Nf C1 C2. apply (best_middle d hs FD g R s t p q (k1 ++ a :: b :: k2) (length k1) a b X1 X2 (rowY hs e) oa ob c); auto.
    - rewrite nth_error_app2, Nat.sub_diag; [reflexivity|lia].
    - rewrite nth_error_app2 by lia. replace (S (length k1) - length k1)%nat with 1%nat by lia. reflexivity. }
  assert (Po : forall c o, spot ns c x (rowY hs e) o -> exists o', o = Some o' /\ (o' = Left \/ o' = Right)).
  { intros c o C. pose proof (zl_cases (tab e)) as Ze. pose proof (row_off d hs FD e (end_ok d hs e Ee)) as O.
    destruct (odd_spot d hs FD g R c x _ o O C) as [(_ & K)|[(-> & K)|[(-> & K)|K]]]; eauto.
    - exfalso. unfold corridor in K. lia.
    - exfalso. destruct (spot_kind d hs FD g R c x _ o C) as [(Q & _)|[(Q & _)|[(Q & _)|[(_ & _ & Q)|[(_ & _ & Q)|(e' & E' & Kx & _)]]]]];
        try (destruct K; congruence). pose proof (zl_cases (tab e')). lia. }
  assert (H : X1 = x \/ X2 = x).
  { destruct (Z.lt_total X1 X2) as [L|[L|L]]; [|congruence|].
    - apply (side_edge e a b X1 X2 x oa ob); auto; try lia. intros c Cc Nf C1 C2. apply (Md c Cc Nf); lia.
    - apply or_comm. apply (side_edge e b a X2 X1 x ob oa); auto; try lia; [now apply joined_sym|]. intros c Cc Nf C1 C2. apply (Md c Cc Nf); lia. }
  destruct H as [-> | ->].
  - destruct (Po a oa A) as (o & -> & Ho). left. destruct (side_last k1 a (b :: k2) i j _ _ _ W ND A Ho) as [H|H]; [auto|discriminate].
  - destruct (Po b ob B) as (o & -> & Ho). right. change (a :: b :: k2) with ([a] ++ b :: k2) in W, ND. rewrite app_assoc in W, ND.
    destruct (side_last (k1 ++ [a]) b k2 i j _ _ _ W ND B Ho) as [H|H]; [destruct k1; discriminate|auto].
Qed.
End Doc.

(** ** Lines of a module *)

Lemma near_range a b w r : (IZR (Z.min a b) <= w)%R -> (w <= IZR (Z.max a b))%R -> forall x, (Rabs (w - IZR x) < IZR r)%R -> Z.min a b < x + r /\ x - r < Z.max a b.
Proof.
  intros L U x H. apply Rabs_def2 in H as [H1 H2]. split; apply lt_IZR; [rewrite plus_IZR|rewrite minus_IZR]; lra.
Qed.

Theorem line_near m vb g d ls p q x z rl zs r : fits (table_rows m) -> layout_module m = Ret (vb, g, d) -> links [] (m_entries m) ls ->
  In (p, q) ls -> x = p \/ x = q -> flank (table_rows m) x z -> line_of d ls rl zs -> comes_near zs r z ->
  (r = 25 /\ x <> Table (place_table x) \/ r = 10) ->
  (exists l, zs = z :: l) /\ side_of (table_rows m) (fst rl) z \/ (exists l, zs = l ++ [z]) /\ side_of (table_rows m) (snd rl) z.
Proof.
  intros F L Ll Ix Hx [Sx Bx] (n & e & Hn & He & ps & Ep & Z) (l1 & a & b & l2 & wx & wy & -> & [[P1 P2] [P3 P4]] & N1 & N2) Hr.
  destruct (links_edges m vb g d ls F L Ll) as (d0 & M & H). cbn zeta in H.
  destruct (layout_routes m vb g d F L) as (d0' & M' & V & D & R). rewrite M in M'. injection M' as <-.
  destruct (draw_split _ _ _ _ D) as (_ & N & F2).
  pose proof (module_ends m d0 M F) as FD. set (d2 := place_terminal_ports (fst (place_nodes d0))) in *. set (hs := table_rows m) in *.
  assert (En : forall pq e, In e (d_edges d) -> (exists s t, get_node d2 (e_source e) = Some s /\ get_node d2 (e_target e) = Some t /\
     has_ports hs (end_of (fst pq)) (n_ports s) /\ has_ports hs (end_of (snd pq)) (n_ports t)) -> end_at d2 hs (end_of (fst pq)) /\ end_at d2 hs (end_of (snd pq))).
  { intros pq e1 Ie (s & t & Gs & Gt & Ps & Pt). destruct (forall2_in_r _ _ _ _ F2 Ie) as (e0 & I0 & (E1 & E2) & _).
    rewrite E1 in Gs. rewrite E2 in Gt. split; [exists e0, (e_source e0), s|exists e0, (e_target e0), t]; auto 7. }
  assert (Ee : end_at d2 hs (end_of x)).
  { destruct (forall2_in_l _ _ _ _ H Ix) as (e1 & I1 & _ & _ & K). destruct (En (p, q) e1 I1 K) as [K1 K2]. destruct Hx as [-> | ->]; assumption. }
  destruct (forall2_nth_l _ _ _ H n _ Hn) as (e1 & He1 & Ie & _ & K). rewrite He in He1. injection He1 as <-.
  destruct (En rl e Ie K) as [Es Et]. destruct K as (s & t & Gs & Gt & Ps & Pt).
  destruct (module_cheapest m vb g d F L e Ie) as (s' & t' & l & ps' & Gs' & Gt' & Ep' & Pl & B).
  unfold get_node in *. rewrite N, Gs in Gs'. rewrite N, Gt in Gt'. injection Gs' as <-. injection Gt' as <-. rewrite Ep in Ep'. injection Ep' as <-.
  apply Forall2_app_inv_r in Z as (ps1 & ps2 & Z1 & Z2 & ->). inversion Z2 as [|pa ? ps3 ? Ha Z3]; subst. inversion Z3 as [|pb ? ps4 ? Hb Z4]; subst. clear Z2 Z3.
  apply Forall2_app_inv_r in Pl as (k1 & k2 & K1 & Pl & ->).
  inversion Pl as [|i ? k3 ? (ni & Hi & Ei) Pl1]; subst. inversion Pl1 as [|j ? k4 ? (nj & Hj & Ej) Pl2]; subst. clear Pl Pl1.
  assert (Si : spot (rg_nodes g) i (fst a) (snd a) (rn_orient ni)) by (exists ni; auto).
  assert (Sj : spot (rg_nodes g) j (fst b) (snd b) (rn_orient nj)) by (exists nj; auto).
  (* the side *)
  pose proof (end_ok d2 hs _ Ee) as Kx. apply place_sides in Sx; [|exact Kx]. destruct Sx as (o & Io & ->).
  assert (Tx : tab (end_of x) = place_table x) by (destruct x; reflexivity).
  assert (Ex : (side_x (tab (end_of x)) o = zl (tab (end_of x)) \/ side_x (tab (end_of x)) o = zl (tab (end_of x)) + 600) /\ side_y hs (end_of x) o = rowY hs (end_of x)).
  { rewrite <- Tx in Bx. cbn [fst] in Bx. unfold zl in *. destruct o; unfold side_x, side_y, zl in *; (split; [lia|]); try reflexivity; lia. }
  destruct Ex as [Ex Ey]. cbn [fst snd] in N1, N2. rewrite Ey in *. set (X := side_x (tab (end_of x)) o) in *.
  destruct (near_range _ _ _ _ P1 P2 _ N1) as [Q1 Q2]. destruct (near_range _ _ _ _ P3 P4 _ N2) as [Q3 Q4].
  assert (Lv : forall c X Y o, spot (rg_nodes g) c X Y o -> Y = rowY hs (end_of x) \/ r <= Z.abs (Y - rowY hs (end_of x))).
  { intros c X' Y' o' C. destruct Hr as [(-> & T)| ->].
    - destruct x as [i'|i' k']; [exfalso; apply T; reflexivity|]. exact (level_apart d2 hs g i' k' c X' Y' o' FD R Kx C).
    - exact (level_ten d2 hs FD g R (end_of x) c X' Y' o' Ee C). }
  pose proof B as ((x0 & y0 & ia & ja & Ip & Iq & Sp & Sq & W) & _).
  destruct (best_side d2 hs FD g R (end_of x) s t (end_of (fst rl)) (end_of (snd rl)) k1 i j k4 _ _ _ _ _ _ X r Ps Pt Es Et B Si Sj Ee Ex ltac:(lia) Lv Q1 Q2 Q3 Q4) as [(-> & E1 & E2)|(-> & E1 & E2)].
  - left. inversion K1; subst. inversion Z1; subst. cbn [app] in *. destruct a as [ax ay]. cbn [fst snd] in *. rewrite E1, E2 in *. split; [eauto|].
    apply place_sides; [exact (end_ok d2 hs _ Es)|].
    destruct (walk_head _ _ _ _ W) as (l' & E). injection E as -> _.
    destruct (stands_stop d2 hs g R _ _ _ _ Ps Ip Sp) as (o' & Io' & So'). destruct (spot_place g _ _ _ _ _ _ _ Si So') as (-> & -> & _). eauto.
  - right. inversion Pl2; subst. inversion Z4; subst. destruct b as [bx by']. cbn [fst snd] in *. rewrite E1, E2 in *.
    split; [exists (l1 ++ [a]); rewrite <- app_assoc; reflexivity|].
    apply place_sides; [exact (end_ok d2 hs _ Et)|].
    assert (ja = j) as ->.
    { pose proof (walk_last _ _ _ _ W) as E. rewrite app_length, nth_error_app2 in E by (cbn; lia). cbn [length] in E.
      replace (length k1 + 2 - 1 - length k1)%nat with 1%nat in E by lia. now injection E. }
    destruct (stands_stop d2 hs g R _ _ _ _ Pt Iq Sq) as (o' & Io' & So'). destruct (spot_place g _ _ _ _ _ _ _ Sj So') as (-> & -> & _). eauto.
Qed.

(** ** Samples *)

Definition half (z : Z) : f32 := fdiv (f32_of_Z z) (f32_of_Z 2).
Lemma half_hv z : Z.abs z <= 8388608 -> hv (half z) z.
Proof. intros L. apply hv_div2; [now apply hv_of_Z|unfold M24; lia]. Qed.
(** The paths of a module, given in halves. *)
Lemma lines_given m pss : fits (table_rows m) -> Forall (Forall (fun z => Z.abs (fst z) <= 8388608 /\ Z.abs (snd z) <= 8388608)) pss ->
  match layout_module m with
  | Ret (_, _, d) => map e_path (d_edges d)
  | Panic _ => []
  end = map (fun zs => Some (map (fun z => mkPoint (half (fst z)) (half (snd z))) zs)) pss ->
  exists vb g d, layout_module m = Ret (vb, g, d) /\ lines d pss.
Proof.
  intros F B E. destruct (layout_returns m F) as (vb & g & d & L & _). rewrite L in E. exists vb, g, d. split; [exact L|].
  unfold lines. revert pss B E. induction (d_edges d) as [|e l IH]; intros [|zs pss] B E; try discriminate; [constructor|]. cbn [map] in E. injection E as E1 E2.
  inversion B as [|? ? Bz Bs]; subst. constructor; [|now apply IH]. eexists. split; [exact E1|].
  clear - Bz. induction Bz as [|[x y] zs [L1 L2] Bz IH]; constructor; [|exact IH]. split; now apply half_hv.
Qed.
Lemma line_given d ls pss n r zs : lines d pss -> nth_error ls n = Some r -> nth_error pss n = Some zs -> line_of d ls r zs.
Proof. intros Ln Hr Hz. destruct (forall2_nth_r _ _ _ Ln n zs Hz) as (e & He & P). exists n, e. auto. Qed.

Definition rel_tables (a b : string) : module_entry := ERel (mkRelation (PEntity (lit a)) (PEntity (lit b))).
(** The first and the third table are joined past the bottom of the second. *)
Definition foot : module :=
  mkModule None [ EDef (EndFacts.three "a"); EDef (one "b"); EDef (EndFacts.three "c"); EDef (one "d"); EDef (one "e"); rel_tables "a" "c"; rel_tables "b" "e" ].
Definition foot_lines : list (list (Z * Z)) :=
  [[(700, 240); (780, 240); (1540, 240); (1620, 240)]; [(1160, 240); (1160, 320); (1160, 460); (1160, 540)]].
Lemma foot_links : links [] (m_entries foot) [(Table 0, Table 2); (Table 1, Table 4)].
Proof.
  unfold foot. cbn [m_entries]. repeat apply links_def. cbn [app].
  do 2 (apply links_rel; [eapply refers_table; is_latest|eapply refers_table; is_latest|]). constructor.
Qed.
(** A line passes below the side of the second table. *)
Definition graze : module :=
  mkModule None [ EDef (one "a"); EDef (mkEntity (lit "b") (map (fun s => mkField (lit s) TInt None) ["v"; "w"; "x"; "y"; "z"]%string)); EDef (one "c");
    OuterFacts.rel_fields "a" "x" "b" "v"; ERel (mkRelation (PEntity (lit "b")) (PField (lit "a") (lit "x"))); OuterFacts.rel_fields "a" "x" "c" "x" ].
Definition graze_lines : list (list (Z * Z)) :=
  [[(700, 205); (780, 205); (860, 205)]; [(860, 310); (780, 310); (780, 205); (700, 205)];
   [(700, 205); (780, 205); (780, 310); (780, 320); (1540, 320); (1540, 310); (1540, 205); (1620, 205)]].
Ltac late_field := split; [eexists; split; reflexivity|
  let j := fresh in let L := fresh in let H := fresh in intros j ? L H; do 8 (destruct j as [|j]; [first [exfalso; lia|discriminate H|injection H as <-; discriminate]|]); destruct j; discriminate H].
Lemma graze_links : links [] (m_entries graze) [(Row 0 1, Row 1 1); (Table 1, Row 0 1); (Row 0 1, Row 2 1)].
Proof.
  unfold graze. cbn [m_entries]. repeat apply links_def. cbn [app].
  apply links_rel; [eapply refers_row; [is_latest|is_last_field]|eapply refers_row; [is_latest|late_field]|].
  apply links_rel; [eapply refers_table; is_latest|eapply refers_row; [is_latest|is_last_field]|].
  apply links_rel; [eapply refers_row; [is_latest|is_last_field]|eapply refers_row; [is_latest|is_last_field]|]. constructor.
Qed.
Ltac in_range := repeat constructor; vm_compute; discriminate.
Lemma foot_drawn : exists vb g d, layout_module foot = Ret (vb, g, d) /\ lines d foot_lines.
Proof. apply lines_given; [unfold fits; vm_compute; discriminate|in_range|vm_compute; reflexivity]. Qed.
Lemma graze_drawn : exists vb g d, layout_module graze = Ret (vb, g, d) /\ lines d graze_lines.
Proof. apply lines_given; [unfold fits; vm_compute; discriminate|in_range|vm_compute; reflexivity]. Qed.

Definition overrun (o : orientation) : Prop := exists m vb g d ls i q z r zs zs', fits (table_rows m) /\ layout_module m = Ret (vb, g, d) /\ links [] (m_entries m) ls /\
  line_of d ls (Table i, q) zs' /\ z = side_midpoint (table_left i) (table_top (table_rows m) i) 300 (table_height (table_rows m) i) o /\ ends_at zs' z /\
  line_of d ls r zs /\ comes_near zs 1 z /\ ~ side_of (table_rows m) (fst r) z /\ ~ side_of (table_rows m) (snd r) z.
Lemma runs_over : overrun Down.
Proof.
  destruct foot_drawn as (vb & g & d & L & Ln). exists foot, vb, g, d, [(Table 0, Table 2); (Table 1, Table 4)], 1%nat, (Table 4), (1160, 240), (Table 0, Table 2).
  exists [(700, 240); (780, 240); (1540, 240); (1620, 240)], [(1160, 240); (1160, 320); (1160, 460); (1160, 540)].
  split; [unfold fits; vm_compute; discriminate|]. split; [exact L|]. split; [exact foot_links|].
  split; [apply (line_given d _ _ 1 _ _ Ln); reflexivity|]. split; [reflexivity|]. split; [left; eauto|].
  split; [apply (line_given d _ _ 0 _ _ Ln); reflexivity|]. split.
  - exists [(700, 240)], (780, 240), (1540, 240), [(1620, 240)], 1160%R, 240%R. split; [reflexivity|]. split; [split; cbn -[IZR]; lra|].
    cbn [fst snd]. rewrite !Rminus_eq_0, Rabs_R0. lra.
  - split; intros (o & E); destruct o; vm_compute in E; discriminate.
Qed.
(** The line between the first and the last table of the column passes over the third. *)
Definition lid : module :=
  mkModule None [ EDef (one "a"); EDef (one "b"); EDef (one "c"); EDef (one "d"); EDef (one "e"); EDef (one "f");
    EDef (mkEntity (lit "g") (map (fun s => mkField (lit s) TInt None) ["s"; "t"; "u"; "v"; "w"; "x"; "y"; "z"]%string)); EDef (one "h"); EDef (one "i"); EDef (one "j");
    ERel (mkRelation (PEntity (lit "h")) (PField (lit "g") (lit "z"))); ERel (mkRelation (PEntity (lit "g")) (PField (lit "e") (lit "x"))); rel_tables "a" "j" ].
Definition lid_lines : list (list (Z * Z)) :=
  [[(860, 770); (780, 770); (780, 920); (780, 1015); (780, 1295); (700, 1295)]; [(400, 700); (400, 620); (780, 620); (780, 505); (860, 505)];
   [(400, 240); (400, 320); (400, 1410); (400, 1490)]].
Ltac late_table := split; [reflexivity|split; [vm_compute; auto 20|
  let j := fresh in let L := fresh in let H := fresh in intros j ? L H; do 10 (destruct j as [|j]; [first [exfalso; lia|injection H as <-; vm_compute; intuition discriminate]|]); destruct j; discriminate]].
Lemma lid_links : links [] (m_entries lid) [(Table 7, Row 6 8); (Table 6, Row 4 1); (Table 0, Table 9)].
Proof.
  unfold lid. cbn [m_entries]. repeat apply links_def. cbn [app].
  apply links_rel; [eapply refers_table; late_table|eapply refers_row; [late_table|late_field]|].
  apply links_rel; [eapply refers_table; late_table|eapply refers_row; [late_table|is_last_field]|].
  apply links_rel; [eapply refers_table; late_table|eapply refers_table; late_table|]. constructor.
Qed.
Lemma lid_drawn : exists vb g d, layout_module lid = Ret (vb, g, d) /\ lines d lid_lines.
Proof. apply lines_given; [unfold fits; vm_compute; discriminate|in_range|vm_compute; reflexivity]. Qed.
Lemma runs_over_top : overrun Up.
Proof.
  destruct lid_drawn as (vb & g & d & L & Ln). exists lid, vb, g, d, [(Table 7, Row 6 8); (Table 6, Row 4 1); (Table 0, Table 9)], 6%nat, (Row 4 1), (400, 700), (Table 0, Table 9).
  eexists; eexists.
  split; [unfold fits; vm_compute; discriminate|]. split; [exact L|]. split; [exact lid_links|].
  split; [apply (line_given d _ _ 1 _ _ Ln); reflexivity|]. split; [reflexivity|]. split; [left; eauto|].
  split; [apply (line_given d _ _ 2 _ _ Ln); reflexivity|]. split.
  - exists [(400, 240)], (400, 320), (400, 1410), [(400, 1490)], 400%R, 700%R. split; [reflexivity|]. split; [split; cbn -[IZR]; lra|].
    cbn [fst snd]. rewrite !Rminus_eq_0, Rabs_R0. lra.
  - split; intros (o & E); destruct o; vm_compute in E; discriminate.
Qed.
Lemma grazes : exists m vb g d ls q i z r zs zs', fits (table_rows m) /\ layout_module m = Ret (vb, g, d) /\ links [] (m_entries m) ls /\
  line_of d ls (Table i, q) zs' /\ flank (table_rows m) (Table i) z /\ ends_at zs' z /\ line_of d ls r zs /\ comes_near zs 11 z /\ ~ side_of (table_rows m) (fst r) z /\ ~ side_of (table_rows m) (snd r) z.
Proof.
  destruct graze_drawn as (vb & g & d & L & Ln). exists graze, vb, g, d, [(Row 0 1, Row 1 1); (Table 1, Row 0 1); (Row 0 1, Row 2 1)], (Row 0 1), 1%nat, (860, 310), (Row 0 1, Row 2 1).
  eexists; eexists.
  split; [unfold fits; vm_compute; discriminate|]. split; [exact L|]. split; [exact graze_links|].
  split; [apply (line_given d _ _ 1 _ _ Ln); reflexivity|]. split; [split; [exists Left; reflexivity|left; reflexivity]|]. split; [left; eauto|].
  split; [apply (line_given d _ _ 2 _ _ Ln); reflexivity|]. split.
  - exists [(700, 205); (780, 205); (780, 310)], (780, 320), (1540, 320), [(1540, 310); (1540, 205); (1620, 205)], 860%R, 320%R. split; [reflexivity|]. split; [split; cbn -[IZR]; lra|].
    cbn [fst snd]. rewrite Rminus_eq_0, Rabs_R0, Rabs_pos_eq; lra.
  - split; intros (o & _ & E); destruct o; vm_compute in E; discriminate.
Qed.

Theorem rows_clear m vb g d ls p q i k z r zs : fits (table_rows m) -> layout_module m = Ret (vb, g, d) -> links [] (m_entries m) ls ->
  In (p, q) ls -> Row i k = p \/ Row i k = q -> flank (table_rows m) (Row i k) z -> line_of d ls r zs -> comes_near zs 25 z ->
  (exists l, zs = z :: l) /\ side_of (table_rows m) (fst r) z \/ (exists l, zs = l ++ [z]) /\ side_of (table_rows m) (snd r) z.
Proof. intros F L Ll I Hx Fl Ln N. apply (line_near m vb g d ls p q (Row i k) z r zs 25); auto. left. split; [reflexivity|discriminate]. Qed.
Theorem sides_clear m vb g d ls p q x z r zs : fits (table_rows m) -> layout_module m = Ret (vb, g, d) -> links [] (m_entries m) ls ->
  In (p, q) ls -> x = p \/ x = q -> flank (table_rows m) x z -> line_of d ls r zs -> comes_near zs 10 z ->
  (exists l, zs = z :: l) /\ side_of (table_rows m) (fst r) z \/ (exists l, zs = l ++ [z]) /\ side_of (table_rows m) (snd r) z.
Proof. intros F L Ll I Hx Fl Ln N. apply (line_near m vb g d ls p q x z r zs 10); auto. Qed.

Lemma samples :
  fits (table_rows graze) /\ links [] (m_entries graze) [(Row 0 1, Row 1 1); (Table 1, Row 0 1); (Row 0 1, Row 2 1)] /\
  flank (table_rows graze) (Row 0 1) (700, 205) /\ flank (table_rows graze) (Row 0 1) (100, 205) /\ flank (table_rows graze) (Table 1) (860, 310) /\
  (exists vb g d, layout_module graze = Ret (vb, g, d) /\ lines d graze_lines) /\
  graze_lines = [[(700, 205); (780, 205); (860, 205)]; [(860, 310); (780, 310); (780, 205); (700, 205)];
    [(700, 205); (780, 205); (780, 310); (780, 320); (1540, 320); (1540, 310); (1540, 205); (1620, 205)]] /\
  comes_near [(860, 310); (780, 310); (780, 205); (700, 205)] 25 (700, 205) /\
  (exists vb g d, layout_module foot = Ret (vb, g, d) /\ lines d foot_lines) /\
  foot_lines = [[(700, 240); (780, 240); (1540, 240); (1620, 240)]; [(1160, 240); (1160, 320); (1160, 460); (1160, 540)]].
Proof.
  split; [unfold fits; vm_compute; discriminate|]. split; [exact graze_links|].
  split; [split; [exists Right; split; [vm_compute; auto|reflexivity]|right; reflexivity]|].
  split; [split; [exists Left; split; [vm_compute; auto|reflexivity]|left; reflexivity]|].
  split; [split; [exists Left; reflexivity|left; reflexivity]|].
  split; [exact graze_drawn|]. split; [reflexivity|]. split; [|split; [exact foot_drawn|reflexivity]].
  exists [(860, 310); (780, 310)], (780, 205), (700, 205), [], 700%R, 205%R. split; [reflexivity|]. split; [split; cbn -[IZR]; lra|].
  cbn [fst snd]. rewrite !Rminus_eq_0, Rabs_R0. lra.
Qed.
