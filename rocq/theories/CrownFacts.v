(** Lines and the circles at the tops of tables. *)
From Coq Require Import String List Arith NArith ZArith Bool Lia Lra Reals Classical_Prop.
From Verif Require Import Base F32 Geometry Mir Erd Heap Route Layout Parser Cli SpecMir SpecF32 SpecGeom SpecLayout SpecRoute SpecGraph SpecThrough SpecLink SpecEnds SpecInk SpecStack SpecCircle
  F32Facts GeomFacts SearchFacts MirFacts GridFacts LayoutFacts RenderFacts PipelineFacts GraphFacts PathFacts LatticeFacts
  ConnectFacts HubFacts DrawFacts OrderFacts RowFacts LineFacts MidFacts FarFacts TurnFacts ColumnFacts CalmFacts LinkFacts EndFacts ThroughFacts MiddleFacts RepeatFacts InkFacts CircleFacts.
Import ListNotations.
Local Open Scope Z_scope.

Section Doc.
Variables (d : document) (hs : list nat).
Hypothesis FD : end_doc d hs.
Let GD := ed_grid d hs FD.
Variable g : route_graph.
Hypothesis R : routes d hs g.
Let ns := rg_nodes g.
Let es := rg_edges g.

(** Nodes of the column just above a table. *)
Lemma over_table W b Y o : (W < length hs)%nat -> spot ns b (zl W + 300) Y o -> zt hs W - 80 <= Y <= zt hs W -> Y = zt hs W - 80 /\ o = None \/ Y = zt hs W /\ o = Some Up.
Proof.
  intros LW B L. pose proof (table_bounds d hs GD W LW) as Bw. pose proof (zl_column W) as C.
  destruct (column_spot d hs FD g R b _ _ _ C B) as [(-> & M)|(u & Eu & Zu & H)].
  - left. split; [|reflexivity]. pose proof (md_gap _ _ _ _ _ _ M W LW eq_refl). lia.
  - right. pose proof (end_range d hs _ Eu) as Lu. pose proof (table_bounds d hs GD _ Lu).
    destruct (col_apart hs (tab u) W Zu) as [E|[Q|Q]]; destruct H as [(-> & _ & ->)|(-> & _ & ->)]; try rewrite E in *; try lia; auto.
Qed.

Lemma top_junction W : end_at d hs (table_end W) -> exists k, spot ns k (zl W + 300) (zt hs W - 80) None.
Proof.
  intros Ew. pose proof (end_range d hs _ Ew) as LW. cbn [tab] in LW. pose proof (table_bounds d hs GD W LW) as Bw. pose proof (zl_column W) as C.
  assert (G : gap hs (zl W) (zt hs W - 80) (zt hs W - 80)).
  { intros t Lt Et. pose proof (table_bounds d hs GD t Lt). destruct (col_apart hs t W Et) as [-> | [Q|Q]]; lia. }
  apply (mid_spot d hs g R (zl W) (zt hs W - 80) C).
  - exists W. auto.
  - exact (gap_clear hs _ _ _ C G).
  - exists (table_end W). split; [exact Ew|]. split; [reflexivity|]. right. split; [exact I|]. cbn [tab]. lia.
Qed.

(** The top of an end is joined to one node only. *)
Lemma up_port_next W p b X' Y' o : end_at d hs (table_end W) -> spot ns p (zl W + 300) (zt hs W) (Some Up) -> spot ns b X' Y' o -> joined es p b ->
  X' = zl W + 300 /\ Y' = zt hs W - 80 /\ o = None.
Proof.
  intros Ew P B J. pose proof (end_range d hs _ Ew) as LW. cbn [tab] in LW. pose proof (table_bounds d hs GD W LW) as Bw. pose proof (zl_column W) as C.
  destruct (top_junction W Ew) as (k & K).
  destruct (edge_straight d hs g R p b _ _ _ _ _ _ J P B) as [(E & Ne)|[(_ & _ & F & _)|(E & L & _ & Fb)]].
  - exfalso. subst Y'. destruct (Z.lt_total (zl W + 300) X') as [L|[L|L]]; [|congruence|].
    + destruct (edge_h d hs GD g R p b _ _ _ _ _ J P B L) as ([Q|Q] & _); discriminate.
    + apply joined_sym in J. destruct (edge_h d hs GD g R b p _ _ _ _ _ J B P L) as (_ & [Q|Q] & _); discriminate.
  - destruct F; discriminate.
  - subst X'. split; [reflexivity|].
    assert (Lo : zt hs W - 80 <= Y').
    { destruct J as [J|J].
      - apply (pick_up d hs FD g R b p (zl W) Y' (zt hs W) o (Some Up) C J B P L k (zt hs W - 80) None K ltac:(lia)). now left.
      - destruct (Z_le_gt_dec (zt hs W - 80) Y') as [Q|Q]; [exact Q|exfalso].
        destruct (pick_down d hs FD g R b p (zl W) Y' (zt hs W) o (Some Up) C J B P L k (zt hs W - 80) None K ltac:(lia) ltac:(now left)) as [P1 [P2|P2]].
        + assert (M : misses hs (zl W + 300) Y' (zl W + 300) (zt hs W - 80)); [|specialize (P1 M); lia].
          intros t Lt. specialize (P2 t Lt). lia.
        + pose proof (junction_first d hs g R k p _ _ _ _ Up K P). lia. }
    destruct (over_table W b Y' o LW B ltac:(lia)) as [[-> ->]|[-> _]]; [auto|lia].
Qed.

(** Level lines do not come near the tops of tables. *)
Lemma level_top W a X Y o : (W < length hs)%nat -> spot ns a X Y o -> faces o Left \/ faces o Right -> 35 <= Z.abs (Y - zt hs W).
Proof.
  intros LW A F. pose proof (rows_apart hs) as RA. pose proof (table_bounds d hs GD W LW) as BW.
  assert (Ro : forall u, anchor_ok hs u -> 35 <= Z.abs (rowY hs u - zt hs W)).
  { intros u Ku. pose proof (row_within d hs FD u Ku) as W2. destruct (RA (tab u) W) as [(E & _)|[Q|Q]]; [rewrite E in *|..]; lia. }
  assert (Ed : forall t, (t < length hs)%nat -> forall y, y = zt hs t - 80 \/ y = zb hs t + 80 -> 35 <= Z.abs (y - zt hs W)).
  { intros t Lt y Hy. pose proof (table_bounds d hs GD t Lt). destruct (RA t W) as [(E & _)|[Q|Q]]; destruct Hy as [-> | ->]; lia. }
  destruct (spot_kind d hs FD g R a X Y o A) as [(_ & _ & _ & (t & Lt & Q))|[(_ & _ & _ & u & (e' & E' & _ & ->) & _)|[(_ & u & _ & _ & (t & Lt & Q) & _)|[(_ & (e' & E' & _ & ->) & _)|[(_ & (e' & E' & _ & ->) & _)|(e' & E' & _ & H)]]]]];
    try (apply (Ed t Lt); tauto); try (apply Ro, (end_ok d hs e' E')).
  exfalso. unfold faces in F. destruct H as [(_ & _ & ->)|(_ & _ & ->)]; intuition discriminate.
Qed.

Lemma top_last k1 a k2 i j W : walk es i j (k1 ++ a :: k2) -> NoDup (k1 ++ a :: k2) -> end_at d hs (table_end W) -> spot ns a (zl W + 300) (zt hs W) (Some Up) -> k1 = [] \/ k2 = [].
Proof.
  intros W' ND Ew A. destruct k2 as [|c k2]; [now right|]. destruct k1 as [|b0 k1]; [now left|exfalso].
  destruct (@exists_last _ (b0 :: k1) ltac:(discriminate)) as (k3 & b & E). rewrite E in *. clear E b0 k1.
  pose proof (walk_adjacent _ _ _ _ _ _ _ _ W' (eq_sym (app_assoc k3 [b] _))) as J1. cbn [app] in J1.
  pose proof (walk_adjacent _ _ _ _ _ _ _ _ W' eq_refl) as J2.
  assert (b = c).
  { destruct (joined_spots d hs g R b a J1) as (X1 & Y1 & X2 & Y2 & o1 & o2 & B & A'). destruct (joined_spots d hs g R a c J2) as (X3 & Y3 & X4 & Y4 & o3 & o4 & A'' & C).
    clear A' A''. apply joined_sym in J1.
    destruct (up_port_next W a b _ _ _ Ew A B J1) as (-> & -> & ->). destruct (up_port_next W a c _ _ _ Ew A C J2) as (-> & -> & ->).
    exact (proj1 (spot_index d hs g R b c _ _ _ _ B C)). }
  subst c. rewrite <- app_assoc in ND. cbn [app] in ND. apply NoDup_remove_2 in ND. apply ND. apply in_or_app. right. right. now left.
Qed.

Hypothesis RK : ranked d hs.

(** An edge near the top of an end begins or ends there. *)
Lemma top_edge W a b X1 Y1 X2 Y2 oa ob : end_at d hs (table_end W) -> (forall u, end_at d hs u -> zl (tab u) = zl W -> low hs u -> high u) ->
  joined es a b -> spot ns a X1 Y1 oa -> spot ns b X2 Y2 ob ->
  Z.min X1 X2 < zl W + 300 + 35 -> zl W + 300 - 35 < Z.max X1 X2 -> Z.min Y1 Y2 < zt hs W + 35 -> zt hs W - 35 < Z.max Y1 Y2 ->
  (X1 = zl W + 300 /\ Y1 = zt hs W /\ oa = Some Up) \/ (X2 = zl W + 300 /\ Y2 = zt hs W /\ ob = Some Up).
Proof.
  intros Ew St J A B L1 L2 L3 L4. pose proof (end_range d hs _ Ew) as LW. cbn [tab] in LW. pose proof (table_bounds d hs GD W LW) as Bw. pose proof (zl_column W) as C.
  assert (V : forall a b Y1 Y2 oa ob, joined es a b -> spot ns a (zl W + 300) Y1 oa -> spot ns b (zl W + 300) Y2 ob -> Y1 < Y2 -> Y1 < zt hs W + 35 -> zt hs W - 35 < Y2 ->
     Y2 = zt hs W /\ ob = Some Up).
  { clear J A B L1 L2 L3 L4 X1 Y1 X2 Y2 oa ob a b. intros a b Y1 Y2 oa ob J A B L L3 L4.
    pose proof (spot_outside d hs GD g R a _ _ _ W A LW) as Oa. pose proof (spot_outside d hs GD g R b _ _ _ W B LW) as Ob.
    destruct (Z_le_gt_dec (zb hs W) Y2) as [Q|Q].
    - exfalso. apply (no_cross d hs FD g R RK (zl W) St W a b Y1 Y2 oa ob C Ew eq_refl J A B); lia.
    - destruct (over_table W b Y2 ob LW B ltac:(lia)) as [[-> _]|[-> ->]]; [lia|auto]. }
  destruct (edge_straight d hs g R a b _ _ _ _ _ _ J A B) as [[E Ne]|Q].
  - exfalso. subst Y2. assert (F : faces oa Left \/ faces oa Right).
    { destruct (Z.lt_total X1 X2) as [L|[L|L]]; [|congruence|].
      - right. exact (proj1 (edge_h d hs GD g R a b _ _ _ _ _ J A B L)).
      - left. apply joined_sym in J. exact (proj1 (proj2 (edge_h d hs GD g R b a _ _ _ _ _ J B A L))). }
    pose proof (level_top W a X1 Y1 oa LW A F). lia.
  - assert (E : X1 = X2) by tauto. assert (F : oa = None \/ oa = Some Up \/ oa = Some Down) by (unfold faces in Q; tauto). subst X2.
    pose proof (zl_cases W) as Zw. assert (X1 = zl W + 300) as ->.
    { destruct (spot_kind d hs FD g R a X1 Y1 oa A) as [(_ & K & _)|[(_ & K & _)|[(_ & c & K & Kx & _)|[(_ & _ & K)|[(_ & _ & K)|(e' & E' & Kx & H)]]]]].
      - unfold corridor in K. lia.
      - unfold corridor in K. lia.
      - unfold column in K. lia.
      - destruct F as [F|[F|F]]; congruence.
      - destruct F as [F|[F|F]]; congruence.
      - pose proof (zl_cases (tab e')). lia. }
    destruct Q as [(_ & Q & _)|(_ & Q & _)].
    + right. destruct (V a b Y1 Y2 oa ob J A B Q ltac:(lia) ltac:(lia)). auto.
    + left. apply joined_sym in J. destruct (V b a Y2 Y1 ob oa J B A Q ltac:(lia) ltac:(lia)). auto.
Qed.

Lemma best_top W s t k1 a b k2 X1 Y1 X2 Y2 oa ob : best_route g s t (k1 ++ a :: b :: k2) -> spot ns a X1 Y1 oa -> spot ns b X2 Y2 ob ->
  end_at d hs (table_end W) -> (forall u, end_at d hs u -> zl (tab u) = zl W -> low hs u -> high u) ->
  Z.min X1 X2 < zl W + 300 + 35 -> zl W + 300 - 35 < Z.max X1 X2 -> Z.min Y1 Y2 < zt hs W + 35 -> zt hs W - 35 < Z.max Y1 Y2 ->
  (k1 = [] /\ X1 = zl W + 300 /\ Y1 = zt hs W) \/ (k2 = [] /\ X2 = zl W + 300 /\ Y2 = zt hs W).
Proof.
  intros Br A B Ew St L1 L2 L3 L4. pose proof Br as ((x0 & y0 & i & j & Ip & Iq & Sp & Sq & W') & Min).
  pose proof (walk_adjacent _ _ _ _ _ _ _ _ W' eq_refl) as J.
  assert (ND : NoDup (k1 ++ a :: b :: k2)).
  { apply (cheapest_once (rg_edges g) (rg_cost (rg_nodes g)) i j); [apply (edge_dear d hs FD g R)|exact W'|].
    intros l' Wl. exact (Min _ _ _ _ _ Ip Iq Sp Sq Wl). }
  destruct (top_edge W a b X1 Y1 X2 Y2 oa ob Ew St J A B L1 L2 L3 L4) as [(-> & -> & ->)|(-> & -> & ->)].
  - left. destruct (top_last k1 a (b :: k2) i j W W' ND Ew A) as [H|H]; [auto|discriminate].
  - right. change (a :: b :: k2) with ([a] ++ b :: k2) in W', ND. rewrite app_assoc in W', ND.
    destruct (top_last (k1 ++ [a]) b k2 i j W W' ND Ew B) as [H|H]; [destruct k1; discriminate|auto].
Qed.
End Doc.

(** ** Lines of a module *)

Section Module.
Variables (m : module) (vb : rect) (g : route_graph) (d : document) (ls : list (place * place)).
Hypothesis F : fits (table_rows m).
Hypothesis L : layout_module m = Ret (vb, g, d).
Hypothesis Ll : links [] (m_entries m) ls.
Variable d0 : document.
Hypothesis M : into_mir m = Ret d0.
Let d2 := place_terminal_ports (fst (place_nodes d0)).
Let hs := table_rows m.

Lemma module_routes : end_doc d2 hs /\ routes d2 hs g /\ ranked d2 hs.
Proof.
  destruct (layout_routes m vb g d F L) as (d0' & M' & _ & _ & R). rewrite M in M'. injection M' as <-.
  split; [exact (module_ends m d0 M F)|]. split; [exact R|exact (module_ranked m d0 M F)].
Qed.

Lemma links_here : Forall2 (fun pq e => In e (d_edges d) /\ In pq ls /\ end_at d2 hs (end_of (fst pq)) /\ end_at d2 hs (end_of (snd pq)) /\
  exists s t, get_node d2 (e_source e) = Some s /\ get_node d2 (e_target e) = Some t /\
    has_ports hs (end_of (fst pq)) (n_ports s) /\ has_ports hs (end_of (snd pq)) (n_ports t)) ls (d_edges d).
Proof.
  destruct (links_edges m vb g d ls F L Ll) as (d1 & M1 & H). cbn zeta in H. rewrite M in M1. injection M1 as <-.
  destruct (layout_routes m vb g d F L) as (d0' & M' & V & D & R). rewrite M in M'. injection M' as <-.
  destruct (draw_split _ _ _ _ D) as (_ & N & F2).
  eapply forall2_weaken; [exact H|]. intros pq e _ (Ie & Ip & s & t & Gs & Gt & Ps & Pt).
  destruct (forall2_in_r _ _ _ _ F2 Ie) as (e0 & I0 & (E1 & E2) & _). split; [exact Ie|]. split; [exact Ip|].
  split; [exists e0, (e_source e0), s; rewrite <- E1; auto|]. split; [exists e0, (e_target e0), t; rewrite <- E2; auto|]. eauto 8.
Qed.

Lemma place_end p q x : In (p, q) ls -> x = p \/ x = q -> end_at d2 hs (end_of x).
Proof.
  intros I Hx. destruct (forall2_in_l _ _ _ _ links_here I) as (e1 & _ & _ & _ & E1 & E2 & _). destruct Hx as [-> | ->]; assumption.
Qed.

Lemma column_settled i : ~ column_with_last_row hs ls (Table i) -> forall u, end_at d2 hs u -> zl (tab u) = zl i -> low hs u -> high u.
Proof.
  intros Nb a (e1 & i1 & n & I1 & Ei & G & Pa) Za La.
  destruct (layout_routes m vb g d F L) as (d0' & M' & V & D & R). rewrite M in M'. injection M' as <-.
  destruct (draw_split _ _ _ _ D) as (_ & N & F2).
  destruct (forall2_in_l _ _ _ _ F2 I1) as (e' & Ie' & (E1' & E2') & _).
  destruct (forall2_in_r _ _ _ _ links_here Ie') as ([p' q'] & _ & _ & Ipq & _ & _ & s' & t' & Gs' & Gt' & Ps' & Pt'). cbn [fst snd] in *.
  assert (X : exists x, (x = p' \/ x = q') /\ has_ports hs (end_of x) (n_ports n)).
  { destruct Ei as [Ei|Ei]; [exists p'|exists q']; (split; [auto|]); [rewrite Ei, <- E1', Gs' in G|rewrite Ei, <- E2', Gt' in G]; injection G as <-; assumption. }
  destruct X as (x & Xx & Px). pose proof (ports_column _ _ _ _ Px Pa) as Zx.
  apply (ports_high _ (end_of x) a (n_ports n) Px Pa). pose proof (ports_low _ a (end_of x) (n_ports n) Pa Px La) as Lx.
  destruct x as [i0|i0 k]; cbn [end_of high]; [exact I|]. exfalso. apply Nb. exists (p', q'), (Row i0 k).
  split; [exact Ipq|]. split; [exact Xx|]. split; [|exact Lx]. cbn [place_table]. apply zl_col. cbn [end_of tab] in Zx. congruence.
Qed.

(** A piece of a line as an edge of a best route. *)
Lemma line_piece rl l1 a b l2 : line_of d ls rl (l1 ++ a :: b :: l2) -> exists s t k1 i j k2 oi oj,
  has_ports hs (end_of (fst rl)) (n_ports s) /\ has_ports hs (end_of (snd rl)) (n_ports t) /\ end_at d2 hs (end_of (fst rl)) /\ end_at d2 hs (end_of (snd rl)) /\
  best_route g s t (k1 ++ i :: j :: k2) /\ spot (rg_nodes g) i (fst a) (snd a) oi /\ spot (rg_nodes g) j (fst b) (snd b) oj /\ (k1 = [] -> l1 = []) /\ (k2 = [] -> l2 = []).
Proof.
  intros (n & e & Hn & He & ps & Ep & Z).
  destruct (forall2_nth_l _ _ _ links_here n _ Hn) as (e1 & He1 & Ie & _ & Es & Et & s & t & Gs & Gt & Ps & Pt). rewrite He in He1. injection He1 as <-.
  destruct (layout_routes m vb g d F L) as (d0' & M' & V & D & R). rewrite M in M'. injection M' as <-. destruct (draw_split _ _ _ _ D) as (_ & N & _).
  destruct (module_cheapest m vb g d F L e Ie) as (s' & t' & l & ps' & Gs' & Gt' & Ep' & Pl & B).
  unfold get_node in *. fold d2 in N. rewrite N, Gs in Gs'. rewrite N, Gt in Gt'. injection Gs' as <-. injection Gt' as <-. rewrite Ep in Ep'. injection Ep' as <-.
  apply Forall2_app_inv_r in Z as (ps1 & ps2 & Z1 & Z2 & ->). inversion Z2 as [|pa ? ps3 ? Ha Z3]; subst. inversion Z3 as [|pb ? ps4 ? Hb Z4]; subst. clear Z2 Z3.
  apply Forall2_app_inv_r in Pl as (k1 & k2 & K1 & Pl & ->).
  inversion Pl as [|i ? k3 ? (ni & Hi & Ei) Pl1]; subst. inversion Pl1 as [|j ? k4 ? (nj & Hj & Ej) Pl2]; subst. clear Pl Pl1.
  exists s, t, k1, i, j, k4, (rn_orient ni), (rn_orient nj). do 5 (split; [assumption|]).
  split; [exists ni; auto|]. split; [exists nj; auto|].
  split; intros ->; [inversion K1; subst; inversion Z1; reflexivity|inversion Pl2; subst; inversion Z4; reflexivity].
Qed.

(** A line that begins or ends there, begins or ends at a side of its own end. *)
Lemma line_ends rl l1 a b l2 s t k1 i j k2 oi oj z : 
  has_ports hs (end_of (fst rl)) (n_ports s) -> has_ports hs (end_of (snd rl)) (n_ports t) -> end_at d2 hs (end_of (fst rl)) -> end_at d2 hs (end_of (snd rl)) ->
  best_route g s t (k1 ++ i :: j :: k2) -> spot (rg_nodes g) i (fst a) (snd a) oi -> spot (rg_nodes g) j (fst b) (snd b) oj -> (k1 = [] -> l1 = []) -> (k2 = [] -> l2 = []) ->
  (k1 = [] /\ fst a = fst z /\ snd a = snd z) \/ (k2 = [] /\ fst b = fst z /\ snd b = snd z) ->
  (exists l, l1 ++ a :: b :: l2 = z :: l) /\ side_of hs (fst rl) z \/ (exists l, l1 ++ a :: b :: l2 = l ++ [z]) /\ side_of hs (snd rl) z.
Proof.
  intros Ps Pt Es Et B Si Sj H1 H2 H. destruct module_routes as (_ & R & _).
  pose proof B as ((x0 & y0 & ia & ja & Ip & Iq & Sp & Sq & W) & _).
  destruct H as [(-> & E1 & E2)|(-> & E1 & E2)].
  - left. rewrite (H1 eq_refl) in *. cbn [app] in *. destruct a as [ax ay], z as [zx zy]. cbn [fst snd] in *. subst ax ay. split; [eauto|].
    apply place_sides; [exact (end_ok d2 hs _ Es)|].
    destruct (walk_head _ _ _ _ W) as (l' & E). injection E as -> _.
    destruct (stands_stop d2 hs g R _ _ _ _ Ps Ip Sp) as (o' & Io' & So'). destruct (spot_place g _ _ _ _ _ _ _ Si So') as (-> & -> & _). eauto.
  - right. rewrite (H2 eq_refl) in *. destruct b as [bx by'], z as [zx zy]. cbn [fst snd] in *. subst bx by'.
    split; [exists (l1 ++ [a]); rewrite <- app_assoc; reflexivity|].
    apply place_sides; [exact (end_ok d2 hs _ Et)|].
    assert (ja = j) as ->.
    { pose proof (walk_last _ _ _ _ W) as E. rewrite app_length, nth_error_app2 in E by (cbn; lia). cbn [length] in E.
      replace (length k1 + 2 - 1 - length k1)%nat with 1%nat in E by lia. now injection E. }
    destruct (stands_stop d2 hs g R _ _ _ _ Pt Iq Sq) as (o' & Io' & So'). destruct (spot_place g _ _ _ _ _ _ _ Sj So') as (-> & -> & _). eauto.
Qed.
End Module.

Theorem tops_clear m vb g d ls p q i r zs : fits (table_rows m) -> layout_module m = Ret (vb, g, d) -> links [] (m_entries m) ls ->
  In (p, q) ls -> Table i = p \/ Table i = q -> ~ column_with_last_row (table_rows m) ls (Table i) -> line_of d ls r zs ->
  let z := side_midpoint (table_left i) (table_top (table_rows m) i) 300 (table_height (table_rows m) i) Up in comes_near zs 35 z ->
  (exists l, zs = z :: l) /\ side_of (table_rows m) (fst r) z \/ (exists l, zs = l ++ [z]) /\ side_of (table_rows m) (snd r) z.
Proof.
  intros F L Ll Ix Hx Nb Ln z (l1 & a & b & l2 & wx & wy & -> & [[P1 P2] [P3 P4]] & N1 & N2).
  destruct (layout_routes m vb g d F L) as (d0 & M & _). destruct (module_routes m vb g d F L d0 M) as (FD & R & RK).
  pose proof (place_end m vb g d ls F L Ll d0 M p q (Table i) Ix Hx) as Ew. pose proof (column_settled m vb g d ls F L Ll d0 M i Nb) as St.
  destruct (line_piece m vb g d ls F L Ll d0 M r l1 a b l2 Ln) as (s & t & k1 & ni & nj & k2 & oi & oj & Ps & Pt & Es & Et & B & Si & Sj & H1 & H2).
  assert (Zz : fst z = zl i + 300 /\ snd z = zt (table_rows m) i) by (unfold z, zl, zt; cbn [side_midpoint fst snd]; lia). destruct Zz as [Zx Zy].
  rewrite Zx in N1. rewrite Zy in N2. destruct (near_range _ _ _ _ P1 P2 _ N1) as [Q1 Q2]. destruct (near_range _ _ _ _ P3 P4 _ N2) as [Q3 Q4].
  apply (line_ends m vb g d F L d0 M r l1 a b l2 s t k1 ni nj k2 oi oj z Ps Pt Es Et B Si Sj H1 H2). rewrite Zx, Zy.
  exact (best_top _ _ FD g R RK i s t k1 ni nj k2 _ _ _ _ oi oj B Si Sj Ew St Q1 Q2 Q3 Q4).
Qed.

Theorem ends_uncrossed m vb g d ls p q i r l1 a b l2 : fits (table_rows m) -> layout_module m = Ret (vb, g, d) -> links [] (m_entries m) ls ->
  In (p, q) ls -> Table i = p \/ Table i = q -> ~ column_with_last_row (table_rows m) ls (Table i) -> line_of d ls r (l1 ++ a :: b :: l2) ->
  ~ down_the_middle (2 * table_left i) (2 * table_top (table_rows m) i) 600 (2 * table_height (table_rows m) i) (fst a) (snd a) (fst b) (snd b).
Proof.
  intros F L Ll Ix Hx Nb Ln (D1 & D2 & D3 & D4).
  destruct (layout_routes m vb g d F L) as (d0 & M & _). destruct (module_routes m vb g d F L d0 M) as (FD & R & RK).
  pose proof (place_end m vb g d ls F L Ll d0 M p q (Table i) Ix Hx) as Ew. pose proof (column_settled m vb g d ls F L Ll d0 M i Nb) as St.
  destruct (line_piece m vb g d ls F L Ll d0 M r l1 a b l2 Ln) as (s & t & k1 & ni & nj & k2 & oi & oj & Ps & Pt & Es & Et & B & Si & Sj & H1 & H2).
  pose proof B as ((x0 & y0 & ia & ja & Ip & Iq & Sp & Sq & W) & _). pose proof (walk_adjacent _ _ _ _ _ _ _ _ W eq_refl) as J.
  assert (Ex : fst a = zl i + 300 /\ fst b = zl i + 300) by (unfold zl; lia). destruct Ex as [Ea Eb]. rewrite Ea in Si. rewrite Eb in Sj.
  assert (D5 : 2 * table_top (table_rows m) i = zt (table_rows m) i) by (unfold zt; lia).
  assert (D6 : 2 * table_top (table_rows m) i + 2 * table_height (table_rows m) i = zb (table_rows m) i) by (unfold zb; lia).
  rewrite D5, <- ?D6 in *. destruct (Z_le_gt_dec (snd a) (snd b)) as [Le|Gt].
  - apply (no_cross _ _ FD g R RK (zl i) St i ni nj (snd a) (snd b) oi oj (zl_column i) Ew eq_refl J Si Sj); lia.
  - apply (no_cross _ _ FD g R RK (zl i) St i nj ni (snd b) (snd a) oj oi (zl_column i) Ew eq_refl (joined_sym _ _ _ J) Sj Si); lia.
Qed.

(** ** Samples *)

Ltac late_table7 := split; [reflexivity|split; [vm_compute; auto 20|
  let j := fresh in let L := fresh in let H := fresh in intros j ? L H; do 7 (destruct j as [|j]; [first [exfalso; lia|injection H as <-; vm_compute; intuition discriminate]|]); destruct j; discriminate]].
(** The line between the first and the last table of the column goes round the table between them. *)
Definition bypass : module :=
  mkModule None [ EDef (one "a"); EDef (one "b"); EDef (one "c"); EDef (one "d"); EDef (one "e"); EDef (one "f"); EDef (one "g");
    rel_tables "a" "g"; rel_tables "a" "d"; rel_tables "d" "g"; rel_tables "d" "b" ].
Definition bypass_lines : list (list (Z * Z)) :=
  [[(700, 170); (780, 170); (780, 320); (780, 470); (780, 620); (780, 770); (700, 770)]; [(400, 240); (400, 320); (400, 400)];
   [(400, 540); (400, 620); (400, 700)]; [(700, 470); (780, 470); (780, 320); (780, 170); (860, 170)]].
Lemma bypass_links : links [] (m_entries bypass) [(Table 0, Table 6); (Table 0, Table 3); (Table 3, Table 6); (Table 3, Table 1)].
Proof.
  unfold bypass. cbn [m_entries]. repeat apply links_def. cbn [app].
  do 4 (apply links_rel; [eapply refers_table; late_table7|eapply refers_table; late_table7|]). constructor.
Qed.
Lemma bypass_drawn : exists vb g d, layout_module bypass = Ret (vb, g, d) /\ lines d bypass_lines.
Proof. apply lines_given; [unfold fits; vm_compute; discriminate|in_range|vm_compute; reflexivity]. Qed.

Lemma end_crossed : exists m vb g d ls q i r l1 a b l2, fits (table_rows m) /\ layout_module m = Ret (vb, g, d) /\ links [] (m_entries m) ls /\
  In (Table i, q) ls /\ line_of d ls r (l1 ++ a :: b :: l2) /\
  down_the_middle (2 * table_left i) (2 * table_top (table_rows m) i) 600 (2 * table_height (table_rows m) i) (fst a) (snd a) (fst b) (snd b).
Proof.
  destruct lid_drawn as (vb & g & d & L & Ln). exists lid, vb, g, d, [(Table 7, Row 6 8); (Table 6, Row 4 1); (Table 0, Table 9)], (Row 4 1), 6%nat, (Table 0, Table 9).
  exists [(400, 240)], (400, 320), (400, 1410), [(400, 1490)].
  split; [unfold fits; vm_compute; discriminate|]. split; [exact L|]. split; [exact lid_links|]. split; [right; left; reflexivity|].
  split; [apply (line_given d _ _ 2 _ _ Ln); reflexivity|]. vm_compute. repeat split; discriminate.
Qed.

Lemma crown_sample :
  fits (table_rows bypass) /\ links [] (m_entries bypass) [(Table 0, Table 6); (Table 0, Table 3); (Table 3, Table 6); (Table 3, Table 1)] /\
  (exists vb g d, layout_module bypass = Ret (vb, g, d) /\ lines d bypass_lines) /\
  bypass_lines = [[(700, 170); (780, 170); (780, 320); (780, 470); (780, 620); (780, 770); (700, 770)]; [(400, 240); (400, 320); (400, 400)];
    [(400, 540); (400, 620); (400, 700)]; [(700, 470); (780, 470); (780, 320); (780, 170); (860, 170)]] /\
  ~ column_with_last_row (table_rows bypass) [(Table 0, Table 6); (Table 0, Table 3); (Table 3, Table 6); (Table 3, Table 1)] (Table 3) /\
  side_midpoint (table_left 3) (table_top (table_rows bypass) 3) 300 (table_height (table_rows bypass) 3) Up = (400, 400) /\
  comes_near [(400, 240); (400, 320); (400, 400)] 35 (400, 400).
Proof.
  split; [unfold fits; vm_compute; discriminate|]. split; [exact bypass_links|]. split; [exact bypass_drawn|]. split; [reflexivity|]. split.
  { intros (r & x & I & Hx & _ & B). cbn [In] in I. destruct I as [<-|[<-|[<-|[<-|[]]]]]; destruct Hx as [-> | ->]; exact B. }
  split; [reflexivity|]. exists [(400, 240)], (400, 320), (400, 400), [], 400%R, 400%R. split; [reflexivity|]. split; [split; cbn -[IZR]; lra|].
  cbn [fst snd]. rewrite !Rminus_eq_0, Rabs_R0. lra.
Qed.
