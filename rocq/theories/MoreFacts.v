(** More relations between the same tables. *)
From Coq Require Import String List Arith NArith ZArith Bool Lia Reals Lra SpecFloat Classical_Prop.
From Verif Require Import Base F32 Geometry Mir Erd Heap Route Layout Parser Cli SpecMir SpecF32 SpecGeom SpecLayout SpecRoute SpecGraph SpecRender SpecLink SpecEnds SpecThrough SpecRepeat SpecMore
  F32Facts GeomFacts SearchFacts MirFacts GridFacts LayoutFacts RenderFacts PipelineFacts GraphFacts PathFacts LatticeFacts
  ConnectFacts HubFacts DrawFacts OrderFacts RowFacts LineFacts MidFacts FarFacts TurnFacts CalmFacts LinkFacts EndFacts ThroughFacts RepeatFacts ClipFacts OuterFacts.
Import ListNotations.
Local Open Scope Z_scope.

(** ** Segments that enter nothing *)

Lemma crosses_v x y w h X Y1 Y2 : x < X < x + w -> Z.max Y1 y < Z.min Y2 (y + h) -> enters x y w h X Y1 X Y2.
Proof.
  intros Bx By. assert (L : Y1 < Y2) by lia. set (u := Z.max Y1 y) in *. set (v := Z.min Y2 (y + h)) in *.
  assert (U : Y1 <= u /\ y <= u) by lia. assert (V : v <= Y2 /\ v <= y + h) by lia. clearbody u v.
  exists (((IZR u + IZR v) / 2 - IZR Y1) / (IZR Y2 - IZR Y1))%R.
  destruct U as [U1 U2], V as [V1 V2]. destruct Bx as [Bx1 Bx2].
  apply IZR_lt in By, L, Bx1, Bx2. apply IZR_le in U1, U2, V1, V2. rewrite plus_IZR in *.
  assert (P : (0 < IZR Y2 - IZR Y1)%R) by lra.
  set (D := (IZR Y2 - IZR Y1)%R) in *. set (M := ((IZR u + IZR v) / 2)%R).
  assert (E : (IZR Y1 + (M - IZR Y1) / D * D = M)%R) by (field; lra).
  split; [split|].
  - apply Rmult_le_pos; [unfold M; lra|]. apply Rlt_le, Rinv_0_lt_compat, P.
  - apply (Rmult_le_reg_r D); [exact P|]. replace ((M - IZR Y1) / D * D)%R with (M - IZR Y1)%R by (field; lra). unfold M, D. lra.
  - split; [lra|]. rewrite E. unfold M. lra.
Qed.
Lemma crosses_h x y w h X1 X2 Y : y < Y < y + h -> Z.max X1 x < Z.min X2 (x + w) -> enters x y w h X1 Y X2 Y.
Proof. intros By Bx. destruct (crosses_v y x h w Y X1 X2 By Bx) as (s & S & A & B). exists s. auto. Qed.
Lemma enters_back x y w h X1 Y1 X2 Y2 : enters x y w h X1 Y1 X2 Y2 -> enters x y w h X2 Y2 X1 Y1.
Proof. intros (s & S & A & B). exists (1 - s)%R. split; [lra|]. split; lra. Qed.

Section Two.
Variables (d d' : document) (hs : list nat).
Hypothesis ED : end_doc d hs.
Hypothesis ED' : end_doc d' hs.
Variables g g' : route_graph.
Hypothesis R : routes d hs g.
Hypothesis R' : routes d' hs g'.
Hypothesis More : forall o X Y, port_at d o X Y -> port_at d' o X Y.
Let GD := ed_grid d hs ED.
Let GD' := ed_grid d' hs ED'.
Let ns := rg_nodes g.
Let ns' := rg_nodes g'.

(** Every place of the graph is a place of the other one. *)
Lemma spot_more i X Y o : spot ns i X Y o -> exists i', spot ns' i' X Y o.
Proof.
  intros A. destruct (spot_ok d hs GD g R i X Y o A) as (_ & _ & K). destruct o as [u|].
  - destruct (More u X Y K) as (tp & E & <- & H). destruct (rt_port d' hs g' R' tp X Y E H) as (i' & _ & S). eauto.
  - apply (rt_junction d' hs g' R'). destruct K as [[C|(o & X' & Y' & P & Ry)] Cl]; split; auto. right. exists o, X', Y'. auto.
Qed.

Definition open_way (X1 Y1 X2 Y2 : Z) : Prop := forall t, (t < length hs)%nat ->
  Z.max X1 X2 <= zl t \/ zl t + 600 <= Z.min X1 X2 \/ Z.max Y1 Y2 <= zt hs t \/ zb hs t <= Z.min Y1 Y2.
Lemma open_misses X1 Y1 X2 Y2 : open_way X1 Y1 X2 Y2 -> misses hs X1 Y1 X2 Y2.
Proof. intros O t L. specialize (O t L). lia. Qed.
Lemma open_back X1 Y1 X2 Y2 : open_way X1 Y1 X2 Y2 -> open_way X2 Y2 X1 Y1.
Proof. intros O t L. specialize (O t L). lia. Qed.
Lemma not_entered X1 Y1 X2 Y2 : X1 = X2 \/ Y1 = Y2 ->
  (forall t, (t < length hs)%nat -> ~ enters (zl t) (zt hs t) 600 (zb hs t - zt hs t) X1 Y1 X2 Y2) ->
  (X1 = X2 /\ Y1 <> Y2 \/ Y1 = Y2 /\ X1 <> X2) -> open_way X1 Y1 X2 Y2.
Proof.
  intros _ N E t L. specialize (N t L). destruct (table_bounds d hs GD t L) as (_ & _ & B & _).
  destruct (classic (Z.max X1 X2 <= zl t \/ zl t + 600 <= Z.min X1 X2 \/ Z.max Y1 Y2 <= zt hs t \/ zb hs t <= Z.min Y1 Y2)) as [Q|Q]; [exact Q|].
  exfalso. apply N. destruct E as [[<- Ne]|[<- Ne]].
  - destruct (Z.lt_ge_cases Y1 Y2); [|apply enters_back]; apply crosses_v; lia.
  - destruct (Z.lt_ge_cases X1 X2); [|apply enters_back]; apply crosses_h; lia.
Qed.

Lemma way_down a b X Y1 Y2 o u : spot ns' a X Y1 o -> spot ns' b X Y2 u -> Y1 < Y2 -> faces o Down -> faces u Up ->
  open_way X Y1 X Y2 -> conn g' a b ((Y2 - Y1) / 2).
Proof.
  intros A B L Fo Fu O. apply (vline d' hs GD' g' R' (Z.to_nat (Y2 - Y1)) a b X Y1 Y2 o u); auto; [lia|now apply open_misses|].
  assert (Kx : corridor X \/ column (X - 300)).
  { destruct (spot_kind d' hs ED' g' R' a X Y1 o A) as [(_ & C & _)|[(_ & C & _)|[(_ & c & C & -> & _)|[(_ & _ & E)|[(_ & _ & E)|(e & _ & -> & _)]]]]]; auto.
    - right. now replace (c + 300 - 300) with c by lia.
    - destruct Fo; congruence.
    - destruct Fo; congruence.
    - right. replace (zl (tab e) + 300 - 300) with (zl (tab e)) by lia. apply zl_column. }
  intros c Y w C Bc. destruct w as [v|]; [exfalso|reflexivity].
  destruct (spot_ok d' hs GD' g' R' c X Y _ C) as (_ & _ & K). destruct (port_at_on d' hs GD' v X Y K) as (t & Lt & On).
  pose proof (table_bounds d' hs GD' t Lt) as Bt. specialize (O t Lt). unfold corridor, column in Kx.
  destruct v; unfold port_on in On; lia.
Qed.
Lemma way_right a b X1 X2 Y o u : spot ns' a X1 Y o -> spot ns' b X2 Y u -> X1 < X2 -> faces o Right -> faces u Left ->
  open_way X1 Y X2 Y -> conn g' a b ((X2 - X1) / 2).
Proof.
  intros A B L Fo Fu O. apply (hline_over d' hs ED' g' R' (Z.to_nat (X2 - X1)) a b X1 X2 Y o u); auto; [lia|now apply open_misses|].
  intros c X w C Bc. destruct w as [v|]; [|now left].
  destruct (spot_ok d' hs GD' g' R' c X Y _ C) as (_ & _ & K). destruct (port_at_on d' hs GD' v X Y K) as (t & Lt & On).
  pose proof (table_bounds d' hs GD' t Lt) as Bt. specialize (O t Lt).
  destruct v; auto; exfalso; unfold port_on in On; lia.
Qed.

Lemma edge_more a b X1 Y1 X2 Y2 o u a' b' : joined (rg_edges g) a b -> spot ns a X1 Y1 o -> spot ns b X2 Y2 u ->
  (forall t, (t < length hs)%nat -> ~ enters (zl t) (zt hs t) 600 (zb hs t - zt hs t) X1 Y1 X2 Y2) ->
  spot ns' a' X1 Y1 o -> spot ns' b' X2 Y2 u -> conn g' a' b' ((Z.abs (X1 - X2) + Z.abs (Y1 - Y2)) / 2).
Proof.
  intros J A B N A' B'.
  destruct (edge_straight d hs g R a b _ _ _ _ _ _ J A B) as [(<- & Ne)|[(<- & L & Fo & Fu)|(<- & L & Fo & Fu)]].
  - pose proof (not_entered X1 Y1 X2 Y1 ltac:(auto) N ltac:(auto)) as O. destruct (Z.lt_ge_cases X1 X2) as [L|L].
    + destruct (edge_h d hs GD g R a b X1 X2 Y1 o u J A B L) as (Fo & Fu & _).
      replace (Z.abs (X1 - X2) + Z.abs (Y1 - Y1)) with (X2 - X1) by lia. now apply (way_right a' b' X1 X2 Y1 o u).
    + assert (L' : X2 < X1) by lia. destruct (edge_h d hs GD g R b a X2 X1 Y1 u o) as (Fu & Fo & _); auto; [destruct J; [right|left]; assumption|].
      replace (Z.abs (X1 - X2) + Z.abs (Y1 - Y1)) with (X1 - X2) by lia. apply conn_sym. apply (way_right b' a' X2 X1 Y1 u o); auto. now apply open_back.
  - pose proof (not_entered X1 Y1 X1 Y2 ltac:(auto) N ltac:(left; lia)) as O.
    replace (Z.abs (X1 - X1) + Z.abs (Y1 - Y2)) with (Y2 - Y1) by lia. now apply (way_down a' b' X1 Y1 Y2 o u).
  - pose proof (not_entered X1 Y1 X1 Y2 ltac:(auto) N ltac:(left; lia)) as O.
    replace (Z.abs (X1 - X1) + Z.abs (Y1 - Y2)) with (Y1 - Y2) by lia. apply conn_sym. apply (way_down b' a' X1 Y2 Y1 u o); auto. now apply open_back.
Qed.

(** A walk that enters no table can be taken in the other graph. *)
Lemma walk_more a b l : walk (rg_edges g) a b l -> forall zs, Forall2 (fun i z => exists o, spot ns i (fst z) (snd z) o) l zs ->
  (forall z1 p q z2 t, zs = z1 ++ p :: q :: z2 -> (t < length hs)%nat ->
     ~ enters (zl t) (zt hs t) 600 (zb hs t - zt hs t) (fst p) (snd p) (fst q) (snd q)) ->
  exists X1 Y1 o X2 Y2 u a' b', spot ns a X1 Y1 o /\ spot ns b X2 Y2 u /\ spot ns' a' X1 Y1 o /\ spot ns' b' X2 Y2 u /\ conn g' a' b' (travelled zs).
Proof.
  induction 1 as [a|a b c l J W IH]; intros zs F N; inversion F as [|? z ? zs' (o & A) F1]; subst.
  - inversion F1; subst. destruct (spot_more a _ _ o A) as (a' & A'). exists (fst z), (snd z), o, (fst z), (snd z), o, a', a'.
    do 4 (split; [assumption|]). apply conn_refl.
  - destruct (IH _ F1) as (X1 & Y1 & o1 & X2 & Y2 & u & b' & c' & B & C & B' & C' & Cn).
    { intros z1 p q z2 t -> L. apply (N (z :: z1) p q z2 t eq_refl L). }
    destruct l as [|x l]; [inversion W|]. assert (x = b) as -> by (inversion W; reflexivity).
    inversion F1 as [|? z' ? zs2 (o2 & B2) F2]; subst. destruct (spot_place g b _ _ _ _ _ _ B2 B) as (EX & EY & EO).
    destruct (spot_more a _ _ o A) as (a' & A'). exists (fst z), (snd z), o, X2, Y2, u, a', c'. do 4 (split; [assumption|]).
    change (travelled (z :: z' :: zs2)) with ((Z.abs (fst z - fst z') + Z.abs (snd z - snd z')) / 2 + travelled (z' :: zs2)).
    eapply conn_trans; [|exact Cn]. rewrite EX, EY. rewrite EX, EY, EO in B2.
    apply (edge_more a b _ _ _ _ o o1 a' b' J A B2); auto. intros t L. rewrite <- EX, <- EY. apply (N [] z z' zs2 t eq_refl L).
Qed.
End Two.

(** ** The ports of the places *)

Lemma ports_more m m' vb g d vb' g' d' ls ls' d0 d0' : fits (table_rows m) -> table_rows m' = table_rows m ->
  layout_module m = Ret (vb, g, d) -> layout_module m' = Ret (vb', g', d') ->
  links [] (m_entries m) ls -> links [] (m_entries m') ls' -> incl (ends ls) (ends ls') -> into_mir m = Ret d0 -> into_mir m' = Ret d0' ->
  forall o X Y, port_at (place_terminal_ports (fst (place_nodes d0))) o X Y -> port_at (place_terminal_ports (fst (place_nodes d0'))) o X Y.
Proof.
  intros F T L L' Ll Ll' Inc M M' o X Y (tp & (e0 & i & n & I0 & Ei & G & Ip) & <- & H).
  destruct (links_edges m vb g d ls F L Ll) as (d1 & M1 & Fe). rewrite M in M1. injection M1 as <-. cbn zeta in Fe.
  pose proof F as F'. rewrite <- T in F'.
  destruct (links_edges m' vb' g' d' ls' F' L' Ll') as (d1 & M1 & Fe'). rewrite M' in M1. injection M1 as <-. cbn zeta in Fe'.
  destruct (layout_routes m vb g d F L) as (d1 & M1 & V & D & R). rewrite M in M1. injection M1 as <-.
  destruct (layout_routes m' vb' g' d' F' L') as (d1 & M1 & V' & D' & R'). rewrite M' in M1. injection M1 as <-.
  destruct (draw_split _ _ _ _ D) as (_ & N & F2). destruct (draw_split _ _ _ _ D') as (_ & N' & F2').
  destruct (forall2_in_l _ _ _ _ F2 I0) as (e & Ie & (E1 & E2) & _).
  destruct (forall2_in_r _ _ _ _ Fe Ie) as ([p q] & _ & _ & Ipq & s & t & Gs & Gt & Ps & Pt). cbn [fst snd] in *.
  assert (Hx : exists x, In x (ends ls) /\ has_ports (table_rows m) (end_of x) (n_ports n)).
  { destruct Ei as [Ei|Ei]; [exists p|exists q]; (split; [apply in_flat_map; exists (p, q); cbn; auto|]);
      [rewrite Ei, <- E1, Gs in G|rewrite Ei, <- E2, Gt in G]; injection G as <-; assumption. }
  destruct Hx as (x & Ix & Px). apply Inc in Ix. apply in_flat_map in Ix as ([p' q'] & Ipq' & Ix).
  destruct (forall2_in_l _ _ _ _ Fe' Ipq') as (e' & Ie' & _ & _ & s' & t' & Gs' & Gt' & Ps' & Pt'). cbn [fst snd] in *.
  destruct (forall2_in_r _ _ _ _ F2' Ie') as (e0' & I0' & (E1' & E2') & _).
  assert (Hn : exists i' n', (i' = e_source e0' \/ i' = e_target e0') /\ get_node (place_terminal_ports (fst (place_nodes d0'))) i' = Some n' /\
    has_ports (table_rows m) (end_of x) (n_ports n')).
  { rewrite T in Ps', Pt'. destruct Ix as [->|[->|[]]]; [exists (e_source e0'), s'|exists (e_target e0'), t']; rewrite <- ?E1', <- ?E2'; auto. }
  destruct Hn as (i' & n' & Ei' & G' & P').
  destruct Px as (_ & Fx), P' as (_ & Fx').
  destruct (forall2_in_r _ _ _ _ Fx Ip) as (o & Io & Eo & Ho). apply In_nth_error in Io as (k & Hk).
  destruct (forall2_nth_l _ _ _ Fx' k o Hk) as (tp' & Hk' & Eo' & Ho').
  exists tp'. split; [exists e0', i', n'; split; [exact I0'|]; split; [exact Ei'|]; split; [exact G'|]; now apply nth_error_In in Hk'|].
  split; [congruence|]. destruct H as [H1 H2], Ho as [Ho1 Ho2]. now rewrite (hv_unique _ _ _ H1 Ho1), (hv_unique _ _ _ H2 Ho2).
Qed.

(** The path of a line: from a port of the one place to a port of the other, cheapest of all. *)
Lemma line_best m vb g d ls i p q e : fits (table_rows m) -> layout_module m = Ret (vb, g, d) -> links [] (m_entries m) ls ->
  nth_error ls i = Some (p, q) -> nth_error (d_edges d) i = Some e ->
  exists ps l a b, e_path e = Some ps /\ places g l ps /\ stop (table_rows m) g (end_of p) a /\ stop (table_rows m) g (end_of q) b /\
  walk (rg_edges g) a b l /\
  forall a' b' l', stop (table_rows m) g (end_of p) a' -> stop (table_rows m) g (end_of q) b' -> walk (rg_edges g) a' b' l' ->
    (walk_cost (rg_cost (rg_nodes g)) l <= walk_cost (rg_cost (rg_nodes g)) l')%N.
Proof.
  intros F L Ll Hi He. destruct (links_edges m vb g d ls F L Ll) as (d0 & M & Fe). cbn zeta in Fe.
  destruct (layout_routes m vb g d F L) as (d1 & M1 & V & D & R). rewrite M in M1. injection M1 as <-.
  destruct (forall2_nth_l _ _ _ Fe i _ Hi) as (x & Hx & _ & _ & s & t & Gs & Gt & Ps & Pt). rewrite He in Hx. injection Hx as <-. cbn [fst snd] in *.
  destruct (module_cheapest m vb g d F L e (nth_error_In _ _ He)) as (s' & t' & l & ps & Gs' & Gt' & Ep & Pl & ((x & y & a & b & Ix & Iy & Sx & Sy & W) & Min)).
  destruct (draw_split _ _ _ _ D) as (_ & N & _). unfold get_node in *. rewrite N, Gs in Gs'. rewrite N, Gt in Gt'. injection Gs' as <-. injection Gt' as <-.
  exists ps, l, a, b. split; [exact Ep|]. split; [exact Pl|].
  split; [exact (stands_stop _ _ g R _ _ _ _ Ps Ix Sx)|]. split; [exact (stands_stop _ _ g R _ _ _ _ Pt Iy Sy)|]. split; [exact W|].
  intros a' b' l' Sa Sb W'. destruct (stop_stands _ _ _ _ _ Ps Sa) as (p' & Ip' & Sp'). destruct (stop_stands _ _ _ _ _ Pt Sb) as (q' & Iq' & Sq').
  exact (Min p' q' a' b' l' Ip' Iq' Sp' Sq' W').
Qed.

Lemma adjacent_split {A B} (P : A -> B -> Prop) ps zs z1 p q z2 : Forall2 P ps zs -> zs = z1 ++ p :: q :: z2 ->
  exists l1 x y l2, ps = l1 ++ x :: y :: l2 /\ P x p /\ P y q.
Proof.
  intros F ->. apply Forall2_app_inv_r in F as (l1 & l & _ & F & ->). inversion F as [|x ? l' ? H1 F1]; subst. inversion F1 as [|y ? l2 ? H2 F2]; subst.
  exists l1, x, y, l2. auto.
Qed.

Theorem more_relations m m' vb g d vb' g' d' ls ls' i j p q e e' ps : fits (table_rows m) -> table_rows m' = table_rows m ->
  layout_module m = Ret (vb, g, d) -> layout_module m' = Ret (vb', g', d') ->
  links [] (m_entries m) ls -> links [] (m_entries m') ls' -> incl (ends ls) (ends ls') ->
  nth_error ls i = Some (p, q) -> nth_error ls' j = Some (p, q) \/ nth_error ls' j = Some (q, p) ->
  nth_error (d_edges d) i = Some e -> nth_error (d_edges d') j = Some e' ->
  e_path e = Some ps -> past_tables d ps -> exists ps', e_path e' = Some ps' /\ no_farther ps' ps.
Proof.
  intros F T L L' Ll Ll' Inc Hi Hj He He' Ep Pt. pose proof F as F'. rewrite <- T in F'.
  destruct (layout_routes m vb g d F L) as (d0 & M & V & D & R). destruct (layout_routes m' vb' g' d' F' L') as (d0' & M' & V' & D' & R').
  pose proof (ports_more m m' vb g d vb' g' d' ls ls' d0 d0' F T L L' Ll Ll' Inc M M') as More.
  pose proof (module_ends m d0 M F) as ED. pose proof (module_ends m' d0' M' F') as ED'. rewrite T in R', ED'.
  set (d2 := place_terminal_ports (fst (place_nodes d0))) in *. set (d2' := place_terminal_ports (fst (place_nodes d0'))) in *.
  destruct (line_best m vb g d ls i p q e F L Ll Hi He) as (ps0 & l & a & b & Ep0 & Pl & Sa & Sb & W & _).
  rewrite Ep in Ep0. injection Ep0 as <-.
  destruct (places_spots d2 _ g R l ps Pl) as (zs & Fz & Hz).
  destruct (walk_more d2 d2' (table_rows m) ED ED' g g' R R' More a b l W zs Fz) as (X1 & Y1 & o & X2 & Y2 & u & a' & b' & A & B & A' & B' & C).
  { intros z1 y z z2 t Ez Lt Q. destruct (adjacent_split _ _ _ _ _ _ _ Hz Ez) as (l1 & py & pz & l2 & El & Hy & Hz').
    destruct (gd_table d2 _ (ed_grid _ _ ED) t Lt) as (r & Tr & Hr).
    refine (Pt l1 py pz l2 _ _ _ _ r _ _ _ _ El Hy Hz' _ Hr Q).
    destruct (draw_split _ _ _ _ D) as (_ & N & _). destruct Tr as (k & n1 & Ib & Gi & Ri). exists k, n1.
    unfold body_children, get_node in *. rewrite N. auto. }
  assert (Sa' : stop (table_rows m) g' (end_of p) a').
  { destruct Sa as (o' & Io & S). destruct (spot_place g a _ _ _ _ _ _ S A) as (<- & <- & <-). exists o'. auto. }
  assert (Sb' : stop (table_rows m) g' (end_of q) b').
  { destruct Sb as (o' & Io & S). destruct (spot_place g b _ _ _ _ _ _ S B) as (<- & <- & <-). exists o'. auto. }
  destruct C as [(w1 & W1 & C1) (w2 & W2 & C2)].
  assert (Hb : exists ps' l' a1 b1, e_path e' = Some ps' /\ places g' l' ps' /\ walk (rg_edges g') a1 b1 l' /\
    (Z.of_N (walk_cost (rg_cost (rg_nodes g')) l') <= travelled zs)).
  { destruct Hj as [Hj|Hj]; destruct (line_best m' vb' g' d' ls' j _ _ e' F' L' Ll' Hj He') as (ps' & l' & a1 & b1 & Ep' & Pl' & _ & _ & W' & Min);
      rewrite T in Min; exists ps', l', a1, b1; (split; [exact Ep'|]); (split; [exact Pl'|]); (split; [exact W'|]).
    - specialize (Min a' b' w1 Sa' Sb' W1). lia.
    - specialize (Min b' a' w2 Sb' Sa' W2). lia. }
  destruct Hb as (ps' & l' & a1 & b1 & Ep' & Pl' & W' & Le).
  destruct (places_spots d2' _ g' R' l' ps' Pl') as (ws & Fw & Hw).
  exists ps'. split; [exact Ep'|]. exists ws, zs. split; [exact Hw|]. split; [exact Hz|].
  now rewrite <- (walk_travelled d2' _ (ed_grid _ _ ED') g' R' a1 b1 l' W' ws Fw).
Qed.

Lemma points_unique ps zs zs' : Forall2 (fun p z => hpoint p (fst z) (snd z)) ps zs -> Forall2 (fun p z => hpoint p (fst z) (snd z)) ps zs' -> zs = zs'.
Proof.
  intros F. revert zs'. induction F as [|p [X Y] ps zs H F IH]; intros zs' F'; inversion F' as [|? [X' Y'] ? ? H' F2]; subst; [reflexivity|].
  destruct (hpoint_unique _ _ _ _ _ H H') as [E1 E2]. cbn [fst snd] in *. subst. f_equal. auto.
Qed.

Theorem other_order m m' vb g d vb' g' d' ls ls' i j p q e e' ps ps' : fits (table_rows m) -> table_rows m' = table_rows m ->
  layout_module m = Ret (vb, g, d) -> layout_module m' = Ret (vb', g', d') ->
  links [] (m_entries m) ls -> links [] (m_entries m') ls' -> incl (ends ls) (ends ls') -> incl (ends ls') (ends ls) ->
  nth_error ls i = Some (p, q) -> nth_error ls' j = Some (p, q) \/ nth_error ls' j = Some (q, p) ->
  nth_error (d_edges d) i = Some e -> nth_error (d_edges d') j = Some e' ->
  e_path e = Some ps -> e_path e' = Some ps' -> past_tables d ps -> past_tables d' ps' -> as_far ps ps'.
Proof.
  intros F T L L' Ll Ll' I1 I2 Hi Hj He He' Ep Ep' P P'.
  destruct (more_relations m m' vb g d vb' g' d' ls ls' i j p q e e' ps F T L L' Ll Ll' I1 Hi Hj He He' Ep P) as (x & Ex & (ws & zs & Hw & Hz & Le)).
  rewrite Ep' in Ex. injection Ex as <-. pose proof F as F'. rewrite <- T in F'.
  assert (B : exists x, e_path e = Some x /\ no_farther x ps').
  { destruct Hj as [Hj|Hj].
    - exact (more_relations m' m vb' g' d' vb g d ls' ls j i p q e' e ps' F' (eq_sym T) L' L Ll' Ll I2 Hj (or_introl Hi) He' He Ep' P').
    - exact (more_relations m' m vb' g' d' vb g d ls' ls j i q p e' e ps' F' (eq_sym T) L' L Ll' Ll I2 Hj (or_intror Hi) He' He Ep' P'). }
  destruct B as (x & Ex & (zs' & ws' & Hz' & Hw' & Le')). rewrite Ep in Ex. injection Ex as <-.
  pose proof (points_unique _ _ _ Hz Hz') as Ez. pose proof (points_unique _ _ _ Hw Hw') as Ew. subst zs' ws'.
  exists zs, ws. split; [exact Hz|]. split; [exact Hw|]. lia.
Qed.

(** ** Samples *)

Definition half_path (zs : list (Z * Z)) : list point := map (fun z => halfpoint (fst z) (snd z)) zs.
Definition paths_of (m : module) : list (option (list point)) :=
  match layout_module m with Ret (_, _, d) => map e_path (d_edges d) | Panic _ => [] end.
Definition small (z : Z * Z) : bool := (Z.abs (fst z) <=? 8388608) && (Z.abs (snd z) <=? 8388608).
Lemma half_path_h zs : forallb small zs = true -> Forall2 (fun p z => hpoint p (fst z) (snd z)) (half_path zs) zs.
Proof.
  induction zs as [|z zs IH]; cbn [forallb half_path map]; [constructor|]. intros H. apply andb_true_iff in H as [H1 H2].
  constructor; [|now apply IH]. apply andb_true_iff in H1 as [A B]. apply halfpoint_h; lia.
Qed.
Lemma path_at m vb g d k e zs : layout_module m = Ret (vb, g, d) -> nth_error (d_edges d) k = Some e ->
  nth_error (paths_of m) k = Some (Some (half_path zs)) -> e_path e = Some (half_path zs).
Proof. intros L H. unfold paths_of. rewrite L, nth_error_map, H. cbn. congruence. Qed.
Lemma paths_edge m vb g d k x : layout_module m = Ret (vb, g, d) -> nth_error (paths_of m) k = Some x -> exists e, nth_error (d_edges d) k = Some e.
Proof. intros L. unfold paths_of. rewrite L, nth_error_map. destruct (nth_error (d_edges d) k); [eauto|discriminate]. Qed.

(** A decision for paths between the tables. *)
Definition openb (hs : list nat) (z w : Z * Z) : bool :=
  forallb (fun t => (Z.max (fst z) (fst w) <=? zl t) || (zl t + 600 <=? Z.min (fst z) (fst w)) ||
                    (Z.max (snd z) (snd w) <=? zt hs t) || (zb hs t <=? Z.min (snd z) (snd w))) (seq 0 (length hs)).
Fixpoint all_open (hs : list nat) (zs : list (Z * Z)) : bool :=
  match zs with
  | z :: ((w :: _) as zs') => openb hs z w && all_open hs zs'
  | _ => true
  end.
Lemma all_open_at hs z1 : forall z w z2, all_open hs (z1 ++ z :: w :: z2) = true -> openb hs z w = true.
Proof.
  induction z1 as [|a z1 IH]; intros z w z2 H.
  - cbn [app all_open] in H. now apply andb_true_iff in H as [H _].
  - apply (IH z w z2). destruct z1; cbn [app all_open] in *; now apply andb_true_iff in H as [_ H].
Qed.
Lemma forall2_adjacent {A B} (P : A -> B -> Prop) l1 x y l2 zs : Forall2 P (l1 ++ x :: y :: l2) zs ->
  exists z1 z w z2, zs = z1 ++ z :: w :: z2 /\ P x z /\ P y w.
Proof.
  intros F. apply Forall2_app_inv_l in F as (z1 & z & _ & F & ->). inversion F as [|? p ? ? H1 F1]; subst. inversion F1 as [|? q ? ? H2 F2]; subst. eauto 8.
Qed.
Lemma all_open_past m vb g d ps zs : fits (table_rows m) -> layout_module m = Ret (vb, g, d) ->
  Forall2 (fun p z => hpoint p (fst z) (snd z)) ps zs -> all_open (table_rows m) zs = true -> past_tables d ps.
Proof.
  intros F L Hz O l1 p q l2 X1 Y1 X2 Y2 r x y w h -> Hp Hq T Hr (s & S & Ex & Ey).
  destruct (forall2_adjacent _ _ _ _ _ _ Hz) as (z1 & [Z1 Z2] & [W1 W2] & z2 & -> & Hp' & Hq'). cbn [fst snd] in *.
  destruct (hpoint_unique _ _ _ _ _ Hp Hp') as [<- <-]. destruct (hpoint_unique _ _ _ _ _ Hq Hq') as [<- <-].
  apply all_open_at in O. destruct (layout_routes m vb g d F L) as (d0 & M & V & D & R). pose proof (module_grid m d0 M F) as GD.
  apply draw_split in D as (_ & N & _). set (d2 := place_terminal_ports (fst (place_nodes d0))) in *.
  assert (T' : table_rect d2 r) by (destruct T as (i' & n1 & Ib & Gi & Ri); exists i', n1; unfold body_children, get_node in *; rewrite N in Ib, Gi; auto).
  destruct (gd_rect _ _ GD r T') as (t & Lt & Hr'). destruct Hr as ([Hx Hy] & Hw & Hh), Hr' as ([Hx' Hy'] & Hw' & Hh').
  rewrite (hv_unique _ _ _ Hx Hx'), (hv_unique _ _ _ Hw Hw') in Ex. rewrite (hv_unique _ _ _ Hy Hy'), (hv_unique _ _ _ Hh Hh') in Ey.
  unfold openb in O. rewrite forallb_forall in O. specialize (O t ltac:(apply in_seq; lia)). cbn [fst snd] in O. rewrite !orb_true_iff, !Z.leb_le in O.
  pose proof (between _ _ _ _ _ S Ex) as Bx. pose proof (between _ _ _ _ _ S Ey) as By. lia.
Qed.

(** One column each, and the outer two related; with a further relation the straight line is gone. *)
Definition straight : module := three 1 1 1 [rel_fields "a" "a" "c" "a"].
Definition hindered : module := three 1 1 1 [rel_fields "a" "a" "c" "a"; rel_fields "c" "a" "b" "a"].
(** A further relation opens a shorter way. *)
Definition around : module := three 1 1 2 [rel_fields "c" "b" "a" "a"].
Definition opened : module := three 1 1 2 [rel_fields "c" "b" "a" "a"; rel_fields "a" "a" "c" "a"].
(** Two relations in either order. *)
Definition one_order : module := three 2 2 2 [rel_fields "a" "a" "b" "b"; rel_fields "b" "a" "c" "b"].
Definition turned_order : module := three 2 2 2 [rel_fields "c" "b" "b" "a"; rel_fields "a" "a" "b" "b"].
(** Seven tables of one column in three rows. *)
Definition sevenths : list module_entry := map (fun s => EDef (mkEntity (lit s) (letters 1))) ["a"; "b"; "c"; "d"; "e"; "f"; "g"]%string.
Definition column_to_table : entity_relation := mkRelation (PField (lit "g") (lit "a")) (PEntity (lit "a")).
Definition table_to_table : entity_relation := mkRelation (PEntity (lit "g")) (PEntity (lit "a")).
Definition down_path : list (Z * Z) := [(400, 840); (400, 920); (400, 320); (400, 240)].
Definition side_path : list (Z * Z) := [(700, 805); (780, 805); (780, 770); (780, 620); (780, 320); (780, 170); (700, 170)].
Definition straight_path : list (Z * Z) := [(700, 205); (780, 205); (1540, 205); (1620, 205)].
Definition below_path : list (Z * Z) := [(700, 205); (780, 205); (780, 320); (1160, 320); (1540, 320); (1540, 205); (1620, 205)].
Definition around_path : list (Z * Z) := [(1620, 275); (1540, 275); (1540, 320); (780, 320); (780, 205); (700, 205)].
Definition opened_path : list (Z * Z) := [(1620, 275); (1540, 275); (1540, 205); (780, 205); (700, 205)].
Definition gap_path : list (Z * Z) := [(1460, 205); (1540, 205); (1540, 275); (1620, 275)].

Ltac links_tac := do 3 apply links_def; cbn [app]; repeat (apply links_rel; [row_tac|row_tac|]); constructor.
Lemma straight_links : links [] (m_entries straight) [(Row 0 1, Row 2 1)]. Proof. links_tac. Qed.
Lemma hindered_links : links [] (m_entries hindered) [(Row 0 1, Row 2 1); (Row 2 1, Row 1 1)]. Proof. links_tac. Qed.
Lemma around_links : links [] (m_entries around) [(Row 2 2, Row 0 1)]. Proof. links_tac. Qed.
Lemma opened_links : links [] (m_entries opened) [(Row 2 2, Row 0 1); (Row 0 1, Row 2 1)]. Proof. links_tac. Qed.
Lemma one_links : links [] (m_entries one_order) [(Row 0 1, Row 1 2); (Row 1 1, Row 2 2)]. Proof. links_tac. Qed.
Lemma turned_links : links [] (m_entries turned_order) [(Row 2 2, Row 1 1); (Row 0 1, Row 1 2)]. Proof. links_tac. Qed.

Lemma not_as_far zs ws : forallb small zs = true -> forallb small ws = true -> travelled zs <> travelled ws -> ~ as_far (half_path zs) (half_path ws).
Proof.
  intros S T N (zs' & ws' & Hz & Hw & E). apply N. rewrite (points_unique _ _ _ (half_path_h zs S) Hz), (points_unique _ _ _ (half_path_h ws T) Hw). exact E.
Qed.
Lemma not_no_farther zs ws : forallb small zs = true -> forallb small ws = true -> travelled ws < travelled zs -> ~ no_farther (half_path zs) (half_path ws).
Proof.
  intros S T N (zs' & ws' & Hz & Hw & E). rewrite <- (points_unique _ _ _ (half_path_h zs S) Hz), <- (points_unique _ _ _ (half_path_h ws T) Hw) in E. lia.
Qed.
Lemma drawn_path m k zs : fits (table_rows m) -> nth_error (paths_of m) k = Some (Some (half_path zs)) ->
  exists vb g d e, layout_module m = Ret (vb, g, d) /\ nth_error (d_edges d) k = Some e /\ e_path e = Some (half_path zs).
Proof.
  intros F H. destruct (layout_returns m F) as (vb & g & d & L & _). destruct (paths_edge m vb g d k _ L H) as (e & He).
  exists vb, g, d, e. split; [exact L|]. split; [exact He|]. exact (path_at m vb g d k e zs L He H).
Qed.

Theorem order_matters : exists ds r s vb g d vb' g' d' e e' ps ps', fits (table_rows (mkModule None (ds ++ [ERel r; ERel s]))) /\
  layout_module (mkModule None (ds ++ [ERel r; ERel s])) = Ret (vb, g, d) /\ layout_module (mkModule None (ds ++ [ERel s; ERel r])) = Ret (vb', g', d') /\
  nth_error (d_edges d) 0 = Some e /\ nth_error (d_edges d') 1 = Some e' /\ e_path e = Some ps /\ e_path e' = Some ps' /\ ~ as_far ps ps'.
Proof.
  assert (F : fits (table_rows (mkModule None (sevenths ++ [ERel column_to_table; ERel table_to_table])))) by (unfold fits; vm_compute; discriminate).
  assert (F' : fits (table_rows (mkModule None (sevenths ++ [ERel table_to_table; ERel column_to_table])))) by (unfold fits; vm_compute; discriminate).
  destruct (drawn_path _ 0 down_path F) as (vb & g & d & e & L & He & Ep); [vm_compute; reflexivity|].
  destruct (drawn_path _ 1 side_path F') as (vb' & g' & d' & e' & L' & He' & Ep'); [vm_compute; reflexivity|].
  exists sevenths, column_to_table, table_to_table, vb, g, d, vb', g', d', e, e', (half_path down_path), (half_path side_path).
  do 7 (split; [assumption|]). apply not_as_far; [reflexivity|reflexivity|vm_compute; discriminate].
Qed.

Theorem more_hinders : exists n es r vb g d vb' g' d' e e' ps ps', fits (table_rows (mkModule n es)) /\
  layout_module (mkModule n es) = Ret (vb, g, d) /\ layout_module (mkModule n (es ++ [ERel r])) = Ret (vb', g', d') /\
  nth_error (d_edges d) 0 = Some e /\ nth_error (d_edges d') 0 = Some e' /\ e_path e = Some ps /\ e_path e' = Some ps' /\ ~ no_farther ps' ps.
Proof.
  assert (F : fits (table_rows straight)) by (unfold fits; vm_compute; discriminate).
  assert (F' : fits (table_rows hindered)) by (unfold fits; vm_compute; discriminate).
  destruct (drawn_path _ 0 straight_path F) as (vb & g & d & e & L & He & Ep); [vm_compute; reflexivity|].
  destruct (drawn_path _ 0 below_path F') as (vb' & g' & d' & e' & L' & He' & Ep'); [vm_compute; reflexivity|].
  exists None, (m_entries straight), (mkRelation (PField (lit "c") (lit "a")) (PField (lit "b") (lit "a"))), vb, g, d, vb', g', d', e, e', (half_path straight_path), (half_path below_path).
  do 7 (split; [assumption|]). apply not_no_farther; [reflexivity|reflexivity|vm_compute; reflexivity].
Qed.

Theorem opened_sample : fits (table_rows around) /\ table_rows opened = table_rows around /\
  links [] (m_entries around) [(Row 2 2, Row 0 1)] /\ links [] (m_entries opened) [(Row 2 2, Row 0 1); (Row 0 1, Row 2 1)] /\
  incl (ends [(Row 2 2, Row 0 1)]) (ends [(Row 2 2, Row 0 1); (Row 0 1, Row 2 1)]) /\
  exists vb g d e ps vb' g' d' e' ps', layout_module around = Ret (vb, g, d) /\ nth_error (d_edges d) 0 = Some e /\ e_path e = Some ps /\ past_tables d ps /\
  layout_module opened = Ret (vb', g', d') /\ nth_error (d_edges d') 0 = Some e' /\ e_path e' = Some ps' /\ ~ as_far ps ps'.
Proof.
  assert (F : fits (table_rows around)) by (unfold fits; vm_compute; discriminate).
  assert (F' : fits (table_rows opened)) by (unfold fits; vm_compute; discriminate).
  split; [exact F|]. split; [reflexivity|]. split; [exact around_links|]. split; [exact opened_links|].
  split; [intros x Ix; cbn in *; tauto|].
  destruct (drawn_path _ 0 around_path F) as (vb & g & d & e & L & He & Ep); [vm_compute; reflexivity|].
  destruct (drawn_path _ 0 opened_path F') as (vb' & g' & d' & e' & L' & He' & Ep'); [vm_compute; reflexivity|].
  exists vb, g, d, e, (half_path around_path), vb', g', d', e', (half_path opened_path). do 3 (split; [assumption|]).
  split; [apply (all_open_past around vb g d _ around_path F L); [now apply half_path_h|vm_compute; reflexivity]|]. do 3 (split; [assumption|]).
  apply not_as_far; [reflexivity|reflexivity|vm_compute; discriminate].
Qed.

Theorem turned_sample : fits (table_rows one_order) /\ table_rows turned_order = table_rows one_order /\
  let ls := [(Row 0 1, Row 1 2); (Row 1 1, Row 2 2)] in let ls' := [(Row 2 2, Row 1 1); (Row 0 1, Row 1 2)] in
  links [] (m_entries one_order) ls /\ links [] (m_entries turned_order) ls' /\ incl (ends ls) (ends ls') /\ incl (ends ls') (ends ls) /\
  exists vb g d e ps vb' g' d' e' ps', layout_module one_order = Ret (vb, g, d) /\ nth_error (d_edges d) 1 = Some e /\ e_path e = Some ps /\ past_tables d ps /\
  layout_module turned_order = Ret (vb', g', d') /\ nth_error (d_edges d') 0 = Some e' /\ e_path e' = Some ps' /\ past_tables d' ps' /\ ps' = rev ps.
Proof.
  assert (F : fits (table_rows one_order)) by (unfold fits; vm_compute; discriminate).
  assert (F' : fits (table_rows turned_order)) by (unfold fits; vm_compute; discriminate).
  split; [exact F|]. split; [reflexivity|]. cbn zeta. split; [exact one_links|]. split; [exact turned_links|].
  split; [intros x Ix; cbn in *; tauto|]. split; [intros x Ix; cbn in *; tauto|].
  destruct (drawn_path _ 1 gap_path F) as (vb & g & d & e & L & He & Ep); [vm_compute; reflexivity|].
  destruct (drawn_path _ 0 (rev gap_path) F') as (vb' & g' & d' & e' & L' & He' & Ep'); [vm_compute; reflexivity|].
  exists vb, g, d, e, (half_path gap_path), vb', g', d', e', (half_path (rev gap_path)). do 3 (split; [assumption|]).
  split; [apply (all_open_past one_order vb g d _ gap_path F L); [now apply half_path_h|vm_compute; reflexivity]|]. do 3 (split; [assumption|]).
  split; [apply (all_open_past turned_order vb' g' d' _ (rev gap_path) F' L'); [now apply half_path_h|vm_compute; reflexivity]|reflexivity].
Qed.
