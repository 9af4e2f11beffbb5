(** Lines beside the first column. *)
From Coq Require Import String Ascii List Arith NArith ZArith Bool Lia.
From Verif Require Import Base F32 Geometry Mir Erd Route Layout Parser Cli SpecF32 SpecMir SpecLayout SpecRoute SpecGraph SpecRender SpecLink SpecGap SpecInk SpecShort SpecEnds SpecFirst
  F32Facts GeomFacts RenderFacts PipelineFacts MirFacts PathFacts LatticeFacts ConnectFacts HubFacts RowFacts MidFacts TurnFacts CalmFacts LinkFacts DrawFacts EndFacts ThroughFacts GapFacts InkFacts SideFacts FirstFacts.
Import ListNotations.
Local Open Scope Z_scope.

Section Doc.
Variables (d : document) (hs : list nat).
Hypothesis FD : end_doc d hs.
Let GD := ed_grid d hs FD.
Variable g : route_graph.
Hypothesis R : routes d hs g.
Let ns := rg_nodes g.
Let es := rg_edges g.
Let cost := rg_cost ns.
Local Notation conn := (conn g).

(** Every node left of the first column has one opposite it. *)
Lemma opposite n X Y o : spot ns n X Y o -> X = 20 \/ X = 100 -> exists n' o', spot ns n' (800 - X) Y o'.
Proof.
  intros A [-> | ->].
  - change (800 - 20) with 780. enough (Q : exists n', spot ns n' 780 Y None) by (destruct Q as (n' & Q); eauto).
    destruct (spot_kind d hs FD g R n 20 Y o A) as [(_ & _ & (t & L & X & H) & _)|[(_ & _ & _ & c & Rl & Ry)|[(_ & c & C & E & _)|[(_ & C & _)|[(_ & C & _)|(u & _ & E & _)]]]]].
    + apply (corner_spot d hs g R). exists t. split; [exact L|]. split; [pose proof (zl_cases t); lia|exact H].
    + pose proof (rel_column d hs c Y Rl) as Cc. destruct Ry as [(_ & _ & _ & B)|(_ & _ & L & _)]; [|unfold column in Cc; lia].
      destruct (Z.eq_dec c 100) as [->|Nc]; [exact (rel_next_right d hs g R 100 Y Rl)|].
      destruct Rl as (e & E & <- & ->). apply (rt_junction d hs g R). pose proof (end_range d hs e E) as L. split; [|apply corridor_clear; unfold corridor; lia].
      right. exists Left, (zl (tab e)), (rowY hs e). split; [now apply (row_left d hs)|]. split; [reflexivity|].
      split; [exists 0%nat; split; [lia|]; right; reflexivity|]. split; [unfold column in Cc; lia|].
      intros s Ls H H'. specialize (B s Ls H H'). pose proof (zl_cases s). lia.
    + unfold column in C. lia.
    + apply rel_column in C. unfold column in C. lia.
    + apply rel_column in C. unfold column in C. lia.
    + pose proof (zl_cases (tab u)). lia.
  - change (800 - 100) with (100 + 600). enough (Q : rel d hs 100 Y) by (destruct (rel_right d hs g R 100 Y Q) as (n' & S'); eauto).
    destruct (spot_kind d hs FD g R n 100 Y o A) as [(_ & C & _)|[(_ & C & _)|[(_ & c & C & E & _)|[(_ & C & _)|[(_ & C & _)|(u & _ & E & _)]]]]].
    + unfold corridor in C. lia.
    + unfold corridor in C. lia.
    + unfold column in C. lia.
    + exact C.
    + apply rel_column in C. unfold column in C. lia.
    + pose proof (zl_cases (tab u)). lia.
Qed.
Lemma first_port n Y o : spot ns n 100 Y o -> o = Some Left.
Proof.
  intros A. destruct (spot_kind d hs FD g R n 100 Y o A) as [(_ & C & _)|[(_ & C & _)|[(_ & c & C & E & _)|[(_ & _ & C)|[(_ & C & _)|(u & _ & E & _)]]]]].
  - unfold corridor in C. lia.
  - unfold corridor in C. lia.
  - unfold column in C. lia.
  - exact C.
  - apply rel_column in C. unfold column in C. lia.
  - pose proof (zl_cases (tab u)). lia.
Qed.
(** From the right side of a row to the corridor. *)
Lemma out_right a b Y o u : spot ns a 700 Y o -> spot ns b 780 Y u -> rel d hs 100 Y -> conn a b 40.
Proof.
  intros A B (e & E & Ec & ->). destruct (side_corridor d hs FD g R e 780 E ltac:(right; lia)) as (i & j & Si & Sj & C).
  destruct (rel_right d hs g R 100 (rowY hs e) ltac:(exists e; auto)) as (a' & A').
  destruct (rel_next_right d hs g R 100 (rowY hs e) ltac:(exists e; auto)) as (b' & B').
  destruct (spot_index d hs g R _ _ _ _ _ _ A A') as [<- ->]. destruct (spot_index d hs g R _ _ _ _ _ _ B B') as [<- ->].
  eapply conn_le; [eapply (hline d hs GD g R 80%nat a b 700 780 _ (Some Right) None); eauto; try lia|].
  - intros t Lt. pose proof (zl_cases t). lia.
  - intros c X w Sc Bx. exfalso. pose proof (spot_in_column d hs GD g R c X _ w (tab e) Sc ltac:(lia)). lia.
  - vm_compute. discriminate.
Qed.
Lemma opposite_edge a b a' b' X1 Y1 X2 Y2 o1 o2 o1' o2' : joined es a b -> spot ns a X1 Y1 o1 -> spot ns b X2 Y2 o2 ->
  X1 = 20 \/ X1 = 100 -> X2 = 20 \/ X2 = 100 -> spot ns a' (800 - X1) Y1 o1' -> spot ns b' (800 - X2) Y2 o2' -> conn a' b' (Z.of_N (cost a b)).
Proof.
  intros J A B C1 C2 A' B'.
  assert (Rl : forall n Y o, spot ns n 100 Y o -> rel d hs 100 Y).
  { intros n Y o S. destruct (spot_kind d hs FD g R n 100 Y o S) as [(_ & C & _)|[(_ & C & _)|[(_ & c & C & E & _)|[(_ & C & _)|[(_ & C & _)|(u & _ & E & _)]]]]];
      [unfold corridor in C; lia|unfold corridor in C; lia|unfold column in C; lia|exact C|apply rel_column in C; unfold column in C; lia|pose proof (zl_cases (tab u)); lia]. }
  destruct C1 as [-> | ->], C2 as [-> | ->].
  - unfold cost, ns. rewrite (cost_v d hs FD g R a b _ _ _ _ _ A B). apply (corr_vline d hs FD g R 780 a' b' Y1 Y2 o1' o2'); [unfold corridor; lia|exact A'|exact B'].
  - pose proof (first_port b Y2 o2 B) as ->. destruct (left_port_next d hs FD g R b a _ _ _ _ _ B A (joined_sym g _ _ J)) as (_ & <- & _).
    pose proof (cost_h d hs FD g R a b _ _ _ _ _ A B) as H. replace (Z.of_N (cost a b)) with 40 by (unfold cost, ns; lia).
    apply conn_sym. exact (out_right b' a' Y1 _ _ B' A' (Rl b Y1 _ B)).
  - pose proof (first_port a Y1 o1 A) as ->. destruct (left_port_next d hs FD g R a b _ _ _ _ _ A B J) as (_ & -> & _).
    pose proof (cost_h d hs FD g R a b _ _ _ _ _ A B) as H. replace (Z.of_N (cost a b)) with 40 by (unfold cost, ns; lia).
    exact (out_right a' b' Y1 _ _ A' B' (Rl a Y1 _ A)).
  - pose proof (first_port a Y1 o1 A) as ->. destruct (left_port_next d hs FD g R a b _ _ _ _ _ A B J) as (Q & _). lia.
Qed.
Lemma opposite_walk a b l : walk es a b l -> (forall n, In n l -> exists X Y o, spot ns n X Y o /\ (X = 20 \/ X = 100)) ->
  forall X1 Y1 X2 Y2 o1 o2 a' b' o1' o2', spot ns a X1 Y1 o1 -> spot ns b X2 Y2 o2 -> spot ns a' (800 - X1) Y1 o1' -> spot ns b' (800 - X2) Y2 o2' ->
  conn a' b' (Z.of_N (walk_cost cost l)).
Proof.
  induction 1 as [a|a c b l J W IH]; intros In' X1 Y1 X2 Y2 o1 o2 a' b' o1' o2' A B A' B'.
  - destruct (ConnectFacts.spot_place _ _ _ _ _ _ _ _ A B) as (-> & -> & _). destruct (spot_index d hs g R _ _ _ _ _ _ A' B') as [<- _]. apply conn_refl.
  - destruct (walk_head _ _ _ _ W) as (l' & ->).
    destruct (In' c ltac:(right; left; reflexivity)) as (X3 & Y3 & o3 & C & C3). destruct (opposite c X3 Y3 o3 C C3) as (c' & o3' & C').
    destruct (In' a ltac:(left; reflexivity)) as (X & Y & o & A2 & Ca). destruct (ConnectFacts.spot_place _ _ _ _ _ _ _ _ A2 A) as (-> & -> & ->).
    pose proof (opposite_edge a c a' c' _ _ _ _ _ _ _ _ J A C Ca C3 A' C') as E1.
    pose proof (IH (fun n I => In' n (or_intror I)) _ _ _ _ _ _ _ _ _ _ C B C' B') as E2.
    cbn [walk_cost]. rewrite N2Z.inj_add. eapply conn_trans; [exact E1|exact E2].
Qed.
End Doc.

(** ** Modules *)

Lemma right_first hs t k ps : has_ports hs (row_end t k) ps -> exists p, nth_error ps 0 = Some p /\ port_orientation p = Right /\
  hpoint (port_location p) (zl t + 600) (rowY hs (row_end t k)).
Proof.
  intros ((_ & K) & F). cbn [anchor_sides tab] in F. unfold row_sides in F. destruct (Nat.eqb_spec k 0); [lia|]. cbn [app] in F.
  destruct ps as [|p ps]; inversion F as [|? ? ? ? (O & H) _]; subst. exists p. auto.
Qed.

Theorem first_column_right m vb g d ls i k j l zs : fits (table_rows m) -> layout_module m = Ret (vb, g, d) -> links [] (m_entries m) ls ->
  line_of d ls (Row i k, Row j l) zs -> (i mod 3 = 0 /\ j mod 3 = 0)%nat -> (i / 3 < j / 3 + 10 /\ j / 3 < i / 3 + 10)%nat -> (i, k) <> (j, l) ->
  forall z, In z zs -> fst z = 700 \/ fst z = 780.
Proof.
  intros F L Ll (nn & e & Hn & He & ps & Ep & Z) [Ci Cj] Near Ne.
  assert (Zi : zl i = 100) by (unfold zl, table_left; rewrite Ci; reflexivity). assert (Zj : zl j = 100) by (unfold zl, table_left; rewrite Cj; reflexivity).
  destruct (links_edges m vb g d ls F L Ll) as (d0 & M & H). cbn zeta in H.
  destruct (layout_routes m vb g d F L) as (d0' & M' & V & D & R). rewrite M in M'. injection M' as <-.
  pose proof (module_ends m d0 M F) as ED. set (d2 := place_terminal_ports (fst (place_nodes d0))) in *. set (hs := table_rows m) in *.
  destruct (forall2_nth_l _ _ _ H nn _ Hn) as (e' & He' & Ie & _ & s & t & Gs & Gt & Ps & Pt). rewrite He in He'. injection He' as <-. cbn [fst snd end_of] in *.
  destruct (module_first m vb g d F L e Ie) as (s' & t' & n1 & n2 & w & ps' & Gs' & Gt' & Ep' & Pl & ((x & y & a & b & Ix & Iy & Sx & Sy & W) & Min)).
  rewrite Ep in Ep'. injection Ep' as <-.
  destruct (draw_split _ _ _ _ D) as (_ & N & F2). destruct (forall2_in_r _ _ _ _ F2 Ie) as (e0 & I0 & (E1 & E2) & _).
  unfold get_node in Gs, Gt, Gs', Gt'. rewrite N, Gs in Gs'. rewrite N, Gt in Gt'. injection Gs' as <-. injection Gt' as <-.
  assert (Es : end_at d2 hs (row_end i k)) by (exists e0, (e_source e0), s; unfold get_node; rewrite <- E1; auto).
  assert (Et : end_at d2 hs (row_end j l)) by (exists e0, (e_target e0), t; unfold get_node; rewrite <- E2; auto).
  pose proof (stands_stop d2 _ g R _ _ _ _ Ps (nth_error_In _ _ Ix) Sx) as Sa. pose proof (stands_stop d2 _ g R _ _ _ _ Pt (nth_error_In _ _ Iy) Sy) as Sb.
  assert (Best : ~ TurnFacts.better hs g (row_end i k) (row_end j l) (Z.of_N (walk_cost (rg_cost (rg_nodes g)) w))).
  { intros (s' & t' & z & Ss & St & [(l' & W' & Lw) _] & Lt).
    destruct (stop_stands _ _ _ _ _ Ps Ss) as (p' & Ip' & Sp'). destruct (stop_stands _ _ _ _ _ Pt St) as (q' & Iq' & Sq').
    apply In_nth_error in Ip' as (a1 & Ip'). apply In_nth_error in Iq' as (a2 & Iq').
    destruct (Min _ _ _ _ _ _ l' Ip' Iq' Sp' Sq' W') as [Q _]. lia. }
  assert (Once : NoDup w).
  { apply (cheapest_once (rg_edges g) (rg_cost (rg_nodes g)) a b w); [apply (edge_dear _ _ ED g R)|exact W|].
    intros l' W'. exact (proj1 (Min _ _ _ _ _ _ _ Ix Iy Sx Sy W')). }
  assert (Shape : along (zl i - 80) ps (zl i) (rowY hs (row_end i k)) (zl i) (rowY hs (row_end j l)) \/ along (zl i + 680) ps (zl i + 600) (rowY hs (row_end i k)) (zl i + 600) (rowY hs (row_end j l))).
  { apply (column_shape d2 hs ED g R i k j l Es Et Near) with (a := a) (b := b) (l := w); auto; [congruence|]. intros Q. apply Ne. congruence. }
  rewrite Zi in Shape. destruct Shape as [Sh|Sh]; [exfalso|].
  - (* on the left *)
    assert (Spot : forall c X Y p, nth_error w c = Some X -> nth_error ps c = Some p -> hpoint p (fst Y) (snd Y) -> exists o, spot (rg_nodes g) X (fst Y) (snd Y) o).
    { intros c X Y p Hc Hp Hh. destruct (forall2_nth_l _ _ _ Pl c _ Hc) as (p' & Hp' & n & Hm & El). rewrite Hp in Hp'. injection Hp' as <-.
      exists (rn_orient n), n. split; [exact Hm|]. split; [rewrite El; exact Hh|reflexivity]. }
    assert (All : forall c, In c w -> exists X Y o, spot (rg_nodes g) c X Y o /\ (X = 20 \/ X = 100)).
    { intros c I. apply In_nth_error in I as (n & I). destruct (forall2_nth_l _ _ _ Pl n _ I) as (p & Hp & _).
      destruct (along_points _ _ _ _ _ _ p Sh (nth_error_In _ _ Hp)) as (X & Y & Hh & Cx). destruct (Spot n c (X, Y) p I Hp Hh) as (o & So). cbn [fst snd] in So.
      exists X, Y, o. split; [exact So|]. lia. }
    assert (Ia : In a w) by (destruct (walk_head _ _ _ _ W) as (w' & ->); now left).
    assert (Ib : In b w) by (apply (nth_error_In w (length w - 1)), (walk_last _ _ _ _ W)).
    destruct (All a Ia) as (Xa & Ya & oa & Aa & Ca). destruct (All b Ib) as (Xb & Yb & ob & Ab & Cb).
    destruct (row_stop d2 hs g i k a Es Sa) as [S1|[S1|(_ & S1)]]; destruct (ConnectFacts.spot_place _ _ _ _ _ _ _ _ S1 Aa) as (Q1 & Q2 & Q3); try (exfalso; lia).
    destruct (row_stop d2 hs g j l b Et Sb) as [S2|[S2|(_ & S2)]]; destruct (ConnectFacts.spot_place _ _ _ _ _ _ _ _ S2 Ab) as (Q4 & Q5 & Q6); try (exfalso; lia).
    destruct (right_first hs i k _ Ps) as (p0 & Hp0 & O0 & L0). destruct (right_first hs j l _ Pt) as (q0 & Hq0 & O1 & L1).
    destruct (rel_right d2 hs g R (zl i) (rowY hs (row_end i k)) ltac:(exists (row_end i k); auto)) as (a' & A').
    destruct (rel_right d2 hs g R (zl j) (rowY hs (row_end j l)) ltac:(exists (row_end j l); auto)) as (b' & B').
    assert (Sa' : stands_for g p0 a') by (destruct A' as (n & Hn' & Hp & O); exists n; rewrite O0; split; [exact Hn'|split; [exact (hpoint_same _ _ _ _ Hp L0)|exact O]]).
    assert (Sb' : stands_for g q0 b') by (destruct B' as (n & Hn' & Hp & O); exists n; rewrite O1; split; [exact Hn'|split; [exact (hpoint_same _ _ _ _ Hp L1)|exact O]]).
    rewrite Zi in *. rewrite Zj in *.
    destruct (opposite_walk d2 hs ED g R a b w W All _ _ _ _ _ _ a' b' _ _ S1 S2 A' B') as [(w' & W' & Lw) _].
    destruct (Min _ _ _ _ _ _ w' Hp0 Hq0 Sa' Sb' W') as [_ St].
    assert (Nz : (0 < n1)%nat).
    { destruct n1; [exfalso|lia]. rewrite Hp0 in Ix. injection Ix as <-. destruct S1 as (n & Hn1 & _ & On). destruct Sx as (n' & Hn2 & _ & On'). congruence. }
    specialize (St ltac:(left; exact Nz)). lia.
  - intros z I. apply In_nth_error in I as (n & I). destruct (forall2_nth_r _ _ _ Z n _ I) as (p & Hp & Hh).
    destruct (along_points _ _ _ _ _ _ p Sh (nth_error_In _ _ Hp)) as (X & Y & Hh' & Cx). destruct (ConnectFacts.hpoint_unique _ _ _ _ _ Hh Hh') as [-> _]. lia.
Qed.

Lemma right_beside m vb g d ls i k j l zs : fits (table_rows m) -> layout_module m = Ret (vb, g, d) -> links [] (m_entries m) ls ->
  line_of d ls (Row i k, Row j l) zs -> (i mod 3 = 0 /\ j mod 3 = 0)%nat -> (i / 3 < j / 3 + 10 /\ j / 3 < i / 3 + 10)%nat -> (i, k) <> (j, l) ->
  row_middle (table_rows m) i k <> row_middle (table_rows m) j l /\
  zalong 780 zs 700 (row_middle (table_rows m) i k) 700 (row_middle (table_rows m) j l).
Proof.
  intros F L Ll H C N Ne. pose proof (first_column_right m vb g d ls i k j l zs F L Ll H C N Ne) as P. destruct C as [Ci Cj].
  destruct (line_beside m vb g d ls i k j l zs F L Ll H ltac:(congruence) N Ne) as [Ny A]. split; [exact Ny|].
  assert (T : 2 * table_left i = 100) by (unfold table_left; rewrite Ci; reflexivity). rewrite T in A. destruct A as [A|A]; [exfalso|exact A].
  destruct A as (Ys & E & _). specialize (P (100, row_middle (table_rows m) i k) ltac:(rewrite E; now left)). cbn [fst] in P. lia.
Qed.
Theorem first_column_alike m m' vb g d vb' g' d' ls ls' i k j l zs zs' : fits (table_rows m) -> table_rows m' = table_rows m ->
  layout_module m = Ret (vb, g, d) -> layout_module m' = Ret (vb', g', d') -> links [] (m_entries m) ls -> links [] (m_entries m') ls' ->
  line_of d ls (Row i k, Row j l) zs -> line_of d' ls' (Row i k, Row j l) zs' \/ line_of d' ls' (Row j l, Row i k) zs' ->
  (i mod 3 = 0 /\ j mod 3 = 0)%nat -> (i / 3 < j / 3 + 10 /\ j / 3 < i / 3 + 10)%nat -> (i, k) <> (j, l) -> look_alike [zs] [zs'].
Proof.
  intros F E L L' Ll Ll' H H' C N Ne. assert (F' : fits (table_rows m')) by (rewrite E; exact F).
  destruct (right_beside m vb g d ls i k j l zs F L Ll H C N Ne) as [Ny A]. destruct H' as [H'|H'].
  - destruct (right_beside m' vb' g' d' ls' i k j l zs' F' L' Ll' H' C N Ne) as [_ B]. rewrite E in B. apply (bent_alike _ _ _ _ _ _ _ A B); lia.
  - destruct (right_beside m' vb' g' d' ls' j l i k zs' F' L' Ll' H' ltac:(tauto) ltac:(tauto) ltac:(congruence)) as [_ B]. rewrite E in B. apply (bent_turned _ _ _ _ _ _ _ A B); lia.
Qed.
