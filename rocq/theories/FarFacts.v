(** Edges of a middle column that skip the corridor beside it. *)
From Coq Require Import List Arith NArith ZArith Bool Lia SpecFloat Classical_Prop.
From Verif Require Import Base F32 Geometry Mir Erd Heap Route Layout SpecMir SpecF32 SpecGeom SpecLayout SpecRoute SpecGraph
  F32Facts GeomFacts SearchFacts MirFacts GridFacts LayoutFacts RenderFacts PipelineFacts GraphFacts PathFacts LatticeFacts
  ConnectFacts HubFacts OrderFacts RowFacts LineFacts MidFacts.
Import ListNotations.
Local Open Scope Z_scope.

Section Doc.
Variables (d : document) (hs : list nat).
Hypothesis FD : end_doc d hs.
Let GD := ed_grid d hs FD.
Variable g : route_graph.
Hypothesis R : routes d hs g.
Let ns := rg_nodes g.
Let es := rg_edges g.
Local Notation mid := (mid d hs g).

Lemma no_corner_lines X Y c : ~ corner hs X Y -> X = c - 80 \/ X = c + 680 -> ~ line hs c Y.
Proof. intros N E L. apply N. destruct (line_corner hs c Y L). destruct E as [-> | ->]; assumption. Qed.

Lemma idx_left t : zl t = 100 -> t = (3 * (t / 3))%nat.
Proof. intros E. pose proof (zl_cases t). pose proof (Nat.div_mod t 3 ltac:(lia)). lia. Qed.
Lemma idx_mid t : zl t = 860 -> t = (3 * (t / 3) + 1)%nat.
Proof. intros E. pose proof (zl_cases t). pose proof (Nat.div_mod t 3 ltac:(lia)). lia. Qed.
Lemma idx_right t : zl t = 1620 -> t = (3 * (t / 3) + 2)%nat.
Proof. intros E. pose proof (zl_cases t). pose proof (Nat.div_mod t 3 ltac:(lia)). lia. Qed.

(** The left and the right column. *)
Definition outer (c c' : Z) : Prop := (c = 100 /\ c' = 1620) \/ (c = 1620 /\ c' = 100).

Lemma far_outer e h c c' Y X o : outer c c' -> mid e c Y -> joined es e h -> spot ns h X Y o -> X <> c + 300 -> X <> c - 80 -> X <> c + 680 ->
  o = None /\ ~ line hs c Y /\ ~ line hs 860 Y /\ line hs c' Y /\
  (X = 1160 \/ (if c =? 100 then 1540 <= X else X <= 780)).
Proof.
  intros O M J H N1 N2 N3. destruct (next_outside d hs FD g R e h c Y X Y o M J H N1) as (_ & -> & Z).
  destruct (even_spot d hs FD g R h X Y None (md_ys _ _ _ _ _ _ M) H) as (_ & Kx).
  assert (Kz : X = 20 \/ X = 400 \/ X = 780 \/ X = 1160 \/ X = 1540 \/ X = 1920 \/ X = 2300) by tauto.
  destruct Z as [Z|[Z|[(Z & Nc)|(Z & Nc)]]]; try lia; destruct O as [[-> ->]|[-> ->]]; try lia.
  - change (1620 - 80) with 1540 in *. pose proof (no_corner_lines _ Y 1620 Nc ltac:(lia)) as L1. pose proof (no_corner_lines _ Y 860 Nc ltac:(lia)) as L2.
    split; [reflexivity|]. split; [exact L1|]. split; [exact L2|]. split.
    + destruct (ys_line hs Y (md_ys _ _ _ _ _ _ M)) as [L|[L|L]]; tauto.
    + change (1620 =? 100) with false. cbn iota. lia.
  - change (100 + 680) with 780 in *. pose proof (no_corner_lines _ Y 100 Nc ltac:(lia)) as L1. pose proof (no_corner_lines _ Y 860 Nc ltac:(lia)) as L2.
    split; [reflexivity|]. split; [exact L1|]. split; [exact L2|]. split.
    + destruct (ys_line hs Y (md_ys _ _ _ _ _ _ M)) as [L|[L|L]]; tauto.
    + change (100 =? 100) with true. cbn iota. lia.
Qed.

(** A line only of the opposite column, above a table of this column: the
    table in the middle reaches below it. *)
Lemma middle_reaches e c c' Y s : outer c c' -> mid e c Y -> ~ line hs c Y -> line hs c' Y ->
  (s < length hs)%nat -> zl s = c -> Y <= zt hs s - 80 ->
  exists T, (T < length hs)%nat /\ zl T = 860 /\ zt hs T < Y /\ Y < zb hs T + 80 /\ zb hs T + 80 <= zt hs s - 80.
Proof.
  intros O M Nl (i & Li & Ei & H) Ls Es B. remember (i / 3)%nat as r eqn:Er. remember (s / 3)%nat as q eqn:Eq.
  destruct (row_zl r) as (Z0 & Z1 & Z2). destruct (row_div r) as (D0 & D1 & D2). destruct (row_zt hs r) as (T1 & T2).
  pose proof (table_bounds d hs GD i Li) as Bi. pose proof (table_bounds d hs GD s Ls) as Bs.
  assert (Lq : (r <= q)%nat).
  { destruct (le_lt_dec r q) as [|L]; [assumption|]. pose proof (zb_zt hs s i ltac:(congruence)) as Z. exfalso. clear - Z H B Bi Bs. lia. }
  (* a table of this column in every row down to that of [s] *)
  assert (Row : forall x, (x <= q)%nat -> exists u, (u < length hs)%nat /\ zl u = c /\ (u / 3 = x)%nat).
  { intros x Lx. destruct (row_zl x) as (Y0 & _ & Y2). destruct (row_div x) as (F0 & _ & F2). destruct O as [[-> ->]|[-> ->]].
    - pose proof (idx_left s Es) as Is. exists (3 * x)%nat. rewrite <- Eq in Is. split; [clear - Is Ls Lx; lia|auto].
    - pose proof (idx_right s Es) as Is. exists (3 * x + 2)%nat. rewrite <- Eq in Is. split; [clear - Is Ls Lx; lia|auto]. }
  assert (Nt : Y <> zt hs i - 80).
  { intros E. apply Nl. destruct (Row r Lq) as (u & Lu & Eu & Du). exists u. split; [exact Lu|]. split; [exact Eu|]. left.
    rewrite E. f_equal. apply zt_same. congruence. }
  destruct H as [H|H]; [contradiction|].
  assert (Lt : (r < q)%nat).
  { destruct (Nat.eq_dec r q) as [E|E]; [|clear - E Lq; lia]. pose proof (zt_same hs i s ltac:(congruence)) as Z. exfalso. clear - Z H B Bi. lia. }
  assert (Full : (3 * r + 2 < length hs)%nat).
  { pose proof (Nat.div_mod s 3 ltac:(discriminate)) as Ds. rewrite <- Eq in Ds. clear - Ds Ls Lt. lia. }
  pose proof (table_bounds d hs GD (3 * r) ltac:(clear - Full; lia)) as B0. pose proof (table_bounds d hs GD (3 * r + 1) ltac:(clear - Full; lia)) as B1.
  pose proof (table_bounds d hs GD (3 * r + 2) ltac:(clear - Full; lia)) as B2.
  destruct (Row (S r) Lt) as (u & Lu & Eu & Du).
  assert (Bu : zt hs u <= zt hs s).
  { destruct (Nat.eq_dec (S r) q) as [E|E]; [rewrite (zt_same hs u s ltac:(congruence)); apply Z.le_refl|].
    pose proof (zb_zt hs u s ltac:(rewrite Du, <- Eq; clear - E Lt; lia)) as Z. pose proof (table_bounds d hs GD u Lu) as Bu. clear - Z Bu. lia. }
  pose proof (next_top hs r u Du) as Nx.
  assert (Nu : Y <> zt hs u - 80).
  { intros E. apply Nl. exists u. auto. }
  exists (3 * r + 1)%nat. split; [clear - Full; lia|]. split; [exact Z1|].
  destruct O as [[-> ->]|[-> ->]].
  - assert (E : i = (3 * r + 2)%nat) by (rewrite Er; now apply idx_right). clear Er. subst i.
    pose proof (md_gap _ _ _ _ _ _ M (3 * r)%nat ltac:(clear - Full; lia) Z0) as G0.
    assert (Own : zb hs (3 * r) + 80 <= Y) by (clear - G0 H B0 B2 T2; lia).
    clear - Own H Nx Nu Bu B1 B2 T1 T2. lia.
  - assert (E : i = (3 * r)%nat) by (rewrite Er; now apply idx_left). clear Er. subst i.
    pose proof (md_gap _ _ _ _ _ _ M (3 * r + 2)%nat ltac:(clear - Full; lia) Z2) as G0.
    assert (Own : zb hs (3 * r + 2) + 80 <= Y) by (clear - G0 H B0 B2 T2; lia).
    clear - Own H Nx Nu Bu B0 B1 B2 T1 T2. lia.
Qed.

(** A table of an outer column above a line of the other one stands in a full row. *)
Lemma full_row c c' T Y : outer c c' -> (T < length hs)%nat -> zl T = c -> zb hs T + 80 <= Y -> line hs c' Y ->
  line hs 860 (zt hs T - 80) /\ line hs c' (zt hs T - 80) /\ exists t, (t < length hs)%nat /\ zl t = 860 /\ zt hs t = zt hs T.
Proof.
  intros O LT ET B (i & Li & Ei & H). remember (i / 3)%nat as q eqn:Eq. remember (T / 3)%nat as r eqn:Er.
  destruct (row_zl r) as (Z0 & Z1 & Z2). destruct (row_div r) as (D0 & D1 & D2).
  pose proof (table_bounds d hs GD i Li) as Bi. pose proof (table_bounds d hs GD T LT) as BT.
  assert (Lq : (r <= q)%nat).
  { destruct (le_lt_dec r q) as [|L]; [assumption|]. pose proof (zb_zt hs i T ltac:(congruence)) as Z. exfalso. clear - Z H B Bi BT. lia. }
  assert (Full : (3 * r + 2 < length hs)%nat).
  { destruct O as [[-> ->]|[-> ->]].
    - pose proof (idx_right i Ei) as I. rewrite <- Eq in I. clear - I Li Lq. lia.
    - pose proof (idx_right T ET) as I. rewrite <- Er in I. clear - I LT. lia. }
  pose proof (zt_same hs (3 * r) T ltac:(congruence)) as E0. pose proof (zt_same hs (3 * r + 1) T ltac:(congruence)) as E1.
  pose proof (zt_same hs (3 * r + 2) T ltac:(congruence)) as E2.
  split; [exists (3 * r + 1)%nat; split; [clear - Full; lia|]; split; [exact Z1|]; left; congruence|]. split.
  - destruct O as [[-> ->]|[-> ->]]; [exists (3 * r + 2)%nat|exists (3 * r)%nat]; (split; [clear - Full; lia|]; split; [assumption|]; left; congruence).
  - exists (3 * r + 1)%nat. split; [clear - Full; lia|]. auto.
Qed.

(** In the middle column: a line of one outer column only, and clear of the
    other one, is below all tables of the middle. *)
Lemma below_middle e Y c c' i : outer c c' -> mid e 860 Y -> (i < length hs)%nat -> zl i = c' -> Y = zt hs i - 80 \/ Y = zb hs i + 80 ->
  ~ line hs 860 Y -> (forall t, (t < length hs)%nat -> zl t = c -> zb hs t + 80 <= Y \/ Y <= zt hs t - 80) ->
  forall t, (t < length hs)%nat -> zl t = 860 -> zb hs t + 80 <= Y.
Proof.
  intros O M Li Ei H' Nl Gp t Lt Et. destruct (md_gap _ _ _ _ _ _ M t Lt Et) as [[Z' _]|[Z' _]]; [exact Z'|]. exfalso.
  remember (i / 3)%nat as r eqn:Er. remember (t / 3)%nat as q eqn:Eq. destruct (row_zl r) as (Z0 & Z1 & Z2). destruct (row_div r) as (D0 & D1 & D2).
  pose proof (table_bounds d hs GD i Li) as Bi. pose proof (table_bounds d hs GD t Lt) as Bt.
  pose proof (idx_mid t Et) as It. rewrite <- Eq in It.
  assert (Lq : (r <= q)%nat).
  { destruct (le_lt_dec r q) as [|L]; [assumption|]. pose proof (zb_zt hs t i ltac:(congruence)) as Z. exfalso. clear - Z H' Z' Bi Bt. lia. }
  assert (L1 : (3 * r + 1 < length hs)%nat) by (clear - It Lt Lq; lia).
  assert (Nt : Y <> zt hs i - 80).
  { intros E. apply Nl. exists (3 * r + 1)%nat. split; [exact L1|]. split; [exact Z1|]. left. rewrite E. f_equal. apply zt_same. congruence. }
  destruct H' as [H'|H']; [contradiction|].
  assert (Lr : (r < q)%nat).
  { destruct (Nat.eq_dec r q) as [E|E]; [|clear - E Lq; lia]. pose proof (zt_same hs i t ltac:(congruence)) as Z. exfalso. clear - Z H' Z' Bi. lia. }
  destruct (row_zl (S r)) as (_ & Y1 & _). destruct (row_div (S r)) as (_ & F1 & _).
  pose proof (next_top hs r (3 * S r + 1) F1) as Nx.
  assert (N0 : Y <> zt hs (3 * S r + 1) - 80).
  { intros E. apply Nl. exists (3 * S r + 1)%nat. split; [clear - It Lt Lr; lia|]. split; [exact Y1|]. now left. }
  assert (Full : (3 * r + 2 < length hs)%nat) by (clear - It Lt Lr; lia).
  pose proof (table_bounds d hs GD (3 * r) ltac:(clear - Full; lia)) as B0. pose proof (table_bounds d hs GD (3 * r + 1) ltac:(clear - Full; lia)) as B1.
  pose proof (table_bounds d hs GD (3 * r + 2) ltac:(clear - Full; lia)) as B2.
  destruct (row_zt hs r) as (T1 & T2).
  pose proof (md_gap _ _ _ _ _ _ M (3 * r + 1)%nat L1 Z1) as G1.
  destruct O as [[-> ->]|[-> ->]].
  - assert (E : i = (3 * r + 2)%nat) by (rewrite Er; now apply idx_right). clear Er. subst i.
    pose proof (Gp (3 * r)%nat ltac:(clear - Full; lia) Z0) as G0. clear - G0 G1 B0 B1 B2 T1 T2 Nx N0 H'. lia.
  - assert (E : i = (3 * r)%nat) by (rewrite Er; now apply idx_left). clear Er. subst i.
    pose proof (Gp (3 * r + 2)%nat ltac:(clear - Full; lia) Z2) as G0. clear - G0 G1 B0 B1 B2 T1 T2 Nx N0 H'. lia.
Qed.

(** In the middle column such an edge leads to the next column, below all tables. *)
Lemma far_middle e h Y X o : mid e 860 Y -> joined es e h -> spot ns h X Y o -> X <> 1160 -> X <> 780 -> X <> 1540 ->
  o = None /\ (X = 400 \/ X = 1920) /\ (forall t, (t < length hs)%nat -> zl t = 860 -> zb hs t + 80 <= Y).
Proof.
  intros M J H N1 N2 N3. destruct (next_outside d hs FD g R e h 860 Y X Y o M J H N1) as (_ & -> & Z).
  destruct (even_spot d hs FD g R h X Y None (md_ys _ _ _ _ _ _ M) H) as (_ & Kx).
  assert (Kz : X = 20 \/ X = 400 \/ X = 780 \/ X = 1160 \/ X = 1540 \/ X = 1920 \/ X = 2300) by tauto.
  pose proof (md_ys _ _ _ _ _ _ M) as Yy. split; [reflexivity|].
  assert (Gh : forall c, column c -> X = c + 300 -> forall t, (t < length hs)%nat -> zl t = c -> zb hs t + 80 <= Y \/ Y <= zt hs t - 80).
  { intros c C E t Lt Et. rewrite E in H. pose proof (md_gap _ _ _ _ _ _ (spot_mid d hs FD g R h c Y C H) t Lt Et). tauto. }
  destruct Z as [Z|[Z|[(Z & Nc)|(Z & Nc)]]]; [contradiction|contradiction| |].
  - change (860 - 80) with 780 in Nc. pose proof (no_corner_lines _ Y 100 Nc ltac:(now right)) as L1. pose proof (no_corner_lines _ Y 860 Nc ltac:(now left)) as L2.
    assert (Ex : X = 400).
    { assert (X <> 20) by (intros E; destruct Kx as [(_ & Kx)|Kx]; [contradiction|clear - Kx E; intuition congruence]).
      clear - Z Kz H0. lia. }
    destruct (ys_line hs Y Yy) as [L|[L|L]]; try contradiction. split; [now left|]. destruct L as (i & Li & Ei & H').
    apply (below_middle e Y 100 1620 i); auto; [left; auto|]. apply (Gh 100); [unfold column; auto|rewrite Ex; reflexivity].
  - change (860 + 680) with 1540 in Nc. pose proof (no_corner_lines _ Y 1620 Nc ltac:(now left)) as L1. pose proof (no_corner_lines _ Y 860 Nc ltac:(now right)) as L2.
    assert (Ex : X = 1920).
    { assert (X <> 2300) by (intros E; destruct Kx as [Kx|[Kx|[Kx|[Kx|[Kx|[Kx|(_ & Kx)]]]]]]; [| | | | | |contradiction]; destruct Kx as [Kx _]; rewrite E in Kx; discriminate).
      clear - Z Kz H0. lia. }
    destruct (ys_line hs Y Yy) as [L|[L|L]]; try contradiction. split; [now right|]. destruct L as (i & Li & Ei & H').
    apply (below_middle e Y 1620 100 i); auto; [right; auto|]. apply (Gh 1620); [unfold column; auto|rewrite Ex; reflexivity].
Qed.
End Doc.
