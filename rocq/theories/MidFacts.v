(** The vertical lines through the middle of the tables. *)
From Coq Require Import List Arith NArith ZArith Bool Lia SpecFloat Classical_Prop.
From Verif Require Import Base F32 Geometry Mir Erd Heap Route Layout SpecMir SpecF32 SpecGeom SpecLayout SpecRoute SpecGraph
  F32Facts GeomFacts SearchFacts MirFacts GridFacts LayoutFacts RenderFacts PipelineFacts GraphFacts PathFacts LatticeFacts
  ConnectFacts HubFacts OrderFacts RowFacts LineFacts.
Import ListNotations.
Local Open Scope Z_scope.

Lemma highest (P : nat -> Prop) n : (exists t, (t < n)%nat /\ P t) -> exists t, (t < n)%nat /\ P t /\ forall u, (u < n)%nat -> P u -> (u <= t)%nat.
Proof.
  induction n as [|n IH]; intros (t & L & H); [lia|]. destruct (classic (P n)) as [Pn|Nn].
  - exists n. split; [lia|]. split; [exact Pn|]. intros. lia.
  - destruct IH as (u & Lu & Pu & M); [exists t; split; [|exact H]; destruct (Nat.eq_dec t n) as [->|]; [contradiction|lia]|].
    exists u. split; [lia|]. split; [exact Pu|]. intros v Lv Pv. apply M; [|exact Pv].
    destruct (Nat.eq_dec v n) as [->|]; [contradiction|lia].
Qed.
Lemma lowest (P : nat -> Prop) n : (exists t, (t < n)%nat /\ P t) -> exists t, (t < n)%nat /\ P t /\ forall u, (u < n)%nat -> P u -> (t <= u)%nat.
Proof.
  induction n as [|n IH]; intros (t & L & H); [lia|]. destruct (classic (exists u, (u < n)%nat /\ P u)) as [Y|N].
  - destruct (IH Y) as (u & Lu & Pu & M). exists u. split; [lia|]. split; [exact Pu|]. intros v Lv Pv.
    destruct (Nat.eq_dec v n) as [->|]; [lia|]. apply M; [lia|exact Pv].
  - exists t. split; [exact L|]. split; [exact H|]. intros v Lv Pv. destruct (Nat.eq_dec t n) as [->|]; [|exfalso; apply N; exists t; split; [lia|exact H]].
    destruct (Nat.eq_dec v n) as [->|]; [lia|]. exfalso. apply N. exists v. split; [lia|exact Pv].
Qed.

Section Doc.
Variables (d : document) (hs : list nat).
Hypothesis FD : end_doc d hs.
Let GD := ed_grid d hs FD.
Variable g : route_graph.
Hypothesis R : routes d hs g.
Let ns := rg_nodes g.
Let es := rg_edges g.

(** Tables of a column, by their index. *)
Lemma col_order s t : (s < length hs)%nat -> (t < length hs)%nat -> zl s = zl t -> (s < t)%nat -> zb hs s + 160 <= zt hs t.
Proof.
  intros Ls Lt E L. apply zb_zt. apply zl_col in E. pose proof (Nat.div_mod s 3 ltac:(lia)). pose proof (Nat.div_mod t 3 ltac:(lia)). lia.
Qed.

(** No table of the column stands between the two lines, and none is close. *)
Definition gap (c Y Y' : Z) : Prop := forall t, (t < length hs)%nat -> zl t = c ->
  (zb hs t + 80 <= Y /\ zb hs t + 80 <= Y') \/ (Y <= zt hs t - 80 /\ Y' <= zt hs t - 80).

Lemma gap_sym c Y Y' : gap c Y Y' -> gap c Y' Y.
Proof. intros G t L E. specialize (G t L E). lia. Qed.
Lemma gap_clear c Y Y' : column c -> gap c Y Y' -> clear hs (c + 300) Y'.
Proof.
  intros C G t L. pose proof (zl_cases t) as Z. destruct (Z.eq_dec (zl t) c) as [E|E]; [specialize (G t L E); lia|].
  unfold column in C. lia.
Qed.
Lemma clear_gap c Y : even Y -> clear hs (c + 300) Y -> gap c Y Y.
Proof.
  intros (a & ->) C t L E. specialize (C t L). destruct (zb_ten hs t) as (b & Eb). destruct (zt_ten hs t) as (b' & Et). lia.
Qed.

Record mid (e : nat) (c Y : Z) : Prop := {
  md_spot : spot ns e (c + 300) Y None;
  md_col : column c;
  md_ys : ys hs Y;
  md_gap : gap c Y Y;
  md_lit : shone d hs c Y }.

Lemma spot_mid e c Y : column c -> spot ns e (c + 300) Y None -> mid e c Y.
Proof.
  intros C A. destruct (spot_kind d hs FD g R e _ Y None A) as [(_ & K & _)|[(_ & K & _)|[(_ & c' & Cc & EX & Yy & Cl & Da)|[(_ & _ & E)|[(_ & _ & E)|(t & _ & _ & [(_ & _ & E)|(_ & _ & E)])]]]]];
    try discriminate; try (unfold corridor, column in *; lia).
  assert (c' = c) as -> by lia. constructor; auto. apply clear_gap; [now apply (ys_even hs)|exact Cl].
Qed.
Lemma mid_even e c Y : mid e c Y -> even Y.
Proof. intros M. apply (ys_even hs Y), (md_ys _ _ _ M). Qed.

(** All nodes of such a column. *)
Lemma column_spot e c Y o : column c -> spot ns e (c + 300) Y o -> (o = None /\ mid e c Y) \/
  (exists a, end_at d hs a /\ zl (tab a) = c /\ ((o = Some Down /\ low hs a /\ Y = zb hs (tab a)) \/ (o = Some Up /\ high a /\ Y = zt hs (tab a)))).
Proof.
  intros C A. destruct o as [o|]; [|left; split; [reflexivity|now apply spot_mid]]. right.
  destruct (spot_kind d hs FD g R e _ Y _ A) as [(E & _)|[(E & _)|[(E & _)|[(_ & K & E)|[(_ & K & E)|(a & Er & EX & [(Lo & EY & E)|(Hi & EY & E)])]]]]];
    try discriminate; try (apply rel_column in K; unfold column in *; lia).
  - injection E as ->. exists a. split; [exact Er|]. split; [lia|]. auto.
  - injection E as ->. exists a. split; [exact Er|]. split; [lia|]. auto.
Qed.
Lemma column_even e c Y o : column c -> spot ns e (c + 300) Y o -> even Y.
Proof.
  intros C A. destruct (column_spot e c Y o C A) as [(_ & M)|(a & _ & _ & [(_ & _ & ->)|(_ & _ & ->)])]; [exact (mid_even _ _ _ M)|apply zb_ten|apply zt_ten].
Qed.
(** Nodes in a gap depend on the column only. *)
Lemma lit_gap c Y Y' : gap c Y Y' -> shone d hs c Y -> shone d hs c Y'.
Proof.
  intros G (a & E & Ea & H). exists a. split; [exact E|]. split; [exact Ea|]. pose proof (end_range d hs a E) as L.
  specialize (G (tab a) L Ea). pose proof (table_bounds d hs GD (tab a) L). destruct H as [[Lo H]|[Hi H]]; [left|right]; (split; [assumption|lia]).
Qed.

Lemma corr_vline K a b Y Y' o u : corridor K -> spot ns a K Y o -> spot ns b K Y' u -> conn g a b (Z.abs (Y - Y') / 2).
Proof.
  intros C A B. pose proof (corridor_none d hs GD g R _ _ _ _ C A) as ->. pose proof (corridor_none d hs GD g R _ _ _ _ C B) as ->.
  destruct (Z.lt_trichotomy Y Y') as [L|[<-|L]].
  - eapply conn_le; [eapply (vline d hs GD g R (Z.to_nat (Y' - Y))); eauto; try lia|apply Z.div_le_mono; lia].
    + now apply corridor_misses.
    + intros c X w Sc _. now apply (corridor_none d hs GD g R _ _ _ _ C Sc).
  - eapply conn_le; [eapply (conn_le_same d hs); eauto|apply Z.div_pos; lia].
  - apply conn_sym. eapply conn_le; [eapply (vline d hs GD g R (Z.to_nat (Y - Y'))); eauto; try lia|apply Z.div_le_mono; lia].
    + now apply corridor_misses.
    + intros c X w Sc _. now apply (corridor_none d hs GD g R _ _ _ _ C Sc).
Qed.

Lemma mid_down_line e f c Y Y' : mid e c Y -> mid f c Y' -> gap c Y Y' -> Y < Y' -> conn g e f ((Y' - Y) / 2).
Proof.
  intros [A C _ _ _] [B _ _ _ _] G L. eapply (vline d hs GD g R (Z.to_nat (Y' - Y))); eauto; [lia| |].
  - intros t Lt. pose proof (zl_cases t). destruct (Z.eq_dec (zl t) c) as [E|E]; [specialize (G t Lt E); lia|unfold column in C; lia].
  - intros q Yq w Sq Bq. destruct (column_spot q c Yq w C Sq) as [(-> & _)|(a & Er & E & H)]; [reflexivity|].
    exfalso. pose proof (end_range d hs a Er) as Lt. specialize (G (tab a) Lt E). pose proof (table_bounds d hs GD (tab a) Lt). destruct H as [(_ & _ & ->)|(_ & _ & ->)]; lia.
Qed.
Lemma mid_line e f c Y Y' : mid e c Y -> mid f c Y' -> gap c Y Y' -> conn g e f (Z.abs (Y - Y') / 2).
Proof.
  intros A B G. destruct (Z.lt_trichotomy Y Y') as [L|[E|L]].
  - eapply conn_le; [eapply mid_down_line; eauto|apply Z.div_le_mono; lia].
  - subst Y'. eapply conn_le; [eapply (conn_le_same d hs); [exact R|exact (md_spot _ _ _ A)|exact (md_spot _ _ _ B)]|apply Z.div_pos; lia].
  - apply conn_sym. eapply conn_le; [eapply mid_down_line; eauto; now apply gap_sym|apply Z.div_le_mono; lia].
Qed.
Lemma port_line p e c s Y : column c -> spot ns p (c + 300) (zb hs s) (Some Down) -> (s < length hs)%nat -> zl s = c -> mid e c Y -> zb hs s < Y ->
  (forall t, (t < length hs)%nat -> zl t = c -> zb hs t <= zb hs s \/ Y <= zt hs t - 80) -> conn g p e ((Y - zb hs s) / 2).
Proof.
  intros C A Ls Es [B _ _ _ _] L G. eapply (vline d hs GD g R (Z.to_nat (Y - zb hs s))); eauto; [lia| |].
  - intros t Lt. pose proof (zl_cases t). destruct (Z.eq_dec (zl t) c) as [E|E]; [specialize (G t Lt E); lia|unfold column in C; lia].
  - intros q Yq w Sq Bq. destruct (column_spot q c Yq w C Sq) as [(-> & _)|(a & Er & E & H)]; [reflexivity|].
    exfalso. pose proof (end_range d hs a Er) as Lt. specialize (G (tab a) Lt E). pose proof (table_bounds d hs GD (tab a) Lt). destruct H as [(_ & _ & ->)|(_ & _ & ->)]; lia.
Qed.

Lemma up_line p e c s Y : column c -> spot ns p (c + 300) (zt hs s) (Some Up) -> (s < length hs)%nat -> zl s = c -> mid e c Y -> Y < zt hs s ->
  (forall t, (t < length hs)%nat -> zl t = c -> zt hs s <= zt hs t \/ zb hs t + 80 <= Y) -> conn g p e ((zt hs s - Y) / 2).
Proof.
  intros C A Ls Es [B _ _ _ _] L G. apply conn_sym. eapply (vline d hs GD g R (Z.to_nat (zt hs s - Y))); eauto; [lia| |].
  - intros t Lt. pose proof (zl_cases t). destruct (Z.eq_dec (zl t) c) as [E|E]; [specialize (G t Lt E); lia|unfold column in C; lia].
  - intros q Yq w Sq Bq. destruct (column_spot q c Yq w C Sq) as [(-> & _)|(a & Er & E & H)]; [reflexivity|].
    exfalso. pose proof (end_range d hs a Er) as Lt. specialize (G (tab a) Lt E). pose proof (table_bounds d hs GD (tab a) Lt). destruct H as [(_ & _ & ->)|(_ & _ & ->)]; lia.
Qed.

Lemma even_div a b : even a -> even b -> exists k, Z.abs (a - b) / 2 = 5 * k /\ Z.abs (a - b) = 10 * k.
Proof.
  intros (x & ->) (y & ->). exists (Z.abs (x - y)). assert (E : Z.abs (10 * x - 10 * y) = 5 * Z.abs (x - y) * 2) by lia.
  rewrite E, Z.div_mul by lia. lia.
Qed.

(** From a node of the column to a corridor beside it, along a line in the same gap. *)
Lemma hub e k c K Y Yo : mid e c Y -> (K = c - 80 \/ K = c + 680) -> spot ns k K Yo None -> ys hs Yo -> gap c Y Yo ->
  conn g e k (190 + Z.abs (Y - Yo) / 2).
Proof.
  intros M Ek A Yy G. pose proof (md_col _ _ _ M) as C. pose proof (lit_gap c Y Yo G (md_lit _ _ _ M)) as Da.
  destruct (mid_spot d hs g R c Yo C Yy) as (f & F); [exact (gap_clear c Y Yo C G)|exact Da|].
  pose proof (spot_mid f c Yo C F) as Mf. pose proof (mid_line e f c Y Yo M Mf G) as C1.
  assert (C2 : conn g f k 190).
  { destruct Ek as [-> | ->].
    - apply conn_sym. eapply conn_le; [eapply (even_line d hs FD g R k f _ _ Yo); eauto; lia|]. apply (Z.div_le_mono _ 380 2); lia.
    - eapply conn_le; [eapply (even_line d hs FD g R f k _ _ Yo); eauto; lia|]. apply (Z.div_le_mono _ 380 2); lia. }
  eapply conn_le; [exact (conn_trans g _ _ _ _ _ C1 C2)|lia].
Qed.

(** Nearest tables of the column above and below a line. *)
Lemma nearest_above c Y : gap c Y Y -> (exists t, (t < length hs)%nat /\ zl t = c /\ zb hs t <= Y) ->
  exists T, (T < length hs)%nat /\ zl T = c /\ zb hs T + 80 <= Y /\ gap c Y (zb hs T + 80) /\
    forall t, (t < length hs)%nat -> zl t = c -> zb hs t <= Y -> zb hs t <= zb hs T.
Proof.
  intros G (t0 & L0 & E0 & B0).
  destruct (highest (fun t => zl t = c /\ zb hs t <= Y) (length hs)) as (T & LT & (ET & BT) & M); [eauto|].
  pose proof (table_bounds d hs GD T LT) as BB.
  assert (Q : forall t, (t < length hs)%nat -> zl t = c -> zb hs t <= Y -> t = T \/ zb hs t + 160 <= zt hs T).
  { intros t L E B. pose proof (M t L (conj E B)). destruct (Nat.eq_dec t T) as [->|Ne]; [now left|]. right. apply col_order; auto; lia. }
  exists T. split; [exact LT|]. split; [exact ET|]. split; [specialize (G T LT ET); lia|]. split.
  - intros t L E. pose proof (table_bounds d hs GD t L). specialize (G t L E) as Gt. pose proof (G T LT ET). destruct Gt as [[Gt _]|[Gt _]].
    + left. split; [exact Gt|]. destruct (Q t L E) as [->|]; lia.
    + right. split; [exact Gt|]. destruct (le_lt_dec t T) as [Le|Lt].
      * destruct (Nat.eq_dec t T) as [->|Ne]; [lia|]. pose proof (col_order t T L LT ltac:(lia) ltac:(lia)). lia.
      * pose proof (col_order T t LT L ltac:(lia) Lt). lia.
  - intros t L E B. destruct (Q t L E B) as [->|]; lia.
Qed.
Lemma nearest_below c Y : gap c Y Y -> (exists t, (t < length hs)%nat /\ zl t = c /\ Y <= zt hs t) ->
  exists T, (T < length hs)%nat /\ zl T = c /\ Y <= zt hs T - 80 /\ gap c Y (zt hs T - 80) /\
    forall t, (t < length hs)%nat -> zl t = c -> Y <= zt hs t -> zt hs T <= zt hs t.
Proof.
  intros G (t0 & L0 & E0 & B0).
  destruct (lowest (fun t => zl t = c /\ Y <= zt hs t) (length hs)) as (T & LT & (ET & BT) & M); [eauto|].
  pose proof (table_bounds d hs GD T LT) as BB.
  assert (Q : forall t, (t < length hs)%nat -> zl t = c -> Y <= zt hs t -> t = T \/ zb hs T + 160 <= zt hs t).
  { intros t L E B. pose proof (M t L (conj E B)). destruct (Nat.eq_dec t T) as [->|Ne]; [now left|]. right. apply col_order; auto; lia. }
  exists T. split; [exact LT|]. split; [exact ET|]. split; [specialize (G T LT ET); lia|]. split.
  - intros t L E. pose proof (table_bounds d hs GD t L). specialize (G t L E) as Gt. pose proof (G T LT ET). destruct Gt as [[Gt _]|[Gt _]].
    + left. split; [exact Gt|]. destruct (le_lt_dec T t) as [Le|Lt].
      * destruct (Nat.eq_dec t T) as [->|Ne]; [lia|]. pose proof (col_order T t LT L ltac:(lia) ltac:(lia)). lia.
      * pose proof (col_order t T L LT ltac:(lia) Lt). lia.
    + right. split; [exact Gt|]. destruct (Q t L E) as [->|]; lia.
  - intros t L E B. destruct (Q t L E B) as [->|]; lia.
Qed.

Lemma column_corridor c K : column c -> K = c - 80 \/ K = c + 680 -> corridor K.
Proof. unfold column, corridor. lia. Qed.
Lemma corner_at c K Y : line hs c Y -> K = c - 80 \/ K = c + 680 -> exists k, spot ns k K Y None.
Proof. intros L Ek. apply (corner_spot d hs g R K Y). destruct (line_corner hs c Y L) as [L1 L2]. destruct Ek as [-> | ->]; assumption. Qed.

(** From a node in a corridor beside the column to any node of the column. *)
Lemma beside h e1 e2 c K Y1 Y2 : mid e1 c Y1 -> mid e2 c Y2 -> (K = c - 80 \/ K = c + 680) -> spot ns h K Y1 None -> joined es h e1 ->
  conn g h e2 (190 + Z.abs (Y1 - Y2) / 2).
Proof.
  intros M1 M2 Ek H J. pose proof (md_col _ _ _ M1) as C. pose proof (column_corridor c K C Ek) as Co.
  destruct (even_div Y1 Y2 (mid_even _ _ _ M1) (mid_even _ _ _ M2)) as (q & Q1 & Q2).
  destruct (classic (gap c Y1 Y2)) as [G|NG].
  { pose proof (conn_edge d hs GD g R h e1 _ _ _ _ _ _ H (md_spot _ _ _ M1) (or_intror eq_refl) J) as C1.
    pose proof (mid_line e1 e2 c Y1 Y2 M1 M2 G) as C2. eapply conn_le; [exact (conn_trans g _ _ _ _ _ C1 C2)|].
    replace (Z.abs (K - (c + 300)) + Z.abs (Y1 - Y1)) with (190 * 2) by lia. rewrite Z.div_mul by lia. lia. }
  assert (B : exists t, (t < length hs)%nat /\ zl t = c /\ ((zb hs t + 80 <= Y2 /\ Y1 <= zt hs t - 80) \/ (zb hs t + 80 <= Y1 /\ Y2 <= zt hs t - 80))).
  { apply NNPP. intros N. apply NG. intros t Lt Et. pose proof (md_gap _ _ _ M1 t Lt Et). pose proof (md_gap _ _ _ M2 t Lt Et).
    destruct (classic ((zb hs t + 80 <= Y1 /\ zb hs t + 80 <= Y2) \/ (Y1 <= zt hs t - 80 /\ Y2 <= zt hs t - 80))) as [?|X]; [assumption|].
    exfalso. apply N. exists t. repeat split; auto. lia. }
  destruct B as (t & Lt & Et & [[B1 B2]|[B1 B2]]); pose proof (table_bounds d hs GD t Lt).
  - destruct (nearest_above c Y2 (md_gap _ _ _ M2)) as (T & LT & ET & BT & GT & Max); [exists t; repeat split; auto; lia|].
    specialize (Max t Lt Et ltac:(lia)).
    assert (Lc : line hs c (zb hs T + 80)) by (exists T; auto). destruct (corner_at c K _ Lc Ek) as (k & Sk).
    pose proof (corr_vline K h k _ _ _ _ Co H Sk) as C1.
    pose proof (hub e2 k c K Y2 (zb hs T + 80) M2 Ek Sk (line_ys hs c _ Lc) GT) as C2.
    eapply conn_le; [exact (conn_trans g _ _ _ _ _ C1 (conn_sym g _ _ _ C2))|].
    pose proof (half_add (Z.abs (Y1 - (zb hs T + 80))) (Z.abs (Y2 - (zb hs T + 80))) (Z.abs (Y1 - Y2)) ltac:(lia)). lia.
  - destruct (nearest_below c Y2 (md_gap _ _ _ M2)) as (T & LT & ET & BT & GT & Max); [exists t; repeat split; auto; lia|].
    specialize (Max t Lt Et ltac:(lia)).
    assert (Lc : line hs c (zt hs T - 80)) by (exists T; auto). destruct (corner_at c K _ Lc Ek) as (k & Sk).
    pose proof (corr_vline K h k _ _ _ _ Co H Sk) as C1.
    pose proof (hub e2 k c K Y2 (zt hs T - 80) M2 Ek Sk (line_ys hs c _ Lc) GT) as C2.
    eapply conn_le; [exact (conn_trans g _ _ _ _ _ C1 (conn_sym g _ _ _ C2))|].
    pose proof (half_add (Z.abs (Y1 - (zt hs T - 80))) (Z.abs (Y2 - (zt hs T - 80))) (Z.abs (Y1 - Y2)) ltac:(lia)). lia.
Qed.

(** ** Neighbours outside the column *)

Lemma next_outside e h c Y X Y' o : mid e c Y -> joined es e h -> spot ns h X Y' o -> X <> c + 300 -> Y' = Y /\ o = None /\
  (X = c - 80 \/ X = c + 680 \/
   (X < c - 80 /\ ~ corner hs (c - 80) Y) \/ (c + 680 < X /\ ~ corner hs (c + 680) Y)).
Proof.
  intros M J H Ne. pose proof (md_spot _ _ _ M) as A. pose proof (md_col _ _ _ M) as C.
  destruct (edge_straight d hs g R e h _ _ _ _ _ _ J A H) as [(E & _)|[(E & _)|(E & _)]]; [|congruence|congruence].
  symmetry in E. subst Y'. split; [reflexivity|]. destruct (even_spot d hs FD g R h X Y o (md_ys _ _ _ M) H) as [-> Kx].
  split; [reflexivity|].
  assert (Fc : free hs c Y).
  { intros t L E. pose proof (md_gap _ _ _ M t L E). lia. }
  destruct (Z.lt_trichotomy X (c + 300)) as [L|[E|L]]; [|congruence|].
  - destruct (Z.eq_dec X (c - 80)) as [E|Ne']; [now left|]. right. right. left.
    assert (Lx : X < c - 80) by (destruct C as [-> | [-> | ->]]; lia). split; [exact Lx|]. intros Co.
    destruct (corner_spot d hs g R (c - 80) Y Co) as (k & Sk).
    assert (Mk : misses hs (c - 80) Y (c + 300) Y).
    { apply misses_free; [lia|]. intros c' C'. destruct (Z.eq_dec c' c) as [->|N]; [right; right; exact Fc|]. unfold column in *. lia. }
    destruct (edge_h d hs GD g R h e X (c + 300) Y None None) as (_ & _ & [P|P]); auto; [destruct J; [right|left]; assumption| |].
    + destruct P as [P1 [P2|P2]].
      * assert (c + 300 <= c - 80); [|lia]. apply (P1 k (c - 80) None Sk); [lia|now left|].
        intros t Lt. specialize (P2 t Lt). lia.
      * pose proof (P2 k (c - 80) None Sk ltac:(lia) (or_introl eq_refl)).
        pose proof (corner_first d hs FD g R (c - 80) Y c k e Co C Sk A). lia.
    + destruct P as [P1 _]. assert (c - 80 <= X); [|lia]. apply (P1 k (c - 80) None Sk); [lia|now left|exact Mk].
  - destruct (Z.eq_dec X (c + 680)) as [E|Ne']; [now right; left|]. right. right. right.
    assert (Lx : c + 680 < X) by (destruct C as [-> | [-> | ->]]; lia). split; [exact Lx|]. intros Co.
    destruct (corner_spot d hs g R (c + 680) Y Co) as (k & Sk).
    assert (Mk : misses hs (c + 300) Y (c + 680) Y).
    { apply misses_free; [lia|]. intros c' C'. destruct (Z.eq_dec c' c) as [->|N]; [right; right; exact Fc|]. unfold column in *. lia. }
    destruct (edge_h d hs GD g R e h (c + 300) X Y None None) as (_ & _ & [P|P]); auto.
    + destruct P as [P1 _]. assert (X <= c + 680); [|lia]. apply (P1 k (c + 680) None Sk); [lia|now left|exact Mk].
    + destruct P as [P1 [P2|P2]].
      * assert (c + 680 <= c + 300); [|lia]. apply (P1 k (c + 680) None Sk); [lia|now left|].
        intros t Lt. specialize (P2 t Lt). lia.
      * pose proof (P2 k (c + 680) None Sk ltac:(lia) (or_introl eq_refl)).
        pose proof (corner_first d hs FD g R (c + 680) Y c k e Co C Sk A). lia.
Qed.

(** ** Rows of the grid *)

Lemma next_top r t : (t / 3 = S r)%nat ->
  zt hs t = Z.max (zb hs (3 * r)) (Z.max (zb hs (3 * r + 1)) (zb hs (3 * r + 2))) + 160.
Proof.
  intros E. assert (Ht : forall j, (j < 3)%nat -> zt hs (3 * r + j) = 2 * row_top hs r).
  { intros j L. unfold zt, table_top. replace ((3 * r + j) / 3)%nat with r; [reflexivity|].
    apply Nat.div_unique with j; lia. }
  pose proof (Ht 0%nat ltac:(lia)) as H0. rewrite Nat.add_0_r in H0. pose proof (Ht 1%nat ltac:(lia)) as H1. pose proof (Ht 2%nat ltac:(lia)) as H2.
  rewrite !zb_rows, H0, H1, H2. unfold zt, table_top. rewrite E. cbn [row_top]. unfold tallest. lia.
Qed.
Lemma in_row t : exists r : nat, (t / 3 = r)%nat /\ ((t = (3 * r)%nat /\ zl t = 100) \/ (t = (3 * r + 1)%nat /\ zl t = 860) \/ (t = (3 * r + 2)%nat /\ zl t = 1620)).
Proof.
  exists (t / 3)%nat. split; [reflexivity|]. pose proof (zl_cases t) as Z. pose proof (Nat.div_mod t 3 ltac:(lia)). lia.
Qed.
Lemma row_zl r : zl (3 * r) = 100 /\ zl (3 * r + 1) = 860 /\ zl (3 * r + 2) = 1620.
Proof.
  assert (H : forall j, (j < 3)%nat -> ((3 * r + j) mod 3 = j)%nat) by (intros j L; symmetry; apply Nat.mod_unique with r; lia).
  pose proof (H 0%nat ltac:(lia)) as H0. rewrite Nat.add_0_r in H0. pose proof (H 1%nat ltac:(lia)). pose proof (H 2%nat ltac:(lia)).
  pose proof (zl_cases (3 * r)). pose proof (zl_cases (3 * r + 1)). pose proof (zl_cases (3 * r + 2)). lia.
Qed.
Lemma row_div r : (3 * r / 3 = r /\ (3 * r + 1) / 3 = r /\ (3 * r + 2) / 3 = r)%nat.
Proof.
  assert (H : forall j, (j < 3)%nat -> ((3 * r + j) / 3 = r)%nat) by (intros j L; symmetry; apply Nat.div_unique with j; lia).
  pose proof (H 0%nat ltac:(lia)) as H0. rewrite Nat.add_0_r in H0. split; [exact H0|]. split; apply H; lia.
Qed.
Lemma row_zt r : zt hs (3 * r + 1) = zt hs (3 * r) /\ zt hs (3 * r + 2) = zt hs (3 * r).
Proof. destruct (row_div r) as (A & B & C). split; apply zt_same; congruence. Qed.
End Doc.
