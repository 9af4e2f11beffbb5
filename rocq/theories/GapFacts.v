(** Relations between neighbouring columns. *)
From Coq Require Import String List Arith NArith ZArith Bool Lia SpecFloat Classical_Prop Sorting.Sorted.
From Verif Require Import Base F32 Geometry Mir Erd Heap Route Layout Parser Cli SpecMir SpecF32 SpecGeom SpecLayout SpecRoute SpecGraph SpecRender SpecLink SpecEnds SpecThrough SpecGap
  F32Facts GeomFacts SearchFacts MirFacts GridFacts LayoutFacts RenderFacts PipelineFacts GraphFacts PathFacts LatticeFacts
  ConnectFacts HubFacts DrawFacts OrderFacts RowFacts LineFacts MidFacts FarFacts TurnFacts CalmFacts LinkFacts EndFacts ThroughFacts MiddleFacts.
Import ListNotations.
Local Open Scope Z_scope.

(** ** A bound from below for vertical distances *)

Section Bound.
Variables (A B : Z) (S : list Z).
Hypothesis HA : exists a, A = 10 * a + 5.
Hypothesis HB : exists b, B = 10 * b + 5.
Hypothesis HAB : A <= B.
Hypothesis HS : NoDup S.
Hypothesis HT : Forall (fun e => exists k, e = 10 * k) S.

Definition clamp (Y : Z) : Z := Z.max A (Z.min B Y).
Definition count (Y : Z) : Z := Z.of_nat (length (filter (fun e => e <? Y) S)).
(** Half the height above [A], less one for every tenth line passed. *)
Definition climb (Y : Z) : Z := (clamp Y - A) / 2 - count (clamp Y).

Lemma count_mono Y1 Y2 : Y1 <= Y2 -> count Y1 <= count Y2.
Proof.
  intros L. unfold count. clear - L. induction S as [|e l IH]; [cbn; lia|]. cbn [filter].
  destruct (Z.ltb_spec e Y1), (Z.ltb_spec e Y2); cbn [length]; lia.
Qed.
Lemma count_next Y1 Y2 : In Y1 S -> Y1 < Y2 -> count Y1 + 1 <= count Y2.
Proof.
  intros I L. unfold count. clear - I L. induction S as [|e l IH]; [destruct I|]. cbn [filter].
  destruct I as [-> | I].
  - rewrite Z.ltb_irrefl. destruct (Z.ltb_spec Y1 Y2); [|lia]. cbn [length].
    enough (length (filter (fun e => (e <? Y1)%Z) l) <= length (filter (fun e => (e <? Y2)%Z) l))%nat by lia.
    clear - L. induction l as [|e l IH]; [cbn; lia|]. cbn [filter]. destruct (Z.ltb_spec e Y1), (Z.ltb_spec e Y2); cbn [length]; lia.
  - specialize (IH I). destruct (Z.ltb_spec e Y1), (Z.ltb_spec e Y2); cbn [length]; lia.
Qed.
Lemma count_range Y : 0 <= count Y <= Z.of_nat (length S).
Proof. unfold count. clear. induction S as [|e l IH]; [cbn; lia|]. cbn [filter]. destruct (e <? Y); cbn [length]; lia. Qed.

(** Few tenth lines fit between two heights. *)
Lemma tens_fit l a n : NoDup l -> Forall (fun e => exists k, e = 10 * k) l -> (forall e, In e l -> a <= e < a + Z.of_nat n) -> 10 * Z.of_nat (length l) <= Z.of_nat n + 9.
Proof.
  intros N T I.
  assert (Len : (length l <= length (map (fun k => (10 * ((a + 9) / 10 + Z.of_nat k))%Z) (seq 0 ((n + 9) / 10))))%nat).
  { apply NoDup_incl_length; [exact N|]. intros e Ie. rewrite Forall_forall in T. destruct (T e Ie) as (k & ->). specialize (I _ Ie).
    apply in_map_iff. exists (Z.to_nat (k - (a + 9) / 10)).
    pose proof (Z.div_mod (a + 9) 10 ltac:(lia)) as D. pose proof (Z.mod_pos_bound (a + 9) 10 ltac:(lia)) as M.
    split; [lia|]. apply in_seq. pose proof (Nat.div_mod (n + 9) 10 ltac:(lia)) as D'. pose proof (Nat.mod_upper_bound (n + 9) 10 ltac:(lia)). lia. }
  rewrite map_length, seq_length in Len. pose proof (Nat.div_mod (n + 9) 10 ltac:(lia)) as D'. lia.
Qed.
Lemma count_few Y1 Y2 : Y1 <= Y2 -> 10 * (count Y2 - count Y1) <= Y2 - Y1 + 9.
Proof.
  intros L. pose proof (tens_fit (filter (fun e => (Y1 <=? e) && (e <? Y2)) S) Y1 (Z.to_nat (Y2 - Y1))) as H.
  assert (E : count Y2 - count Y1 = Z.of_nat (length (filter (fun e => (Y1 <=? e) && (e <? Y2)) S))).
  { unfold count. clear - L. induction S as [|e l IH]; [cbn; lia|]. cbn [filter].
    destruct (Z.ltb_spec e Y1), (Z.ltb_spec e Y2), (Z.leb_spec Y1 e); cbn [length andb]; lia. }
  rewrite E, Z2Nat.id in * by lia. apply H.
  - now apply NoDup_filter.
  - rewrite Forall_forall in *. intros e I. apply filter_In in I as [I _]. auto.
  - intros e I. apply filter_In in I as [_ I]. apply andb_true_iff in I as [I1 I2]. apply Z.leb_le in I1. apply Z.ltb_lt in I2. lia.
Qed.

Definition known (Y : Z) : Prop := exists k, Y = 5 * k /\ (Y = 10 * (Y / 10) -> A < Y < B -> In Y S).

Lemma climb_up Y1 Y2 : known Y1 -> known Y2 -> Y1 <= Y2 -> climb Y2 - climb Y1 <= (Y2 - Y1) / 2 /\ climb Y1 - climb Y2 <= (Y2 - Y1) / 2.
Proof.
  intros (k1 & E1 & I1) (k2 & E2 & I2) L. destruct HA as (a & Ea), HB as (b & Eb).
  unfold climb. set (c1 := clamp Y1). set (c2 := clamp Y2).
  assert (Lc : c1 <= c2 /\ c2 - c1 <= Y2 - Y1) by (unfold c1, c2, clamp; clear - L; lia). destruct Lc as [Lc Ld].
  assert (Hd : (c2 - c1) / 2 <= (Y2 - Y1) / 2) by (apply Z.div_le_mono; lia).
  pose proof (count_mono c1 c2 Lc) as Mc. pose proof (count_few c1 c2 Lc) as Fc.
  assert (F1 : exists k, c1 = 5 * k).
  { unfold c1, clamp. destruct (Z.max_spec A (Z.min B Y1)) as [[_ ->]|[_ ->]]; [|exists (2 * a + 1); lia].
    destruct (Z.min_spec B Y1) as [[_ ->]|[_ ->]]; [exists (2 * b + 1); lia|eauto]. }
  assert (F2 : exists k, c2 = 5 * k).
  { unfold c2, clamp. destruct (Z.max_spec A (Z.min B Y2)) as [[_ ->]|[_ ->]]; [|exists (2 * a + 1); lia].
    destruct (Z.min_spec B Y2) as [[_ ->]|[_ ->]]; [exists (2 * b + 1); lia|eauto]. }
  destruct F1 as (j1 & F1), F2 as (j2 & F2).
  pose proof (half_le (c2 - A) ltac:(unfold c2, clamp; lia)) as H2. pose proof (half_le (c1 - A) ltac:(unfold c1, clamp; lia)) as H1.
  pose proof (half_le (c2 - c1) ltac:(lia)) as H3.
  destruct (Z.eq_dec c1 c2) as [Q|Nq]; [rewrite Q in *; clear - Hd H3; lia|].
  split; [|clear - Fc Mc H1 H2 H3 Hd F1 F2 Nq Lc; lia].
  destruct (Z.eq_dec (2 * ((c1 - A) / 2)) (c1 - A)) as [Ev|Od]; [clear - Mc H1 H2 H3 Hd Ev; lia|].
  (* passing a tenth line *)
  assert (Q : A < c1 < B /\ c1 = Y1) by (unfold c1, clamp in *; clear - Od Nq Lc Ea Eb HAB H1; lia). destruct Q as [Bc Ec].
  assert (T : c1 = 10 * (c1 / 10)).
  { assert (X : exists z, c1 - A = 2 * z + 1) by (exists ((c1 - A) / 2); clear - Od H1; lia). destruct X as (z & X).
    assert (X' : exists y, c1 = 10 * y). { exists (c1 / 10). pose proof (Z.div_mod c1 10 ltac:(lia)). pose proof (Z.mod_pos_bound c1 10 ltac:(lia)). clear - X F1 Ea H H0. lia. }
    destruct X' as (y & ->). rewrite Z.mul_comm at 2. rewrite Z.div_mul; lia. }
  assert (In c1 S) as I by (rewrite Ec in *; auto).
  pose proof (count_next c1 c2 I ltac:(lia)) as N. clear - N H1 H2 H3 Hd Od. lia.
Qed.
Lemma climb_step Y1 Y2 : known Y1 -> known Y2 -> climb Y2 - climb Y1 <= Z.abs (Y1 - Y2) / 2.
Proof.
  intros K1 K2. destruct (Z.le_ge_cases Y1 Y2) as [L|L].
  - rewrite Z.abs_neq by lia. replace (- (Y1 - Y2)) with (Y2 - Y1) by lia. now apply climb_up.
  - rewrite Z.abs_eq by lia. now apply climb_up.
Qed.
Lemma climb_near Y1 Y2 e : 0 <= e -> Y1 <= A + e -> B - e <= Y2 -> B - A - 2 * e - 1 - 2 * Z.of_nat (length S) <= 2 * (climb Y2 - climb Y1).
Proof.
  intros Le L1 L2. unfold climb. pose proof (count_range (clamp Y1)). pose proof (count_range (clamp Y2)).
  pose proof (half_le (clamp Y2 - A) ltac:(unfold clamp; lia)). pose proof (half_le (clamp Y1 - A) ltac:(unfold clamp; lia)).
  assert (clamp Y1 <= A + e) by (unfold clamp; lia). assert (B - e <= clamp Y2) by (unfold clamp; lia). lia.
Qed.
End Bound.

Lemma abs_sub a b : Z.abs (a - b) = Z.abs (b - a).
Proof. lia. Qed.
Lemma arith_out c1 c2 c3 e f h v x x' w s : c1 - c2 <= e / 2 -> e <= 2 * v -> 380 <= f -> 80 <= h -> 2 * x = 2 * v + f + 2 * x' ->
  h + 2 * (c3 - c1) <= 2 * x' -> w - 71 - 2 * s <= 2 * (c3 - c2) -> s <= 110 -> 2 * x <= w + 160 -> False.
Proof. intros. pose proof (Z.mul_div_le e 2). lia. Qed.

(** ** The tenth lines of some rows of tables *)

Section Doc.
Variables (d : document) (hs : list nat).
Hypothesis FD : end_doc d hs.
Let GD := ed_grid d hs FD.
Variable g : route_graph.
Hypothesis R : routes d hs g.
Let ns := rg_nodes g.
Let es := rg_edges g.
Let cost := rg_cost ns.
Local Notation steps := (steps g).
Local Notation stop := (stop hs g).
Local Notation better := (better hs g).
Local Notation conn := (conn g).

Definition row_lines (r : nat) : list Z :=
  [zt hs (3 * r) - 80; zt hs (3 * r)] ++
  flat_map (fun u => [zb hs u; zb hs u + 80; rowY hs (table_end u)]) [(3 * r)%nat; (3 * r + 1)%nat; (3 * r + 2)%nat].
Definition tens (r n : nat) : list Z :=
  nodup Z.eq_dec (filter (fun e => e mod 10 =? 0) (flat_map row_lines (seq r n))).

Lemma tens_nodup r n : NoDup (tens r n).
Proof. apply NoDup_nodup. Qed.
Lemma tens_ten r n : Forall (fun e => exists k, e = 10 * k) (tens r n).
Proof.
  apply Forall_forall. intros e I. apply nodup_In, filter_In in I as [_ I]. apply Z.eqb_eq in I.
  exists (e / 10). apply Z.div_exact; lia.
Qed.
Lemma tens_length r n : (length (tens r n) <= 11 * n)%nat.
Proof.
  assert (L : (length (tens r n) <= length (flat_map row_lines (seq r n)))%nat).
  { apply NoDup_incl_length; [apply tens_nodup|]. intros e I. apply nodup_In, filter_In in I as [I _]. exact I. }
  enough (length (flat_map row_lines (seq r n)) = 11 * n)%nat by lia. clear. revert r.
  induction n as [|n IH]; intros r; [reflexivity|]. cbn [seq flat_map]. rewrite app_length, IH. cbn. lia.
Qed.
Lemma tens_in u r n Y : (r <= u / 3 < r + n)%nat -> Y = 10 * (Y / 10) ->
  (Y = zt hs u - 80 \/ Y = zt hs u \/ Y = zb hs u \/ Y = zb hs u + 80 \/ Y = rowY hs (table_end u)) -> In Y (tens r n).
Proof.
  intros Lu T H. apply nodup_In, filter_In. split.
  - apply in_flat_map. exists (u / 3)%nat. split; [apply in_seq; lia|].
    assert (E : zt hs (3 * (u / 3)) = zt hs u) by (apply zt_same; rewrite Nat.mul_comm, Nat.div_mul; lia).
    unfold row_lines. apply in_or_app. destruct H as [H|[H|H]]; [left; left; rewrite E; auto|left; right; left; rewrite E; auto|right].
    apply in_flat_map. exists u. split; [|cbn; destruct H as [H|[H|H]]; auto].
    pose proof (Nat.div_mod u 3 ltac:(lia)). pose proof (Nat.mod_upper_bound u 3 ltac:(lia)).
    assert (Q : (u mod 3 = 0 \/ u mod 3 = 1 \/ u mod 3 = 2)%nat) by lia. destruct Q as [Q|[Q|Q]]; [left|right; left|right; right; left]; lia.
  - apply Z.eqb_eq. rewrite T, Z.mul_comm. apply Z.mod_mul. lia.
Qed.

Lemma level_ten a X Y o : spot ns a X Y o -> Y = 10 * (Y / 10) -> exists u, (u < length hs)%nat /\
  (Y = zt hs u - 80 \/ Y = zt hs u \/ Y = zb hs u \/ Y = zb hs u + 80 \/ Y = rowY hs (table_end u)).
Proof.
  intros A T.
  assert (Ey : ys hs Y -> exists u, (u < length hs)%nat /\
    (Y = zt hs u - 80 \/ Y = zt hs u \/ Y = zb hs u \/ Y = zb hs u + 80 \/ Y = rowY hs (table_end u))).
  { intros (u & L & H). exists u. split; [exact L|]. tauto. }
  assert (Er : forall c, rel d hs c Y -> exists u, (u < length hs)%nat /\
    (Y = zt hs u - 80 \/ Y = zt hs u \/ Y = zb hs u \/ Y = zb hs u + 80 \/ Y = rowY hs (table_end u))).
  { intros c (e & E & _ & Ee). pose proof (end_range d hs e E) as L. destruct e as [t k|t]; [|exists t; split; [exact L|tauto]].
    exfalso. destruct (zt_ten hs t) as (z & Ez). cbn [rowY] in Ee. clear - T Ee Ez. lia. }
  destruct (spot_kind d hs FD g R a X Y o A) as [(_ & _ & _ & E)|[(_ & _ & _ & c & E & _)|[(_ & c & _ & _ & E & _)|[(_ & E & _)|[(_ & E & _)|(u & E & _ & H)]]]]]; eauto.
  exists (tab u). split; [exact (end_range d hs u E)|]. tauto.
Qed.

(** The places of the ports of a field beside the line [K]. *)
Lemma stop_places t k K a : end_at d hs (row_end t k) -> zl t + 680 = K \/ zl t - 80 = K -> stop (row_end t k) a ->
  exists X Y o, spot ns a X Y o /\ rowY hs (row_end t k) <= Y <= rowY hs (row_end t k) + 35 /\
  ((X = K - 80 /\ zl t + 680 = K /\ Y = rowY hs (row_end t k) /\ o = Some Right) \/
   (X = K + 80 /\ zl t - 80 = K /\ Y = rowY hs (row_end t k) /\ o = Some Left) \/
   (X <= K - 380 /\ zl t + 680 = K) \/ (K + 380 <= X /\ zl t - 80 = K)).
Proof.
  intros E Hc (o & I & Sp). apply sides_in in I; [|exact (end_ok d hs _ E)]. exists (side_x t o), (side_y hs (row_end t k) o), (Some o).
  split; [exact Sp|]. cbn [high low] in *. destruct I as [-> | [-> | [[-> Lw]|[_ []]]]]; unfold side_x, side_y; cbn [tab].
  - split; [lia|]. destruct Hc; [left; repeat split; lia|right; right; right; lia].
  - split; [lia|]. destruct Hc as [H|H]; [right; right; left; lia|right; left]. repeat split; lia.
  - pose proof (row_last hs t k Lw) as El. split; [lia|destruct Hc; lia].
Qed.
Lemma row_stop t k a : end_at d hs (row_end t k) -> stop (row_end t k) a ->
  spot ns a (zl t) (rowY hs (row_end t k)) (Some Left) \/ spot ns a (zl t + 600) (rowY hs (row_end t k)) (Some Right) \/
  (low hs (row_end t k) /\ spot ns a (zl t + 300) (zb hs t) (Some Down)).
Proof.
  intros E (o & I & Sp). apply sides_in in I; [|exact (end_ok d hs _ E)].
  destruct I as [-> | [-> | [[-> Lw]|[_ []]]]]; unfold side_x, side_y in Sp; cbn [tab] in Sp; auto.
Qed.
(** The nodes around the line. *)
Lemma gap_places K a X Y o : corridor K -> spot ns a X Y o ->
  X <= K - 380 \/ (X = K - 80 /\ o = Some Right) \/ X = K \/ (X = K + 80 /\ o = Some Left) \/ K + 380 <= X.
Proof.
  intros Hk A. unfold corridor in Hk. destruct (spot_kind d hs FD g R a X Y o A) as [(_ & C & _)|[(_ & C & _)|[(_ & c & C & -> & _)|[(_ & C & ->)|[(_ & C & ->)|(u & _ & -> & _)]]]]].
  - unfold corridor in C. lia.
  - unfold corridor in C. lia.
  - unfold column in C. lia.
  - apply rel_column in C. unfold column in C. assert (Q : X <= K - 380 \/ X = K + 80 \/ K + 380 <= X) by lia. tauto.
  - apply rel_column in C. unfold column in C. assert (Q : X <= K - 380 \/ X = K - 80 \/ K + 380 <= X) by lia. tauto.
  - pose proof (zl_cases (tab u)). lia.
Qed.

(** Lists that never turn are sorted. *)
Lemma straight_sorted l : (forall k y1 y2, nth_error l k = Some y1 -> nth_error l (S k) = Some y2 -> y1 <> y2) ->
  (forall k y1 y2 y3, nth_error l k = Some y1 -> nth_error l (S k) = Some y2 -> nth_error l (S (S k)) = Some y3 -> ~ beyond y1 y2 y3) ->
  StronglySorted Z.lt l \/ StronglySorted Z.gt l.
Proof.
  intros D T. enough (Q : Sorted Z.lt l \/ Sorted Z.gt l).
  { destruct Q as [Q|Q]; [left|right]; apply Sorted_StronglySorted; auto; intros x y z; lia. }
  induction l as [|y1 l IH]; [left; constructor|].
  assert (IH' : Sorted Z.lt l \/ Sorted Z.gt l).
  { apply IH; [intros k; exact (D (S k))|intros k; exact (T (S k))]. }
  destruct l as [|y2 l]; [left; repeat constructor|]. pose proof (D 0%nat y1 y2 eq_refl eq_refl) as N.
  destruct l as [|y3 l]; [destruct (Z.lt_total y1 y2) as [L|[L|L]]; [left|congruence|right]; repeat constructor; lia|].
  pose proof (T 0%nat y1 y2 y3 eq_refl eq_refl eq_refl) as B. pose proof (D 1%nat y2 y3 eq_refl eq_refl) as N'. unfold beyond in B.
  destruct IH' as [Q|Q]; pose proof (Sorted_inv Q) as [_ H]; inversion H as [|? ? L]; subst; [left|right]; constructor; auto; constructor; lia.
Qed.

(** ** Two fields *)

Section Pair.
Variables (tp kp tq kq : nat).
Let p := row_end tp kp.
Let q := row_end tq kq.
Hypothesis Ep : end_at d hs p.
Hypothesis Eq : end_at d hs q.
Hypothesis Hr : (tp / 3 < tq / 3 + 10 /\ tq / 3 < tp / 3 + 10)%nat.
Let Yp := rowY hs p.
Let Yq := rowY hs q.
Let A := Z.min Yp Yq.
Let B := Z.max Yp Yq.
Let r := Nat.min (tp / 3) (tq / 3).
Let n := (Nat.max (tp / 3) (tq / 3) - r + 1)%nat.
Let S := tens r n.

Lemma pair_lines : (exists a, A = 10 * a + 5) /\ (exists b, B = 10 * b + 5) /\ A <= B /\ (length S <= 110)%nat.
Proof.
  destruct (zt_ten hs tp) as (z & Ez). destruct (zt_ten hs tq) as (z' & Ez').
  assert (E1 : Yp = 10 * (z + 7 * Z.of_nat kp + 3) + 5) by (unfold Yp, p, rowY; lia).
  assert (E2 : Yq = 10 * (z' + 7 * Z.of_nat kq + 3) + 5) by (unfold Yq, q, rowY; lia).
  split; [unfold A; destruct (Z.min_spec Yp Yq) as [[_ ->]|[_ ->]]; eauto|].
  split; [unfold B; destruct (Z.max_spec Yp Yq) as [[_ ->]|[_ ->]]; eauto|]. split; [unfold A, B; lia|].
  pose proof (tens_length r n) as L. fold S in L. unfold n, r in L. clear - L Hr. lia.
Qed.
Lemma pair_known a X Y o : spot ns a X Y o -> known A B S Y.
Proof.
  intros Sp. destruct (spot_five d hs FD g R a X Y o Sp) as (_ & k & E). exists k. split; [exact E|]. intros T [L1 L2].
  destruct (level_ten a X Y o Sp T) as (u & Lu & H). apply (tens_in u); [|exact T|exact H].
  pose proof (row_inside d hs FD p Ep) as Ip. pose proof (row_inside d hs FD q Eq) as Iq. cbn [tab p q] in Ip, Iq. fold p Yp in Ip. fold q Yq in Iq.
  pose proof (table_bounds d hs GD u Lu) as Bu. pose proof (row_within d hs FD (table_end u) ltac:(split; [exact Lu|exact I])) as Wu. cbn [tab] in Wu.
  assert (L3 : zt hs u - 80 <= Y <= zb hs u + 80) by (clear - H Bu Wu; lia).
  unfold n. split.
  - destruct (le_lt_dec r (u / 3)) as [L|L]; [exact L|exfalso].
    pose proof (zb_zt hs u tp ltac:(unfold r in L; lia)). pose proof (zb_zt hs u tq ltac:(unfold r in L; lia)).
    unfold A in L1. clear - L1 L3 Ip Iq H0 H1. lia.
  - destruct (le_lt_dec (u / 3) (Nat.max (tp / 3) (tq / 3))) as [L|L]; [unfold r; lia|exfalso].
    pose proof (zb_zt hs tp u ltac:(lia)). pose proof (zb_zt hs tq u ltac:(lia)).
    unfold B in L2. clear - L2 L3 Ip Iq H0 H1. lia.
Qed.

Lemma steps_spot a b x X Y o : steps a b x -> spot ns a X Y o -> exists X' Y' o', spot ns b X' Y' o'.
Proof.
  intros W. revert X Y o. induction W as [a|a b c x J W IH]; intros X Y o Sp; [eauto|].
  destruct (joined_spots d hs g R a b J) as (X1 & Y1 & X2 & Y2 & o1 & o2 & _ & Sb). exact (IH _ _ _ Sb).
Qed.

Lemma steps_bound a b x : steps a b x -> forall X1 Y1 o X2 Y2 u, spot ns a X1 Y1 o -> spot ns b X2 Y2 u ->
  Z.abs (X1 - X2) + 2 * (climb A B S Y2 - climb A B S Y1) <= 2 * x.
Proof.
  destruct pair_lines as (HA & HB & HAB & _).
  intros W. induction W as [a|a b c x J W IH]; intros X1 Y1 o X2 Y2 u Sa Sc.
  - destruct (spot_place g a _ _ _ _ _ _ Sa Sc) as (-> & -> & _). lia.
  - destruct (joined_spots d hs g R a b J) as (X3 & Y3 & X4 & Y4 & o3 & o4 & Sa' & Sb).
    destruct (spot_place g a _ _ _ _ _ _ Sa' Sa) as (-> & -> & ->). clear Sa'. specialize (IH _ _ _ _ _ _ Sb Sc).
    assert (E : X1 = X4 \/ Y1 = Y4) by (destruct (edge_straight d hs g R a b _ _ _ _ _ _ J Sa Sb); lia).
    destruct E as [<-|<-].
    + pose proof (cost_v d hs FD g R a b _ _ _ _ _ Sa Sb) as Cv.
      pose proof (climb_step A B S HA HB HAB (tens_nodup r n) (tens_ten r n) Y1 Y4 (pair_known a _ _ _ Sa) (pair_known b _ _ _ Sb)) as Cl.
      unfold ns in *. rewrite Cv. clear - IH Cl. lia.
    + pose proof (cost_h d hs FD g R a b _ _ _ _ _ Sa Sb) as Ch. unfold ns in *. clear - IH Ch. lia.
Qed.

(** Walks between points close to the fields. *)
Lemma near_bound a b x X1 Y1 o X2 Y2 u : steps a b x -> spot ns a X1 Y1 o -> spot ns b X2 Y2 u -> Yp <= Y1 <= Yp + 35 -> Yq <= Y2 <= Yq + 35 ->
  Z.abs (X1 - X2) + Z.abs (Yp - Yq) - 291 <= 2 * x.
Proof.
  intros W Sa Sb L1 L2. destruct pair_lines as (HA & HB & HAB & Ls).
  destruct (Z.le_ge_cases Yp Yq) as [Le|Ge].
  - pose proof (steps_bound a b x W _ _ _ _ _ _ Sa Sb) as Bd.
    pose proof (climb_near A B S HAB Y1 Y2 35 ltac:(lia) ltac:(unfold A; lia) ltac:(unfold B; lia)) as N. unfold A, B in N. fold A B in N. unfold A at 1, B at 1 in N. lia.
  - pose proof (steps_bound b a x (steps_sym d hs FD g R _ _ _ W) _ _ _ _ _ _ Sb Sa) as Bd.
    pose proof (climb_near A B S HAB Y2 Y1 35 ltac:(lia) ltac:(unfold A; lia) ltac:(unfold B; lia)) as N. unfold A at 1, B at 1 in N. lia.
Qed.
Lemma near_through a m b x y X1 Y1 o X3 Y3 w X2 Y2 u : steps a m x -> steps m b y -> spot ns a X1 Y1 o -> spot ns m X3 Y3 w -> spot ns b X2 Y2 u ->
  Yp <= Y1 <= Yp + 35 -> Yq <= Y2 <= Yq + 35 -> Z.abs (X1 - X3) + Z.abs (X3 - X2) + Z.abs (Yp - Yq) - 291 <= 2 * (x + y).
Proof.
  intros W1 W2 Sa Sm Sb L1 L2. destruct pair_lines as (HA & HB & HAB & Ls).
  destruct (Z.le_ge_cases Yp Yq) as [Le|Ge].
  - pose proof (steps_bound a m x W1 _ _ _ _ _ _ Sa Sm) as B1. pose proof (steps_bound m b y W2 _ _ _ _ _ _ Sm Sb) as B2.
    pose proof (climb_near A B S HAB Y1 Y2 35 ltac:(lia) ltac:(unfold A; lia) ltac:(unfold B; lia)) as N. unfold A at 1, B at 1 in N. lia.
  - pose proof (steps_bound m a x (steps_sym d hs FD g R _ _ _ W1) _ _ _ _ _ _ Sm Sa) as B1.
    pose proof (steps_bound b m y (steps_sym d hs FD g R _ _ _ W2) _ _ _ _ _ _ Sb Sm) as B2.
    pose proof (climb_near A B S HAB Y2 Y1 35 ltac:(lia) ltac:(unfold A; lia) ltac:(unfold B; lia)) as N. unfold A at 1, B at 1 in N. lia.
Qed.

(** The way along a corridor beside both. *)
Lemma direct K w : (K = zl tp - 80 \/ K = zl tp + 680) -> (K = zl tq - 80 \/ K = zl tq + 680) -> Z.abs (Yp - Yq) + 160 < 2 * w -> better p q w.
Proof.
  intros Kp Kq L. destruct (side_corridor d hs FD g R p K Ep Kp) as (i & j & Si & Sj & C1).
  destruct (side_corridor d hs FD g R q K Eq Kq) as (i' & j' & Si' & Sj' & C2).
  destruct (corr_conn d hs FD g R K j j' _ _ ltac:(pose proof (zl_cases tp); unfold corridor; lia) Sj Sj') as (z & Cz & Lz).
  exists i, i', (40 + (z + 40)). split; [exact Si|]. split; [exact Si'|]. split.
  - eapply conn_trans; [exact C1|]. eapply conn_trans; [exact Cz|]. now apply conn_sym.
  - fold Yp Yq in Lz. lia.
Qed.

(** A walk that cannot be improved runs along the corridor if its ends are beside it. *)
Section Walk.
Variables (a b : nat) (l : list nat).
Hypothesis Sa : stop p a.
Hypothesis Sb : stop q b.
Hypothesis W : walk es a b l.
Hypothesis Best : ~ better p q (Z.of_N (walk_cost cost l)).
Hypothesis Once : NoDup l.

Lemma best_short K : (K = zl tp - 80 \/ K = zl tp + 680) -> (K = zl tq - 80 \/ K = zl tq + 680) ->
  2 * Z.of_N (walk_cost cost l) <= Z.abs (Yp - Yq) + 160.
Proof.
  intros Kp Kq. destruct (Z.le_gt_cases (2 * Z.of_N (walk_cost cost l)) (Z.abs (Yp - Yq) + 160)) as [L|L]; [exact L|].
  exfalso. apply Best, (direct K); [exact Kp|exact Kq|lia].
Qed.

Section Beside.
Variables (K X1 X2 : Z) (o1 o2 : orientation).
Hypothesis Co : corridor K.
Hypothesis Short : 2 * Z.of_N (walk_cost cost l) <= Z.abs (Yp - Yq) + 160.
Hypothesis Sa1 : spot ns a X1 Yp (Some o1).
Hypothesis Sb1 : spot ns b X2 Yq (Some o2).
Hypothesis C1 : (X1 = K - 80 /\ o1 = Right) \/ (X1 = K + 80 /\ o1 = Left).
Hypothesis C2 : (X2 = K - 80 /\ o2 = Right) \/ (X2 = K + 80 /\ o2 = Left).
Hypothesis Nab : a <> b.

Lemma gap_inside k u i v : nth_error l k = Some u -> nth_error l (Datatypes.S k) = Some i -> nth_error l (Datatypes.S (Datatypes.S k)) = Some v ->
  exists Y, spot ns i K Y None.
Proof.
  intros Hu Hi Hv. destruct (walk_cut g k a b l u i v W Hu Hi Hv) as (x & y & W1 & J1 & J2 & W2 & E).
  destruct (joined_spots d hs g R u i J1) as (Xu & Yu & Xi & Yi & ou & oi & Su & Si).
  destruct (joined_spots d hs g R i v J2) as (X' & Y' & Xv & Yv & o' & ov & _ & Sv). clear X' Y' o'.
  assert (W3 : steps a i (x + (Z.of_N (cost u i) + 0))) by (eapply steps_app; [exact W1|]; constructor; [exact J1|constructor]).
  pose proof (steps_next g i v b y J2 W2) as W4.
  assert (N : Z.abs (X1 - Xi) + Z.abs (Xi - X2) <= 451).
  { pose proof Short as Sh. pose proof (near_through a i b _ _ _ _ _ _ _ _ _ _ _ W3 W4 Sa1 Si Sb1 ltac:(lia) ltac:(lia)) as N.
    unfold cost, ns in *. clear - N Sh E. lia. }
  assert (Side : forall X, (oi = Some Right /\ X = Xi + 80) \/ (oi = Some Left /\ X = Xi - 80) -> False).
  { intros X H.
    assert (Q : (Xu = X /\ Yu = Yi) /\ (Xv = X /\ Yv = Yi)).
    { destruct H as [(-> & ->)|(-> & ->)].
      - destruct (right_port_next d hs FD g R i u _ _ _ _ _ Si Su (joined_sym _ _ _ J1)) as (-> & -> & _).
        destruct (right_port_next d hs FD g R i v _ _ _ _ _ Si Sv J2) as (-> & -> & _). auto.
      - destruct (left_port_next d hs FD g R i u _ _ _ _ _ Si Su (joined_sym _ _ _ J1)) as (-> & -> & _).
        destruct (left_port_next d hs FD g R i v _ _ _ _ _ Si Sv J2) as (-> & -> & _). auto. }
    destruct Q as [[-> ->] [-> ->]]. destruct (spot_index d hs g R u v _ _ _ _ Su Sv) as [-> _].
    assert (Z : k = Datatypes.S (Datatypes.S k)); [|lia]. apply (proj1 (NoDup_nth_error l) Once); [apply nth_error_Some; congruence|congruence]. }
  destruct (gap_places K i Xi Yi oi Co Si) as [L|[(-> & ->)|[->|[(-> & ->)|L]]]].
  - exfalso. clear - N L C1 C2. lia.
  - exfalso. apply (Side K). left. split; [reflexivity|lia].
  - assert (oi = None) as -> by (eapply (corridor_none d hs GD g R); [exact Co|exact Si]). eauto.
  - exfalso. apply (Side K). right. split; [reflexivity|lia].
  - exfalso. clear - N L C1 C2. lia.
Qed.

Lemma gap_straight k u i v Yu Yi Yv : nth_error l k = Some u -> nth_error l (Datatypes.S k) = Some i -> nth_error l (Datatypes.S (Datatypes.S k)) = Some v ->
  spot ns u K Yu None -> spot ns i K Yi None -> spot ns v K Yv None -> Yu <> Yi /\ ~ beyond Yu Yi Yv.
Proof.
  intros Hu Hi Hv Su Si Sv. destruct (walk_cut g k a b l u i v W Hu Hi Hv) as (x & y & W1 & J1 & J2 & W2 & E). split.
  - destruct (edge_straight d hs g R u i _ _ _ _ _ _ J1 Su Si) as [(_ & Ne)|[(_ & L & _)|(_ & L & _)]]; lia.
  - intros Bd. apply Best. eapply (turn_corridor d hs FD g R p q a b u i v K Yu Yi Yv); eauto.
    + apply (steps_sym d hs FD g R). exact W1.
Qed.

(** The walk as a list. *)
Lemma walk_ends : exists inner, l = a :: inner ++ [b].
Proof.
  destruct (walk_head _ _ _ _ W) as (l' & E). destruct (exists_last (l := l')) as (inner & z & E').
  { intros ->. subst l. inversion W as [x Q1 Q2|x y z l' J W' Q1 Q2]; [congruence|]. subst. inversion W'. }
  exists inner. rewrite E, E'. f_equal. f_equal. f_equal. pose proof (walk_last _ _ _ _ W) as Q. rewrite E, E' in Q.
  replace (length (a :: inner ++ [z]) - 1)%nat with (Datatypes.S (length inner + 0)) in Q by (cbn [length]; rewrite app_length; cbn [length]; lia).
  cbn [nth_error] in Q. rewrite Nat.add_0_r, nth_error_app2, Nat.sub_diag in Q by lia. cbn in Q. congruence.
Qed.

Theorem beside_shape ps : places g l ps -> along K ps X1 Yp X2 Yq.
Proof.
  intros Pl. pose proof Sa1 as Sa'. pose proof Sb1 as Sb'.
  assert (Next : forall c X Y o, joined es a c -> spot ns c X Y o -> X = K /\ Y = Yp).
  { intros c X Y o J Sc. pose proof Sa1 as S1. destruct C1 as [(E & Eo)|(E & Eo)]; rewrite Eo in S1.
    - destruct (right_port_next d hs FD g R a c _ _ _ _ _ S1 Sc J) as (-> & -> & _). lia.
    - destruct (left_port_next d hs FD g R a c _ _ _ _ _ S1 Sc J) as (-> & -> & _). lia. }
  assert (Prev : forall c X Y o, joined es c b -> spot ns c X Y o -> X = K /\ Y = Yq).
  { intros c X Y o J Sc. apply joined_sym in J. pose proof Sb1 as S1. destruct C2 as [(E & Eo)|(E & Eo)]; rewrite Eo in S1.
    - destruct (right_port_next d hs FD g R b c _ _ _ _ _ S1 Sc J) as (-> & -> & _). lia.
    - destruct (left_port_next d hs FD g R b c _ _ _ _ _ S1 Sc J) as (-> & -> & _). lia. }
  destruct walk_ends as (inner & El).
  assert (Ix : forall k i, nth_error inner k = Some i -> nth_error l (Datatypes.S k) = Some i).
  { intros k i H. rewrite El. cbn [nth_error]. rewrite nth_error_app1; [exact H|]. apply nth_error_Some. congruence. }
  assert (In' : forall i, In i inner -> exists Y, spot ns i K Y None).
  { intros i I. apply In_nth_error in I as (k & Hk).
    assert (Lk : (k < length inner)%nat) by (apply nth_error_Some; congruence).
    assert (Hl : length l = Datatypes.S (Datatypes.S (length inner))) by (rewrite El; cbn [length]; rewrite app_length; cbn [length]; lia).
    destruct (nth_error l k) as [u|] eqn:Hu; [|apply nth_error_None in Hu; lia].
    destruct (nth_error l (Datatypes.S (Datatypes.S k))) as [v|] eqn:Hv; [|apply nth_error_None in Hv; lia].
    exact (gap_inside k u i v Hu (Ix k i Hk) Hv). }
  assert (Ys : exists Ys, Forall2 (fun i Y => spot ns i K Y None) inner Ys).
  { clear - In'. induction inner as [|i inner IH]; [exists []; constructor|].
    destruct (In' i (or_introl eq_refl)) as (Y & Si). destruct IH as (Ys & F); [intros; apply In'; now right|]. exists (Y :: Ys). now constructor. }
  destruct Ys as (Ys & Fy).
  rewrite El in Pl. inversion Pl as [|a' pa l1 ps1 Pa Pl1]. subst a' l1 ps. apply Forall2_app_inv_l in Pl1 as (psi & psb & Pi & Pb & ->).
  inversion Pb as [|b' pb l2 ps2 Pb1 Pb2]. subst b' l2 psb. inversion Pb2. subst ps2.
  assert (Loc : forall i X Y o z, spot ns i X Y o -> (exists n0, nth_error (rg_nodes g) i = Some n0 /\ rn_loc n0 = z) -> hpoint z X Y).
  { intros i X Y o z (m & Hm & H & _) (n0 & Hn & <-). unfold ns in Hm. rewrite Hm in Hn. injection Hn as <-. exact H. }
  (* the nodes next to the ends *)
  assert (Nn : inner <> []).
  { intros Q. rewrite Q in El. cbn in El. pose proof (walk_adjacent _ _ _ _ [] a b [] W El) as J.
    destruct (Next b X2 Yq (Some o2) J Sb') as (Q' & _). clear - Q' C2. lia. }
  exists pa, psi, pb, Ys. split; [reflexivity|]. split; [exact (Loc a _ _ _ _ Sa' Pa)|]. split; [exact (Loc b _ _ _ _ Sb' Pb1)|].
  split; [|split; [|split]].
  - clear - Fy Pi Loc. revert psi Pi. induction Fy as [|i Y inner Ys Si F IH]; intros psi Pi; inversion Pi; subst; constructor; eauto.
  - destruct inner as [|i inner]; [congruence|]. pose proof (walk_adjacent _ _ _ _ [] a i (inner ++ [b]) W El) as J.
    inversion Fy as [|i0 Y l0 Ys' Si F Q1 Q2]. exists Ys'. f_equal. apply (Next i K Y None J Si).
  - destruct (exists_last Nn) as (inner' & i & Ei).
    assert (El' : l = (a :: inner') ++ i :: b :: []) by (rewrite El, Ei; cbn; rewrite <- app_assoc; reflexivity).
    pose proof (walk_adjacent _ _ _ _ _ i b [] W El') as J.
    rewrite Ei in Fy. apply Forall2_app_inv_l in Fy as (Ys1 & Ys2 & _ & F2 & ->). exists Ys1. f_equal.
    inversion F2 as [|i0 Y l0 Ys0 Si F3 Q1 Q2]. inversion F3. f_equal. apply (Prev i K Y None J Si).
  - apply straight_sorted.
    + intros k y1 y2 H1 H2. destruct (forall2_nth_r _ _ _ Fy _ _ H1) as (i1 & I1 & S1). destruct (forall2_nth_r _ _ _ Fy _ _ H2) as (i2 & I2 & S2).
      pose proof (Ix _ _ I1) as J1. pose proof (Ix _ _ I2) as J2.
      destruct (walk_pair g _ a b l i1 i2 W J1 J2) as (x & y & _ & J & _).
      destruct (edge_straight d hs g R i1 i2 _ _ _ _ _ _ J S1 S2) as [(_ & Ne)|[(_ & L & _)|(_ & L & _)]]; lia.
    + intros k y1 y2 y3 H1 H2 H3. destruct (forall2_nth_r _ _ _ Fy _ _ H1) as (i1 & I1 & S1). destruct (forall2_nth_r _ _ _ Fy _ _ H2) as (i2 & I2 & S2).
      destruct (forall2_nth_r _ _ _ Fy _ _ H3) as (i3 & I3 & S3).
      apply (gap_straight _ i1 i2 i3 y1 y2 y3 (Ix _ _ I1) (Ix _ _ I2) (Ix _ _ I3) S1 S2 S3).
Qed.
End Beside.

(** ** Fields in neighbouring columns *)

Section Neighbours.
Variable K : Z.
Hypothesis Hc : (zl tp + 680 = K /\ zl tq - 80 = K) \/ (zl tq + 680 = K /\ zl tp - 80 = K).

Lemma gap_corridor : corridor K.
Proof. pose proof (zl_cases tp). pose proof (zl_cases tq). unfold corridor. lia. Qed.

Lemma gap_ends : exists X1 X2, X1 + X2 = 2 * K /\
  ((X1 = K - 80 /\ zl tp + 680 = K /\ spot ns a X1 Yp (Some Right) /\ spot ns b X2 Yq (Some Left)) \/
   (X1 = K + 80 /\ zl tp - 80 = K /\ spot ns a X1 Yp (Some Left) /\ spot ns b X2 Yq (Some Right))).
Proof.
  destruct (stop_places tp kp K a Ep ltac:(lia) Sa) as (X1 & Y1 & o1 & S1 & L1 & C1).
  destruct (stop_places tq kq K b Eq ltac:(lia) Sb) as (X2 & Y2 & o2 & S2 & L2 & C2).
  pose proof (near_bound a b _ _ _ _ _ _ _ (walk_steps g a b l W) S1 S2 L1 L2) as N. pose proof (best_short K ltac:(lia) ltac:(lia)) as Sh. fold ns cost in N.
  assert (N' : Z.abs (X1 - X2) <= 451) by (clear - N Sh; lia).
  exists X1, X2. change (rowY hs (row_end tp kp)) with Yp in C1. change (rowY hs (row_end tq kq)) with Yq in C2.
  destruct C1 as [(-> & Z1 & -> & ->)|[(-> & Z1 & -> & ->)|[(L3 & Z1)|(L3 & Z1)]]].
  - destruct C2 as [(-> & Z2 & -> & ->)|[(-> & Z2 & -> & ->)|[(L4 & Z2)|(L4 & Z2)]]]; [exfalso; lia| |exfalso; lia|exfalso; lia].
    split; [lia|left; auto].
  - destruct C2 as [(-> & Z2 & -> & ->)|[(-> & Z2 & -> & ->)|[(L4 & Z2)|(L4 & Z2)]]]; [|exfalso; lia|exfalso; lia|exfalso; lia].
    split; [lia|right; auto].
  - exfalso. lia.
  - exfalso. lia.
Qed.

Theorem gap_shape ps : places g l ps ->
  exists X1 X2, X1 + X2 = 2 * K /\ (X1 = K - 80 /\ zl tp + 680 = K \/ X1 = K + 80 /\ zl tp - 80 = K) /\ in_the_gap ps X1 Yp X2 Yq.
Proof.
  intros Pl. destruct gap_ends as (X1 & X2 & Ex & Ce). pose proof (best_short K ltac:(lia) ltac:(lia)) as Sh.
  exists X1, X2. split; [exact Ex|]. split; [clear - Ce; tauto|]. exists K. split; [lia|].
  destruct Ce as [(E1 & _ & S1 & S2)|(E1 & _ & S1 & S2)].
  - apply (beside_shape K X1 X2 Right Left gap_corridor Sh S1 S2); [left; auto|right; split; [lia|reflexivity]| |exact Pl].
    intros <-. destruct (spot_place g a _ _ _ _ _ _ S1 S2) as (_ & _ & Q). discriminate Q.
  - apply (beside_shape K X1 X2 Left Right gap_corridor Sh S1 S2); [right; auto|left; split; [lia|reflexivity]| |exact Pl].
    intros <-. destruct (spot_place g a _ _ _ _ _ _ S1 S2) as (_ & _ & Q). discriminate Q.
Qed.
End Neighbours.

End Walk.

(** ** Fields of one column *)

(** A short walk from the lower side of the first field ends at the lower side of the second. *)
Lemma down_start a b x : zl tp = zl tq -> steps a b x -> 2 * x <= Z.abs (Yp - Yq) + 160 -> spot ns a (zl tp + 300) (zb hs tp) (Some Down) -> stop q b ->
  low hs p -> low hs q /\ spot ns b (zl tq + 300) (zb hs tq) (Some Down) /\ (zb hs tp = zb hs tq \/ Z.abs (zb hs tp - (zb hs tq + 80)) + 80 <= 2 * x).
Proof.
  intros Hc W Sh Sa Sb Lp.
  destruct (TurnFacts.run d hs FD g R q a b x W (zl tp) _ _ (zl_column tp) Sa Sb Eq) as (v & Y & V & [(-> & _ & _ & o & O & Db & H)|(e & h & X & x' & M & J & Sh' & Nx & W' & E)]).
  - destruct O as [(Lq & -> & ->)|([] & _)]. rewrite Hc in Db. split; [exact Lq|]. split; [exact Db|]. cbn [tab q] in H. destruct H as [H|[(_ & H)|(H & _)]]; [auto|auto|discriminate].
  - exfalso. pose proof (row_last hs tp kp Lp) as El. fold p Yp in El.
    assert (Bx : 380 <= Z.abs (X - (zl tp + 300))).
    { destruct (spot_kind d hs FD g R h X Y None Sh') as [(_ & C & _)|[(_ & C & _)|[(_ & c & C & -> & _)|[(_ & _ & Q)|[(_ & _ & Q)|(u & _ & _ & [(_ & _ & Q)|(_ & _ & Q)])]]]]];
        try discriminate Q; pose proof (zl_cases tp); unfold corridor, column in C; lia. }
    assert (S2 : exists X2 Y2 o2, spot ns b X2 Y2 o2 /\ Yq <= Y2 <= Yq + 35 /\ 80 <= Z.abs (X - X2)).
    { assert (Q : corridor X \/ exists c, column c /\ X = c + 300).
      { destruct (spot_kind d hs FD g R h X Y None Sh') as [(_ & C & _)|[(_ & C & _)|[(_ & c & C & -> & _)|[(_ & _ & Q)|[(_ & _ & Q)|(u & _ & _ & [(_ & _ & Q)|(_ & _ & Q)])]]]]];
          try discriminate Q; eauto. }
      pose proof (zl_cases tp) as Zp. assert (Q' : 80 <= Z.abs (X - zl tp) /\ 80 <= Z.abs (X - (zl tp + 600)) /\ 80 <= Z.abs (X - (zl tp + 300))).
      { clear - Q Zp Nx. unfold corridor, column in Q. destruct Q as [Q|(c & Q & Q1)]; lia. }
      rewrite Hc in Q'. destruct (row_stop tq kq b Eq Sb) as [S2|[S2|(Lq & S2)]]; [exists (zl tq), Yq, (Some Left)|exists (zl tq + 600), Yq, (Some Right)|exists (zl tq + 300), (zb hs tq), (Some Down)].
      - split; [exact S2|]. split; lia.
      - split; [exact S2|]. split; lia.
      - split; [exact S2|]. pose proof (row_last hs tq kq Lq) as El'. fold q Yq in El'. split; lia. }
    destruct S2 as (X2 & Y2 & o2 & S2 & L2 & B2). destruct pair_lines as (HA & HB & HAB & Ls).
    assert (Ky : known A B S Y) by exact (pair_known h _ _ _ Sh'). assert (Ka : known A B S (zb hs tp)) by exact (pair_known a _ _ _ Sa).
    destruct (Z.le_ge_cases Yp Yq) as [Le|Ge].
    + pose proof (climb_step A B S HA HB HAB (tens_nodup r n) (tens_ten r n) (zb hs tp) Y Ka Ky) as Cl.
      pose proof (steps_bound h b x' W' _ _ _ _ _ _ Sh' S2) as Bd.
      pose proof (climb_near A B S HAB (zb hs tp) Y2 35 ltac:(lia) ltac:(unfold A; lia) ltac:(unfold B; lia)) as N. unfold A at 1, B at 1 in N.
      clear - N Bd Cl V E B2 Bx Sh Le Ls. apply (arith_out (climb A B S Y) (climb A B S (zb hs tp)) (climb A B S Y2) _ _ _ v x x' (Z.max Yp Yq - Z.min Yp Yq) (Z.of_nat (length S)) Cl V Bx B2 E Bd); lia.
    + pose proof (climb_step A B S HA HB HAB (tens_nodup r n) (tens_ten r n) Y (zb hs tp) Ky Ka) as Cl.
      pose proof (steps_bound b h x' (steps_sym d hs FD g R _ _ _ W') _ _ _ _ _ _ S2 Sh') as Bd.
      pose proof (climb_near A B S HAB Y2 (zb hs tp) 35 ltac:(lia) ltac:(unfold A; lia) ltac:(unfold B; lia)) as N. unfold A at 1, B at 1 in N.
      rewrite (abs_sub Y) in Cl. rewrite (abs_sub X2) in Bd. clear - N Bd Cl V E B2 Bx Sh Ge Ls.
      apply (arith_out (- climb A B S Y) (- climb A B S (zb hs tp)) (- climb A B S Y2) (Z.abs (zb hs tp - Y)) _ _ v x x' (Z.max Yp Yq - Z.min Yp Yq) (Z.of_nat (length S))) with (2 := V) (3 := Bx) (4 := B2) (5 := E); [clear - Cl; lia|clear - Bd; lia|clear - N; lia|clear - Ls; lia|clear - Sh; lia].
Qed.
End Pair.

Lemma last_once tp kp tq kq : low hs (row_end tp kp) -> low hs (row_end tq kq) -> tp = tq -> row_end tp kp = row_end tq kq.
Proof. cbn [low]. intros L L' ->. f_equal. lia. Qed.

Section Column.
Variables (tp kp tq kq : nat).
Let p := row_end tp kp.
Let q := row_end tq kq.
Hypothesis Ep : end_at d hs p.
Hypothesis Eq : end_at d hs q.
Hypothesis Hr : (tp / 3 < tq / 3 + 10 /\ tq / 3 < tp / 3 + 10)%nat.
Hypothesis Hc : zl tp = zl tq.
Hypothesis Hd : p <> q.
Let Yp := rowY hs p.
Let Yq := rowY hs q.

Lemma no_lower a b x : stop p a -> stop q b -> steps a b x -> ~ better p q x -> 2 * x <= Z.abs (Yp - Yq) + 160 ->
  spot ns a (zl tp + 300) (zb hs tp) (Some Down) -> low hs p -> False.
Proof.
  intros Sa Sb W Best Sh Da Lp. destruct (down_start tp kp tq kq Ep Eq Hr a b x Hc W Sh Da Sb Lp) as (Lq & Db & H1).
  assert (Nt : tp <> tq) by (intros Q; exact (Hd (last_once tp kp tq kq Lp Lq Q))).
  destruct (down_start tq kq tp kp Eq Ep (conj (proj2 Hr) (proj1 Hr)) b a x (eq_sym Hc) (steps_sym d hs FD g R _ _ _ W) ltac:(unfold Yp, Yq in Sh; rewrite abs_sub in Sh; exact Sh) Db Sa Lq) as (_ & _ & H2).
  pose proof (end_range d hs _ Ep) as Rp. pose proof (end_range d hs _ Eq) as Rq. cbn [tab p q] in Rp, Rq.
  pose proof (table_bounds d hs GD tp Rp) as Bp. pose proof (table_bounds d hs GD tq Rq) as Bq. apply Best.
  destruct (col_apart hs tp tq Hc) as [Q|[Q|Q]]; [contradiction| |].
  - apply (rows_port_port d hs FD g R); auto; clear - H1 Bp Bq Q; lia.
  - apply better_sym. apply (rows_port_port d hs FD g R); auto; clear - H2 Bp Bq Q; lia.
Qed.

End Column.

Section Sides.
Variables (tp kp tq kq : nat).
Let p := row_end tp kp.
Let q := row_end tq kq.
Hypothesis Ep : end_at d hs p.
Hypothesis Eq : end_at d hs q.
Hypothesis Hr : (tp / 3 < tq / 3 + 10 /\ tq / 3 < tp / 3 + 10)%nat.
Hypothesis Hc : zl tp = zl tq.
Hypothesis Hd : p <> q.
Let Yp := rowY hs p.
Let Yq := rowY hs q.

Section Walk.
Variables (a b : nat) (l : list nat).
Hypothesis Sa : stop p a.
Hypothesis Sb : stop q b.
Hypothesis W : walk es a b l.
Hypothesis Best : ~ better p q (Z.of_N (walk_cost cost l)).
Hypothesis Once : NoDup l.

Theorem column_shape ps : places g l ps ->
  along (zl tp - 80) ps (zl tp) Yp (zl tp) Yq \/ along (zl tp + 680) ps (zl tp + 600) Yp (zl tp + 600) Yq.
Proof.
  intros Pl. pose proof (walk_steps g a b l W) as Ws.
  pose proof (best_short tp kp tq kq Ep Eq Hr l Best (zl tp - 80) (or_introl eq_refl) ltac:(rewrite Hc; auto)) as Sh.
  assert (Sh' : 2 * Z.of_N (walk_cost (rg_cost (rg_nodes g)) l) <= Z.abs (Yq - Yp) + 160) by (rewrite abs_sub; exact Sh).
  assert (Hr' : (tq / 3 < tp / 3 + 10 /\ tp / 3 < tq / 3 + 10)%nat) by (destruct Hr; auto).
  pose proof (zl_cases tp) as Zp.
  assert (C1 : corridor (zl tp - 80)) by (unfold corridor; lia). assert (C2 : corridor (zl tp + 680)) by (unfold corridor; lia).
  assert (Bd : forall X1 X2 o1 o2, spot ns a X1 Yp o1 -> spot ns b X2 Yq o2 -> Z.abs (X1 - X2) <= 451).
  { intros X1 X2 o1 o2 S1 S2. pose proof (near_bound tp kp tq kq Ep Eq Hr a b _ _ _ _ _ _ _ Ws S1 S2 ltac:(unfold Yp, p; lia) ltac:(unfold Yq, q; lia)) as N.
    unfold Yp, Yq, p, q, cost, ns in *. clear - N Sh. lia. }
  assert (Ny : Yp <> Yq).
  { intros Q. pose proof (row_inside d hs FD p Ep) as Ip. pose proof (row_inside d hs FD q Eq) as Iq. cbn [tab p q] in Ip, Iq. fold p Yp in Ip. fold q Yq in Iq.
    destruct (col_apart hs tp tq Hc) as [Et|[L|L]]; [|clear - Ip Iq L Q; lia|clear - Ip Iq L Q; lia].
    apply Hd. unfold Yp, Yq, p, q in *. cbn [rowY] in Q. clear - Et Q. subst tq. f_equal. lia. }
  destruct (row_stop tp kp a Ep Sa) as [S1|[S1|(Lp & S1)]]; [| |exfalso; exact (no_lower tp kp tq kq Ep Eq Hr Hc Hd a b _ Sa Sb Ws Best Sh S1 Lp)].
  - destruct (row_stop tq kq b Eq Sb) as [S2|[S2|(Lq & S2)]]; [| |exfalso].
    + left. rewrite <- Hc in S2. apply (beside_shape tp kp tq kq Ep Eq Hr a b l Sa Sb W Best Once (zl tp - 80) (zl tp) (zl tp) Left Left C1 Sh S1 S2); [right; split; [lia|reflexivity]|right; split; [lia|reflexivity]| |exact Pl].
      intros <-. destruct (spot_place g a _ _ _ _ _ _ S1 S2) as (_ & Q & _). exact (Ny Q).
    + exfalso. pose proof (Bd _ _ _ _ S1 S2). lia.
    + exact (no_lower tq kq tp kp Eq Ep Hr' (eq_sym Hc) (fun Q => Hd (eq_sym Q)) b a _ Sb Sa (steps_sym d hs FD g R _ _ _ Ws) (fun Q => Best (better_sym hs g _ _ _ Q)) Sh' S2 Lq).
  - destruct (row_stop tq kq b Eq Sb) as [S2|[S2|(Lq & S2)]]; [| |exfalso].
    + exfalso. pose proof (Bd _ _ _ _ S1 S2). lia.
    + right. rewrite <- Hc in S2. apply (beside_shape tp kp tq kq Ep Eq Hr a b l Sa Sb W Best Once (zl tp + 680) (zl tp + 600) (zl tp + 600) Right Right C2 Sh S1 S2); [left; split; [lia|reflexivity]|left; split; [lia|reflexivity]| |exact Pl].
      intros <-. destruct (spot_place g a _ _ _ _ _ _ S1 S2) as (_ & Q & _). exact (Ny Q).
    + exact (no_lower tq kq tp kp Eq Ep Hr' (eq_sym Hc) (fun Q => Hd (eq_sym Q)) b a _ Sb Sa (steps_sym d hs FD g R _ _ _ Ws) (fun Q => Best (better_sym hs g _ _ _ Q)) Sh' S2 Lq).
Qed.
End Walk.
End Sides.
End Doc.

(** ** Modules *)

Lemma rows_walk m vb g d ls : fits (table_rows m) -> layout_module m = Ret (vb, g, d) -> links [] (m_entries m) ls ->
  exists d2, end_doc d2 (table_rows m) /\ routes d2 (table_rows m) g /\
  (forall a, end_at d2 (table_rows m) a -> exists p q x ports, In (p, q) ls /\ (x = p \/ x = q) /\
     has_ports (table_rows m) (end_of x) ports /\ has_ports (table_rows m) a ports) /\
  Forall2 (fun pq e => forall i k j l, pq = (Row i k, Row j l) -> exists ps a b w, e_path e = Some ps /\
    end_at d2 (table_rows m) (row_end i k) /\ end_at d2 (table_rows m) (row_end j l) /\
    TurnFacts.stop (table_rows m) g (row_end i k) a /\ TurnFacts.stop (table_rows m) g (row_end j l) b /\
    walk (rg_edges g) a b w /\ ~ TurnFacts.better (table_rows m) g (row_end i k) (row_end j l) (Z.of_N (walk_cost (rg_cost (rg_nodes g)) w)) /\
    NoDup w /\ places g w ps) ls (d_edges d).
Proof.
  intros F L Ll. destruct (links_edges m vb g d ls F L Ll) as (d0 & M & H). cbn zeta in H.
  destruct (layout_routes m vb g d F L) as (d0' & M' & V & D & R). rewrite M in M'. injection M' as <-.
  pose proof (module_ends m d0 M F) as ED. set (d2 := place_terminal_ports (fst (place_nodes d0))) in *.
  exists d2. split; [exact ED|]. split; [exact R|]. split.
  { intros a (e0 & i & n & I0 & Ei & G & Pa). destruct (draw_split _ _ _ _ D) as (_ & N & F2).
    destruct (forall2_in_l _ _ _ _ F2 I0) as (e & Ie & (E1 & E2) & _).
    destruct (forall2_in_r _ _ _ _ H Ie) as ([p q] & _ & _ & Ipq & s & t & Gs & Gt & Ps & Pt). cbn [fst snd] in *.
    destruct Ei as [Ei|Ei]; [exists p, q, p, (n_ports n)|exists p, q, q, (n_ports n)]; (split; [exact Ipq|split; [auto|split; [|exact Pa]]]);
      [rewrite Ei, <- E1, Gs in G|rewrite Ei, <- E2, Gt in G]; injection G as <-; assumption. }
  eapply forall2_weaken; [exact H|]. intros pq e _ (Ie & _ & s & t & Gs & Gt & Ps & Pt) i k j l ->. cbn [fst snd end_of] in *.
  destruct (module_cheapest m vb g d F L e Ie) as (s' & t' & w & ps & Gs' & Gt' & Ep & Pl & ((x & y & a & b & Ix & Iy & Sx & Sy & W) & Min)).
  destruct (draw_split _ _ _ _ D) as (_ & N & F2). destruct (forall2_in_r _ _ _ _ F2 Ie) as (e0 & I0 & (E1 & E2) & _).
  unfold get_node in Gs, Gt, Gs', Gt'. rewrite N, Gs in Gs'. rewrite N, Gt in Gt'. injection Gs' as <-. injection Gt' as <-.
  assert (Es : end_at d2 (table_rows m) (row_end i k)) by (exists e0, (e_source e0), s; unfold get_node; rewrite <- E1; auto).
  assert (Et : end_at d2 (table_rows m) (row_end j l)) by (exists e0, (e_target e0), t; unfold get_node; rewrite <- E2; auto).
  pose proof (stands_stop d2 _ g R _ _ _ _ Ps Ix Sx) as Sa. pose proof (stands_stop d2 _ g R _ _ _ _ Pt Iy Sy) as Sb.
  assert (Once : NoDup w).
  { apply (cheapest_once (rg_edges g) (rg_cost (rg_nodes g)) a b w); [apply (edge_dear _ _ ED g R)|exact W|].
    intros l' W'. exact (Min _ _ _ _ _ Ix Iy Sx Sy W'). }
  assert (Best : ~ TurnFacts.better (table_rows m) g (row_end i k) (row_end j l) (Z.of_N (walk_cost (rg_cost (rg_nodes g)) w))).
  { intros (s' & t' & z & Ss & St & [(l' & W' & Lw) _] & Lt).
    destruct (stop_stands _ _ _ _ _ Ps Ss) as (p' & Ip' & Sp'). destruct (stop_stands _ _ _ _ _ Pt St) as (q' & Iq' & Sq').
    specialize (Min p' q' s' t' l' Ip' Iq' Sp' Sq' W'). lia. }
  exists ps, a, b, w. auto 10.
Qed.

Theorem neighbours_in_gap m vb g d ls : fits (table_rows m) -> layout_module m = Ret (vb, g, d) -> links [] (m_entries m) ls ->
  Forall2 (fun pq e => forall i k j l, pq = (Row i k, Row j l) -> (i / 3 < j / 3 + 10 /\ j / 3 < i / 3 + 10)%nat ->
    exists ps, e_path e = Some ps /\
      ((j mod 3 = S (i mod 3))%nat -> in_the_gap ps (2 * (table_left i + 300)) (row_middle (table_rows m) i k)
                                                  (2 * table_left j) (row_middle (table_rows m) j l)) /\
      ((i mod 3 = S (j mod 3))%nat -> in_the_gap ps (2 * table_left i) (row_middle (table_rows m) i k)
                                                  (2 * (table_left j + 300)) (row_middle (table_rows m) j l))) ls (d_edges d).
Proof.
  intros F L Ll. destruct (rows_walk m vb g d ls F L Ll) as (d2 & ED & R & _ & H).
  eapply forall2_weaken; [exact H|]. intros pq e _ Hw i k j l E Near. destruct (Hw i k j l E) as (ps & a & b & w & Ep & Es & Et & Sa & Sb & W & Best & Once & Pl).
  exists ps. split; [exact Ep|].
  assert (Go : forall K, (zl i + 680 = K /\ zl j - 80 = K) \/ (zl j + 680 = K /\ zl i - 80 = K) ->
    exists X1 X2, X1 + X2 = 2 * K /\ (X1 = K - 80 /\ zl i + 680 = K \/ X1 = K + 80 /\ zl i - 80 = K) /\
      in_the_gap ps X1 (row_middle (table_rows m) i k) X2 (row_middle (table_rows m) j l)).
  { intros K HK. exact (gap_shape d2 (table_rows m) ED g R i k j l Es Et Near a b w Sa Sb W Best Once K HK ps Pl). }
  assert (Zc : forall u, zl u = 100 + 760 * Z.of_nat (u mod 3)) by (intros u; unfold zl, table_left; lia).
  assert (Zd : forall u, 2 * table_left u = zl u) by reflexivity.
  split; intros Cm.
  - destruct (Go (zl i + 680) ltac:(left; rewrite !Zc, Cm; lia)) as (X1 & X2 & Ex & Cx & Sh).
    assert (Q : zl j = zl i + 760) by (rewrite !Zc, Cm; lia).
    replace (2 * (table_left i + 300)) with X1 by (clear - Ex Cx Zd; specialize (Zd i); lia).
    replace (2 * table_left j) with X2 by (clear - Ex Cx Zd Q; specialize (Zd j); lia). exact Sh.
  - destruct (Go (zl j + 680) ltac:(right; rewrite !Zc, Cm; lia)) as (X1 & X2 & Ex & Cx & Sh).
    assert (Q : zl i = zl j + 760) by (rewrite !Zc, Cm; lia).
    replace (2 * table_left i) with X1 by (clear - Ex Cx Zd Q; specialize (Zd i); lia).
    replace (2 * (table_left j + 300)) with X2 by (clear - Ex Cx Zd Q; pose proof (Zd i); pose proof (Zd j); lia). exact Sh.
Qed.

Theorem column_beside m vb g d ls : fits (table_rows m) -> layout_module m = Ret (vb, g, d) -> links [] (m_entries m) ls ->
  Forall2 (fun pq e => forall i k j l, pq = (Row i k, Row j l) -> (i / 3 < j / 3 + 10 /\ j / 3 < i / 3 + 10)%nat ->
    (i mod 3 = j mod 3)%nat -> (i, k) <> (j, l) ->
    exists ps, e_path e = Some ps /\
      (along (2 * table_left i - 80) ps (2 * table_left i) (row_middle (table_rows m) i k) (2 * table_left i) (row_middle (table_rows m) j l) \/
       along (2 * table_left i + 680) ps (2 * table_left i + 600) (row_middle (table_rows m) i k) (2 * table_left i + 600) (row_middle (table_rows m) j l)))
    ls (d_edges d).
Proof.
  intros F L Ll. destruct (rows_walk m vb g d ls F L Ll) as (d2 & ED & R & _ & H).
  eapply forall2_weaken; [exact H|]. intros pq e _ Hw i k j l E Near Cm Ne. destruct (Hw i k j l E) as (ps & a & b & w & Ep & Es & Et & Sa & Sb & W & Best & Once & Pl).
  exists ps. split; [exact Ep|].
  apply (column_shape d2 (table_rows m) ED g R i k j l Es Et Near) with (a := a) (b := b) (l := w); auto.
  - unfold zl, table_left. now rewrite Cm.
  - intros Q. apply Ne. congruence.
Qed.

Lemma along_points K ps X1 Y1 X2 Y2 p : along K ps X1 Y1 X2 Y2 -> In p ps -> exists X Y, hpoint p X Y /\ (X = X1 \/ X = K \/ X = X2).
Proof.
  intros (a & inner & b & Ys & -> & Ha & Hb & F & _) I. destruct I as [<-|I]; [exists X1, Y1; split; [exact Ha|lia]|].
  apply in_app_or in I as [I|[<-|[]]]; [|exists X2, Y2; split; [exact Hb|lia]].
  apply In_nth_error in I as (k & I). destruct (forall2_nth_l _ _ _ F k _ I) as (Y & _ & H). exists K, Y. split; [exact H|lia].
Qed.
Lemma gap_points ps X1 Y1 X2 Y2 p : in_the_gap ps X1 Y1 X2 Y2 -> In p ps -> exists X Y, hpoint p X Y /\ Z.min X1 X2 <= X <= Z.max X1 X2.
Proof.
  intros (K & E & A) I. destruct (along_points _ _ _ _ _ _ p A I) as (X & Y & H & C). exists X, Y. split; [exact H|lia].
Qed.

Theorem along_clear m vb g d : fits (table_rows m) -> layout_module m = Ret (vb, g, d) ->
  forall K X1 Y1 X2 Y2 ps l1 p q l2 Xp Yp Xq Yq r x y w h, corridor K -> K - 80 <= X1 <= K + 80 -> K - 80 <= X2 <= K + 80 -> along K ps X1 Y1 X2 Y2 ->
  ps = l1 ++ p :: q :: l2 -> hpoint p Xp Yp -> hpoint q Xq Yq -> table_rect d r -> hrect r x y w h -> ~ enters x y w h Xp Yp Xq Yq.
Proof.
  intros F L K X1 Y1 X2 Y2 ps l1 p q l2 Xp Yp Xq Yq r x y w h Co B1 B2 G E Hp Hq T Hr (z & Bz & Ex & _).
  apply between in Ex; [|exact Bz].
  assert (P : forall u X Y, In u ps -> hpoint u X Y -> K - 80 <= X <= K + 80).
  { intros u X Y I H. destruct (along_points _ _ _ _ _ _ u G I) as (X' & Y' & H' & B). destruct (hpoint_unique _ _ _ _ _ H H') as [-> _]. clear - B B1 B2. lia. }
  pose proof (P p Xp Yp ltac:(rewrite E; apply in_or_app; right; now left) Hp) as Bp.
  pose proof (P q Xq Yq ltac:(rewrite E; apply in_or_app; right; right; now left) Hq) as Bq.
  destruct (layout_routes m vb g d F L) as (d0 & M & V & D & R). pose proof (module_grid m d0 M F) as GD.
  apply draw_split in D as (_ & N & _). set (d2 := place_terminal_ports (fst (place_nodes d0))) in *.
  assert (T' : table_rect d2 r) by (destruct T as (i' & n1 & Ib & Gi & Ri); exists i', n1; unfold body_children, get_node in *; rewrite N in Ib, Gi; auto).
  destruct (gd_rect _ _ GD r T') as (tb & Lt & Hr'). destruct Hr as ([Hx Hy] & Hw & Hh), Hr' as ([Hx' Hy'] & Hw' & Hh').
  rewrite (hv_unique _ _ _ Hx Hx'), (hv_unique _ _ _ Hw Hw') in *.
  pose proof (zl_cases tb) as Zt. unfold corridor in Co. clear - Ex Bp Bq Zt Co. lia.
Qed.

Lemma left_cases i : 2 * table_left i = 100 \/ 2 * table_left i = 860 \/ 2 * table_left i = 1620.
Proof. pose proof (zl_cases i) as H. unfold zl in H. lia. Qed.

Theorem neighbours_clear m vb g d ls : fits (table_rows m) -> layout_module m = Ret (vb, g, d) -> links [] (m_entries m) ls ->
  Forall2 (fun pq e => forall i k j l, pq = (Row i k, Row j l) -> (i / 3 < j / 3 + 10 /\ j / 3 < i / 3 + 10)%nat ->
    (j mod 3 = S (i mod 3) \/ i mod 3 = S (j mod 3))%nat ->
    forall l1 p q l2 X1 Y1 X2 Y2 r x y w h, e_path e = Some (l1 ++ p :: q :: l2) -> hpoint p X1 Y1 -> hpoint q X2 Y2 ->
    table_rect d r -> hrect r x y w h -> ~ enters x y w h X1 Y1 X2 Y2) ls (d_edges d).
Proof.
  intros F L Ll. eapply forall2_weaken; [exact (neighbours_in_gap m vb g d ls F L Ll)|]. cbn beta.
  intros pq e _ H i k j l E Near Cm l1 p q l2 X1 Y1 X2 Y2 r x y w h Ep Hp Hq T Hr.
  destruct (H i k j l E Near) as (ps & Ep' & H1 & H2). rewrite Ep in Ep'. injection Ep' as <-.
  assert (Zc : forall u, 2 * table_left u = 100 + 760 * Z.of_nat (u mod 3)) by (intros u; unfold table_left; lia).
  pose proof (left_cases i) as Zi. pose proof (left_cases j) as Zj. pose proof (Zc i) as Ci. pose proof (Zc j) as Cj.
  destruct Cm as [Cm|Cm].
  - destruct (H1 Cm) as (K & EK & A). rewrite Cm in Cj. apply (along_clear m vb g d F L K _ _ _ _ _ l1 p q l2 X1 Y1 X2 Y2 r x y w h) in A; auto; unfold corridor; clear - EK Zi Zj Ci Cj; lia.
  - destruct (H2 Cm) as (K & EK & A). rewrite Cm in Ci. apply (along_clear m vb g d F L K _ _ _ _ _ l1 p q l2 X1 Y1 X2 Y2 r x y w h) in A; auto; unfold corridor; clear - EK Zi Zj Ci Cj; lia.
Qed.

Theorem column_clear m vb g d ls : fits (table_rows m) -> layout_module m = Ret (vb, g, d) -> links [] (m_entries m) ls ->
  Forall2 (fun pq e => forall i k j l, pq = (Row i k, Row j l) -> (i / 3 < j / 3 + 10 /\ j / 3 < i / 3 + 10)%nat ->
    (i mod 3 = j mod 3)%nat -> (i, k) <> (j, l) ->
    forall l1 p q l2 X1 Y1 X2 Y2 r x y w h, e_path e = Some (l1 ++ p :: q :: l2) -> hpoint p X1 Y1 -> hpoint q X2 Y2 ->
    table_rect d r -> hrect r x y w h -> ~ enters x y w h X1 Y1 X2 Y2) ls (d_edges d).
Proof.
  intros F L Ll. eapply forall2_weaken; [exact (column_beside m vb g d ls F L Ll)|]. cbn beta.
  intros pq e _ H i k j l E Near Cm Ne l1 p q l2 X1 Y1 X2 Y2 r x y w h Ep Hp Hq T Hr.
  destruct (H i k j l E Near Cm Ne) as (ps & Ep' & Sh). rewrite Ep in Ep'. injection Ep' as <-. pose proof (left_cases i) as Zi.
  destruct Sh as [A|A]; (eapply (along_clear m vb g d F L _ _ _ _ _ _ l1 p q l2 X1 Y1 X2 Y2 r x y w h); [| | |exact A|..]; auto; unfold corridor; clear - Zi; lia).
Qed.

(** ** Samples *)

(** Five tables; the last field of the first is related to the first field of
    the last, in the next column of the next row. *)
Definition stairs : module :=
  mkModule None
   [EDef (mkEntity (lit "a") [mkField (lit "x") TInt None; mkField (lit "y") TInt None]);
    EDef (mkEntity (lit "b") [mkField (lit "x") TInt None]); EDef (mkEntity (lit "c") [mkField (lit "x") TInt None]);
    EDef (mkEntity (lit "d") [mkField (lit "x") TInt None]); EDef (mkEntity (lit "e") [mkField (lit "x") TInt None]);
    ERel (mkRelation (PField (lit "a") (lit "y")) (PField (lit "e") (lit "x")))].
Lemma stairs_links : links [] (m_entries stairs) [(Row 0 2, Row 4 1)].
Proof.
  do 5 apply links_def. cbn [app]. apply links_rel; [| |constructor].
  - apply refers_row with (mkEntity (lit "a") [mkField (lit "x") TInt None; mkField (lit "y") TInt None]).
    + split; [reflexivity|]. split; [split; [reflexivity|cbn; auto]|]. intros [|[|[|[|[|j]]]]] e L H; [inversion L| | | | |destruct j; discriminate];
        injection H as <-; intros [E _]; discriminate.
    + split; [eexists; split; reflexivity|]. intros [|[|k]] f L H; [inversion L|lia|destruct k; discriminate].
  - apply refers_row with (mkEntity (lit "e") [mkField (lit "x") TInt None]).
    + split; [reflexivity|]. split; [split; [reflexivity|cbn; auto]|]. intros j e L H. do 5 (destruct j as [|j]; [lia|]). destruct j; discriminate.
    + split; [eexists; split; reflexivity|]. intros [|k] f L H; [inversion L|destruct k; discriminate].
Qed.

(** Four tables; fields of the first and the fourth, which are in one column. *)
Definition pile : module :=
  mkModule None
   [EDef (mkEntity (lit "a") [mkField (lit "x") TInt None; mkField (lit "y") TInt None]);
    EDef (mkEntity (lit "b") [mkField (lit "x") TInt None]); EDef (mkEntity (lit "c") [mkField (lit "x") TInt None]);
    EDef (mkEntity (lit "d") [mkField (lit "x") TInt None]);
    ERel (mkRelation (PField (lit "a") (lit "y")) (PField (lit "d") (lit "x")));
    ERel (mkRelation (PField (lit "a") (lit "x")) (PField (lit "a") (lit "y")))].
Lemma pile_links : links [] (m_entries pile) [(Row 0 2, Row 3 1); (Row 0 1, Row 0 2)].
Proof.
  assert (A : forall k n, k = 0%nat /\ n = lit "x" \/ k = 1%nat /\ n = lit "y" ->
    refers [mkEntity (lit "a") [mkField (lit "x") TInt None; mkField (lit "y") TInt None]; mkEntity (lit "b") [mkField (lit "x") TInt None];
      mkEntity (lit "c") [mkField (lit "x") TInt None]; mkEntity (lit "d") [mkField (lit "x") TInt None]] (PField (lit "a") n) (Row 0 (S k))).
  { intros k n H. apply refers_row with (mkEntity (lit "a") [mkField (lit "x") TInt None; mkField (lit "y") TInt None]).
    - split; [reflexivity|]. split; [split; [reflexivity|destruct H as [(_ & ->)|(_ & ->)]; cbn; auto]|]. intros [|[|[|[|j]]]] e L Q; [inversion L| | | |destruct j; discriminate];
        injection Q as <-; intros [E _]; discriminate.
    - destruct H as [(-> & ->)|(-> & ->)]; (split; [eexists; split; reflexivity|]); intros [|[|k]] f L H; solve [inversion L|lia|injection H as <-; discriminate|destruct k; discriminate]. }
  do 4 apply links_def. cbn [app]. apply links_rel; [| |apply links_rel; [| |constructor]].
  - apply (A 1%nat). auto.
  - apply refers_row with (mkEntity (lit "d") [mkField (lit "x") TInt None]).
    + split; [reflexivity|]. split; [split; [reflexivity|cbn; auto]|]. intros j e L H. do 4 (destruct j as [|j]; [lia|]). destruct j; discriminate.
    + split; [eexists; split; reflexivity|]. intros [|k] f L H; [inversion L|destruct k; discriminate].
  - apply (A 0%nat). auto.
  - apply (A 1%nat). auto.
Qed.
