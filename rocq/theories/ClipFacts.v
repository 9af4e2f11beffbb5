(** [intersects_line] on segments in any direction. *)
From Coq Require Import List ZArith Reals Bool Lia Lra.
From Flocq Require Import Core.
From Verif Require Import Base F32 Geometry SpecF32 SpecGeom SpecClip F32Facts GeomFacts.
Import ListNotations.
Local Open Scope Z_scope.

(** ** Quotients in the unit interval are rounded by at most 2^-25 *)

Lemma rnd_unit_err x : (0 <= x <= 1)%R -> (Rabs (rnd x - x) <= / 33554432)%R.
Proof.
  intros [H0 H1]. destruct (Req_dec x 0) as [->|N0].
  { rewrite rnd_0, Rminus_0_r, Rabs_R0. lra. }
  destruct (Req_dec x 1) as [->|N1].
  { rewrite rnd_1. replace (1 - 1)%R with 0%R by lra. rewrite Rabs_R0. lra. }
  eapply Rle_trans; [apply error_le_half_ulp; apply fexp32_valid|].
  rewrite ulp_neq_0 by trivial. unfold cexp.
  assert (M : (mag radix2 x <= 0)%Z).
  { apply mag_le_bpow; trivial. rewrite Rabs_pos_eq by trivial. simpl. lra. }
  assert (B : (bpow radix2 (fexp32 (mag radix2 x)) <= bpow radix2 (-24))%R).
  { apply bpow_le. transitivity (fexp32 0); [|compute; discriminate].
    unfold fexp32, SpecFloat.fexp, FLT_exp, SpecFloat.emin. lia. }
  change (bpow radix2 (-24)) with (/ IZR 16777216)%R in B. lra.
Qed.

Lemma rnd_apart x y : (0 <= x)%R -> (y <= 1)%R -> (x + / 16777216 < y)%R -> (rnd x < rnd y)%R.
Proof.
  intros H0 H1 D. assert (0 <= x <= 1)%R as X by lra. assert (0 <= y <= 1)%R as Y by lra.
  apply rnd_unit_err, Rabs_le_inv in X. apply rnd_unit_err, Rabs_le_inv in Y. lra.
Qed.

Lemma quot_apart a b c d : 0 < b -> 0 < d -> b * d < M24 -> (IZR c / IZR d < IZR a / IZR b)%R ->
  (IZR c / IZR d + / 16777216 < IZR a / IZR b)%R.
Proof.
  intros Hb Hd Hp L. assert (Pb : (0 < IZR b)%R) by now apply IZR_lt. assert (Pd : (0 < IZR d)%R) by now apply IZR_lt.
  assert (Pp : (0 < IZR b * IZR d)%R) by now apply Rmult_lt_0_compat.
  assert (E : (IZR a / IZR b - IZR c / IZR d = IZR (a * d - c * b) / (IZR b * IZR d))%R).
  { rewrite minus_IZR, !mult_IZR. field. lra. }
  assert (G : 1 <= a * d - c * b).
  { assert (0 < IZR (a * d - c * b))%R.
    { apply Rmult_lt_reg_r with (/ (IZR b * IZR d))%R; [now apply Rinv_0_lt_compat|]. unfold Rdiv in E. lra. }
    apply lt_IZR in H. lia. }
  apply IZR_le in G. assert (P : (IZR b * IZR d < 16777216)%R) by (rewrite <- mult_IZR; now apply IZR_lt).
  assert (/ 16777216 < / (IZR b * IZR d))%R by (apply Rinv_lt_contravar; [nra|trivial]).
  assert (/ (IZR b * IZR d) <= IZR (a * d - c * b) / (IZR b * IZR d))%R.
  { unfold Rdiv. assert (0 < / (IZR b * IZR d))%R by now apply Rinv_0_lt_compat. nra. }
  lra.
Qed.

(** ** Both coordinates of the clip *)

Definition passes (a c b d : R) : Prop := (Rmax c (Rmax a 0) <= Rmin d (Rmin b 1))%R.

Lemma passes_iff a c b d : passes a c b d <->
  (c <= d /\ c <= b /\ c <= 1 /\ a <= d /\ a <= b /\ a <= 1 /\ 0 <= d /\ 0 <= b)%R.
Proof.
  unfold passes. split.
  - intros H. pose proof (Rmax_l c (Rmax a 0)). pose proof (Rmax_r c (Rmax a 0)).
    pose proof (Rmax_l a 0). pose proof (Rmax_r a 0). pose proof (Rmin_l d (Rmin b 1)).
    pose proof (Rmin_r d (Rmin b 1)). pose proof (Rmin_l b 1). pose proof (Rmin_r b 1). lra.
  - intros H. repeat apply Rmax_lub; repeat apply Rmin_glb; lra.
Qed.

Lemma passes_rnd a c b d : passes a c b d -> passes (rnd a) (rnd c) (rnd b) (rnd d).
Proof.
  rewrite !passes_iff. intros (H1 & H2 & H3 & H4 & H5 & H6 & H7 & H8).
  apply rnd_mono in H1, H2, H3, H4, H5, H6, H7, H8. rewrite rnd_1 in *. rewrite rnd_0 in *. tauto.
Qed.

Lemma passes_exact a1 a2 a3 a4 m n : 0 < m -> 0 < n -> m * n < M24 ->
  a1 <= a2 -> a3 <= a4 -> a1 <= M24 -> a3 <= M24 ->
  passes (rnd (IZR a1 / IZR m)) (rnd (IZR a3 / IZR n)) (rnd (IZR a2 / IZR m)) (rnd (IZR a4 / IZR n)) ->
  passes (IZR a1 / IZR m) (IZR a3 / IZR n) (IZR a2 / IZR m) (IZR a4 / IZR n).
Proof.
  intros Hm Hn P L12 L34 B1 B3. assert (Mm : m <= M24) by nia. assert (Mn : n <= M24) by nia.
  assert (Pm : (0 < IZR m)%R) by now apply IZR_lt. assert (Pn : (0 < IZR n)%R) by now apply IZR_lt.
  assert (Im : (0 < / IZR m)%R) by now apply Rinv_0_lt_compat. assert (In_ : (0 < / IZR n)%R) by now apply Rinv_0_lt_compat.
  rewrite !passes_iff. intros (H1 & H2 & H3 & H4 & H5 & H6 & H7 & H8).
  apply quot_le_1 in H3; trivial. apply quot_le_1 in H6; trivial. apply quot_ge_0 in H7; trivial. apply quot_ge_0 in H8; trivial.
  assert (U : forall a b, 0 < b -> a <= b -> (IZR a / IZR b <= 1)%R).
  { intros a b Hb L. apply IZR_le in L. apply IZR_lt in Hb. apply Rmult_le_reg_r with (IZR b); trivial.
    unfold Rdiv. rewrite Rmult_assoc, Rinv_l; lra. }
  assert (V : forall a b, 0 < b -> 0 <= a -> (0 <= IZR a / IZR b)%R).
  { intros a b Hb L. apply IZR_le in L. apply IZR_lt in Hb. apply Rmult_le_pos; trivial. left. now apply Rinv_0_lt_compat. }
  assert (W : forall a b c, 0 < c -> a <= b -> (IZR a / IZR c <= IZR b / IZR c)%R).
  { intros a b c Hc L. apply IZR_le in L. apply IZR_lt in Hc. apply Rmult_le_compat_r; trivial. left. now apply Rinv_0_lt_compat. }
  repeat split; auto.
  - destruct (Rle_or_lt (IZR a3 / IZR n) (IZR a2 / IZR m)) as [|G]; trivial. exfalso.
    apply quot_apart in G; trivial; [|nia]. apply rnd_apart in G; auto. lra.
  - destruct (Rle_or_lt (IZR a1 / IZR m) (IZR a4 / IZR n)) as [|G]; trivial. exfalso.
    apply quot_apart in G; trivial. apply rnd_apart in G; auto. lra.
Qed.

(** Without the bound on the area the error is at most 2^-24. *)
Lemma passes_near a1 a2 a3 a4 m n : 0 < m <= M24 -> 0 < n <= M24 ->
  a1 <= a2 -> a3 <= a4 -> a1 <= M24 -> a3 <= M24 ->
  passes (rnd (IZR a1 / IZR m)) (rnd (IZR a3 / IZR n)) (rnd (IZR a2 / IZR m)) (rnd (IZR a4 / IZR n)) ->
  passes (IZR (a1 - 1) / IZR m) (IZR (a3 - 1) / IZR n) (IZR (a2 + 1) / IZR m) (IZR (a4 + 1) / IZR n).
Proof.
  intros [Hm Mm] [Hn Mn] L12 L34 B1 B3.
  assert (U : forall a b, 0 < b -> a <= b -> (IZR a / IZR b <= 1)%R).
  { intros a b Hb L. apply IZR_le in L. apply IZR_lt in Hb. apply Rmult_le_reg_r with (IZR b); trivial.
    unfold Rdiv. rewrite Rmult_assoc, Rinv_l; lra. }
  assert (V : forall a b, 0 < b -> 0 <= a -> (0 <= IZR a / IZR b)%R).
  { intros a b Hb L. apply IZR_le in L. apply IZR_lt in Hb. apply Rmult_le_pos; trivial. left. now apply Rinv_0_lt_compat. }
  assert (W : forall a b c, 0 < c -> a <= b -> (IZR a / IZR c <= IZR b / IZR c)%R).
  { intros a b c Hc L. apply IZR_le in L. apply IZR_lt in Hc. apply Rmult_le_compat_r; trivial. left. now apply Rinv_0_lt_compat. }
  assert (Y : forall a b, 0 < b -> b <= M24 -> (IZR (a - 1) / IZR b <= IZR a / IZR b - / 16777216)%R).
  { intros a b Hb Mb. rewrite minus_IZR. apply IZR_lt in Hb. apply IZR_le in Mb. unfold M24 in Mb. unfold Rdiv.
    assert (/ 16777216 <= / IZR b)%R by (apply Rinv_le; trivial). lra. }
  assert (A : forall a m b n, 0 < m -> 0 < n -> m <= M24 -> a <= m -> 0 <= b ->
    (rnd (IZR a / IZR m) <= rnd (IZR b / IZR n) -> IZR (a - 1) / IZR m <= IZR b / IZR n)%R).
  { intros a m' b n' H1 H2 H3 H4 H5 H. destruct (Rle_or_lt (IZR (a - 1) / IZR m') (IZR b / IZR n')) as [|G]; trivial.
    exfalso. specialize (Y a m' H1 H3). specialize (U a m' H1 H4). specialize (V b n' H2 H5).
    assert (rnd (IZR b / IZR n') < rnd (IZR a / IZR m'))%R by (apply rnd_apart; lra). lra. }
  rewrite !passes_iff. intros (H1 & H2 & H3 & H4 & H5 & H6 & H7 & H8).
  apply quot_le_1 in H3; trivial. apply quot_le_1 in H6; trivial. apply quot_ge_0 in H7; trivial. apply quot_ge_0 in H8; trivial.
  apply A in H2; trivial. apply A in H4; trivial.
  repeat split; try (apply U; lia); try (apply V; lia); try (apply W; lia).
  - apply Rle_trans with (1 := H2). apply W; lia.
  - apply Rle_trans with (1 := H4). apply W; lia.
Qed.

(** The folds over [negarr] and [posarr], both full. *)
Lemma fold_negs2 z r s a b c : fin z a -> fin r b -> fin s c ->
  fin (fold_left (fun m v => fmax v m) [z; z; r; s] F_nan) (Rmax c (Rmax b a)).
Proof. intros Hz Hr Hs. apply (fin_max s); trivial. now apply (fold_negs z r). Qed.
Lemma fold_poss2 z r s a b c : fin z a -> fin r b -> fin s c ->
  fin (fold_left (fun m v => fmin v m) [z; z; r; s] F_nan) (Rmin c (Rmin b a)).
Proof. intros Hz Hr Hs. apply (fin_min s); trivial. now apply (fold_poss z r). Qed.

Lemma not_gt_passes p q a c b d : fin p (Rmax c (Rmax a 0)) -> fin q (Rmin d (Rmin b 1)) ->
  negb (fgt p q) = true <-> passes a c b d.
Proof.
  intros P Q. unfold fgt, passes. rewrite (fin_lt _ _ _ _ Q P). case Rlt_bool_spec; intros H; cbn; split; intros; lra || easy.
Qed.

(** [m], [n]: the extents; [a1..a4]: distances to the sides, in the order of travel. *)
Lemma clipped_oblique left right top bottom fx fy fdx fdy l rr t b x y dx dy :
  hv left l -> hv right rr -> hv top t -> hv bottom b ->
  hv fx x -> hv fy y -> hv fdx dx -> hv fdy dy ->
  0 < dx -> dy <> 0 ->
  Z.abs (x - l) <= M24 -> Z.abs (rr - x) <= M24 -> Z.abs (y - t) <= M24 -> Z.abs (b - y) <= M24 ->
  clipped left right top bottom fx fy fdx fdy = true <->
  passes (rnd (IZR (l - x) / IZR dx)) (rnd (IZR (if dy <? 0 then y - b else t - y) / IZR (Z.abs dy)))
         (rnd (IZR (rr - x) / IZR dx)) (rnd (IZR (if dy <? 0 then y - t else b - y) / IZR (Z.abs dy))).
Proof.
  intros Hl Hr Ht Hb Hx Hy Hdx Hdy D0 Dn B1 B2 B3 B4.
  assert (P1 : hv (fneg fdx) (- dx)) by now apply hv_neg.
  assert (P2 : hv (fneg (fneg fdx)) dx) by (replace dx with (- - dx) by lia; now apply hv_neg).
  assert (P3 : hv (fneg fdy) (- dy)) by now apply hv_neg.
  assert (P4 : hv (fneg (fneg fdy)) dy) by (replace dy with (- - dy) by lia; now apply hv_neg).
  assert (Q1 : hv (fsub fx left) (x - l)) by now apply hv_sub.
  assert (Q2 : hv (fsub right fx) (rr - x)) by now apply hv_sub.
  assert (Q3 : hv (fsub fy top) (y - t)) by now apply hv_sub.
  assert (Q4 : hv (fsub bottom fy) (b - y)) by now apply hv_sub.
  unfold clipped. cbv zeta.
  rewrite (hv_feq _ _ _ _ P1 hv_zero), (hv_feq _ _ _ _ P2 hv_zero), (hv_feq _ _ _ _ P3 hv_zero),
    (hv_feq _ _ _ _ P4 hv_zero), (hv_lt _ _ _ _ P1 hv_zero), (hv_lt _ _ _ _ P3 hv_zero).
  rewrite !(proj2 (Z.eqb_neq _ _)) by lia. rewrite (proj2 (Z.ltb_lt (- dx) 0)) by lia. cbn [andb orb negb app].
  assert (R1 : fin (fdiv (fsub fx left) (fneg fdx)) (rnd (IZR (l - x) / IZR dx))).
  { eapply fin_eq; [apply (quot_fin _ _ _ _ Q1 P1); lia|].
    replace (x - l) with (- (l - x)) by lia. rewrite quot_opp by lia. reflexivity. }
  assert (R2 : fin (fdiv (fsub right fx) (fneg (fneg fdx))) (rnd (IZR (rr - x) / IZR dx))).
  { apply (quot_fin _ _ _ _ Q2 P2); lia. }
  destruct (Z.ltb_spec dy 0) as [Neg|Pos].
  - rewrite (proj2 (Z.ltb_ge (- dy) 0)) by lia. replace (Z.abs dy) with (- dy) by lia.
    assert (R3 : fin (fdiv (fsub fy top) (fneg fdy)) (rnd (IZR (y - t) / IZR (- dy)))).
    { apply (quot_fin _ _ _ _ Q3 P3); lia. }
    assert (R4 : fin (fdiv (fsub bottom fy) (fneg (fneg fdy))) (rnd (IZR (y - b) / IZR (- dy)))).
    { eapply fin_eq; [apply (quot_fin _ _ _ _ Q4 P4); lia|].
      replace (y - b) with (- (b - y)) by lia. rewrite quot_opp by lia. reflexivity. }
    apply not_gt_passes; [apply fold_negs2|apply fold_poss2]; trivial; [apply fin_zero|apply fin_one].
  - rewrite (proj2 (Z.ltb_lt (- dy) 0)) by lia. replace (Z.abs dy) with dy by lia.
    assert (R3 : fin (fdiv (fsub fy top) (fneg fdy)) (rnd (IZR (t - y) / IZR dy))).
    { eapply fin_eq; [apply (quot_fin _ _ _ _ Q3 P3); lia|].
      replace (y - t) with (- (t - y)) by lia. rewrite quot_opp by lia. reflexivity. }
    assert (R4 : fin (fdiv (fsub bottom fy) (fneg (fneg fdy))) (rnd (IZR (b - y) / IZR dy))).
    { apply (quot_fin _ _ _ _ Q4 P4); lia. }
    apply not_gt_passes; [apply fold_negs2|apply fold_poss2]; trivial; [apply fin_zero|apply fin_one].
Qed.

(** ** What the quotients mean *)

(** The part of the segment from [x] to [x + d] between [l] and [r]. *)
Definition within (l r x d s : R) : Prop := (l <= x + s * d <= r)%R.

Lemma within_pos l r x d s : 0 < d ->
  within (IZR l) (IZR r) (IZR x) (IZR d) s <-> (IZR (l - x) / IZR d <= s <= IZR (r - x) / IZR d)%R.
Proof.
  intros D. apply IZR_lt in D. unfold within. rewrite !minus_IZR.
  assert (E : forall u, (u / IZR d * IZR d = u)%R) by (intros; field; lra).
  split; intros [H1 H2]; split.
  - apply Rmult_le_reg_r with (IZR d); trivial. rewrite E. lra.
  - apply Rmult_le_reg_r with (IZR d); trivial. rewrite E. lra.
  - apply Rmult_le_compat_r with (r := IZR d) in H1; [|lra]. rewrite E in H1. lra.
  - apply Rmult_le_compat_r with (r := IZR d) in H2; [|lra]. rewrite E in H2. lra.
Qed.
Lemma within_neg l r x d s : d < 0 ->
  within (IZR l) (IZR r) (IZR x) (IZR d) s <-> (IZR (x - r) / IZR (- d) <= s <= IZR (x - l) / IZR (- d))%R.
Proof.
  intros D. assert (D' : 0 < - d) by lia. pose proof (within_pos (- r) (- l) (- x) (- d) s D') as W.
  replace (x - r) with (- r - - x) by lia. replace (x - l) with (- l - - x) by lia.
  rewrite <- W. unfold within. rewrite !opp_IZR. split; intros; nra.
Qed.

Lemma within_zero l r x s : within (IZR l) (IZR r) (IZR x) (IZR 0) s <-> l <= x <= r.
Proof.
  unfold within. rewrite Rmult_0_r, Rplus_0_r. split; intros [H1 H2]; split; (apply le_IZR || apply IZR_le); trivial.
Qed.

Lemma passes_exists a c b d : passes a c b d <-> exists s, (0 <= s <= 1 /\ a <= s <= b /\ c <= s <= d)%R.
Proof.
  rewrite passes_iff. split.
  - intros H. exists (Rmax c (Rmax a 0)). pose proof (Rmax_l c (Rmax a 0)). pose proof (Rmax_r c (Rmax a 0)).
    pose proof (Rmax_l a 0). pose proof (Rmax_r a 0).
    assert (forall z, (c <= z -> a <= z -> 0 <= z -> Rmax c (Rmax a 0) <= z)%R) as L by (intros; repeat apply Rmax_lub; lra).
    repeat split; lra || (apply L; lra).
  - intros (s & H). lra.
Qed.

Definition crossing (l rr t b x y dx dy : Z) : Prop :=
  exists s, (0 <= s <= 1)%R /\ within (IZR l) (IZR rr) (IZR x) (IZR dx) s /\ within (IZR t) (IZR b) (IZR y) (IZR dy) s.

Lemma along l r x d : l <= r ->
  (exists s, (0 <= s <= 1)%R /\ within (IZR l) (IZR r) (IZR x) (IZR d) s) <-> l <= Z.max x (x + d) /\ Z.min x (x + d) <= r.
Proof.
  intros L. split.
  - intros (s & S & W1 & W2). assert (D : d < 0 \/ 0 <= d) by lia. destruct D as [D|D].
    + pose proof (IZR_lt _ _ D) as D'. split; apply le_IZR.
      * replace (Z.max x (x + d)) with x by lia. nra.
      * replace (Z.min x (x + d)) with (x + d) by lia. rewrite plus_IZR. nra.
    + pose proof (IZR_le _ _ D) as D'. split; apply le_IZR.
      * replace (Z.max x (x + d)) with (x + d) by lia. rewrite plus_IZR. nra.
      * replace (Z.min x (x + d)) with x by lia. nra.
  - intros [H1 H2].
    assert (K : forall l r x d, 0 < d -> l <= r -> l <= x + d -> x <= r ->
      exists s, (0 <= s <= 1 /\ IZR (l - x) / IZR d <= s <= IZR (r - x) / IZR d)%R).
    { clear. intros l r x d D L H1 H2. apply IZR_lt in D. exists (Rmax 0 (IZR (l - x) / IZR d)).
      assert (I : (0 < / IZR d)%R) by now apply Rinv_0_lt_compat.
      assert (A1 : (IZR (l - x) / IZR d <= 1)%R).
      { apply Rmult_le_reg_r with (IZR d); trivial. unfold Rdiv. rewrite Rmult_assoc, Rinv_l by lra.
        rewrite Rmult_1_r, Rmult_1_l. apply IZR_le. lia. }
      assert (A2 : (0 <= IZR (r - x) / IZR d)%R) by (apply Rmult_le_pos; [apply IZR_le; lia|lra]).
      assert (A3 : (IZR (l - x) / IZR d <= IZR (r - x) / IZR d)%R) by (apply Rmult_le_compat_r; [lra|apply IZR_le; lia]).
      repeat split; try apply Rmax_l; try apply Rmax_r; apply Rmax_lub; lra. }
    assert (D : d < 0 \/ d = 0 \/ 0 < d) by lia. destruct D as [D|[->|D]].
    + destruct (K (- r) (- l) (- x) (- d)) as (s & S & W); try lia. exists s. split; trivial. apply within_neg; trivial.
      now replace (x - r) with (- r - - x) by lia; replace (x - l) with (- l - - x) by lia.
    + exists 0%R. split; [lra|]. apply within_zero. lia.
    + destruct (K l r x d) as (s & S & W); try lia. exists s. split; trivial. now apply within_pos.
Qed.

Section Clip.
  Variables (left right top bottom fx fy fdx fdy : f32) (l rr t b x y dx dy : Z).
  Hypotheses (Hl : hv left l) (Hr : hv right rr) (Ht : hv top t) (Hb : hv bottom b)
    (Hx : hv fx x) (Hy : hv fy y) (Hdx : hv fdx dx) (Hdy : hv fdy dy)
    (D0 : 0 <= dx) (L1 : l <= rr) (L2 : t <= b)
    (B1 : Z.abs (x - l) <= M24) (B2 : Z.abs (rr - x) <= M24)
    (B3 : Z.abs (y - t) <= M24) (B4 : Z.abs (b - y) <= M24) (B5 : dx <= M24) (B6 : Z.abs dy <= M24).

  Let m := dx.
  Let n := Z.abs dy.
  Let a1 := l - x.
  Let a2 := rr - x.
  Let a3 := if dy <? 0 then y - b else t - y.
  Let a4 := if dy <? 0 then y - t else b - y.

  Lemma crossing_passes : 0 < dx -> dy <> 0 ->
    crossing l rr t b x y dx dy <-> passes (IZR a1 / IZR m) (IZR a3 / IZR n) (IZR a2 / IZR m) (IZR a4 / IZR n).
  Proof.
    intros Px Ny. rewrite passes_exists. unfold crossing, a1, a2, a3, a4, m, n.
    destruct (Z.ltb_spec dy 0) as [N|P].
    - replace (Z.abs dy) with (- dy) by lia. split; intros (s & S & W1 & W2); exists s; (split; [trivial|]).
      + apply within_pos in W1; trivial. apply within_neg in W2; trivial. now split.
      + split; [now apply within_pos|now apply within_neg].
    - replace (Z.abs dy) with dy by lia. split; intros (s & S & W1 & W2); exists s; (split; [trivial|]).
      + apply within_pos in W1; trivial. apply within_pos in W2; trivial; [now split|lia].
      + split; [now apply within_pos|apply within_pos; trivial; lia].
  Qed.

  Lemma crossing_axis : dx = 0 \/ dy = 0 ->
    crossing l rr t b x y dx dy <-> clipped left right top bottom fx fy fdx fdy = true.
  Proof.
    intros A. rewrite (clipped_exact _ _ _ _ _ _ _ _ l rr t b x y dx dy) by trivial.
    rewrite !andb_true_iff, !Z.leb_le. unfold crossing. destruct A as [-> | ->].
    - split.
      + intros (s & S & W1 & W2). apply within_zero in W1.
        destruct (proj1 (along t b y dy L2)) as [A1 A2]; [now exists s|]. lia.
      + intros (((A1 & A2) & A3) & A4). destruct (proj2 (along t b y dy L2)) as (s & S & W); [lia|].
        exists s. split; trivial. split; trivial. apply within_zero. lia.
    - split.
      + intros (s & S & W1 & W2). apply within_zero in W2.
        destruct (proj1 (along l rr x dx L1)) as [A1 A2]; [now exists s|]. lia.
      + intros (((A1 & A2) & A3) & A4). destruct (proj2 (along l rr x dx L1)) as (s & S & W); [lia|].
        exists s. split; trivial. split; trivial. apply within_zero. lia.
  Qed.

  Lemma clipped_hits : crossing l rr t b x y dx dy -> clipped left right top bottom fx fy fdx fdy = true.
  Proof.
    intros C. destruct (Z.eq_dec dx 0) as [E|N]; [apply crossing_axis; auto|].
    destruct (Z.eq_dec dy 0) as [E|N']; [apply crossing_axis; auto|].
    apply (clipped_oblique _ _ _ _ _ _ _ _ l rr t b x y dx dy); trivial; [lia|].
    apply passes_rnd. apply crossing_passes; trivial. lia.
  Qed.

  Lemma clipped_sharp : dx * Z.abs dy < M24 ->
    clipped left right top bottom fx fy fdx fdy = true -> crossing l rr t b x y dx dy.
  Proof.
    intros A C. destruct (Z.eq_dec dx 0) as [E|N]; [apply crossing_axis; auto|].
    destruct (Z.eq_dec dy 0) as [E|N']; [apply crossing_axis; auto|].
    apply crossing_passes; trivial; [lia|].
    apply (clipped_oblique _ _ _ _ _ _ _ _ l rr t b x y dx dy) in C; trivial; [|lia].
    apply passes_exact; trivial; unfold m, n, a1, a2, a3, a4; try lia; destruct (dy <? 0); lia.
  Qed.

  Lemma clipped_near : clipped left right top bottom fx fy fdx fdy = true ->
    crossing (l - 1) (rr + 1) (t - 1) (b + 1) x y dx dy.
  Proof.
    intros C. assert (G : crossing l rr t b x y dx dy -> crossing (l - 1) (rr + 1) (t - 1) (b + 1) x y dx dy).
    { intros (s & S & X & Y). exists s. split; trivial. unfold within in *. rewrite !minus_IZR, !plus_IZR. lra. }
    destruct (Z.eq_dec dx 0) as [E|N]; [apply G, crossing_axis; auto|].
    destruct (Z.eq_dec dy 0) as [E|N']; [apply G, crossing_axis; auto|].
    apply (clipped_oblique _ _ _ _ _ _ _ _ l rr t b x y dx dy) in C; trivial; [|lia].
    apply passes_near in C; try lia; try (destruct (dy <? 0); lia).
    apply passes_exists in C as (s & S & X & Y). exists s. split; trivial. split.
    - apply within_pos; [lia|]. now replace (l - 1 - x) with (l - x - 1) by lia; replace (rr + 1 - x) with (rr - x + 1) by lia.
    - destruct (Z.ltb_spec dy 0) as [Neg|Pos].
      + apply within_neg; [lia|]. replace (y - (b + 1)) with (y - b - 1) by lia. replace (y - (t - 1)) with (y - t + 1) by lia.
        now replace (- dy) with (Z.abs dy) by lia.
      + apply within_pos; [lia|]. replace (t - 1 - y) with (t - y - 1) by lia. replace (b + 1 - y) with (b - y + 1) by lia.
        now replace (Z.abs dy) with dy in Y by lia.
  Qed.
End Clip.

Lemma crosses_sym l t r b ax ay bx by_ : crosses l t r b ax ay bx by_ <-> crosses l t r b bx by_ ax ay.
Proof.
  assert (S : forall l t r b ax ay bx by_, crosses l t r b ax ay bx by_ -> crosses l t r b bx by_ ax ay).
  { clear. intros l t r b ax ay bx by_ (s & S & X & Y). exists (1 - s)%R. repeat split; lra. }
  split; apply S.
Qed.
Lemma crosses_crossing l t r b ax ay bx by_ :
  crosses l t r b ax ay bx by_ <-> crossing l r t b ax ay (bx - ax) (by_ - ay).
Proof. unfold crosses, crossing, within. setoid_rewrite minus_IZR. reflexivity. Qed.

Section Line.
  Variables (w : Z) (r : rect) (l t rr b : Z) (p q : point) (ax ay bx by_ : Z).
  Hypotheses (Hr : hbox r l t rr b) (Hp : hpoint p ax ay) (Hq : hpoint q bx by_) (L1 : l <= rr) (L2 : t <= b)
    (W : - M24 <= w <= 0) (Wl : window w l) (Wt : window w t) (Wr : window w rr) (Wb : window w b)
    (W1 : window w ax) (W2 : window w ay) (W3 : window w bx) (W4 : window w by_).

  Lemma line_verdict : exists c,
    (intersects_line r p q = true <-> ~ taken_for_inside l t rr b ax ay bx by_ /\ c = true) /\
    (crosses l t rr b ax ay bx by_ -> c = true) /\
    (Z.abs (bx - ax) * Z.abs (by_ - ay) < M24 -> c = true -> crosses l t rr b ax ay bx by_) /\
    (c = true -> crosses (l - 1) (t - 1) (rr + 1) (b + 1) ax ay bx by_).
  Proof.
    destruct Hr as (H1 & H2 & H3 & H4), Hp as [Pa Pb], Hq as [Qa Qb]. unfold window in *.
    rewrite intersects_eq, (hv_lt _ _ _ _ Qa Pa). unfold taken_for_inside.
    destruct (Z.ltb_spec bx ax) as [S|S]; cbv beta iota.
    - assert (Dx : hv (fsub (px p) (px q)) (ax - bx)) by (apply hv_sub; trivial; lia).
      assert (Dy : hv (fsub (py p) (py q)) (ay - by_)) by (apply hv_sub; trivial; lia).
      assert (Ex : hv (fadd (px q) (fsub (px p) (px q))) ax).
      { replace ax with (bx + (ax - bx)) at 1 by lia. apply hv_add; trivial. lia. }
      assert (Ey : hv (fadd (py q) (fsub (py p) (py q))) ay).
      { replace ay with (by_ + (ay - by_)) at 1 by lia. apply hv_add; trivial. lia. }
      exists (clipped (min_x r) (max_x r) (min_y r) (max_y r) (px q) (py q) (fsub (px p) (px q)) (fsub (py p) (py q))).
      rewrite (hv_gt _ _ _ _ Qa H1), (hv_lt _ _ _ _ Ex H3), (hv_gt _ _ _ _ Qb H2), (hv_lt _ _ _ _ Ey H4).
      split; [|split; [|split]].
      + rewrite andb_true_iff, negb_true_iff, <- not_true_iff_false, !andb_true_iff, !Z.ltb_lt. intuition lia.
      + intros C. apply crosses_sym, crosses_crossing in C.
        eapply (clipped_hits _ _ _ _ _ _ _ _ l rr t b bx by_ (ax - bx) (ay - by_)); trivial; lia.
      + intros A C. apply crosses_sym, crosses_crossing.
        eapply (clipped_sharp _ _ _ _ _ _ _ _ l rr t b bx by_ (ax - bx) (ay - by_)); try exact C; trivial; try lia.
      + intros C. apply crosses_sym, crosses_crossing.
        eapply (clipped_near _ _ _ _ _ _ _ _ l rr t b bx by_ (ax - bx) (ay - by_)); try exact C; trivial; try lia.
    - assert (Dx : hv (fsub (px q) (px p)) (bx - ax)) by (apply hv_sub; trivial; lia).
      assert (Dy : hv (fsub (py q) (py p)) (by_ - ay)) by (apply hv_sub; trivial; lia).
      assert (Ex : hv (fadd (px p) (fsub (px q) (px p))) bx).
      { replace bx with (ax + (bx - ax)) at 1 by lia. apply hv_add; trivial. lia. }
      assert (Ey : hv (fadd (py p) (fsub (py q) (py p))) by_).
      { replace by_ with (ay + (by_ - ay)) at 1 by lia. apply hv_add; trivial. lia. }
      exists (clipped (min_x r) (max_x r) (min_y r) (max_y r) (px p) (py p) (fsub (px q) (px p)) (fsub (py q) (py p))).
      rewrite (hv_gt _ _ _ _ Pa H1), (hv_lt _ _ _ _ Ex H3), (hv_gt _ _ _ _ Pb H2), (hv_lt _ _ _ _ Ey H4).
      split; [|split; [|split]].
      + rewrite andb_true_iff, negb_true_iff, <- not_true_iff_false, !andb_true_iff, !Z.ltb_lt. intuition lia.
      + intros C. apply crosses_crossing in C.
        eapply (clipped_hits _ _ _ _ _ _ _ _ l rr t b ax ay (bx - ax) (by_ - ay)); trivial; lia.
      + intros A C. apply crosses_crossing.
        eapply (clipped_sharp _ _ _ _ _ _ _ _ l rr t b ax ay (bx - ax) (by_ - ay)); try exact C; trivial; try lia.
      + intros C. apply crosses_crossing.
        eapply (clipped_near _ _ _ _ _ _ _ _ l rr t b ax ay (bx - ax) (by_ - ay)); try exact C; trivial; try lia.
  Qed.
End Line.

Section Theorems.
  Variables (w0 : Z) (r : rect) (x y w h : Z) (p q : point) (ax ay bx by_ : Z).
  Hypotheses (Hr : hrect r x y w h) (Hp : hpoint p ax ay) (Hq : hpoint q bx by_) (Hw : 0 <= w) (Hh : 0 <= h)
    (W0 : - M24 <= w0 <= 0) (Wx : window w0 x) (Wy : window w0 y) (Wr : window w0 (x + w)) (Wb : window w0 (y + h))
    (W1 : window w0 ax) (W2 : window w0 ay) (W3 : window w0 bx) (W4 : window w0 by_).

  Theorem intersects_misses_nothing :
    crosses x y (x + w) (y + h) ax ay bx by_ -> ~ taken_for_inside x y (x + w) (y + h) ax ay bx by_ ->
    intersects_line r p q = true.
  Proof.
    intros C N. pose proof (hrect_box_window _ _ _ _ _ _ Hr W0 ltac:(trivial) ltac:(trivial)) as B.
    destruct (line_verdict w0 r x y (x + w) (y + h) p q ax ay bx by_) as (c & E & H & _); trivial; try lia.
    apply E. auto.
  Qed.
  Theorem intersects_sound :
    intersects_line r p q = true ->
    ~ taken_for_inside x y (x + w) (y + h) ax ay bx by_ /\
    crosses (x - 1) (y - 1) (x + w + 1) (y + h + 1) ax ay bx by_.
  Proof.
    intros C. pose proof (hrect_box_window _ _ _ _ _ _ Hr W0 ltac:(trivial) ltac:(trivial)) as B.
    destruct (line_verdict w0 r x y (x + w) (y + h) p q ax ay bx by_) as (c & E & _ & _ & H); trivial; try lia.
    apply E in C as [N C]. auto.
  Qed.
  Theorem intersects_decides : Z.abs (bx - ax) * Z.abs (by_ - ay) < M24 ->
    intersects_line r p q = true <->
    ~ taken_for_inside x y (x + w) (y + h) ax ay bx by_ /\ crosses x y (x + w) (y + h) ax ay bx by_.
  Proof.
    intros A. pose proof (hrect_box_window _ _ _ _ _ _ Hr W0 ltac:(trivial) ltac:(trivial)) as B.
    destruct (line_verdict w0 r x y (x + w) (y + h) p q ax ay bx by_) as (c & E & H1 & H2 & _); trivial; try lia.
    rewrite E. split; intros [N C]; auto.
  Qed.
End Theorems.

(** ** The bound is needed *)

Definition half (z : Z) : f32 := fdiv (f32_of_Z z) (f32_of_Z 2).
Definition halfpoint (x y : Z) : point := mkPoint (half x) (half y).
Definition halfrect (x y w h : Z) : rect := mkRect (halfpoint x y) (mkSize (half w) (half h)).

Lemma half_hv z : Z.abs z <= 8388608 -> hv (half z) z.
Proof. intros H. apply hv_div2; [now apply hv_of_Z|unfold M24; lia]. Qed.

Theorem false_alarm :
  intersects_line (halfrect 4141 (-10) 11 4150) (halfpoint 0 0) (halfpoint 4142 4141) = true /\
  ~ crosses 4141 (-10) (4141 + 11) (-10 + 4150) 0 0 4142 4141.
Proof.
  split; [vm_compute; reflexivity|]. intros (s & S & X & Y). change (-10 + 4150) with 4140 in *. lra.
Qed.

Lemma halfrect_h x y w h : Z.abs x <= 8388608 -> Z.abs y <= 8388608 -> Z.abs w <= 8388608 -> Z.abs h <= 8388608 ->
  hrect (halfrect x y w h) x y w h.
Proof. intros. repeat split; now apply half_hv. Qed.
Lemma halfpoint_h x y : Z.abs x <= 8388608 -> Z.abs y <= 8388608 -> hpoint (halfpoint x y) x y.
Proof. intros. split; now apply half_hv. Qed.

Theorem false_alarm_full :
  hrect (halfrect 4141 (-10) 11 4150) 4141 (-10) 11 4150 /\ hpoint (halfpoint 0 0) 0 0 /\
  hpoint (halfpoint 4142 4141) 4142 4141 /\ Z.abs (4142 - 0) * Z.abs (4141 - 0) < 2 * M24 /\
  intersects_line (halfrect 4141 (-10) 11 4150) (halfpoint 0 0) (halfpoint 4142 4141) = true /\
  ~ crosses 4141 (-10) (4141 + 11) (-10 + 4150) 0 0 4142 4141.
Proof.
  split; [apply halfrect_h; lia|]. split; [apply halfpoint_h; lia|]. split; [apply halfpoint_h; lia|].
  split; [reflexivity|]. exact false_alarm.
Qed.

Theorem entry_outside : exists r p q e l,
  intersected_line r p q = Some (e, l) /\ contains_point r p = false /\ contains_point r q = true /\
  contains_point r e = false.
Proof.
  exists (halfrect 26 (-200) 38 400), (halfpoint 0 0), (halfpoint 44 0).
  destruct (intersected_line (halfrect 26 (-200) 38 400) (halfpoint 0 0) (halfpoint 44 0)) as [[e l]|] eqn:E;
    [|vm_compute in E; discriminate].
  exists e, l. split; [reflexivity|]. vm_compute in E. injection E as <- <-. vm_compute. auto.
Qed.

Theorem oblique_example :
  intersects_line (halfrect 20 20 10 10) (halfpoint 0 39) (halfpoint 59 0) = true /\
  intersects_line (halfrect 20 20 10 10) (halfpoint 0 39) (halfpoint 40 0) = false /\
  hrect (halfrect 20 20 10 10) 20 20 10 10 /\ hpoint (halfpoint 0 39) 0 39 /\
  hpoint (halfpoint 59 0) 59 0 /\ ~ taken_for_inside 20 20 30 30 0 39 59 0.
Proof.
  split; [vm_compute; reflexivity|]. split; [vm_compute; reflexivity|].
  split; [apply halfrect_h; lia|]. split; [apply halfpoint_h; lia|]. split; [apply halfpoint_h; lia|].
  unfold taken_for_inside. lia.
Qed.
