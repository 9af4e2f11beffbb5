(** Exact behaviour of the geometry functions on half-integral data. *)
From Coq Require Import List ZArith Reals Psatz Bool SpecFloat.
From Flocq Require Import Core BinarySingleNaN.
From Verif Require Import Base F32 Geometry SpecF32 SpecGeom F32Facts.
Import ListNotations.
Local Open Scope Z_scope.

Lemma hv_zero : hv fzero 0.
Proof. apply (hv_of_Z 0). lia. Qed.

Lemma hv_one : hv (f32_of_Z 1) 2.
Proof. apply (hv_of_Z 1). lia. Qed.

(** ** Distance *)

Lemma hv_sq_sqrt x z a :
  hv x a -> hv z 0 -> Z.abs a <= M24 ->
  hv (fsqrt (fadd (fsq x) z)) (Z.abs a) /\ hv (fsqrt (fadd z (fsq x))) (Z.abs a).
Proof.
  intros Hx Hz H.
  destruct (Z.eq_dec a 0) as [->|Na].
  { assert (H0 : hv (fsq x) 0) by (apply (hv_mul x x 0 0 Hx Hx); unfold M24; lia).
    assert (R : forall w, hv w 0 -> hv (fsqrt w) 0).
    { intros w Hw. unfold hv. eapply fin_eq; [apply fin_sqrt; [exact Hw|lra]|].
      replace (IZR 0 / 2)%R with 0%R by lra. rewrite sqrt_0, rnd_0. reflexivity. }
    split; apply R.
    - apply (hv_add _ _ 0 0); trivial; unfold M24; lia.
    - apply (hv_add _ _ 0 0); trivial; unfold M24; lia. }
  set (d := (IZR (Z.abs a) / 2)%R).
  assert (Pd : (/ 2 <= d)%R).
  { unfold d. assert (1 <= IZR (Z.abs a))%R by (apply IZR_le; lia). lra. }
  assert (Ud : (d <= 8388608)%R).
  { unfold d. apply IZR_le in H. unfold M24 in H. lra. }
  assert (Sq : (IZR a / 2 * (IZR a / 2) = d * d)%R).
  { unfold d. rewrite abs_IZR. unfold Rabs. destruct (Rcase_abs (IZR a)); lra. }
  assert (Bd : (Rabs (rnd (d * d)) < emaxR)%R).
  { apply Rle_lt_trans with (bpow radix2 46); [|apply bpow_lt; lia].
    apply abs_round_le_generic; [apply fexp32_valid|apply valid_rnd_N| |].
    - apply generic_format_bpow. compute; discriminate.
    - rewrite Rabs_pos_eq by nra. simpl. nra. }
  assert (Fs : fin (fsq x) (rnd (d * d))).
  { unfold fsq. rewrite <- Sq. apply fin_mul; try exact Hx. now rewrite Sq. }
  assert (Rr : rnd (rnd (d * d)) = rnd (d * d)).
  { apply round_generic; [apply valid_rnd_N|apply generic_format_round;
      [apply fexp32_valid|apply valid_rnd_N]]. }
  assert (P0 : (0 <= rnd (d * d))%R).
  { rewrite <- rnd_0. apply rnd_mono. nra. }
  assert (Fin : forall w, fin w (rnd (d * d)) -> hv (fsqrt w) (Z.abs a)).
  { intros w Hw. unfold hv. fold d. eapply fin_eq; [apply fin_sqrt; [exact Hw|exact P0]|].
    apply sqrt_rnd_sq; [|exact Pd]. unfold d. apply half_format. lia. }
  assert (Z0 : (IZR 0 / 2 = 0)%R) by lra.
  split; apply Fin.
  - eapply fin_eq; [apply fin_add; [exact Fs|exact Hz|]|];
      rewrite Z0, Rplus_0_r, Rr; trivial.
  - eapply fin_eq; [apply fin_add; [exact Hz|exact Fs|]|];
      rewrite Z0, Rplus_0_l, Rr; trivial.
Qed.

Lemma distance_exact p q x1 y1 x2 y2 :
  hpoint p x1 y1 -> hpoint q x2 y2 -> x1 = x2 \/ y1 = y2 ->
  Z.abs (x1 - x2) <= M24 -> Z.abs (y1 - y2) <= M24 ->
  hv (distance p q) (Z.abs (x1 - x2) + Z.abs (y1 - y2)).
Proof.
  intros [P1 P2] [Q1 Q2] H B1 B2. unfold distance.
  assert (Hx : hv (fsub (px p) (px q)) (x1 - x2)) by now apply hv_sub.
  assert (Hy : hv (fsub (py p) (py q)) (y1 - y2)) by now apply hv_sub.
  assert (Sq0 : forall w, hv w 0 -> hv (fsq w) 0).
  { intros w Hw. apply (hv_mul w w 0 0 Hw Hw). unfold M24; lia. }
  destruct H as [E|E].
  - replace (x1 - x2) with 0 in * by lia.
    replace (Z.abs 0 + Z.abs (y1 - y2)) with (Z.abs (y1 - y2)) by lia.
    exact (proj2 (hv_sq_sqrt _ _ _ Hy (Sq0 _ Hx) B2)).
  - replace (y1 - y2) with 0 in * by lia.
    replace (Z.abs (x1 - x2) + Z.abs 0) with (Z.abs (x1 - x2)) by lia.
    exact (proj1 (hv_sq_sqrt _ _ _ Hx (Sq0 _ Hy) B1)).
Qed.

(** ** Rectangles *)

(** The four sides. *)
Definition hbox (r : rect) (l t rr b : Z) : Prop :=
  hv (min_x r) l /\ hv (min_y r) t /\ hv (max_x r) rr /\ hv (max_y r) b.

Lemma hrect_box r x y w h :
  hrect r x y w h -> Z.abs (x + w) <= M24 -> Z.abs (y + h) <= M24 -> hbox r x y (x + w) (y + h).
Proof.
  intros [[Hx Hy] [Hw Hh]] B1 B2. unfold hbox, min_x, min_y, max_x, max_y.
  repeat split; trivial; now apply hv_add.
Qed.

Lemma inset_exact r x y w h dx dy a b :
  hrect r x y w h -> hv dx a -> hv dy b ->
  Z.abs (x + a) <= M24 -> Z.abs (y + b) <= M24 ->
  Z.abs (2 * a) <= M24 -> Z.abs (2 * b) <= M24 ->
  Z.abs (w - 2 * a) <= M24 -> Z.abs (h - 2 * b) <= M24 ->
  hrect (inset_by r dx dy) (x + a) (y + b) (Z.max (w - 2 * a) 0) (Z.max (h - 2 * b) 0).
Proof.
  intros [[Hx Hy] [Hw Hh]] Ha Hb B1 B2 B3 B4 B5 B6. unfold inset_by, hrect, hpoint. simpl.
  assert (H2 : hv (f32_of_Z 2) (2 * 2)) by (apply hv_of_Z; lia).
  assert (Ea : hv (fmul dx (f32_of_Z 2)) (2 * a)).
  { replace (2 * a) with (a * 2) in * by lia. now apply hv_mul. }
  assert (Eb : hv (fmul dy (f32_of_Z 2)) (2 * b)).
  { replace (2 * b) with (b * 2) in * by lia. now apply hv_mul. }
  repeat split.
  - now apply hv_add.
  - now apply hv_add.
  - apply hv_max; [now apply hv_sub|apply hv_zero].
  - apply hv_max; [now apply hv_sub|apply hv_zero].
Qed.

Lemma contains_exact r l t rr b p x y :
  hbox r l t rr b -> hpoint p x y ->
  contains_point r p = ((l <=? x) && (x <=? rr) && (t <=? y) && (y <=? b)).
Proof.
  intros (H1 & H2 & H3 & H4) [Hx Hy]. unfold contains_point.
  now rewrite (hv_ge _ _ _ _ Hx H1), (hv_le _ _ _ _ Hx H3), (hv_ge _ _ _ _ Hy H2), (hv_le _ _ _ _ Hy H4).
Qed.

(** ** intersects_line *)

(** The closed segment meets the closed rectangle (axis-parallel segments). *)
Definition zmeets (l t rr b ax ay bx by_ : Z) : bool :=
  (l <=? Z.max ax bx) && (Z.min ax bx <=? rr) && (t <=? Z.max ay by_) && (Z.min ay by_ <=? b).

(** The early exit of geometry.rs:250-256, after swapping the ends so that the
    segment runs to the right. *)
Definition zexit (l t rr b ax ay bx by_ : Z) : bool :=
  if bx <? ax then (l <? bx) && (ax <? rr) && (t <? by_) && (ay <? b)
  else (l <? ax) && (bx <? rr) && (t <? ay) && (by_ <? b).

(** One coordinate of the Liang-Barsky clip. *)
Lemma clip_core lo hi s d :
  0 < d -> d <= M24 -> lo <= hi -> Z.abs (lo - s) <= M24 ->
  Rlt_bool (Rmin (rnd (IZR (hi - s) / IZR d)) 1) (Rmax (rnd (IZR (lo - s) / IZR d)) 0)
  = negb ((lo - s <=? d) && (0 <=? hi - s)).
Proof.
  intros D0 D1 L B.
  pose proof (quot_le_1 (lo - s) d D0 ltac:(lia)) as Q1.
  pose proof (quot_ge_0 (hi - s) d D0 D1) as Q0.
  pose proof (quot_mono (lo - s) (hi - s) d D0 ltac:(lia)) as Qm.
  set (A := rnd (IZR (lo - s) / IZR d)) in *. set (C := rnd (IZR (hi - s) / IZR d)) in *.
  destruct (Z.leb_spec (lo - s) d) as [H1|H1]; simpl.
  - apply Q1 in H1. destruct (Z.leb_spec 0 (hi - s)) as [H0|H0]; simpl.
    + apply Q0 in H0. apply Rlt_bool_false. apply Rmax_lub; apply Rmin_glb; lra.
    + assert (~ (0 <= C)%R) by (rewrite Q0; lia). apply Rlt_bool_true.
      apply Rle_lt_trans with C; [apply Rmin_l|]. apply Rlt_le_trans with 0%R; [lra|apply Rmax_r].
  - assert (~ (A <= 1)%R) by (rewrite Q1; lia). apply Rlt_bool_true.
    apply Rle_lt_trans with 1%R; [apply Rmin_r|]. apply Rlt_le_trans with A; [lra|apply Rmax_l].
Qed.

(** The folds over [negarr] and [posarr]. *)
Lemma fold_negs z r a b :
  fin z a -> fin r b -> fin (fold_left (fun m v => fmax v m) [z; z; r] F_nan) (Rmax b a).
Proof.
  intros Hz Hr. simpl. 
  assert (E : fmax z F_nan = z) by (unfold fmax; rewrite (fin_nan _ _ Hz); reflexivity).
  rewrite E. eapply fin_eq; [apply fin_max; [exact Hr|apply fin_max; exact Hz]|].
  f_equal. apply Rmax_left. apply Rle_refl.
Qed.

Lemma fold_poss z r a b :
  fin z a -> fin r b -> fin (fold_left (fun m v => fmin v m) [z; z; r] F_nan) (Rmin b a).
Proof.
  intros Hz Hr. simpl.
  assert (E : fmin z F_nan = z) by (unfold fmin; rewrite (fin_nan _ _ Hz); reflexivity).
  rewrite E. eapply fin_eq; [apply fin_min; [exact Hr|apply fin_min; exact Hz]|].
  f_equal. apply Rmin_left. apply Rle_refl.
Qed.

Lemma fin_zero : fin fzero 0.
Proof. eapply fin_eq; [apply hv_zero|]. lra. Qed.

Lemma fin_one : fin (f32_of_Z 1) 1.
Proof. eapply fin_eq; [apply hv_one|]. lra. Qed.

(** The body of [intersected_line] once the ends are ordered. *)
Definition clipped (left right top bottom x y dx dy : f32) : bool :=
  let p1 := fneg dx in
  let p2 := fneg p1 in
  let p3 := fneg dy in
  let p4 := fneg p3 in
  let q1 := fsub x left in
  let q2 := fsub right x in
  let q3 := fsub y top in
  let q4 := fsub bottom y in
  if (feq p1 fzero && flt q1 fzero) || (feq p2 fzero && flt q2 fzero)
     || (feq p3 fzero && flt q3 fzero) || (feq p4 fzero && flt q4 fzero)
  then false
  else
    let one := f32_of_Z 1 in
    let '(negs, poss) := ([fzero; fzero], [one; one]) in
    let '(negs, poss) :=
      if negb (feq p1 fzero) then
        let r1 := fdiv q1 p1 in
        let r2 := fdiv q2 p2 in
        if flt p1 fzero then (negs ++ [r1], poss ++ [r2]) else (negs ++ [r2], poss ++ [r1])
      else (negs, poss) in
    let '(negs, poss) :=
      if negb (feq p3 fzero) then
        let r3 := fdiv q3 p3 in
        let r4 := fdiv q4 p4 in
        if flt p3 fzero then (negs ++ [r3], poss ++ [r4]) else (negs ++ [r4], poss ++ [r3])
      else (negs, poss) in
    let rn1 := fold_left (fun m v => fmax v m) negs F_nan in
    let rn2 := fold_left (fun m v => fmin v m) poss F_nan in
    negb (fgt rn1 rn2).

Lemma intersects_eq r a b :
  intersects_line r a b =
  (let '(x, y, dx, dy) :=
    if flt (px b) (px a)
    then (px b, py b, fsub (px a) (px b), fsub (py a) (py b))
    else (px a, py a, fsub (px b) (px a), fsub (py b) (py a)) in
   negb (fgt x (min_x r) && flt (fadd x dx) (max_x r) && fgt y (min_y r) && flt (fadd y dy) (max_y r))
   && clipped (min_x r) (max_x r) (min_y r) (max_y r) x y dx dy).
Proof.
  unfold intersects_line, intersected_line, clipped.
  destruct (flt (px b) (px a)); cbv beta iota zeta;
  match goal with |- match (if ?c then _ else _) with _ => _ end = _ => destruct c end;
  try reflexivity; cbn [negb andb];
  match goal with |- match (if ?c then _ else _) with _ => _ end = _ => destruct c end;
  try reflexivity;
  repeat match goal with |- context [negb (feq ?a fzero)] => destruct (negb (feq a fzero)) end;
  repeat match goal with |- context [if flt ?a fzero then _ else _] => destruct (flt a fzero) end;
  match goal with |- match (if ?c then _ else _) with _ => _ end = _ => destruct c end;
  reflexivity.
Qed.

Lemma quot_opp a b : b <> 0 -> (IZR (- a) / IZR (- b) = IZR a / IZR b)%R.
Proof.
  intros N. rewrite !opp_IZR. field. intros E. apply N, eq_IZR. exact E.
Qed.

Lemma clipped_exact left right top bottom fx fy fdx fdy l rr t b x y dx dy :
  hv left l -> hv right rr -> hv top t -> hv bottom b ->
  hv fx x -> hv fy y -> hv fdx dx -> hv fdy dy ->
  0 <= dx -> dx = 0 \/ dy = 0 -> l <= rr -> t <= b ->
  Z.abs (x - l) <= M24 -> Z.abs (rr - x) <= M24 -> Z.abs (y - t) <= M24 -> Z.abs (b - y) <= M24 ->
  dx <= M24 -> Z.abs dy <= M24 ->
  clipped left right top bottom fx fy fdx fdy =
  ((l <=? x + dx) && (x <=? rr) && (t <=? Z.max y (y + dy)) && (Z.min y (y + dy) <=? b)).
Proof.
  intros Hl Hr Ht Hb Hx Hy Hdx Hdy D0 Dz Lx Ly B1 B2 B3 B4 B5 B6.
  assert (P1 : hv (fneg fdx) (- dx)) by now apply hv_neg.
  assert (P2 : hv (fneg (fneg fdx)) dx) by (replace dx with (- - dx) by lia; now apply hv_neg).
  assert (P3 : hv (fneg fdy) (- dy)) by now apply hv_neg.
  assert (P4 : hv (fneg (fneg fdy)) dy) by (replace dy with (- - dy) by lia; now apply hv_neg).
  assert (Q1 : hv (fsub fx left) (x - l)) by now apply hv_sub.
  assert (Q2 : hv (fsub right fx) (rr - x)) by now apply hv_sub.
  assert (Q3 : hv (fsub fy top) (y - t)) by now apply hv_sub.
  assert (Q4 : hv (fsub bottom fy) (b - y)) by now apply hv_sub.
  unfold clipped. cbv zeta.
  rewrite (hv_feq _ _ _ _ P1 hv_zero), (hv_feq _ _ _ _ P2 hv_zero), (hv_feq _ _ _ _ P3 hv_zero),
    (hv_feq _ _ _ _ P4 hv_zero), (hv_lt _ _ _ _ Q1 hv_zero), (hv_lt _ _ _ _ Q2 hv_zero),
    (hv_lt _ _ _ _ Q3 hv_zero), (hv_lt _ _ _ _ Q4 hv_zero), (hv_lt _ _ _ _ P1 hv_zero),
    (hv_lt _ _ _ _ P3 hv_zero).
  destruct (Z.eq_dec dx 0) as [Ex|Nx].
  - subst dx. cbn [Z.opp Z.eqb negb andb].
    destruct (Z.eq_dec dy 0) as [Ey|Ny].
    + subst dy. cbn [Z.opp Z.eqb negb andb].
      assert (E : fgt (fold_left (fun m v => fmax v m) [fzero; fzero] F_nan)
                      (fold_left (fun m v => fmin v m) [f32_of_Z 1; f32_of_Z 1] F_nan) = false)
        by (vm_compute; reflexivity).
      rewrite E. cbn [negb].
      destruct (Z.ltb_spec (x - l) 0), (Z.ltb_spec (rr - x) 0), (Z.ltb_spec (y - t) 0),
        (Z.ltb_spec (b - y) 0); cbn [orb];
      destruct (Z.leb_spec l (x + 0)), (Z.leb_spec x rr), (Z.leb_spec t (Z.max y (y + 0))),
        (Z.leb_spec (Z.min y (y + 0)) b); cbn [andb]; try reflexivity; lia.
    + rewrite (proj2 (Z.eqb_neq (- dy) 0)) by lia. rewrite (proj2 (Z.eqb_neq dy 0)) by lia.
      cbn [negb andb orb app].
      destruct (Z.ltb_spec (- dy) 0) as [Pos|Neg].
      * assert (R3 : fin (fdiv (fsub fy top) (fneg fdy)) (rnd (IZR (t - y) / IZR dy))).
        { eapply fin_eq; [apply (quot_fin _ _ _ _ Q3 P3); lia|].
          replace (y - t) with (- (t - y)) by lia. now rewrite quot_opp. }
        assert (R4 : fin (fdiv (fsub bottom fy) (fneg (fneg fdy))) (rnd (IZR (b - y) / IZR dy))).
        { apply (quot_fin _ _ _ _ Q4 P4); lia. }
        unfold fgt. rewrite (fin_lt _ _ _ _ (fold_poss _ _ _ _ fin_one R4) (fold_negs _ _ _ _ fin_zero R3)).
        rewrite clip_core by lia. rewrite negb_involutive.
        replace (Z.max y (y + dy)) with (y + dy) by lia. replace (Z.min y (y + dy)) with y by lia.
        destruct (Z.ltb_spec (x - l) 0), (Z.ltb_spec (rr - x) 0);
          destruct (Z.leb_spec l (x + 0)), (Z.leb_spec x rr); cbn [andb orb]; try reflexivity; try lia.
      * assert (R3 : fin (fdiv (fsub fy top) (fneg fdy)) (rnd (IZR (- t - - y) / IZR (- dy)))).
        { replace (- t - - y) with (y - t) by lia. apply (quot_fin _ _ _ _ Q3 P3); lia. }
        assert (R4 : fin (fdiv (fsub bottom fy) (fneg (fneg fdy))) (rnd (IZR (- b - - y) / IZR (- dy)))).
        { eapply fin_eq; [apply (quot_fin _ _ _ _ Q4 P4); lia|].
          replace (- b - - y) with (- (b - y)) by lia. now rewrite quot_opp. }
        unfold fgt. rewrite (fin_lt _ _ _ _ (fold_poss _ _ _ _ fin_one R3) (fold_negs _ _ _ _ fin_zero R4)).
        rewrite clip_core by lia. rewrite negb_involutive.
        replace (Z.max y (y + dy)) with y by lia. replace (Z.min y (y + dy)) with (y + dy) by lia.
        destruct (Z.ltb_spec (x - l) 0), (Z.ltb_spec (rr - x) 0);
          destruct (Z.leb_spec l (x + 0)), (Z.leb_spec x rr); cbn [andb orb]; try reflexivity; try lia.
  - assert (dy = 0) by lia. subst dy.
    rewrite (proj2 (Z.eqb_neq (- dx) 0)) by lia. rewrite (proj2 (Z.eqb_neq dx 0)) by lia.
    assert (L1 : (- dx <? 0) = true) by (apply Z.ltb_lt; lia). rewrite L1.
    cbn [Z.opp Z.eqb negb andb orb app].
    assert (R1 : fin (fdiv (fsub fx left) (fneg fdx)) (rnd (IZR (l - x) / IZR dx))).
    { eapply fin_eq; [apply (quot_fin _ _ _ _ Q1 P1); lia|].
      replace (x - l) with (- (l - x)) by lia. now rewrite quot_opp. }
    assert (R2 : fin (fdiv (fsub right fx) (fneg (fneg fdx))) (rnd (IZR (rr - x) / IZR dx))).
    { apply (quot_fin _ _ _ _ Q2 P2); lia. }
    unfold fgt. rewrite (fin_lt _ _ _ _ (fold_poss _ _ _ _ fin_one R2) (fold_negs _ _ _ _ fin_zero R1)).
    rewrite clip_core by lia. rewrite negb_involutive.
    destruct (Z.ltb_spec (y - t) 0), (Z.ltb_spec (b - y) 0);
      destruct (Z.leb_spec t (Z.max y (y + 0))), (Z.leb_spec (Z.min y (y + 0)) b); cbn [andb orb];
      rewrite ?andb_false_r; try reflexivity; try lia.
Qed.

Lemma intersects_exact w r l t rr b p q ax ay bx by_ :
  hbox r l t rr b -> hpoint p ax ay -> hpoint q bx by_ ->
  ax = bx \/ ay = by_ -> l <= rr -> t <= b ->
  - M24 <= w <= 0 ->
  window w l -> window w t -> window w rr -> window w b ->
  window w ax -> window w ay -> window w bx -> window w by_ ->
  intersects_line r p q = zmeets l t rr b ax ay bx by_ && negb (zexit l t rr b ax ay bx by_).
Proof.
  intros (H1 & H2 & H3 & H4) [Pa Pb] [Qa Qb] Ax L1 L2 W Wl Wt Wr Wb Wa Wa' Wb1 Wb2.
  unfold window in *.
  rewrite intersects_eq, (hv_lt _ _ _ _ Qa Pa). unfold zexit.
  destruct (Z.ltb_spec bx ax) as [S|S]; cbv beta iota.
  - assert (Dx : hv (fsub (px p) (px q)) (ax - bx)) by (apply hv_sub; trivial; lia).
    assert (Dy : hv (fsub (py p) (py q)) (ay - by_)) by (apply hv_sub; trivial; lia).
    rewrite (clipped_exact _ _ _ _ _ _ _ _ l rr t b bx by_ (ax - bx) (ay - by_)) by (trivial; lia).
    assert (Ex : hv (fadd (px q) (fsub (px p) (px q))) ax).
    { replace ax with (bx + (ax - bx)) at 1 by lia. apply hv_add; trivial. lia. }
    assert (Ey : hv (fadd (py q) (fsub (py p) (py q))) ay).
    { replace ay with (by_ + (ay - by_)) at 1 by lia. apply hv_add; trivial. lia. }
    rewrite (hv_gt _ _ _ _ Qa H1), (hv_lt _ _ _ _ Ex H3), (hv_gt _ _ _ _ Qb H2), (hv_lt _ _ _ _ Ey H4).
    rewrite andb_comm. f_equal. unfold zmeets.
    replace (bx + (ax - bx)) with (Z.max ax bx) by lia. replace (Z.min ax bx) with bx by lia.
    replace (by_ + (ay - by_)) with ay by lia.
    now rewrite (Z.max_comm by_), (Z.min_comm by_).
  - assert (Dx : hv (fsub (px q) (px p)) (bx - ax)) by (apply hv_sub; trivial; lia).
    assert (Dy : hv (fsub (py q) (py p)) (by_ - ay)) by (apply hv_sub; trivial; lia).
    rewrite (clipped_exact _ _ _ _ _ _ _ _ l rr t b ax ay (bx - ax) (by_ - ay)) by (trivial; lia).
    assert (Ex : hv (fadd (px p) (fsub (px q) (px p))) bx).
    { replace bx with (ax + (bx - ax)) at 1 by lia. apply hv_add; trivial. lia. }
    assert (Ey : hv (fadd (py p) (fsub (py q) (py p))) by_).
    { replace by_ with (ay + (by_ - ay)) at 1 by lia. apply hv_add; trivial. lia. }
    rewrite (hv_gt _ _ _ _ Pa H1), (hv_lt _ _ _ _ Ex H3), (hv_gt _ _ _ _ Pb H2), (hv_lt _ _ _ _ Ey H4).
    rewrite andb_comm. f_equal. unfold zmeets.
    replace (ax + (bx - ax)) with (Z.max ax bx) by lia. replace (Z.min ax bx) with ax by lia.
    replace (ay + (by_ - ay)) with by_ by lia. reflexivity.
Qed.

(** ** Rays: segments to x = f32::MIN / f32::MAX (layout.rs:553-610) *)

Lemma RMAX_format : generic_format radix2 fexp32 RMAX.
Proof.
  apply generic_format_FLT. exists (Float radix2 16777215 104).
  - unfold F2R, RMAX. cbn [Fnum Fexp]. change (bpow radix2 104) with (IZR (2 ^ 104)).
    rewrite <- mult_IZR. f_equal.
  - reflexivity.
  - compute; discriminate.
Qed.

Lemma RMAX_mag : mag_val radix2 RMAX (mag radix2 RMAX) = 128.
Proof.
  apply mag_unique. rewrite Rabs_pos_eq by (apply IZR_le; discriminate).
  change (bpow radix2 (128 - 1)) with (IZR (2 ^ 127)). change (bpow radix2 128) with (IZR (2 ^ 128)).
  split; [apply IZR_le|apply IZR_lt]; [discriminate|reflexivity].
Qed.

Lemma RMAX_pos : (IZR (2 ^ 127) < RMAX)%R.
Proof. apply IZR_lt. reflexivity. Qed.

Lemma rnd_RMAX d : (Rabs d <= IZR (2 ^ 102))%R -> rnd (RMAX + d) = RMAX.
Proof.
  intros H. apply Rabs_le_inv in H.
  assert (P : (0 < RMAX)%R) by (apply IZR_lt; reflexivity).
  assert (U : ulp radix2 fexp32 RMAX = IZR (2 ^ 104)).
  { rewrite ulp_neq_0 by lra. unfold cexp. rewrite RMAX_mag. reflexivity. }
  assert (A : (IZR (2 ^ 102) < IZR (2 ^ 104) / 2)%R).
  { assert (IZR (2 ^ 102) * 2 < IZR (2 ^ 104))%R; [|lra]. rewrite <- mult_IZR. now apply IZR_lt. }
  apply Rle_antisym.
  - apply round_N_le_midp; [apply fexp32_valid|apply RMAX_format|].
    rewrite succ_eq_pos by lra. rewrite U. lra.
  - apply round_N_ge_midp; [apply fexp32_valid|apply RMAX_format|].
    rewrite pred_eq_pos by lra. unfold pred_pos. rewrite RMAX_mag.
    rewrite Req_bool_false.
    + rewrite U. lra.
    + change (bpow radix2 (128 - 1)) with (IZR (2 ^ 127)). pose proof RMAX_pos. lra.
Qed.

Lemma small_abs z : Z.abs z <= M24 -> (Rabs (IZR z / 2) <= IZR (2 ^ 102))%R.
Proof.
  intros H. unfold Rdiv. rewrite Rabs_mult, (Rabs_pos_eq (/ 2)) by lra. rewrite <- abs_IZR.
  apply Rle_trans with (IZR (Z.abs z)).
  - assert (0 <= IZR (Z.abs z))%R by (apply IZR_le; lia). lra.
  - apply IZR_le. apply Z.le_trans with M24; [trivial|]. discriminate.
Qed.

Lemma RMAX_lt_emax : (Rabs RMAX < emaxR)%R.
Proof.
  rewrite Rabs_pos_eq by (apply IZR_le; discriminate).
  change emaxR with (IZR (2 ^ 128)). apply IZR_lt. reflexivity.
Qed.

Lemma fin_MAX_sub x a : hv x a -> Z.abs a <= M24 -> fin (fsub F_MAX x) RMAX.
Proof.
  intros Hx H. pose proof (small_abs (- a) ltac:(lia)) as S. rewrite opp_IZR in S.
  assert (E : (RMAX - IZR a / 2 = RMAX + - IZR a / 2)%R) by lra.
  eapply fin_eq; [apply fin_sub; [apply fin_MAX|exact Hx|]|]; rewrite E, rnd_RMAX; trivial.
  apply RMAX_lt_emax.
Qed.

Lemma fin_sub_MIN x a : hv x a -> Z.abs a <= M24 -> fin (fsub x F_MIN) RMAX.
Proof.
  intros Hx H. pose proof (small_abs a H) as S.
  assert (E : (IZR a / 2 - - RMAX = RMAX + IZR a / 2)%R) by lra.
  eapply fin_eq; [apply fin_sub; [exact Hx|apply fin_MIN|]|]; rewrite E, rnd_RMAX; trivial.
  apply RMAX_lt_emax.
Qed.

Lemma rnd_opp x : rnd (- x) = (- rnd x)%R.
Proof. apply round_NE_opp. Qed.

Lemma fin_MIN_sub x a : hv x a -> Z.abs a <= M24 -> fin (fsub F_MIN x) (- RMAX).
Proof.
  intros Hx H. pose proof (small_abs a H) as S.
  assert (E : (- RMAX - IZR a / 2 = - (RMAX + IZR a / 2))%R) by lra.
  eapply fin_eq; [apply fin_sub; [apply fin_MIN|exact Hx|]|]; rewrite E, rnd_opp, rnd_RMAX; trivial.
  rewrite Rabs_Ropp. apply RMAX_lt_emax.
Qed.

Lemma fin_add_MAX x a y : hv x a -> Z.abs a <= M24 -> fin y RMAX -> fin (fadd x y) RMAX.
Proof.
  intros Hx H Hy. pose proof (small_abs a H) as S.
  eapply fin_eq; [apply fin_add; [exact Hx|exact Hy|]|]; rewrite Rplus_comm, rnd_RMAX; trivial.
  apply RMAX_lt_emax.
Qed.

Lemma RMAX_nz : RMAX <> 0%R.
Proof. assert (0 < RMAX)%R by (apply IZR_lt; reflexivity). lra. Qed.

Lemma ray_left r l t rr b c x y :
  hbox r l t rr b -> hpoint c x y ->
  Z.abs l <= M24 -> Z.abs rr <= M24 -> Z.abs x <= M24 ->
  Z.abs (y - t) <= M24 -> Z.abs (b - y) <= M24 ->
  intersects_line r c (mkPoint F_MIN (py c)) = ((t <=? y) && (y <=? b)).
Proof.
  intros (H1 & H2 & H3 & H4) [Cx Cy] B1 B2 B3 B4 B5.
  rewrite intersects_eq. cbn [px py].
  rewrite (fin_lt _ _ _ _ fin_MIN Cx), Rlt_bool_true.
  2:{ pose proof (hv_lt_MAX (- x) ltac:(lia)). rewrite opp_IZR in H. lra. }
  cbv beta iota.
  assert (Nx : fgt F_MIN (min_x r) = false).
  { unfold fgt. rewrite (fin_lt _ _ _ _ H1 fin_MIN), Rlt_bool_false; [reflexivity|].
    pose proof (hv_lt_MAX (- l) ltac:(lia)). rewrite opp_IZR in H. lra. }
  rewrite Nx. cbn [andb negb].
  assert (Dx := fin_sub_MIN _ _ Cx B3).
  assert (Dy : hv (fsub (py c) (py c)) 0).
  { replace 0 with (y - y) by lia. apply hv_sub; trivial. unfold M24; lia. }
  assert (P3 := hv_neg _ _ Dy). assert (P4 := hv_neg _ _ P3). cbn in P3, P4.
  assert (Q3 : hv (fsub (py c) (min_y r)) (y - t)) by now apply hv_sub.
  assert (Q4 : hv (fsub (max_y r) (py c)) (b - y)) by now apply hv_sub.
  assert (P1 := fin_neg _ _ Dx). assert (P2 := fin_neg _ _ P1). rewrite Ropp_involutive in P2.
  assert (Q1 := fin_MIN_sub _ _ H1 B1). assert (Q2 := fin_sub_MIN _ _ H3 B2).
  assert (Mp : (0 < RMAX)%R) by (apply IZR_lt; reflexivity).
  assert (R1 : fin (fdiv (fsub F_MIN (min_x r)) (fneg (fsub (px c) F_MIN))) 1).
  { assert (E : (- RMAX / - RMAX = 1)%R) by (field; lra).
    eapply fin_eq; [apply fin_div; [exact Q1|exact P1|lra|]|]; rewrite E, rnd_1; trivial.
    rewrite Rabs_R1. change 1%R with (bpow radix2 0). now apply bpow_lt. }
  assert (R2 : fin (fdiv (fsub (max_x r) F_MIN) (fneg (fneg (fsub (px c) F_MIN)))) 1).
  { assert (E : (RMAX / RMAX = 1)%R) by (field; lra).
    eapply fin_eq; [apply fin_div; [exact Q2|exact P2|lra|]|]; rewrite E, rnd_1; trivial.
    rewrite Rabs_R1. change 1%R with (bpow radix2 0). now apply bpow_lt. }
  unfold clipped. cbv zeta.
  rewrite (fin_feq _ _ _ _ P1 fin_zero), (fin_feq _ _ _ _ P2 fin_zero), !Req_bool_false by lra.
  rewrite (fin_lt _ _ _ _ P1 fin_zero), Rlt_bool_true by lra.
  rewrite (hv_feq _ _ _ _ P3 hv_zero), (hv_feq _ _ _ _ P4 hv_zero), (hv_lt _ _ _ _ Q3 hv_zero),
    (hv_lt _ _ _ _ Q4 hv_zero).
  cbn [Z.eqb andb orb negb app].
  unfold fgt. rewrite (fin_lt _ _ _ _ (fold_poss _ _ _ _ fin_one R2) (fold_negs _ _ _ _ fin_zero R1)).
  rewrite Rlt_bool_false.
  - destruct (Z.ltb_spec (y - t) 0), (Z.ltb_spec (b - y) 0); cbn [orb negb]; lia.
  - rewrite Rmin_left by lra. rewrite Rmax_left by lra. lra.
Qed.

Lemma ray_right r l t rr b c x y :
  hbox r l t rr b -> hpoint c x y ->
  Z.abs rr <= M24 -> Z.abs x <= M24 ->
  Z.abs (y - t) <= M24 -> Z.abs (b - y) <= M24 -> Z.abs (x - l) <= M24 -> Z.abs (rr - x) <= M24 ->
  x < l -> l <= rr ->
  intersects_line r c (mkPoint F_MAX (py c)) = ((t <=? y) && (y <=? b)).
Proof.
  intros (H1 & H2 & H3 & H4) [Cx Cy] B1 B3 B4 B5 B6 B7 L1 L2.
  rewrite intersects_eq. cbn [px py].
  rewrite (fin_lt _ _ _ _ fin_MAX Cx), Rlt_bool_false by (pose proof (hv_lt_MAX x ltac:(lia)); lra).
  cbv beta iota.
  assert (Dx := fin_MAX_sub _ _ Cx B3).
  assert (Nx : flt (fadd (px c) (fsub F_MAX (px c))) (max_x r) = false).
  { rewrite (fin_lt _ _ _ _ (fin_add_MAX _ _ _ Cx B3 Dx) H3), Rlt_bool_false; [reflexivity|].
    pose proof (hv_lt_MAX rr ltac:(lia)). lra. }
  rewrite Nx. rewrite andb_false_r. cbn [andb negb].
  assert (Dy : hv (fsub (py c) (py c)) 0).
  { replace 0 with (y - y) by lia. apply hv_sub; trivial. unfold M24; lia. }
  assert (P3 := hv_neg _ _ Dy). assert (P4 := hv_neg _ _ P3). cbn in P3, P4.
  assert (Q3 : hv (fsub (py c) (min_y r)) (y - t)) by now apply hv_sub.
  assert (Q4 : hv (fsub (max_y r) (py c)) (b - y)) by now apply hv_sub.
  assert (P1 := fin_neg _ _ Dx). assert (P2 := fin_neg _ _ P1). rewrite Ropp_involutive in P2.
  assert (Q1 : hv (fsub (px c) (min_x r)) (x - l)) by now apply hv_sub.
  assert (Q2 : hv (fsub (max_x r) (px c)) (rr - x)) by now apply hv_sub.
  assert (Mp : (IZR (2 ^ 127) < RMAX)%R) by apply RMAX_pos.
  assert (Mp1 : (1 < RMAX)%R) by (apply IZR_lt; reflexivity).
  assert (Iv : (0 < / RMAX < 1)%R).
  { split; [apply Rinv_0_lt_compat; lra|]. rewrite <- Rinv_1. apply Rinv_lt_contravar; lra. }
  assert (Sm : forall z, 0 <= z <= M24 -> (0 <= IZR z / 2 / RMAX <= 1)%R).
  { intros z Hz.
    assert (IZR z / 2 < RMAX)%R by (apply hv_lt_MAX; lia).
    assert (0 <= IZR z)%R by (apply IZR_le; lia).
    split.
    - unfold Rdiv at 1. apply Rmult_le_pos; lra.
    - apply Rmult_le_reg_r with RMAX; [lra|]. unfold Rdiv at 1. rewrite Rmult_assoc, Rinv_l; lra. }
  assert (Sr : forall z, 0 <= z <= M24 -> (0 <= rnd (IZR z / 2 / RMAX) <= 1)%R).
  { intros z Hz. split; [rewrite <- rnd_0|rewrite <- rnd_1]; apply rnd_mono; apply Sm; trivial. }
  assert (Se : forall z, 0 <= z <= M24 -> (Rabs (rnd (IZR z / 2 / RMAX)) < emaxR)%R).
  { intros z Hz. specialize (Sr z Hz). rewrite Rabs_pos_eq by lra.
    apply Rle_lt_trans with (bpow radix2 0); [simpl; lra|now apply bpow_lt]. }
  assert (R1 : fin (fdiv (fsub (px c) (min_x r)) (fneg (fsub F_MAX (px c)))) (rnd (IZR (l - x) / 2 / RMAX))).
  { assert (E : (IZR (x - l) / 2 / - RMAX = IZR (l - x) / 2 / RMAX)%R).
    { replace (x - l) with (- (l - x)) by lia. rewrite opp_IZR. field. lra. }
    rewrite <- E. apply fin_div; [exact Q1|exact P1|lra|]. rewrite E. apply Se. lia. }
  assert (R2 : fin (fdiv (fsub (max_x r) (px c)) (fneg (fneg (fsub F_MAX (px c))))) (rnd (IZR (rr - x) / 2 / RMAX))).
  { apply fin_div; [exact Q2|exact P2|lra|]. apply Se. lia. }
  unfold clipped. cbv zeta.
  rewrite (fin_feq _ _ _ _ P1 fin_zero), (fin_feq _ _ _ _ P2 fin_zero), !Req_bool_false by lra.
  rewrite (fin_lt _ _ _ _ P1 fin_zero), Rlt_bool_true by lra.
  rewrite (hv_feq _ _ _ _ P3 hv_zero), (hv_feq _ _ _ _ P4 hv_zero), (hv_lt _ _ _ _ Q3 hv_zero),
    (hv_lt _ _ _ _ Q4 hv_zero).
  cbn [Z.eqb andb orb negb app].
  unfold fgt. rewrite (fin_lt _ _ _ _ (fold_poss _ _ _ _ fin_one R2) (fold_negs _ _ _ _ fin_zero R1)).
  rewrite Rlt_bool_false.
  - destruct (Z.ltb_spec (y - t) 0), (Z.ltb_spec (b - y) 0); cbn [orb negb]; lia.
  - pose proof (Sr (l - x) ltac:(lia)). pose proof (Sr (rr - x) ltac:(lia)).
    rewrite Rmin_left by lra. rewrite Rmax_left by lra. apply rnd_mono.
    assert (L3 : l - x <= rr - x) by lia. apply IZR_le in L3.
    unfold Rdiv. apply Rmult_le_compat_r; lra.
Qed.

(** ** Statements for the property file *)

Lemma IZR_max a b : Rmax (IZR a) (IZR b) = IZR (Z.max a b).
Proof.
  destruct (Z.max_spec a b) as [[H ->]|[H ->]].
  - apply Rmax_right, IZR_le. lia.
  - apply Rmax_left, IZR_le. lia.
Qed.

Lemma IZR_min a b : Rmin (IZR a) (IZR b) = IZR (Z.min a b).
Proof.
  destruct (Z.min_spec a b) as [[H ->]|[H ->]].
  - apply Rmin_left, IZR_le. lia.
  - apply Rmin_right, IZR_le. lia.
Qed.

Lemma zmeets_iff l t r b ax ay bx by_ :
  l <= r -> t <= b -> (zmeets l t r b ax ay bx by_ = true <-> meets l t r b ax ay bx by_).
Proof.
  intros L1 L2. unfold zmeets, meets. rewrite !andb_true_iff, !Z.leb_le.
  rewrite !IZR_max, !IZR_min. split.
  - intros (((A & B) & C) & D).
    exists (IZR (Z.max l (Z.min ax bx))), (IZR (Z.max t (Z.min ay by_))).
    repeat split; apply IZR_le; lia.
  - intros (x & y & [A1 A2] & [B1 B2] & [C1 C2] & [D1 D2]).
    repeat split; apply le_IZR; lra.
Qed.

Lemma contains_rect r x y w h p a b :
  hrect r x y w h -> hpoint p a b -> Z.abs (x + w) <= M24 -> Z.abs (y + h) <= M24 ->
  (contains_point r p = true <-> x <= a <= x + w /\ y <= b <= y + h).
Proof.
  intros Hr Hp B1 B2. rewrite (contains_exact _ _ _ _ _ _ _ _ (hrect_box _ _ _ _ _ Hr B1 B2) Hp).
  lia.
Qed.

(** Midpoints of a rectangle of integral size. *)
Lemma center_exact r x y w h :
  hrect r x y (2 * w) (2 * h) -> Z.abs w <= M24 -> Z.abs h <= M24 ->
  Z.abs (x + w) <= M24 -> Z.abs (y + h) <= M24 ->
  hpoint (center r) (x + w) (y + h).
Proof.
  intros [[Hx Hy] [Hw Hh]] A1 A2 B1 B2. unfold center, hpoint, mid_x, mid_y. simpl.
  split; apply hv_add; trivial; now apply hv_div2.
Qed.

Lemma point_eqb_exact p q a b c d :
  hpoint p a b -> hpoint q c d -> point_eqb p q = (a =? c) && (b =? d).
Proof.
  intros [P1 P2] [Q1 Q2]. unfold point_eqb.
  now rewrite (hv_feq _ _ _ _ P1 Q1), (hv_feq _ _ _ _ P2 Q2).
Qed.

(** [8388608 = 2^23] halves: magnitude 2^22. *)
Lemma inset_center r x y w h dx dy a b :
  hrect r x y (2 * w) (2 * h) -> hv dx a -> hv dy b ->
  Z.abs x <= 4194304 -> Z.abs y <= 4194304 -> 0 <= w <= 4194304 -> 0 <= h <= 4194304 ->
  Z.abs a <= 4194304 -> Z.abs b <= 4194304 ->
  (point_eqb (center (inset_by r dx dy)) (center r) = true <-> a <= w /\ b <= h).
Proof.
  intros Hr Ha Hb Bx By Bw Bh Ba Bb.
  assert (Hi : hrect (inset_by r dx dy) (x + a) (y + b) (2 * Z.max (w - a) 0) (2 * Z.max (h - b) 0)).
  { replace (2 * Z.max (w - a) 0) with (Z.max (2 * w - 2 * a) 0) by lia.
    replace (2 * Z.max (h - b) 0) with (Z.max (2 * h - 2 * b) 0) by lia.
    apply inset_exact; trivial; unfold M24; lia. }
  assert (C1 := center_exact _ _ _ _ _ Hi ltac:(unfold M24; lia) ltac:(unfold M24; lia)
                  ltac:(unfold M24; lia) ltac:(unfold M24; lia)).
  assert (C2 := center_exact _ _ _ _ _ Hr ltac:(unfold M24; lia) ltac:(unfold M24; lia)
                  ltac:(unfold M24; lia) ltac:(unfold M24; lia)).
  rewrite (point_eqb_exact _ _ _ _ _ _ C1 C2). lia.
Qed.

Lemma hrect_box_window w0 r x y w h :
  hrect r x y w h -> - M24 <= w0 <= 0 -> window w0 (x + w) -> window w0 (y + h) ->
  hbox r x y (x + w) (y + h).
Proof. unfold window. intros. apply hrect_box; trivial; lia. Qed.

Lemma intersects_iff w0 r x y w h p q ax ay bx by_ :
  hrect r x y w h -> hpoint p ax ay -> hpoint q bx by_ ->
  0 <= w -> 0 <= h -> - M24 <= w0 <= 0 ->
  window w0 x -> window w0 y -> window w0 (x + w) -> window w0 (y + h) ->
  window w0 ax -> window w0 ay -> window w0 bx -> window w0 by_ ->
  ay = by_ \/ (ax = bx /\ ay <= by_) ->
  ~ (strictly_inside x y (x + w) (y + h) ax ay /\ strictly_inside x y (x + w) (y + h) bx by_) ->
  (intersects_line r p q = true <-> meets x y (x + w) (y + h) ax ay bx by_).
Proof.
  intros Hr Hp Hq W H Hw0 ? ? ? ? ? ? ? ? Ax N.
  pose proof (hrect_box_window _ _ _ _ _ _ Hr Hw0 ltac:(trivial) ltac:(trivial)) as Hb.
  rewrite (intersects_exact w0 r x y (x + w) (y + h) p q ax ay bx by_) by (trivial; lia).
  rewrite <- zmeets_iff by lia.
  assert (E : zexit x y (x + w) (y + h) ax ay bx by_ = false).
  { unfold zexit. unfold strictly_inside in N. destruct (Z.ltb_spec bx ax); lia. }
  rewrite E. cbn. rewrite andb_true_r. reflexivity.
Qed.

Lemma intersects_upward w0 r x y w h p q ax ay by_ :
  hrect r x y w h -> hpoint p ax ay -> hpoint q ax by_ ->
  0 <= w -> 0 <= h -> - M24 <= w0 <= 0 ->
  window w0 x -> window w0 y -> window w0 (x + w) -> window w0 (y + h) ->
  window w0 ax -> window w0 ay -> window w0 by_ ->
  x < ax < x + w -> by_ < y -> y + h < ay ->
  intersects_line r p q = false /\ intersects_line r q p = true /\
  meets x y (x + w) (y + h) ax ay ax by_.
Proof.
  intros Hr Hp Hq W H Hw0 ? ? ? ? ? ? ? I1 I2 I3.
  pose proof (hrect_box_window _ _ _ _ _ _ Hr Hw0 ltac:(trivial) ltac:(trivial)) as Hb.
  rewrite (intersects_exact w0 r x y (x + w) (y + h) p q ax ay ax by_) by (trivial; lia).
  rewrite (intersects_exact w0 r x y (x + w) (y + h) q p ax by_ ax ay) by (trivial; lia).
  rewrite <- zmeets_iff by lia.
  unfold zexit, zmeets. rewrite Z.ltb_irrefl. lia.
Qed.

Lemma distance_cost p q x1 y1 x2 y2 :
  hpoint p x1 y1 -> hpoint q x2 y2 -> x1 = x2 \/ y1 = y2 ->
  Z.abs (x1 - x2) <= M24 -> Z.abs (y1 - y2) <= M24 ->
  f32_to_u32 (distance p q) = Z.to_N ((Z.abs (x1 - x2) + Z.abs (y1 - y2)) / 2).
Proof.
  intros Hp Hq A B1 B2. apply hv_u32; [now apply distance_exact|lia].
Qed.

(** ** Comparisons of arbitrary numbers *)

Lemma SFcompare_swap x y :
  SFcompare y x = match SFcompare x y with Some c => Some (CompOpp c) | None => None end.
Proof.
  destruct x as [sx|sx| |sx mx ex], y as [sy|sy| |sy my ey]; simpl;
    try (destruct sx); try (destruct sy); try reflexivity;
    rewrite (Z.compare_antisym ex ey); destruct (ex ?= ey); simpl; try reflexivity;
    change (Pos.compare_cont Eq my mx) with (Pos.compare my mx);
    change (Pos.compare_cont Eq mx my) with (Pos.compare mx my);
    now rewrite (Pos.compare_antisym mx my).
Qed.

Lemma SFcompare_some x y : is_nan x = false -> is_nan y = false -> exists c, SFcompare x y = Some c.
Proof.
  intros Hx Hy.
  destruct x as [sx|sx| |sx mx ex], y as [sy|sy| |sy my ey]; try discriminate; simpl;
    try (destruct sx); try (destruct sy); eauto; destruct (ex ?= ey); eauto.
Qed.

Lemma flt_trichotomy x y : is_nan x = false -> is_nan y = false ->
  (flt x y = true /\ flt y x = false /\ feq x y = false) \/
  (flt x y = false /\ flt y x = false /\ feq x y = true) \/
  (flt x y = false /\ flt y x = true /\ feq x y = false).
Proof.
  intros Hx Hy. unfold flt, feq, SFltb, SFeqb. rewrite (SFcompare_swap x y).
  destruct (SFcompare_some x y Hx Hy) as [c ->]. destruct c; simpl; auto.
Qed.

Lemma direction_cases p q : proper p -> proper q ->
  (feq (py p) (py q) = true -> flt (px q) (px p) = true ->
     orthogonal_direction p q = Left /\ orthogonal_direction q p = Right) /\
  (feq (px p) (px q) = true -> flt (py q) (py p) = true ->
     orthogonal_direction p q = Up /\ orthogonal_direction q p = Down).
Proof.
  intros [P1 P2] [Q1 Q2]. unfold orthogonal_direction, fgt.
  destruct (flt_trichotomy _ _ P1 Q1) as [(A & B & C)|[(A & B & C)|(A & B & C)]];
  destruct (flt_trichotomy _ _ P2 Q2) as [(D & E & F)|[(D & E & F)|(D & E & F)]];
  rewrite ?A, ?B, ?C, ?D, ?E, ?F; split; intros; try discriminate; auto.
Qed.

(** ** Paths *)

Lemma path_points cs : forall p0 start,
  path_start_point (fold_left apply_command cs (MoveTo start :: p0)) = Ret start /\
  path_end_point (fold_left apply_command cs (MoveTo start :: p0)) =
  Ret (last (map target cs) (target (last (MoveTo start :: p0) (MoveTo start)))).
Proof.
  induction cs as [|c cs IH]; intros p0 start.
  - split; [reflexivity|]. cbn [fold_left map]. unfold path_end_point.
    change (last (@nil point) ?d) with d.
    destruct (@exists_last _ (MoveTo start :: p0)) as (l & a & E); [discriminate|].
    rewrite E, rev_app_distr, last_last. simpl. now destruct a.
  - cbn [fold_left].
    assert (E : apply_command (MoveTo start :: p0) c = MoveTo start :: (p0 ++ [c])) by now destruct c.
    rewrite E. destruct (IH (p0 ++ [c]) start) as [I1 I2]. split; [exact I1|].
    rewrite I2. rewrite (app_comm_cons p0 [c] (MoveTo start)), last_last.
    destruct cs as [|c' cs]; [reflexivity|].
    change (map target (c :: c' :: cs)) with (target c :: map target (c' :: cs)).
    assert (L : forall (x y : point) l, l <> [] -> last l x = last l y).
    { intros x y l. induction l as [|a l IHl]; intros H; [congruence|].
      destruct l as [|b l]; [reflexivity|]. apply IHl. discriminate. }
    f_equal. change (last (target c :: map target (c' :: cs)) ?d) with (last (map target (c' :: cs)) d).
    apply L. discriminate.
Qed.
