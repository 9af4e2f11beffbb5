(** Facts about [f32] (F32.v) from Flocq's correctness theorems: every
    operation is the rounded exact operation, and half-integers of magnitude up
    to 2^23 are computed with exactly. *)
From Coq Require Import List ZArith Reals Psatz Bool SpecFloat.
From Flocq Require Import Core BinarySingleNaN.
From Verif Require Import Base F32 SpecF32.
Import ListNotations.

Local Instance prec24 : Prec_gt_0 24 := eq_refl _.
Local Instance lt24 : Prec_lt_emax 24 128 := eq_refl _.
Local Open Scope R_scope.

Notation fexp32 := (SpecFloat.fexp 24 128).
Notation rnd := (round radix2 fexp32 ZnearestE).

Global Instance fexp32_valid : Valid_exp fexp32.
Proof. apply fexp_correct; reflexivity. Qed.
Global Instance fexp32_mono : Monotone_exp fexp32.
Proof. apply fexp_monotone. Qed.

Lemma fin_eq x r r' : fin x r -> r = r' -> fin x r'.
Proof. intros H <-. exact H. Qed.

(** ** The model's operations are Flocq's *)

Lemma round_aux_equiv sx mx ex lx :
  SpecFloat.binary_round_aux 24 128 sx mx ex lx
  = BinarySingleNaN.binary_round_aux 24 128 mode_NE sx mx ex lx.
Proof.
  unfold SpecFloat.binary_round_aux, BinarySingleNaN.binary_round_aux.
  destruct (SpecFloat.shr_fexp 24 128 mx ex lx) as [mrs' e']. cbv zeta.
  assert (E : forall m l, round_nearest_even m l = choice_mode mode_NE sx m l).
  { intros m l. destruct l as [|[]]; try reflexivity.
    simpl. unfold Round.cond_incr. now destruct (Z.even m). }
  rewrite E. reflexivity.
Qed.

Lemma binary_round_eq s m e :
  SpecFloat.binary_round 24 128 s m e = BinarySingleNaN.binary_round 24 128 mode_NE s m e.
Proof.
  unfold SpecFloat.binary_round, BinarySingleNaN.binary_round, shl_align_fexp.
  destruct (shl_align _ _ _) as [mz ez]. apply round_aux_equiv.
Qed.

Lemma normalize_equiv m e szero :
  SpecFloat.binary_normalize 24 128 m e szero
  = B2SF (BinarySingleNaN.binary_normalize 24 128 _ _ mode_NE m e szero).
Proof.
  destruct m; simpl; [reflexivity| |]; rewrite B2SF_SF2B; apply binary_round_eq.
Qed.

Lemma fadd_equiv (x y : binary_float 24 128) : fadd (B2SF x) (B2SF y) = B2SF (Bplus mode_NE x y).
Proof.
  destruct x as [sx|sx| |sx mx ex Bx], y as [sy|sy| |sy my ey By];
    try (simpl; now (trivial || destruct (Bool.eqb sx sy))).
  apply normalize_equiv.
Qed.

Lemma fsub_equiv (x y : binary_float 24 128) : fsub (B2SF x) (B2SF y) = B2SF (Bminus mode_NE x y).
Proof.
  destruct x as [sx|sx| |sx mx ex Bx], y as [sy|sy| |sy my ey By];
    try (unfold fsub; simpl; now (trivial || destruct sx, sy)).
  unfold fsub; simpl. unfold Zminus. rewrite <- cond_Zopp_negb. apply normalize_equiv.
Qed.

Lemma fmul_equiv (x y : binary_float 24 128) : fmul (B2SF x) (B2SF y) = B2SF (Bmult mode_NE x y).
Proof.
  destruct x as [sx|sx| |sx mx ex Bx], y as [sy|sy| |sy my ey By]; try reflexivity.
  unfold fmul. simpl. rewrite B2SF_SF2B. apply round_aux_equiv.
Qed.

Lemma fdiv_equiv (x y : binary_float 24 128) : fdiv (B2SF x) (B2SF y) = B2SF (Bdiv mode_NE x y).
Proof.
  destruct x as [sx|sx| |sx mx ex Bx], y as [sy|sy| |sy my ey By]; try reflexivity.
  unfold fdiv. simpl. rewrite B2SF_SF2B.
  destruct (SFdiv_core_binary _ _ _ _ _ _) as [[mz ez] lz]. apply round_aux_equiv.
Qed.

Lemma fsqrt_equiv (x : binary_float 24 128) : fsqrt (B2SF x) = B2SF (Bsqrt mode_NE x).
Proof.
  destruct x as [sx|[]| |[] mx ex Bx]; try reflexivity.
  unfold fsqrt. simpl. rewrite B2SF_SF2B.
  destruct (SFsqrt_core_binary _ _ _ _) as [[mz ez] lz]. apply round_aux_equiv.
Qed.

(** ** Rounded real arithmetic *)

Notation emaxR := (bpow radix2 128).

Lemma fin_add x y a b :
  fin x a -> fin y b -> Rabs (rnd (a + b)) < emaxR -> fin (fadd x y) (rnd (a + b)).
Proof.
  intros (bx & <- & Fx & <-) (b_y & <- & Fy & <-) H.
  pose proof (Bplus_correct 24 128 _ _ mode_NE bx b_y Fx Fy) as C.
  change (round_mode mode_NE) with ZnearestE in C. rewrite (Rlt_bool_true _ _ H) in C.
  exists (Bplus mode_NE bx b_y). rewrite fadd_equiv. intuition.
Qed.

Lemma fin_sub x y a b :
  fin x a -> fin y b -> Rabs (rnd (a - b)) < emaxR -> fin (fsub x y) (rnd (a - b)).
Proof.
  intros (bx & <- & Fx & <-) (b_y & <- & Fy & <-) H.
  pose proof (Bminus_correct 24 128 _ _ mode_NE bx b_y Fx Fy) as C.
  change (round_mode mode_NE) with ZnearestE in C. rewrite (Rlt_bool_true _ _ H) in C.
  exists (Bminus mode_NE bx b_y). rewrite fsub_equiv. intuition.
Qed.

Lemma fin_mul x y a b :
  fin x a -> fin y b -> Rabs (rnd (a * b)) < emaxR -> fin (fmul x y) (rnd (a * b)).
Proof.
  intros (bx & <- & Fx & <-) (b_y & <- & Fy & <-) H.
  pose proof (Bmult_correct 24 128 _ _ mode_NE bx b_y) as C.
  change (round_mode mode_NE) with ZnearestE in C. rewrite (Rlt_bool_true _ _ H), Fx, Fy in C.
  exists (Bmult mode_NE bx b_y). rewrite fmul_equiv. intuition.
Qed.

Lemma fin_div x y a b :
  fin x a -> fin y b -> b <> 0 -> Rabs (rnd (a / b)) < emaxR -> fin (fdiv x y) (rnd (a / b)).
Proof.
  intros (bx & <- & Fx & <-) (b_y & <- & Fy & <-) N H.
  pose proof (Bdiv_correct 24 128 _ _ mode_NE bx b_y N) as C.
  change (round_mode mode_NE) with ZnearestE in C. rewrite (Rlt_bool_true _ _ H), Fx in C.
  exists (Bdiv mode_NE bx b_y). rewrite fdiv_equiv. intuition.
Qed.

Lemma fin_neg x a : fin x a -> fin (fneg x) (- a).
Proof.
  intros (bx & <- & Fx & <-). exists (Bopp bx).
  rewrite is_finite_Bopp, B2R_Bopp. repeat split; trivial.
  now destruct bx.
Qed.

Lemma fin_sqrt x a : fin x a -> 0 <= a -> fin (fsqrt x) (rnd (sqrt a)).
Proof.
  intros (bx & <- & Fx & <-) H.
  destruct (Bsqrt_correct 24 128 _ _ mode_NE bx) as (C1 & C2 & _).
  exists (Bsqrt mode_NE bx). rewrite fsqrt_equiv. split; [reflexivity|]. split; [|exact C1].
  rewrite C2. destruct bx as [s|s| |[] m e B]; try easy.
  exfalso. revert H. apply Rlt_not_le. now apply F2R_lt_0.
Qed.

Lemma fin_lt x y a b : fin x a -> fin y b -> flt x y = Rlt_bool a b.
Proof. intros (bx & <- & Fx & <-) (b_y & <- & Fy & <-). now apply Bltb_correct. Qed.

Lemma fin_le x y a b : fin x a -> fin y b -> fle x y = Rle_bool a b.
Proof. intros (bx & <- & Fx & <-) (b_y & <- & Fy & <-). now apply Bleb_correct. Qed.

Lemma fin_feq x y a b : fin x a -> fin y b -> feq x y = Req_bool a b.
Proof. intros (bx & <- & Fx & <-) (b_y & <- & Fy & <-). now apply Beqb_correct. Qed.

Lemma fin_nan x a : fin x a -> is_nan x = false.
Proof. intros (b & <- & F & <-). now destruct b. Qed.

Lemma fin_max x y a b : fin x a -> fin y b -> fin (fmax x y) (Rmax a b).
Proof.
  intros Hx Hy. unfold fmax. rewrite (fin_nan _ _ Hx), (fin_nan _ _ Hy), (fin_lt _ _ _ _ Hx Hy).
  destruct (Rlt_bool_spec a b).
  - rewrite Rmax_right; [exact Hy|now left].
  - rewrite Rmax_left; [exact Hx|trivial].
Qed.

Lemma fin_min x y a b : fin x a -> fin y b -> fin (fmin x y) (Rmin a b).
Proof.
  intros Hx Hy. unfold fmin. rewrite (fin_nan _ _ Hx), (fin_nan _ _ Hy), (fin_lt _ _ _ _ Hy Hx).
  destruct (Rlt_bool_spec b a).
  - rewrite Rmin_right; [exact Hy|now left].
  - rewrite Rmin_left; [exact Hx|trivial].
Qed.

(** Two finite numbers of equal non-zero value are the same number. *)
Lemma fin_inj x y a : fin x a -> fin y a -> a <> 0 -> x = y.
Proof.
  intros (bx & <- & Fx & Ex) (b_y & <- & Fy & Ey) N. f_equal.
  assert (S : forall b : binary_float 24 128,
             BinarySingleNaN.is_finite b = true -> B2R b <> 0 -> is_finite_strict b = true).
  { now intros []. }
  apply B2R_inj; [apply S; congruence..|congruence].
Qed.

(** ** Half-integers *)

Lemma half_format z : (Z.abs z <= M24)%Z -> generic_format radix2 fexp32 (IZR z / 2).
Proof.
  intros H.
  destruct (Z.eq_dec (Z.abs z) M24) as [E|N].
  - assert (E' : IZR z / 2 = F2R (Float radix2 (Z.sgn z) 23)).
    { unfold F2R. simpl. destruct (Z.abs_spec z) as [[? E2]|[? E2]]; rewrite E2 in E; unfold M24 in E;
        [replace z with 16777216%Z by lia|replace z with (-16777216)%Z by lia]; simpl; lra. }
    rewrite E'. apply generic_format_F2R. intros _. unfold cexp.
    rewrite <- E'.
    assert (L : (mag radix2 (IZR z / 2) <= 24)%Z).
    { apply mag_le_bpow; [unfold M24 in E|].
      - destruct (Z.abs_spec z) as [[? E2]|[? E2]]; rewrite E2 in E;
        [replace z with 16777216%Z by lia|replace z with (-16777216)%Z by lia]; lra.
      - destruct (Z.abs_spec z) as [[? E2]|[? E2]]; rewrite E2 in E; unfold M24 in E;
        [replace z with 16777216%Z by lia|replace z with (-16777216)%Z by lia];
        simpl; unfold Rabs; destruct (Rcase_abs _); lra. }
    unfold SpecFloat.fexp, SpecFloat.emin. lia.
  - apply generic_format_FLT.
    exists (Float radix2 z (-1)).
    + unfold F2R. simpl. lra.
    + simpl. unfold M24 in *. lia.
    + unfold SpecFloat.emin. simpl. lia.
Qed.

Lemma rnd_half z : (Z.abs z <= M24)%Z -> rnd (IZR z / 2) = IZR z / 2.
Proof. intros H. apply round_generic; [apply valid_rnd_N|now apply half_format]. Qed.

Lemma half_lt_emax z : (Z.abs z <= M24)%Z -> Rabs (rnd (IZR z / 2)) < emaxR.
Proof.
  intros H. rewrite rnd_half by trivial.
  apply Rle_lt_trans with (bpow radix2 23); [|apply bpow_lt; lia].
  unfold Rdiv. rewrite Rabs_mult, (Rabs_pos_eq (/2)) by lra.
  rewrite <- abs_IZR. apply IZR_le in H. unfold M24 in H. simpl. lra.
Qed.

Lemma hv_add x y a b : hv x a -> hv y b -> (Z.abs (a + b) <= M24)%Z -> hv (fadd x y) (a + b).
Proof.
  intros Hx Hy H. unfold hv.
  assert (E : IZR a / 2 + IZR b / 2 = IZR (a + b) / 2) by (rewrite plus_IZR; lra).
  rewrite <- (rnd_half _ H), <- E. apply fin_add; trivial. rewrite E. now apply half_lt_emax.
Qed.

Lemma hv_sub x y a b : hv x a -> hv y b -> (Z.abs (a - b) <= M24)%Z -> hv (fsub x y) (a - b).
Proof.
  intros Hx Hy H. unfold hv.
  assert (E : IZR a / 2 - IZR b / 2 = IZR (a - b) / 2) by (rewrite minus_IZR; lra).
  rewrite <- (rnd_half _ H), <- E. apply fin_sub; trivial. rewrite E. now apply half_lt_emax.
Qed.

(** a half-integer times an integer *)
Lemma hv_mul x y a b : hv x a -> hv y (2 * b) -> (Z.abs (a * b) <= M24)%Z -> hv (fmul x y) (a * b).
Proof.
  intros Hx Hy H. unfold hv.
  assert (E : IZR a / 2 * (IZR (2 * b) / 2) = IZR (a * b) / 2) by (rewrite !mult_IZR; lra).
  rewrite <- (rnd_half _ H), <- E. apply fin_mul; trivial. rewrite E. now apply half_lt_emax.
Qed.

Lemma hv_neg x a : hv x a -> hv (fneg x) (- a).
Proof.
  intros Hx. unfold hv. replace (IZR (- a) / 2) with (- (IZR a / 2)) by (rewrite opp_IZR; lra).
  now apply fin_neg.
Qed.

Lemma hv_of_Z z : (Z.abs z <= 8388608)%Z -> hv (f32_of_Z z) (2 * z).
Proof.
  intros H. unfold hv, f32_of_Z. rewrite normalize_equiv.
  eexists. split; [reflexivity|].
  pose proof (binary_normalize_correct 24 128 _ _ mode_NE z 0 false) as C.
  assert (E : F2R (Float radix2 z 0) = IZR (2 * z) / 2).
  { rewrite mult_IZR. unfold F2R. simpl. lra. }
  cbv zeta in C. rewrite E in C. change (round_mode mode_NE) with ZnearestE in C.
  rewrite Rlt_bool_true in C by (apply half_lt_emax; unfold M24; lia).
  rewrite rnd_half in C by (unfold M24; lia). tauto.
Qed.

Lemma hv_of_nat n : (Z.of_nat n <= 8388608)%Z -> hv (f32_of_nat n) (2 * Z.of_nat n).
Proof. intros H. apply hv_of_Z. lia. Qed.

Lemma hv_div2 x a : hv x (2 * a) -> (Z.abs a <= M24)%Z -> hv (fdiv x (f32_of_Z 2)) a.
Proof.
  intros Hx H. unfold hv.
  assert (H2 : fin (f32_of_Z 2) 2).
  { eapply fin_eq; [apply (hv_of_Z 2); lia|]. simpl. lra. }
  assert (E : IZR (2 * a) / 2 / 2 = IZR a / 2) by (rewrite mult_IZR; lra).
  rewrite <- (rnd_half _ H), <- E. apply fin_div; [exact Hx|exact H2|lra|].
  rewrite E. now apply half_lt_emax.
Qed.

Lemma hv_lt x y a b : hv x a -> hv y b -> flt x y = (a <? b)%Z.
Proof.
  intros Hx Hy. rewrite (fin_lt _ _ _ _ Hx Hy).
  destruct (Z.ltb_spec a b) as [L|L]; [apply Rlt_bool_true|apply Rlt_bool_false].
  - apply IZR_lt in L. lra.
  - apply IZR_le in L. lra.
Qed.

Lemma hv_le x y a b : hv x a -> hv y b -> fle x y = (a <=? b)%Z.
Proof.
  intros Hx Hy. rewrite (fin_le _ _ _ _ Hx Hy).
  destruct (Z.leb_spec a b) as [L|L]; [apply Rle_bool_true|apply Rle_bool_false].
  - apply IZR_le in L. lra.
  - apply IZR_lt in L. lra.
Qed.

Lemma hv_gt x y a b : hv x a -> hv y b -> fgt x y = (b <? a)%Z.
Proof. intros Hx Hy. now apply hv_lt. Qed.

Lemma hv_ge x y a b : hv x a -> hv y b -> fge x y = (b <=? a)%Z.
Proof. intros Hx Hy. now apply hv_le. Qed.

Lemma hv_feq x y a b : hv x a -> hv y b -> feq x y = (a =? b)%Z.
Proof.
  intros Hx Hy. rewrite (fin_feq _ _ _ _ Hx Hy).
  destruct (Z.eqb_spec a b) as [L|L]; [apply Req_bool_true|apply Req_bool_false].
  - now subst.
  - intros E. apply L, eq_IZR. lra.
Qed.

Lemma hv_max x y a b : hv x a -> hv y b -> hv (fmax x y) (Z.max a b).
Proof.
  intros Hx Hy. unfold fmax. rewrite (fin_nan _ _ Hx), (fin_nan _ _ Hy), (hv_lt _ _ _ _ Hx Hy).
  destruct (Z.ltb_spec a b).
  - rewrite Z.max_r by lia. exact Hy.
  - rewrite Z.max_l by lia. exact Hx.
Qed.

Lemma hv_min x y a b : hv x a -> hv y b -> hv (fmin x y) (Z.min a b).
Proof.
  intros Hx Hy. unfold fmin. rewrite (fin_nan _ _ Hx), (fin_nan _ _ Hy), (hv_lt _ _ _ _ Hy Hx).
  destruct (Z.ltb_spec b a).
  - rewrite Z.min_r by lia. exact Hy.
  - rewrite Z.min_l by lia. exact Hx.
Qed.

Lemma hv_unique x a b : hv x a -> hv x b -> a = b.
Proof.
  intros H1 H2. pose proof (hv_feq _ _ _ _ H1 H2) as E.
  pose proof (hv_feq _ _ _ _ H1 H1) as E'. rewrite Z.eqb_refl in E'.
  rewrite E' in E. symmetry in E. now apply Z.eqb_eq.
Qed.

Lemma hv_inj x y a : hv x a -> hv y a -> a <> 0%Z -> x = y.
Proof.
  intros H1 H2 N. apply (fin_inj _ _ _ H1 H2). intros E. apply N, eq_IZR. lra.
Qed.

(** ** Square root of a square *)

Lemma fexp32_eq e : (-125 <= e)%Z -> fexp32 e = (e - 24)%Z.
Proof. intros H. unfold SpecFloat.fexp, SpecFloat.emin. lia. Qed.

Lemma sqrt_rnd_sq d :
  generic_format radix2 fexp32 d -> / 2 <= d -> rnd (sqrt (rnd (d * d))) = d.
Proof.
  intros F P.
  assert (D0 : d <> 0) by lra.
  remember (mag_val radix2 d (mag radix2 d)) as e eqn:Em. symmetry in Em.
  assert (He : bpow radix2 (e - 1) <= d < bpow radix2 e).
  { rewrite <- Em. destruct (mag radix2 d) as (e', He). simpl in *.
    specialize (He D0). now rewrite (Rabs_pos_eq d) in He by lra. }
  destruct He as [He1 He2].
  assert (E0 : (0 <= e)%Z).
  { destruct (Z.lt_ge_cases e 0) as [L|]; [exfalso|trivial].
    assert (bpow radix2 e <= bpow radix2 (-1)) by (apply bpow_le; lia).
    change (bpow radix2 (-1)) with (/ 2) in H. lra. }
  assert (Ud : ulp radix2 fexp32 d = bpow radix2 (e - 24)).
  { rewrite ulp_neq_0 by trivial. unfold cexp. rewrite Em, fexp32_eq by lia. reflexivity. }
  set (u := ulp radix2 fexp32 d) in *.
  assert (U0 : 0 < u) by (rewrite Ud; apply bpow_gt_0).
  assert (Be : bpow radix2 (e - 1) * u = bpow radix2 (2 * e - 25)).
  { rewrite Ud, <- bpow_plus. f_equal. lia. }
  assert (S0 : d * d <> 0) by nra.
  assert (U2 : / 2 * ulp radix2 fexp32 (d * d) <= bpow radix2 (2 * e - 25)).
  { rewrite ulp_neq_0 by trivial. unfold cexp.
    assert (M2 : (mag radix2 (d * d) <= 2 * e)%Z).
    { apply mag_le_bpow; [trivial|]. rewrite Rabs_pos_eq by nra.
      replace (2 * e)%Z with (e + e)%Z by lia. rewrite bpow_plus.
      assert (0 < bpow radix2 e) by apply bpow_gt_0. nra. }
    assert (M1 : (2 * e - 1 <= mag radix2 (d * d))%Z).
    { apply mag_ge_bpow. rewrite Rabs_pos_eq by nra.
      replace (2 * e - 1 - 1)%Z with ((e - 1) + (e - 1))%Z by lia. rewrite bpow_plus.
      assert (0 < bpow radix2 (e - 1)) by apply bpow_gt_0. nra. }
    rewrite fexp32_eq by lia.
    replace (/ 2) with (bpow radix2 (-1)) by reflexivity.
    rewrite <- bpow_plus. apply bpow_le. lia. }
  pose proof (error_le_half_ulp radix2 fexp32 (fun x => negb (Z.even x)) (d * d)) as Er.
  change (Znearest (fun x => negb (Z.even x))) with ZnearestE in Er.
  apply Rabs_le_inv in Er. destruct Er as [Er1 Er2].
  set (r := rnd (d * d)) in *.
  assert (R0 : 0 <= r).
  { unfold r. apply round_ge_generic; [apply fexp32_valid|apply valid_rnd_N|apply generic_format_0|nra]. }
  assert (sq : sqrt r * sqrt r = r) by now apply sqrt_sqrt.
  assert (sp : 0 <= sqrt r) by apply sqrt_pos.
  apply Rle_antisym.
  - apply round_N_le_midp; [apply fexp32_valid|exact F|].
    rewrite succ_eq_pos by lra. fold u.
    assert (Q : r < (d + u / 2) * (d + u / 2)) by nra.
    assert (sqrt r < d + u / 2) by nra. lra.
  - destruct (Req_dec d (bpow radix2 (e - 1))) as [Ep|Np].
    + assert (Er : r = d * d).
      { unfold r. apply round_generic; [apply valid_rnd_N|].
        rewrite Ep, <- bpow_plus. apply generic_format_bpow.
        rewrite fexp32_eq by lia. lia. }
      rewrite Er, sqrt_square by lra.
      rewrite round_generic; [lra|apply valid_rnd_N|exact F].
    + apply round_N_ge_midp; [apply fexp32_valid|exact F|].
      assert (Pd : pred radix2 fexp32 d = d - u).
      { rewrite pred_eq_pos by lra. unfold pred_pos.
        rewrite Em, Req_bool_false by trivial. reflexivity. }
      rewrite Pd.
      assert (G : bpow radix2 (e - 1) + u <= d).
      { assert (L : bpow radix2 (e - 1) <= pred radix2 fexp32 d).
        { apply pred_ge_gt; [apply fexp32_valid| |exact F|lra].
          apply generic_format_bpow. rewrite fexp32_eq by lia. lia. }
        rewrite Pd in L. lra. }
      assert (Q : (d - u / 2) * (d - u / 2) < r) by nra.
      assert (0 < d - u / 2).
      { assert (0 < bpow radix2 (e - 1)) by apply bpow_gt_0. lra. }
      assert (d - u / 2 < sqrt r) by nra. lra.
Qed.

(** ** Extreme values, integer conversion, quotients *)

Definition RMAX : R := IZR (2 ^ 128 - 2 ^ 104).

Lemma fin_MAX : fin F_MAX RMAX.
Proof.
  exists (@B754_finite 24 128 false 16777215 104 eq_refl).
  repeat split. unfold B2R, F2R, RMAX. cbn [Fnum Fexp cond_Zopp].
  change (bpow radix2 104) with (IZR (2 ^ 104)).
  rewrite <- mult_IZR. f_equal.
Qed.

Lemma fin_MIN : fin F_MIN (- RMAX).
Proof. apply fin_neg, fin_MAX. Qed.

Lemma hv_lt_MAX z : (Z.abs z <= M24)%Z -> IZR z / 2 < RMAX.
Proof.
  intros H. unfold RMAX. apply Rlt_trans with (IZR (2 ^ 25)).
  - assert (L : (z < 2 * 2 ^ 25)%Z) by (unfold M24 in H; change (2 ^ 25)%Z with 33554432%Z; lia).
    apply IZR_lt in L. rewrite mult_IZR in L. lra.
  - apply IZR_lt. reflexivity.
Qed.

Lemma hv_u32 x a : hv x a -> (0 <= a <= M24)%Z -> f32_to_u32 x = Z.to_N (a / 2).
Proof.
  intros (b & <- & Fb & Eb) H. unfold M24 in H.
  destruct b as [s|s| |s m e B]; try easy.
  - simpl in *. assert (a = 0%Z) by (apply eq_IZR; lra). now subst.
  - destruct s.
    + exfalso. assert (F2R (Float radix2 (cond_Zopp true (Zpos m)) e) < 0) by now apply F2R_lt_0.
      unfold B2R in Eb. rewrite Eb in H0. destruct H as [H _]. apply IZR_le in H. lra.
    + unfold B2SF, f32_to_u32. unfold B2R, F2R in Eb. cbn [Fnum Fexp cond_Zopp] in Eb.
      f_equal.
      assert (E : match e with Z0 => Z.pos m | Zpos p => (Z.pos m * 2 ^ Z.pos p)%Z
                  | Zneg p => (Z.pos m / 2 ^ Z.pos p)%Z end = (a / 2)%Z).
      { destruct e as [|p|p].
        - simpl in Eb. assert (E : a = (Z.pos m * 2)%Z) by (apply eq_IZR; rewrite mult_IZR; lra).
          rewrite E. now rewrite Z.div_mul.
        - change (bpow radix2 (Z.pos p)) with (IZR (Zpower_pos 2 p)) in Eb.
          assert (E : a = (Z.pos m * 2 ^ Z.pos p * 2)%Z).
          { apply eq_IZR. rewrite !mult_IZR. change (2 ^ Z.pos p)%Z with (Zpower_pos 2 p). lra. }
          rewrite E. now rewrite Z.div_mul.
        - assert (E : (Z.pos m * 2 = a * 2 ^ Z.pos p)%Z).
          { apply eq_IZR. rewrite !mult_IZR.
            change (bpow radix2 (Z.neg p)) with (/ IZR (Zpower_pos 2 p)) in Eb.
            change (2 ^ Z.pos p)%Z with (Zpower_pos 2 p).
            assert (0 < IZR (Zpower_pos 2 p)) by (apply IZR_lt; apply (Z.pow_pos_nonneg 2 (Z.pos p)); lia).
            apply (f_equal (fun v => v * (2 * IZR (Zpower_pos 2 p)))) in Eb. field_simplify in Eb; lra. }
          assert (E2 : (2 ^ Z.pos p = 2 * 2 ^ (Z.pos p - 1))%Z).
          { rewrite <- Z.pow_succ_r by lia. f_equal. lia. }
          assert (0 < 2 ^ (Z.pos p - 1))%Z by (apply Z.pow_pos_nonneg; lia).
          rewrite E2 in *. assert (E3 : Z.pos m = (a * 2 ^ (Z.pos p - 1))%Z) by nia.
          rewrite E3. now rewrite Z.div_mul_cancel_r by lia. }
      rewrite E. rewrite Z.min_l; [reflexivity|]. apply Z.div_le_upper_bound; lia.
Qed.

Lemma quot_fin x y a b :
  hv x a -> hv y b -> b <> 0%Z -> (Z.abs a <= M24)%Z ->
  fin (fdiv x y) (rnd (IZR a / IZR b)).
Proof.
  intros Hx Hy N H.
  assert (Nb : IZR b <> 0) by (intros E; now apply N, eq_IZR).
  assert (E : IZR a / 2 / (IZR b / 2) = IZR a / IZR b) by (field; trivial).
  rewrite <- E. apply fin_div; [exact Hx|exact Hy|lra|]. rewrite E.
  apply Rle_lt_trans with (bpow radix2 24); [|apply bpow_lt; lia].
  apply abs_round_le_generic.
  - apply fexp32_valid.
  - apply valid_rnd_N.
  - apply generic_format_bpow. compute; discriminate.
  - unfold Rdiv. rewrite Rabs_mult, Rabs_inv, <- !abs_IZR.
    assert (1 <= IZR (Z.abs b)) by (apply IZR_le; lia).
    assert (/ IZR (Z.abs b) <= 1) by (rewrite <- Rinv_1; apply Rinv_le; lra).
    assert (IZR (Z.abs a) <= 16777216) by (apply IZR_le; exact H).
    assert (0 <= IZR (Z.abs a)) by (apply IZR_le; lia).
    assert (0 < / IZR (Z.abs b)) by (apply Rinv_0_lt_compat; lra).
    simpl. nra.
Qed.

Lemma rnd_mono a b : a <= b -> rnd a <= rnd b.
Proof. apply round_le; [apply fexp32_valid|apply valid_rnd_N]. Qed.

Lemma rnd_1 : rnd 1 = 1.
Proof. replace 1 with (IZR 2 / 2) by lra. apply rnd_half. unfold M24. lia. Qed.

Lemma rnd_0 : rnd 0 = 0.
Proof. apply round_0. apply valid_rnd_N. Qed.

Lemma quot_le_1 a b :
  (0 < b)%Z -> (a <= M24)%Z -> (rnd (IZR a / IZR b) <= 1 <-> (a <= b)%Z).
Proof.
  intros Hb Ha. assert (Pb : 0 < IZR b) by now apply IZR_lt.
  split.
  - intros L. destruct (Z.le_gt_cases a b) as [|G]; [trivial|exfalso].
    revert L. apply Rlt_not_le.
    apply Rlt_le_trans with (1 + bpow radix2 (-23)); [pose proof (bpow_gt_0 radix2 (-23)); lra|].
    assert (F1 : generic_format radix2 fexp32 1).
    { replace 1 with (bpow radix2 0) by reflexivity. apply generic_format_bpow. compute; discriminate. }
    assert (S1 : succ radix2 fexp32 1 = 1 + bpow radix2 (-23)).
    { rewrite succ_eq_pos by lra. f_equal. exact (ulp_bpow radix2 fexp32 0). }
    rewrite <- S1. apply round_N_ge_midp; [apply fexp32_valid|apply generic_format_succ; [apply fexp32_valid|exact F1]|].
    rewrite pred_succ by (try apply fexp32_valid; trivial). rewrite S1.
    replace ((1 + bpow radix2 (-23) + 1) / 2) with (1 + / 16777216).
    + assert (G1 : (b + 1 <= a)%Z) by lia. apply IZR_le in G1. rewrite plus_IZR in G1.
      assert (G2 : (b < 16777216)%Z) by (unfold M24 in Ha; lia). apply IZR_lt in G2.
      apply Rmult_lt_reg_r with (IZR b); [trivial|].
      unfold Rdiv. rewrite Rmult_assoc, Rinv_l, Rmult_1_r by lra.
      apply Rlt_le_trans with (IZR b + 1); [|trivial]. lra.
    + change (bpow radix2 (-23)) with (/ IZR 8388608). lra.
  - intros L. rewrite <- rnd_1. apply rnd_mono. apply IZR_le in L.
    apply Rmult_le_reg_r with (IZR b); [trivial|].
    unfold Rdiv. rewrite Rmult_assoc, Rinv_l; lra.
Qed.

Lemma quot_ge_0 a b :
  (0 < b)%Z -> (b <= M24)%Z -> (0 <= rnd (IZR a / IZR b) <-> (0 <= a)%Z).
Proof.
  intros Hb Hb'. assert (Pb : 0 < IZR b) by now apply IZR_lt.
  split.
  - intros L. destruct (Z.le_gt_cases 0 a) as [|G]; [trivial|exfalso].
    revert L. apply Rlt_not_le.
    apply Rle_lt_trans with (- bpow radix2 (-24)); [|pose proof (bpow_gt_0 radix2 (-24)); lra].
    apply round_le_generic; [apply fexp32_valid|apply valid_rnd_N| |].
    + apply generic_format_opp, generic_format_bpow. compute; discriminate.
    + change (bpow radix2 (-24)) with (/ IZR 16777216).
      assert (G1 : (a <= -1)%Z) by lia. apply IZR_le in G1.
      unfold M24 in Hb'. apply IZR_le in Hb'.
      apply Rmult_le_reg_r with (IZR b); [trivial|].
      unfold Rdiv. rewrite Rmult_assoc, Rinv_l, Rmult_1_r by lra.
      apply Rle_trans with (-1); lra.
  - intros L. rewrite <- rnd_0. apply rnd_mono. apply IZR_le in L.
    apply Rmult_le_pos; [trivial|]. left. now apply Rinv_0_lt_compat.
Qed.

Lemma quot_mono a b c : (0 < c)%Z -> (a <= b)%Z -> rnd (IZR a / IZR c) <= rnd (IZR b / IZR c).
Proof.
  intros Hc H. apply rnd_mono. apply IZR_lt in Hc. apply IZR_le in H.
  apply Rmult_le_compat_r; [|trivial]. left. now apply Rinv_0_lt_compat.
Qed.
