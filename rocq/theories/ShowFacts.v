(** Printed binary32 numbers read back as themselves. *)
From Coq Require Import List Arith NArith ZArith Bool Reals Lia Lra SpecFloat.
From Flocq Require Import Core BinarySingleNaN.
From Verif Require Import Base F32 Geometry SpecF32 SpecDecimal DecimalFacts.
Import ListNotations.
Local Open Scope Z_scope.

(** ** Positional notation *)

Definition ten (k : Z) : R := (powerRZ 10 k)%R.

Lemma ten_pos k : (0 < ten k)%R.
Proof. apply powerRZ_lt. lra. Qed.
Definition radix10 : radix := Build_radix 10 eq_refl.
Lemma ten_bpow k : ten k = bpow radix10 k.
Proof. unfold ten. now rewrite bpow_powerRZ. Qed.
Lemma ten_le j k : j <= k -> (ten j <= ten k)%R.
Proof. rewrite !ten_bpow. apply bpow_le. Qed.
Lemma ten_nat n : ten (Z.of_nat n) = (10 ^ n)%R.
Proof. symmetry. apply pow_powerRZ. Qed.
Lemma ten_neg n : ten (- Z.of_nat n) = (/ 10 ^ n)%R.
Proof. unfold ten. now rewrite powerRZ_neg', <- pow_powerRZ. Qed.
Lemma IZR_pow10 n : IZR (10 ^ Z.of_nat n) = (10 ^ n)%R.
Proof. rewrite <- pow_IZR. reflexivity. Qed.
Lemma N_pow10 n : IZR (Z.of_N (10 ^ N.of_nat n)) = (10 ^ n)%R.
Proof. rewrite N2Z.inj_pow, nat_N_Z. apply IZR_pow10. Qed.

Lemma positional_denotes d k : 0 < d -> denotes_pos (positional d k) (IZR d * ten k).
Proof.
  intros Hd. unfold positional. destruct (show_N_ok (Z.to_N d)) as (Ne & Dg & Nu & _).
  cbv zeta. set (ds := show_N (Z.to_N d)) in *. clearbody ds. destruct (Z.leb_spec 0 k) as [K|K].
  - replace (IZR d * ten k)%R with (IZR (Z.of_N (numeral (ds ++ repeat 48%N (Z.to_nat k))))).
    + apply denotes_integer; [destruct ds; [congruence|discriminate]|]. apply Forall_app. split; [exact Dg|apply digits_zeros].
    + rewrite numeral_app, numeral_zeros, repeat_length, Nu, N.add_0_r, N2Z.inj_mul, mult_IZR, N_pow10, Z2N.id by lia.
      rewrite <- ten_nat, Z2Nat.id by lia. reflexivity.
  - assert (Ek : k = - Z.of_nat (Z.to_nat (- k))) by lia. set (n := Z.to_nat (- k)) in *. clearbody n. subst k. rewrite ten_neg.
    pose proof (pow_nonzero 10 n ltac:(lra)) as Nz.
    destruct (Nat.ltb_spec n (List.length ds)) as [L|L].
    + set (a := firstn (length ds - n) ds). set (b := skipn (length ds - n) ds).
      assert (E : ds = a ++ b) by (symmetry; apply firstn_skipn).
      assert (Lb : length b = n) by (unfold b; rewrite skipn_length; lia).
      assert (La : length a = (length ds - n)%nat) by (unfold a; rewrite firstn_length; lia).
      rewrite E in Dg. apply Forall_app in Dg as [Da Db].
      replace (IZR d * / 10 ^ n)%R with (IZR (Z.of_N (numeral a)) + IZR (Z.of_N (numeral b)) / 10 ^ length b)%R.
      * apply denotes_fraction; auto; [intros Z0; rewrite Z0 in La; cbn [length] in La; lia|intros Z0; rewrite Z0 in Lb; cbn [length] in Lb; lia].
      * rewrite Lb. assert (Q : IZR d = (IZR (Z.of_N (numeral a)) * 10 ^ n + IZR (Z.of_N (numeral b)))%R).
        { rewrite <- (Z2N.id d) by lia. rewrite <- Nu, E, numeral_app, Lb, N2Z.inj_add, plus_IZR, N2Z.inj_mul, mult_IZR, N_pow10.
          reflexivity. }
        rewrite Q. field. exact Nz.
    + set (f := repeat 48%N (n - length ds) ++ ds).
      assert (Lf : length f = n) by (unfold f; rewrite app_length, repeat_length; now apply Nat.sub_add).
      replace (IZR d * / 10 ^ n)%R with (IZR (Z.of_N (numeral [48%N])) + IZR (Z.of_N (numeral f)) / 10 ^ length f)%R.
      * apply (denotes_fraction [48%N] f); [discriminate| | |].
        -- unfold f. destruct ds; [congruence|]. intros Q. apply app_eq_nil in Q as [_ Q]. discriminate.
        -- constructor; [unfold digit, char; lia|constructor].
        -- apply Forall_app. split; [apply digits_zeros|exact Dg].
      * rewrite Lf. unfold f. rewrite numeral_app, numeral_zeros, Nu, N.mul_0_l, N.add_0_l, Z2N.id by lia.
        change (numeral [48%N]) with 0%N. cbn [Z.of_N]. unfold Rdiv. ring.
Qed.

(** ** The candidate decimals *)

Definition b2 (e : Z) : R := bpow radix2 e.

Definition low (m e : Z) : Z := if (m =? 2 ^ 23) && (-149 <? e) then 4 * m - 1 else 4 * m - 2.
(** The decimal [d * 10^k] rounds to [m * 2^e]: closed interval for even [m]. *)
Definition rounds (m e d k : Z) : Prop :=
  let q := (IZR d * ten k)%R in let lo := (IZR (low m e) * b2 (e - 2))%R in let hi := (IZR (4 * m + 2) * b2 (e - 2))%R in
  if Z.even m then (lo <= q <= hi)%R else (lo < q < hi)%R.

Lemma ten_split k : ten k = (IZR (10 ^ Z.max k 0) / IZR (10 ^ Z.max (- k) 0))%R.
Proof.
  destruct (Z.le_ge_cases 0 k) as [H|H].
  - rewrite Z.max_l, Z.max_r by lia. rewrite <- (Z2Nat.id k) at 2 by lia. rewrite IZR_pow10, <- ten_nat, Z2Nat.id by lia.
    change (10 ^ 0) with 1. field.
  - rewrite Z.max_r, Z.max_l by lia. rewrite <- (Z2Nat.id (- k)) by lia. rewrite IZR_pow10.
    change (10 ^ 0) with 1. replace k with (- Z.of_nat (Z.to_nat (- k))) at 1 by lia. rewrite ten_neg. unfold Rdiv. ring.
Qed.
Lemma b2_split e : b2 e = (IZR (2 ^ Z.max e 0) / IZR (2 ^ Z.max (- e) 0))%R.
Proof.
  destruct (Z.le_ge_cases 0 e) as [H|H].
  - rewrite Z.max_l, Z.max_r by lia. unfold b2. rewrite <- IZR_Zpower by lia. change (radix_val radix2) with 2.
    change (2 ^ 0) with 1. field.
  - rewrite Z.max_r, Z.max_l by lia. unfold b2. replace e with (- (- e)) at 1 by lia. rewrite bpow_opp, <- IZR_Zpower by lia.
    change (radix_val radix2) with 2. change (2 ^ 0) with 1. unfold Rdiv. ring.
Qed.

Section At.
Variables (m e k : Z).
Let P := 10 ^ Z.max k 0 * 2 ^ Z.max (2 - e) 0.
Let Q := 10 ^ Z.max (- k) 0 * 2 ^ Z.max (e - 2) 0.

Lemma P_pos : 0 < P.
Proof. apply Z.mul_pos_pos; apply Z.pow_pos_nonneg; lia. Qed.
Lemma Q_pos : 0 < Q.
Proof. apply Z.mul_pos_pos; apply Z.pow_pos_nonneg; lia. Qed.

(** [z * Q] against [d * P] is [z * 2^(e-2)] against [d * 10^k]. *)
Lemma scaled : exists c, (0 < c)%R /\ forall d, (IZR d * ten k)%R = (IZR (d * P) * c)%R /\
  forall z, (IZR z * b2 (e - 2))%R = (IZR (z * Q) * c)%R.
Proof.
  assert (X1 : (0 < IZR (10 ^ Z.max (- k) 0))%R) by (apply IZR_lt, Z.pow_pos_nonneg; lia).
  assert (X2 : (0 < IZR (2 ^ Z.max (- (e - 2)) 0))%R) by (apply IZR_lt, Z.pow_pos_nonneg; lia).
  exists (/ (IZR (10 ^ Z.max (- k) 0) * IZR (2 ^ Z.max (- (e - 2)) 0)))%R. split.
  - apply Rinv_0_lt_compat. now apply Rmult_lt_0_compat.
  - intros d. split.
    + rewrite ten_split. unfold P. replace (2 - e) with (- (e - 2)) by lia. rewrite !mult_IZR. field. lra.
    + intros z. rewrite b2_split. unfold Q. rewrite !mult_IZR. field. lra.
Qed.

Lemma scaled_le z d : (IZR z * b2 (e - 2) <= IZR d * ten k)%R <-> z * Q <= d * P.
Proof.
  destruct scaled as (c & C & S). destruct (S d) as [-> S']. rewrite S'. split.
  - intros H. apply le_IZR. now apply (Rmult_le_reg_r c).
  - intros H. apply Rmult_le_compat_r; [lra|]. now apply IZR_le.
Qed.
Lemma scaled_ge z d : (IZR d * ten k <= IZR z * b2 (e - 2))%R <-> d * P <= z * Q.
Proof.
  destruct scaled as (c & C & S). destruct (S d) as [-> S']. rewrite S'. split.
  - intros H. apply le_IZR. now apply (Rmult_le_reg_r c).
  - intros H. apply Rmult_le_compat_r; [lra|]. now apply IZR_le.
Qed.
Lemma scaled_lt z d : (IZR z * b2 (e - 2) < IZR d * ten k)%R <-> z * Q < d * P.
Proof.
  pose proof (scaled_ge z d) as H. split; intros L.
  - apply Z.nle_gt. intros X. apply H in X. lra.
  - apply Rnot_le_lt. intros X. apply H in X. lia.
Qed.
Lemma scaled_gt z d : (IZR d * ten k < IZR z * b2 (e - 2))%R <-> d * P < z * Q.
Proof.
  pose proof (scaled_le z d) as H. split; intros L.
  - apply Z.nle_gt. intros X. apply H in X. lra.
  - apply Rnot_le_lt. intros X. apply H in X. lia.
Qed.

Let inside d : bool :=
  if Z.even m then (low m e * Q <=? d * P) && (d * P <=? (4 * m + 2) * Q)
  else (low m e * Q <? d * P) && (d * P <? (4 * m + 2) * Q).
Lemma inside_iff d : inside d = true <-> rounds m e d k.
Proof.
  unfold inside, rounds. destruct (Z.even m); rewrite andb_true_iff.
  - rewrite !Z.leb_le, scaled_le, scaled_ge. reflexivity.
  - rewrite !Z.ltb_lt, scaled_lt, scaled_gt. reflexivity.
Qed.

Lemma decimal_eq : decimal_at m e k =
  let d0 := 4 * m * Q / P in let d1 := d0 + 1 in
  match (0 <? d0) && inside d0, inside d1 with
  | true, true => if 4 * m * Q - d0 * P <=? d1 * P - 4 * m * Q then Some d0 else Some d1
  | true, false => Some d0
  | false, true => Some d1
  | false, false => None
  end.
Proof. reflexivity. Qed.

Lemma decimal_some d : 0 < m -> decimal_at m e k = Some d -> 0 < d /\ rounds m e d k.
Proof.
  intros Hm. rewrite decimal_eq. cbv zeta. set (d0 := 4 * m * Q / P).
  assert (D0 : 0 <= d0) by (apply Z.div_pos; [pose proof Q_pos; nia|apply P_pos]).
  destruct ((0 <? d0) && inside d0) eqn:E0, (inside (d0 + 1)) eqn:E1; try (apply andb_true_iff in E0 as [L E0]; apply Z.ltb_lt in L);
    try destruct (_ <=? _); intros E; try discriminate; injection E as <-;
    (split; [lia|]); now apply inside_iff.
Qed.

(** An exact decimal is found. *)
Lemma decimal_exact d : 0 < m -> 0 < d -> (IZR d * ten k = IZR (4 * m) * b2 (e - 2))%R -> decimal_at m e k = Some d.
Proof.
  intros Hm Hd E. pose proof P_pos as Pp. pose proof Q_pos as Qp.
  assert (E' : d * P = 4 * m * Q).
  { apply Z.le_antisymm; [apply scaled_ge|apply scaled_le]; rewrite E; apply Rle_refl. }
  rewrite decimal_eq. cbv zeta. rewrite <- E', Z.div_mul by lia.
  assert (I : inside d = true).
  { apply inside_iff. unfold rounds. rewrite E.
    assert (L1 : (IZR (low m e) * b2 (e - 2) < IZR (4 * m) * b2 (e - 2))%R).
    { apply Rmult_lt_compat_r; [apply bpow_gt_0|]. apply IZR_lt. unfold low. destruct (_ && _); lia. }
    assert (L2 : (IZR (4 * m) * b2 (e - 2) < IZR (4 * m + 2) * b2 (e - 2))%R).
    { apply Rmult_lt_compat_r; [apply bpow_gt_0|]. apply IZR_lt. lia. }
    destruct (Z.even m); lra. }
  rewrite I. replace (0 <? d) with true by (symmetry; now apply Z.ltb_lt). cbn [andb].
  destruct (inside (d + 1)); [|reflexivity]. replace (d * P - d * P <=? (d + 1) * P - d * P) with true; [reflexivity|].
  symmetry. apply Z.leb_le. lia.
Qed.

(** A fine enough grid has a decimal in the interval. *)
Lemma decimal_found : 0 < m -> (ten k < 2 * b2 (e - 2))%R -> exists d, decimal_at m e k = Some d.
Proof.
  intros Hm F. pose proof P_pos as Pp. pose proof Q_pos as Qp.
  assert (F' : P < 2 * Q). { pose proof (scaled_gt 2 1) as S. rewrite Rmult_1_l, Z.mul_1_l in S. now apply S. }
  rewrite decimal_eq. cbv zeta. set (d0 := 4 * m * Q / P).
  pose proof (Z.div_mod (4 * m * Q) P ltac:(lia)) as DM. pose proof (Z.mod_pos_bound (4 * m * Q) P Pp) as MB. fold d0 in DM.
  assert (I : inside (d0 + 1) = true).
  { unfold inside. assert (L : low m e * Q < 4 * m * Q) by (unfold low; destruct (_ && _); nia).
    destruct (Z.even m); rewrite andb_true_iff, ?Z.leb_le, ?Z.ltb_lt; nia. }
  rewrite I. destruct ((0 <? d0) && inside d0); [destruct (_ <=? _)|]; eauto.
Qed.
End At.

(** ** The search for the shortest *)

Lemma shortest_ok m e : 0 < m -> -149 <= e -> forall f k, (Z.of_nat f >= k + 47) -> (0 < f)%nat ->
  let '(d, k') := shortest f m e k in
  decimal_at m e k' = Some d /\ k' <= k /\ forall j, k' < j <= k -> decimal_at m e j = None.
Proof.
  intros Hm He. induction f as [|f IH]; intros k Hk Hf; [lia|]. cbn [shortest].
  destruct (decimal_at m e k) as [d|] eqn:D; [split; [exact D|]; split; [lia|]; intros; lia|].
  destruct (Z.le_gt_cases k (-46)) as [L|L].
  - exfalso. destruct (decimal_found m e k Hm) as (d & X); [|congruence].
    apply Rle_lt_trans with (ten (-46)).
    + now apply ten_le.
    + apply Rlt_le_trans with (2 * b2 (-151))%R.
      * rewrite ten_split, b2_split. rewrite <- (Rmult_1_l 2).
        change (Z.max (-46) 0) with 0. change (Z.max (- -46) 0) with 46. change (Z.max (-151) 0) with 0. change (Z.max (- -151) 0) with 151.
        change (10 ^ 0) with 1. change (2 ^ 0) with 1.
        assert (X1 : (0 < IZR (10 ^ 46))%R) by (apply IZR_lt; reflexivity).
        assert (X2 : (0 < IZR (2 ^ 151))%R) by (apply IZR_lt; reflexivity).
        apply Rmult_lt_reg_r with (IZR (10 ^ 46)); [exact X1|]. apply Rmult_lt_reg_r with (IZR (2 ^ 151)); [exact X2|].
        field_simplify; [|lra|lra]. rewrite <- mult_IZR. apply IZR_lt. reflexivity.
      * apply Rmult_le_compat_l; [lra|]. apply bpow_le. lia.
  - specialize (IH (k - 1) ltac:(lia) ltac:(lia)). destruct (shortest f m e (k - 1)) as [d k'] eqn:S.
    destruct IH as (A & B & C). split; [exact A|]. split; [lia|]. intros j J.
    destruct (Z.eq_dec j k) as [->|]; [exact D|]. apply C. lia.
Qed.

(** ** Rounding back *)

Definition nearest32 (q : R) : R := round radix2 (FLT_exp (-149) 24) ZnearestE q.

Lemma nearestE_at s m : (IZR m - /2 <= s <= IZR m + /2)%R -> (Z.even m = true \/ IZR m - /2 < s < IZR m + /2)%R -> ZnearestE s = m.
Proof.
  intros B O. destruct (Req_dec s (IZR m + /2)) as [E|N1].
  - destruct O as [O|O]; [|lra]. unfold Znearest. assert (F : Zfloor s = m) by (apply Zfloor_imp; rewrite plus_IZR; lra).
    rewrite F, E. replace (IZR m + /2 - IZR m)%R with (/2)%R by lra. rewrite Rcompare_Eq by reflexivity. rewrite O. reflexivity.
  - destruct (Req_dec s (IZR m - /2)) as [E|N2].
    + destruct O as [O|O]; [|lra]. unfold Znearest. assert (F : Zfloor s = m - 1) by (apply Zfloor_imp; rewrite plus_IZR, minus_IZR; lra).
      rewrite F, E, minus_IZR. replace (IZR m - /2 - (IZR m - 1))%R with (/2)%R by lra. rewrite Rcompare_Eq by reflexivity.
      replace (Z.even (m - 1)) with false by (rewrite Z.even_sub, O; reflexivity). cbn [negb].
      apply Zceil_imp. rewrite minus_IZR. lra.
    + apply Znearest_imp. apply Rabs_def1; lra.
Qed.

Lemma round_at q m e : cexp radix2 (FLT_exp (-149) 24) q = e ->
  (IZR (4 * m - 2) * b2 (e - 2) <= q <= IZR (4 * m + 2) * b2 (e - 2))%R ->
  Z.even m = true \/ (IZR (4 * m - 2) * b2 (e - 2) < q < IZR (4 * m + 2) * b2 (e - 2))%R ->
  nearest32 q = (IZR m * b2 e)%R.
Proof.
  intros C B O. unfold nearest32, round, scaled_mantissa. rewrite C. unfold F2R. cbn [Fnum Fexp].
  fold (b2 (- e)). fold (b2 e).
  assert (X : (b2 (e - 2) * b2 (- e) = / 4)%R).
  { unfold b2. rewrite <- bpow_plus. replace (e - 2 + - e) with (-2) by lia. reflexivity. }
  assert (Y : (0 < b2 (- e))%R) by apply bpow_gt_0.
  assert (K : forall z, (IZR z * b2 (e - 2) * b2 (- e) = IZR z / 4)%R) by (intros z; rewrite Rmult_assoc, X; reflexivity).
  f_equal. f_equal. apply nearestE_at.
  - destruct B as [B1 B2]. apply (Rmult_le_compat_r (b2 (- e))) in B1; [|lra]. apply (Rmult_le_compat_r (b2 (- e))) in B2; [|lra].
    rewrite K in B1, B2. rewrite minus_IZR, mult_IZR in B1. rewrite plus_IZR, mult_IZR in B2. lra.
  - destruct O as [O|[B1 B2]]; [now left|right]. apply (Rmult_lt_compat_r (b2 (- e))) in B1; [|lra]. apply (Rmult_lt_compat_r (b2 (- e))) in B2; [|lra].
    rewrite K in B1, B2. rewrite minus_IZR, mult_IZR in B1. rewrite plus_IZR, mult_IZR in B2. lra.
Qed.

Lemma b2_shift z e : (IZR z * b2 e = IZR (4 * z) * b2 (e - 2))%R.
Proof.
  rewrite mult_IZR. replace (b2 e) with (4 * b2 (e - 2))%R; [ring|].
  change 4%R with (bpow radix2 2). unfold b2. rewrite <- bpow_plus. f_equal. lia.
Qed.

Lemma cexp_normal q e : -149 <= e -> (IZR (2 ^ 23) * b2 e <= q < IZR (2 ^ 24) * b2 e)%R ->
  cexp radix2 (FLT_exp (-149) 24) q = e.
Proof.
  intros He [B1 B2]. unfold cexp, FLT_exp.
  assert (M : mag radix2 q = e + 24 :> Z).
  { apply mag_unique_pos. replace (e + 24 - 1) with (23 + e) by lia. replace (e + 24) with (24 + e) by lia. rewrite !bpow_plus.
    split; assumption. }
  rewrite M. lia.
Qed.
Lemma cexp_small q : (0 < q < IZR (2 ^ 24) * b2 (-149))%R -> cexp radix2 (FLT_exp (-149) 24) q = -149.
Proof.
  intros [B1 B2]. unfold cexp, FLT_exp.
  assert (M : mag radix2 q <= -125).
  { apply mag_le_bpow; [lra|]. rewrite Rabs_pos_eq by lra.
    replace (-125) with (24 + -149) by lia. rewrite bpow_plus. exact B2. }
  lia.
Qed.

(** The mantissa and exponent of a positive binary32 number. *)
Definition canon (m e : Z) : Prop := 0 < m < 2 ^ 24 /\ -149 <= e /\ (2 ^ 23 <= m \/ e = -149).

Theorem rounds_back m e d k : canon m e -> 0 < d -> rounds m e d k -> nearest32 (IZR d * ten k) = (IZR m * b2 e)%R.
Proof.
  intros (Hm & He & Hn) Hd Hr. unfold rounds in Hr. set (q := (IZR d * ten k)%R) in *. cbv zeta in Hr.
  assert (Qp : (0 < q)%R) by (apply Rmult_lt_0_compat; [now apply IZR_lt|apply ten_pos]).
  pose proof (bpow_gt_0 radix2 (e - 2)) as Bp. fold (b2 (e - 2)) in Bp.
  assert (Le : forall x y, x <= y -> (IZR x * b2 (e - 2) <= IZR y * b2 (e - 2))%R).
  { intros x y L. apply Rmult_le_compat_r; [lra|]. now apply IZR_le. }
  assert (Lt : forall x y, x < y -> (IZR x * b2 (e - 2) < IZR y * b2 (e - 2))%R).
  { intros x y L. apply Rmult_lt_compat_r; [lra|]. now apply IZR_lt. }
  assert (Up : (q < IZR (2 ^ 24) * b2 e)%R).
  { rewrite b2_shift. apply Rle_lt_trans with (IZR (4 * m + 2) * b2 (e - 2))%R; [destruct (Z.even m); lra|]. apply Lt. lia. }
  destruct (Rle_lt_dec (IZR m * b2 e) q) as [A|A].
  - (* above *)
    apply round_at.
    + destruct Hn as [Hn|Hn].
      * apply cexp_normal; [exact He|]. split; [|exact Up]. eapply Rle_trans; [|exact A]. rewrite (b2_shift (2 ^ 23)), (b2_shift m). apply Le. lia.
      * subst e. apply cexp_small. auto.
    + rewrite b2_shift in A. split; [|destruct (Z.even m); lra]. eapply Rle_trans; [|exact A]. apply Le. lia.
    + rewrite b2_shift in A. destruct (Z.even m); [now left|right]. split; [|lra]. eapply Rlt_le_trans; [|exact A]. apply Lt. lia.
  - (* below *)
    assert (A' := A). rewrite b2_shift in A'.
    assert (Hi : (q < IZR (4 * m + 2) * b2 (e - 2))%R) by (eapply Rlt_trans; [exact A'|]; apply Lt; lia).
    unfold low in Hr. destruct ((m =? 2 ^ 23) && (-149 <? e)) eqn:E.
    + apply andb_true_iff in E as [Em Ee]. apply Z.eqb_eq in Em. apply Z.ltb_lt in Ee. subst m.
      change (Z.even (2 ^ 23)) with true in Hr. cbv iota in Hr.
      assert (Sh : forall z, (IZR z * b2 (e - 2) = IZR (2 * z) * b2 (e - 1 - 2))%R).
      { intros z. rewrite mult_IZR. replace (b2 (e - 2)) with (2 * b2 (e - 1 - 2))%R; [ring|].
        change 2%R with (bpow radix2 1). unfold b2. rewrite <- bpow_plus. f_equal. lia. }
      replace (IZR (2 ^ 23) * b2 e)%R with (IZR (2 ^ 24) * b2 (e - 1))%R by (rewrite (b2_shift (2 ^ 23)), (b2_shift (2 ^ 24)), Sh; reflexivity).
      apply round_at.
      * apply cexp_normal; [lia|]. split.
        -- rewrite b2_shift. destruct Hr as [Hr _]. eapply Rle_trans; [|exact Hr]. rewrite Sh.
           apply Rmult_le_compat_r; [apply bpow_ge_0|]. apply IZR_le. lia.
        -- rewrite Sh in A'. rewrite b2_shift. exact A'.
      * rewrite Sh in A'. destruct Hr as [Hr _]. rewrite Sh in Hr. split; [exact Hr|]. left. eapply Rlt_trans; [exact A'|].
        apply Rmult_lt_compat_r; [apply bpow_gt_0|]. apply IZR_lt. lia.
      * now left.
    + apply round_at.
      * destruct (Z.eq_dec e (-149)) as [->|Ne]; [apply cexp_small; auto|].
        destruct Hn as [Hn|Hn]; [|congruence]. apply cexp_normal; [exact He|]. split; [|exact Up].
        assert (Hm' : 2 ^ 23 < m).
        { destruct (Z.eq_dec m (2 ^ 23)) as [->|]; [|lia]. rewrite Z.eqb_refl in E. cbn [andb] in E. apply Z.ltb_ge in E. lia. }
        rewrite b2_shift. apply Rle_trans with (IZR (4 * m - 2) * b2 (e - 2))%R; [apply Le; lia|]. destruct (Z.even m); lra.
      * split; [|lra]. destruct (Z.even m); lra.
      * destruct (Z.even m); [now left|right]. lra.
Qed.

Lemma bounded_canon m e : bounded 24 128 m e = true -> canon (Zpos m) e.
Proof.
  intros B. unfold bounded in B. apply andb_true_iff in B as [C _]. unfold canonical_mantissa in C. apply Zeq_bool_eq in C.
  rewrite Digits.Zpos_digits2_pos in C. unfold SpecFloat.fexp, SpecFloat.emin in C.
  pose proof (Digits.Zdigits_correct radix2 (Zpos m)) as D. set (n := Digits.Zdigits radix2 (Z.pos m)) in *.
  pose proof (Digits.Zdigits_gt_0 radix2 (Zpos m) ltac:(discriminate)) as Np. fold n in Np.
  change (Z.abs (Z.pos m)) with (Z.pos m) in D. change (radix_val radix2) with 2 in D.
  assert (n <= 24) by lia. pose proof (Z.pow_le_mono_r 2 n 24 ltac:(lia) ltac:(lia)).
  split; [lia|]. split; [lia|]. destruct (Z.eq_dec n 24) as [E|E]; [left; rewrite E in D; exact (proj1 D)|right; lia].
Qed.

(** What is printed for a positive number. *)
Lemma shown_pos m e : canon m e -> exists d k, shortest 110 m e 39 = (d, k) /\ 0 < d /\ rounds m e d k /\
  denotes_pos (positional d k) (IZR d * ten k) /\ (forall j, k < j <= 39 -> decimal_at m e j = None) /\ k <= 39 /\ decimal_at m e k = Some d.
Proof.
  intros C. pose proof C as (Hm & He & _).
  pose proof (shortest_ok m e ltac:(lia) He 110 39 ltac:(lia) ltac:(lia)) as S. destruct (shortest 110 m e 39) as [d k].
  destruct S as (D & L & N). exists d, k. split; [reflexivity|]. destruct (decimal_some m e k d ltac:(lia) D) as [Dp Rd].
  repeat split; auto. now apply positional_denotes.
Qed.

Lemma nearest_opp q : nearest32 (- q) = (- nearest32 q)%R.
Proof. apply round_NE_opp. Qed.
Lemma nearest_0 : nearest32 0 = 0%R.
Proof. apply round_0. apply valid_rnd_N. Qed.

Theorem printed_reads_back x r : fin x r -> exists q, denotes (show_f32 x) q /\ nearest32 q = r.
Proof.
  intros (b & <- & F & <-). destruct b as [s| | |s m e B]; try discriminate; cbn [B2SF B2R].
  - exists 0%R. split; [|apply nearest_0]. destruct s.
    + replace 0%R with (- 0)%R by ring. apply denotes_minus. apply (denotes_integer [48%N]); [discriminate|].
      constructor; [unfold digit, char; lia|constructor].
    + apply denotes_plain. apply (denotes_integer [48%N]); [discriminate|]. constructor; [unfold digit, char; lia|constructor].
  - cbn [show_f32]. pose proof (bounded_canon m e B) as C. destruct (shown_pos _ _ C) as (d & k & -> & Dp & Rd & Dn & _).
    pose proof (rounds_back _ _ _ _ C Dp Rd) as Rb. destruct s.
    + exists (- (IZR d * ten k))%R. split; [now apply denotes_minus|]. rewrite nearest_opp, Rb. unfold F2R. cbn. fold (b2 e).
      change (Z.neg m) with (- Z.pos m). rewrite opp_IZR. ring.
    + exists (IZR d * ten k)%R. split; [now apply denotes_plain|]. rewrite Rb. reflexivity.
Qed.

(** ** Half-integers *)

Lemma ten_m1 : ten (-1) = (/ 10)%R.
Proof. change (-1) with (- Z.of_nat 1). rewrite ten_neg. simpl. now rewrite Rmult_1_r. Qed.

Lemma half_exact m e z : canon m e -> (IZR m * b2 e = IZR z / 2)%R -> z <= M24 -> exists d k,
  shortest 110 m e 39 = (d, k) /\ (IZR d * ten k = IZR z / 2)%R.
Proof.
  intros C E B. pose proof C as (Hm & He & Hn). destruct (shown_pos m e C) as (d & k & S & Dp & Rd & _ & No & Lk & At).
  exists d, k. split; [exact S|]. pose proof E as E4. rewrite b2_shift in E4.
  assert (Zp : 0 < z).
  { apply lt_IZR. assert (0 < IZR m * b2 e)%R by (apply Rmult_lt_0_compat; [now apply IZR_lt|apply bpow_gt_0]). lra. }
  assert (He0 : e <= 0).
  { destruct Hn as [Hn|Hn]; [|lia]. apply Z.nlt_ge. intros L.
    assert (X : (IZR (2 ^ 23) * b2 1 <= IZR m * b2 e)%R).
    { apply Rmult_le_compat; [apply IZR_le; lia|apply bpow_ge_0|now apply IZR_le|apply bpow_le; lia]. }
    apply IZR_le in B. rewrite E in X. unfold M24 in B. change (b2 1) with 2%R in X. change (2 ^ 23) with 8388608 in X. lra. }
  destruct (Z.le_gt_cases 0 k) as [K|K].
  - (* an integer *)
    assert (I : exists n, (IZR d * ten k = IZR n)%R).
    { exists (d * 10 ^ k). rewrite mult_IZR. f_equal. rewrite <- (Z2Nat.id k K). rewrite ten_nat, IZR_pow10. reflexivity. }
    destruct I as (n & I). rewrite I. unfold rounds in Rd. cbv zeta in Rd. rewrite I in Rd.
    assert (W : (IZR (4 * m - 2) * b2 (e - 2) <= IZR n <= IZR (4 * m + 2) * b2 (e - 2))%R).
    { pose proof (bpow_gt_0 radix2 (e - 2)) as Bp. fold (b2 (e - 2)) in Bp.
      assert (L : (IZR (4 * m - 2) * b2 (e - 2) <= IZR (low m e) * b2 (e - 2))%R).
      { apply Rmult_le_compat_r; [lra|]. apply IZR_le. unfold low. destruct (_ && _); lia. }
      destruct (Z.even m); lra. }
    rewrite plus_IZR, minus_IZR in W.
    assert (Q : (b2 (e - 2) <= / 4)%R) by (change (/ 4)%R with (bpow radix2 (-2)); apply bpow_le; lia).
    assert (Q' : e < 0 -> (b2 (e - 2) <= / 8)%R) by (intros; change (/ 8)%R with (bpow radix2 (-3)); apply bpow_le; lia).
    assert (D1 : Z.abs (2 * n - z) <= 1).
    { apply Z.abs_le. split; apply le_IZR; rewrite minus_IZR, mult_IZR, ?opp_IZR; lra. }
    assert (D2 : 2 * n = z).
    { destruct (Z.eq_dec e 0) as [->|Ne].
      - change (b2 0) with 1%R in E. assert (z = 2 * m) by (apply eq_IZR; rewrite mult_IZR; lra). lia.
      - specialize (Q' ltac:(lia)). assert (D : Z.abs (2 * n - z) < 1); [|lia].
        apply Z.abs_lt. split; apply lt_IZR; rewrite minus_IZR, mult_IZR, ?opp_IZR; lra. }
    rewrite <- D2, mult_IZR. lra.
  - (* a fraction *)
    assert (At1 : decimal_at m e (-1) = Some (5 * z)).
    { apply decimal_exact; [lia|lia|]. rewrite ten_m1, E4, mult_IZR. lra. }
    destruct (Z.eq_dec k (-1)) as [->|Ne]; [|specialize (No (-1) ltac:(lia)); congruence].
    assert (D5 : d = 5 * z) by congruence. rewrite D5, ten_m1, mult_IZR. lra.
Qed.

Theorem half_printed x z : hv x z -> Z.abs z <= M24 -> denotes (show_f32 x) (IZR z / 2).
Proof.
  intros (b & <- & F & E) B. destruct b as [s| | |s m e Bd]; try discriminate; cbn [B2SF B2R] in *.
  - rewrite <- E. destruct s.
    + replace 0%R with (- 0)%R by ring. apply denotes_minus. apply (denotes_integer [48%N]); [discriminate|].
      constructor; [unfold digit, char; lia|constructor].
    + apply denotes_plain. apply (denotes_integer [48%N]); [discriminate|]. constructor; [unfold digit, char; lia|constructor].
  - cbn [show_f32]. pose proof (bounded_canon m e Bd) as C. unfold F2R in E. cbn [Fnum Fexp] in E. fold (b2 e) in E.
    destruct s; cbn [cond_Zopp] in E.
    + destruct (half_exact (Z.pos m) e (- z) C) as (d & k & S & V); [rewrite opp_IZR; change (Z.neg m) with (- Z.pos m) in E; rewrite opp_IZR in E; lra|lia|].
      rewrite S. destruct (shown_pos _ _ C) as (d' & k' & S' & _ & _ & Dn & _). rewrite S in S'. injection S' as <- <-.
      replace (IZR z / 2)%R with (- (IZR d * ten k))%R by (rewrite V, opp_IZR; lra). now apply denotes_minus.
    + destruct (half_exact (Z.pos m) e z C E ltac:(lia)) as (d & k & S & V).
      rewrite S. destruct (shown_pos _ _ C) as (d' & k' & S' & _ & _ & Dn & _). rewrite S in S'. injection S' as <- <-.
      rewrite <- V. now apply denotes_plain.
Qed.
