(** Printed binary32 numbers are the shortest that read back. *)
From Coq Require Import List Arith NArith ZArith Bool Reals Lia Lra SpecFloat.
From Flocq Require Import Core BinarySingleNaN.
From Verif Require Import Base F32 Geometry SpecF32 SpecDecimal DecimalFacts ShowFacts.
Import ListNotations.
Local Open Scope Z_scope.

(** ** The search misses nothing *)
Section Miss.
Variables (m e k : Z).
Hypothesis Hm : 0 < m.
Let P := 10 ^ Z.max k 0 * 2 ^ Z.max (2 - e) 0.
Let Q := 10 ^ Z.max (- k) 0 * 2 ^ Z.max (e - 2) 0.

Let inside d : bool :=
  if Z.even m then (low m e * Q <=? d * P) && (d * P <=? (4 * m + 2) * Q)
  else (low m e * Q <? d * P) && (d * P <? (4 * m + 2) * Q).

Lemma inside_low d d' : d <= d' -> d' * P <= 4 * m * Q -> inside d = true -> inside d' = true.
Proof.
  pose proof (P_pos e k) as Pp. pose proof (Q_pos e k) as Qp. fold P in Pp. fold Q in Qp.
  intros L U. assert (M : d * P <= d' * P) by (apply Z.mul_le_mono_nonneg_r; lia).
  unfold inside. destruct (Z.even m); rewrite !andb_true_iff, ?Z.leb_le, ?Z.ltb_lt; lia.
Qed.
Lemma inside_high d d' : d' <= d -> 4 * m * Q <= d' * P -> inside d = true -> inside d' = true.
Proof.
  pose proof (P_pos e k) as Pp. pose proof (Q_pos e k) as Qp. fold P in Pp. fold Q in Qp.
  assert (L0 : low m e < 4 * m) by (unfold low; destruct (_ && _); lia).
  intros L U. assert (M : d' * P <= d * P) by (apply Z.mul_le_mono_nonneg_r; lia).
  assert (M' : low m e * Q < 4 * m * Q) by (apply Z.mul_lt_mono_pos_r; lia).
  unfold inside. destruct (Z.even m); rewrite !andb_true_iff, ?Z.leb_le, ?Z.ltb_lt; lia.
Qed.

Lemma none_inside d : decimal_at m e k = None -> 0 < d -> ~ rounds m e d k.
Proof.
  pose proof (P_pos e k) as Pp. pose proof (Q_pos e k) as Qp. fold P in Pp. fold Q in Qp.
  rewrite decimal_eq. cbv zeta. fold P. fold Q. set (d0 := 4 * m * Q / P).
  pose proof (Z.div_mod (4 * m * Q) P ltac:(lia)) as DM. pose proof (Z.mod_pos_bound (4 * m * Q) P Pp) as MB. fold d0 in DM.
  intros E Dp R. apply inside_iff in R. fold P in R. fold Q in R. fold (inside d) in R. fold (inside d0) in E. fold (inside (d0 + 1)) in E.
  destruct (Z.le_gt_cases d d0) as [L|L].
  - rewrite (inside_low d d0 L ltac:(lia) R) in E. replace (0 <? d0) with true in E by (symmetry; apply Z.ltb_lt; lia).
    cbn [andb] in E. destruct (inside (d0 + 1)); [destruct (_ <=? _)|]; discriminate.
  - rewrite (inside_high d (d0 + 1) ltac:(lia) ltac:(lia) R) in E.
    destruct ((0 <? d0) && inside d0); [destruct (_ <=? _)|]; discriminate.
Qed.

Lemma some_closest d d' : decimal_at m e k = Some d -> 0 < d' -> rounds m e d' k ->
  Z.abs (4 * m * Q - d * P) <= Z.abs (4 * m * Q - d' * P).
Proof.
  pose proof (P_pos e k) as Pp. pose proof (Q_pos e k) as Qp. fold P in Pp. fold Q in Qp.
  rewrite decimal_eq. cbv zeta. fold P. fold Q. set (d0 := 4 * m * Q / P).
  pose proof (Z.div_mod (4 * m * Q) P ltac:(lia)) as DM. pose proof (Z.mod_pos_bound (4 * m * Q) P Pp) as MB. fold d0 in DM.
  intros E Dp R. apply inside_iff in R. fold P in R. fold Q in R. fold (inside d') in R. fold (inside d0) in E. fold (inside (d0 + 1)) in E.
  set (V := 4 * m * Q) in *.
  assert (A0 : d0 * P <= V < (d0 + 1) * P) by lia.
  destruct (Z.le_gt_cases d' d0) as [L|L].
  - rewrite (inside_low d' d0 L ltac:(lia) R) in E. replace (0 <? d0) with true in E by (symmetry; apply Z.ltb_lt; lia).
    cbn [andb] in E. assert (D' : d' * P <= d0 * P) by (apply Z.mul_le_mono_nonneg_r; lia).
    destruct (inside (d0 + 1)); [destruct (Z.leb_spec (V - d0 * P) ((d0 + 1) * P - V))|]; injection E as <-; lia.
  - rewrite (inside_high d' (d0 + 1) ltac:(lia) ltac:(lia) R) in E. assert (D' : (d0 + 1) * P <= d' * P) by (apply Z.mul_le_mono_nonneg_r; lia).
    destruct ((0 <? d0) && inside d0); [destruct (Z.leb_spec (V - d0 * P) ((d0 + 1) * P - V))|]; injection E as <-; lia.
Qed.

Lemma closest d d' : decimal_at m e k = Some d -> 0 < d' -> rounds m e d' k ->
  (Rabs (IZR d * ten k - IZR m * b2 e) <= Rabs (IZR d' * ten k - IZR m * b2 e))%R.
Proof.
  intros E Dp R. pose proof (some_closest d d' E Dp R) as C. rewrite b2_shift.
  destruct (scaled e k) as (c & Cp & Sc). destruct (Sc d) as [-> Sz]. destruct (Sc d') as [-> _]. rewrite Sz. fold P. fold Q.
  rewrite <- !Rmult_minus_distr_r, <- !minus_IZR, !Rabs_mult. apply Rmult_le_compat_r; [apply Rabs_pos|].
  rewrite <- !abs_IZR. apply IZR_le. lia.
Qed.
End Miss.

(** ** Only the decimals of the interval read back *)
Lemma format_of m e : 0 <= m <= 2 ^ 24 -> -149 <= e -> generic_format radix2 (FLT_exp (-149) 24) (IZR m * b2 e).
Proof.
  intros Hm He. destruct (Z.eq_dec m (2 ^ 24)) as [->|N].
  - replace (IZR (2 ^ 24) * b2 e)%R with (bpow radix2 (24 + e)) by (rewrite bpow_plus; reflexivity).
    apply generic_format_bpow. unfold FLT_exp. lia.
  - apply generic_format_FLT. exists (Float radix2 m e); [reflexivity| |exact He]. cbn [Fnum].
    rewrite Z.abs_eq by lia. change (Zpower radix2 24) with (2 ^ 24). lia.
Qed.

Local Instance prec_24 : Prec_gt_0 24 := eq_refl.

Lemma nearest_le q g : generic_format radix2 (FLT_exp (-149) 24) g -> (Rabs (nearest32 q - q) <= Rabs (g - q))%R.
Proof. intros G. exact (proj2 (round_N_pt radix2 (FLT_exp (-149) 24) _ q) g G). Qed.

Theorem reads_back_rounds m e d k : canon m e -> 0 < d -> nearest32 (IZR d * ten k) = (IZR m * b2 e)%R -> rounds m e d k.
Proof.
  intros (Hm & He & Hn) Hd E. unfold rounds. set (q := (IZR d * ten k)%R) in *. cbv zeta.
  assert (Qp : (0 < q)%R) by (apply Rmult_lt_0_compat; [now apply IZR_lt|apply ten_pos]).
  pose proof (bpow_gt_0 radix2 (e - 2)) as Bp. fold (b2 (e - 2)) in Bp.
  assert (Lt : forall x y, x < y -> (IZR x * b2 (e - 2) < IZR y * b2 (e - 2))%R).
  { intros x y L. apply Rmult_lt_compat_r; [lra|]. now apply IZR_lt. }
  pose proof (nearest_le q (IZR (m + 1) * b2 e) (format_of (m + 1) e ltac:(lia) He)) as U. rewrite E in U.
  assert (Hi : (q <= IZR (4 * m + 2) * b2 (e - 2))%R).
  { rewrite (b2_shift m e), (b2_shift (m + 1) e) in U. apply Rnot_lt_le. intros X.
    rewrite !mult_IZR, !plus_IZR, !mult_IZR in *. set (b := b2 (e - 2)) in *.
    rewrite ?plus_IZR in *. set (v := (IZR m * b)%R).
    replace ((4 * IZR m + 2) * b)%R with (4 * v + 2 * b)%R in X by (unfold v; ring).
    replace (4 * IZR m * b)%R with (4 * v)%R in U by (unfold v; ring).
    replace (4 * (IZR m + 1) * b)%R with (4 * v + 4 * b)%R in U by (unfold v; ring).
    unfold Rabs in U. destruct (Rcase_abs _), (Rcase_abs _); lra. }
  assert (Hi' : Z.even m = false -> (q < IZR (4 * m + 2) * b2 (e - 2))%R).
  { intros O. destruct Hi as [Hi|Hi]; [exact Hi|]. exfalso.
    assert (R : nearest32 q = (IZR (m + 1) * b2 e)%R).
    { apply round_at.
      - destruct Hn as [Hn|Hn].
        + apply cexp_normal; [exact He|]. rewrite Hi, (b2_shift (2 ^ 23)), (b2_shift (2 ^ 24)).
          split; [left|]; apply Lt; lia.
        + subst e. apply cexp_small. split; [exact Qp|]. rewrite Hi, (b2_shift (2 ^ 24)). apply Lt. lia.
      - rewrite Hi. split; [right; f_equal; f_equal; lia|left; apply Lt; lia].
      - left. rewrite Z.even_add, O. reflexivity. }
    rewrite E in R. apply Rmult_eq_reg_r in R; [|pose proof (bpow_gt_0 radix2 e); unfold b2; lra]. apply eq_IZR in R. lia. }
  assert (Lo : (IZR (low m e) * b2 (e - 2) <= q)%R /\ (Z.even m = false -> (IZR (low m e) * b2 (e - 2) < q)%R)).
  { unfold low. destruct ((m =? 2 ^ 23) && (-149 <? e)) eqn:Em.
    - apply andb_true_iff in Em as [Em Ee]. apply Z.eqb_eq in Em. apply Z.ltb_lt in Ee. subst m.
      split; [|discriminate].
      pose proof (nearest_le q (IZR (2 ^ 24 - 1) * b2 (e - 1)) (format_of (2 ^ 24 - 1) (e - 1) ltac:(lia) ltac:(lia))) as U'. rewrite E in U'.
      replace (b2 e) with (4 * b2 (e - 2))%R in U' by (change 4%R with (bpow radix2 2); unfold b2; rewrite <- bpow_plus; f_equal; lia).
      replace (b2 (e - 1)) with (2 * b2 (e - 2))%R in U' by (change 2%R with (bpow radix2 1); unfold b2; rewrite <- bpow_plus; f_equal; lia).
      apply Rnot_lt_le. intros X. set (b := b2 (e - 2)) in *.
      change (4 * 2 ^ 23 - 1) with 33554431 in X. change (2 ^ 24 - 1) with 16777215 in U'. change (2 ^ 23) with 8388608 in U'.
      unfold Rabs in U'. destruct (Rcase_abs _), (Rcase_abs _); lra.
    - pose proof (nearest_le q (IZR (m - 1) * b2 e) (format_of (m - 1) e ltac:(lia) He)) as U'. rewrite E in U'.
      assert (L : (IZR (4 * m - 2) * b2 (e - 2) <= q)%R).
      { rewrite (b2_shift m e), (b2_shift (m - 1) e) in U'. apply Rnot_lt_le. intros X.
        rewrite !mult_IZR, !minus_IZR, !mult_IZR in *. set (b := b2 (e - 2)) in *. set (v := (IZR m * b)%R).
        replace ((4 * IZR m - 2) * b)%R with (4 * v - 2 * b)%R in X by (unfold v; ring).
        replace (4 * IZR m * b)%R with (4 * v)%R in U' by (unfold v; ring).
        replace (4 * (IZR m - 1) * b)%R with (4 * v - 4 * b)%R in U' by (unfold v; ring).
        unfold Rabs in U'. destruct (Rcase_abs _), (Rcase_abs _); lra. }
      split; [exact L|]. intros O. destruct L as [L|L]; [exact L|]. exfalso.
      assert (Om : m <> 2 ^ 23) by (intros ->; discriminate).
      assert (R : nearest32 q = (IZR (m - 1) * b2 e)%R).
      { apply round_at.
        - destruct Hn as [Hn|Hn].
          + apply cexp_normal; [exact He|]. rewrite <- L, (b2_shift (2 ^ 23)), (b2_shift (2 ^ 24)).
            split; [left|]; apply Lt; lia.
          + subst e. apply cexp_small. split; [exact Qp|]. rewrite <- L, (b2_shift (2 ^ 24)). apply Lt. lia.
        - rewrite <- L. split; [left; apply Lt; lia|right; f_equal; f_equal; lia].
        - left. rewrite Z.even_sub, O. reflexivity. }
      rewrite E in R. apply Rmult_eq_reg_r in R; [|pose proof (bpow_gt_0 radix2 e); unfold b2; lra]. apply eq_IZR in R. lia. }
  destruct Lo as [Lo Lo']. destruct (Z.even m); [auto|]. auto.
Qed.

(** ** The shortest *)

(** Nothing above [10^39] is needed. *)
Lemma rounds_39 m e d k : canon m e -> e <= 104 -> 0 < d -> rounds m e d k -> k <= 39.
Proof.
  intros (Hm & He & Hn) He' Hd R. apply Z.nlt_ge. intros L. unfold rounds in R. cbv zeta in R.
  assert (U : (IZR d * ten k <= IZR (4 * m + 2) * b2 (e - 2))%R) by (destruct (Z.even m); lra).
  assert (A : (ten 40 <= IZR d * ten k)%R).
  { rewrite <- (Rmult_1_l (ten 40)). apply Rmult_le_compat; [lra|left; apply ten_pos|now apply (IZR_le 1); lia|apply ten_le; lia]. }
  assert (B : (IZR (4 * m + 2) * b2 (e - 2) <= IZR (2 ^ 27) * b2 102)%R).
  { apply Rmult_le_compat; [apply IZR_le; lia|apply bpow_ge_0|apply IZR_le; lia|apply bpow_le; lia]. }
  assert (C : (IZR (2 ^ 27) * b2 102 < ten 40)%R).
  { rewrite (ten_split 40), (b2_split 102). change (Z.max 40 0) with 40. change (Z.max (- (40)) 0) with 0.
    change (Z.max 102 0) with 102. change (Z.max (- (102)) 0) with 0. change (10 ^ 0) with 1. change (2 ^ 0) with 1.
    unfold Rdiv. rewrite Rinv_1, !Rmult_1_r, <- mult_IZR. apply IZR_lt. reflexivity. }
  lra.
Qed.

Lemma bounded_exp m e : bounded 24 128 m e = true -> e <= 104.
Proof. unfold bounded. intros B. apply andb_true_iff in B as [_ B]. apply Zle_bool_imp_le in B. lia. Qed.

(** A coarser decimal between two of the interval is in the interval. *)
Lemma rounds_between m e d k d' k' a j : rounds m e d k -> rounds m e d' k' ->
  (IZR d' * ten k' <= IZR a * ten j <= IZR d * ten k)%R -> rounds m e a j.
Proof. unfold rounds. cbv zeta. destruct (Z.even m); lra. Qed.

Lemma shortest_digits m e d k : canon m e -> e <= 104 -> shortest 110 m e 39 = (d, k) ->
  forall d' k', 0 < d' -> rounds m e d' k' ->
  k' <= k /\ (forall n, 0 <= n -> 10 ^ n <= d -> 10 ^ n <= d') /\
  (k' = k -> (Rabs (IZR d * ten k - IZR m * b2 e) <= Rabs (IZR d' * ten k' - IZR m * b2 e))%R).
Proof.
  intros C He' Sh d' k' Dp' R'. pose proof C as (Hm & He & _).
  destruct (shown_pos m e C) as (d1 & k1 & Sh' & Dp & Rd & _ & No & Lk & At). rewrite Sh in Sh'. injection Sh' as <- <-.
  assert (Max : forall a j, 0 < a -> rounds m e a j -> j <= k).
  { intros a j Ap Ra. apply Z.nlt_ge. intros L. pose proof (rounds_39 m e a j C He' Ap Ra) as L39.
    exact (none_inside m e j ltac:(lia) a (No j ltac:(lia)) Ap Ra). }
  split; [now apply (Max d')|]. split.
  - intros n Hn Dn. destruct (Z.eq_dec n 0) as [->|N0]; [cbn; lia|].
    apply Z.nlt_ge. intros L. specialize (Max d' k' Dp' R') as Lk'.
    assert (T : forall i, 0 <= i -> (IZR (10 ^ i) = ten i)%R) by (intros i Hi; rewrite <- (Z2Nat.id i Hi), ten_nat, IZR_pow10; reflexivity).
    assert (X : k + n <= k).
    { apply (Max 1 (k + n) ltac:(lia)). apply (rounds_between m e d k d' k'); auto.
      assert (TT : (IZR 1 * ten (k + n) = IZR (10 ^ n) * ten k)%R).
      { rewrite T by lia. rewrite !ten_bpow. rewrite Rmult_1_l, <- bpow_plus. f_equal. lia. }
      rewrite TT. split.
      - apply Rmult_le_compat; [apply IZR_le; lia|left; apply ten_pos|apply IZR_le; lia|now apply ten_le].
      - apply Rmult_le_compat_r; [left; apply ten_pos|now apply IZR_le]. }
    lia.
  - intros ->. apply closest; auto; lia.
Qed.

Theorem printed_shortest x r : fin x r -> r <> 0%R ->
  exists d k q, 0 < d /\ denotes (show_f32 x) q /\ Rabs q = (IZR d * ten k)%R /\
  forall d' k', 0 < d' -> nearest32 (IZR d' * ten k') = Rabs r ->
  k' <= k /\ (forall n, 0 <= n -> 10 ^ n <= d -> 10 ^ n <= d') /\
  (k' = k -> (Rabs (Rabs q - Rabs r) <= Rabs (IZR d' * ten k' - Rabs r))%R).
Proof.
  intros (b & <- & F & E) Nz. destruct b as [s| | |s m e B]; try discriminate; cbn [B2SF B2R] in *; [congruence|].
  pose proof (bounded_canon m e B) as C. pose proof (bounded_exp m e B) as He. cbn [show_f32].
  destruct (shown_pos _ _ C) as (d & k & Sh & Dp & Rd & Dn & _). rewrite Sh.
  assert (Qp : (0 < IZR d * ten k)%R) by (apply Rmult_lt_0_compat; [now apply IZR_lt|apply ten_pos]).
  assert (Er : Rabs r = (IZR (Z.pos m) * b2 e)%R).
  { rewrite <- E. unfold F2R. cbn [Fnum Fexp]. fold (b2 e). rewrite Rabs_mult, (Rabs_pos_eq (b2 e)) by apply bpow_ge_0.
    f_equal. rewrite <- abs_IZR. now destruct s. }
  assert (G : forall q, Rabs q = (IZR d * ten k)%R -> forall d' k', 0 < d' -> nearest32 (IZR d' * ten k') = Rabs r ->
    k' <= k /\ (forall n, 0 <= n -> 10 ^ n <= d -> 10 ^ n <= d') /\
    (k' = k -> (Rabs (Rabs q - Rabs r) <= Rabs (IZR d' * ten k' - Rabs r))%R)).
  { intros q Hq d' k' Dp' Hn. rewrite Hq, Er in *. apply (shortest_digits (Z.pos m) e d k C He Sh d' k' Dp').
    now apply reads_back_rounds. }
  exists d, k. destruct s.
  - exists (- (IZR d * ten k))%R. split; [exact Dp|]. split; [now apply denotes_minus|].
    assert (A : Rabs (- (IZR d * ten k)) = (IZR d * ten k)%R) by (rewrite Rabs_Ropp; apply Rabs_pos_eq; lra).
    split; [exact A|now apply G].
  - exists (IZR d * ten k)%R. split; [exact Dp|]. split; [now apply denotes_plain|].
    assert (A : Rabs (IZR d * ten k) = (IZR d * ten k)%R) by (apply Rabs_pos_eq; lra).
    split; [exact A|now apply G].
Qed.

(** ** The form of the numeral *)

Lemma tidy_firstn n ds : (0 < n)%nat -> ds <> [] -> Forall digit ds -> hd 0%N ds <> 48%N -> tidy_integer (firstn n ds).
Proof.
  intros Hn Ne F H. destruct ds as [|c s]; [congruence|]. destruct n as [|n]; [lia|]. cbn [firstn hd] in *.
  inversion F as [|? ? Fc Fs]; subst. constructor; auto.
  clear -Fs. revert s Fs. induction n as [|n IH]; intros s Fs; [constructor|]. destruct s as [|c s]; [constructor|].
  cbn [firstn]. inversion Fs; subst. constructor; auto.
Qed.

Lemma last_digit d : 0 < d -> d mod 10 <> 0 -> exists l c, show_N (Z.to_N d) = l ++ [c] /\ Forall digit l /\ digit c /\ c <> 48%N.
Proof.
  intros Dp Nd. destruct (show_N_ok (Z.to_N d)) as (Ne & F & V & _).
  destruct (exists_last Ne) as (l & c & E). exists l, c. split; [exact E|]. rewrite E in *.
  apply Forall_app in F as [Fl Fc]. inversion Fc; subst. split; [exact Fl|]. split; [assumption|]. intros ->.
  rewrite numeral_app in V. cbn in V. apply Nd.
  assert (X : d = 10 * Z.of_N (numeral l)) by (unfold char in *; lia). rewrite X, Z.mul_comm. now apply Z_mod_mult.
Qed.

Lemma positional_tidy d k : 0 < d -> (k < 0 -> d mod 10 <> 0) -> tidy_pos (positional d k).
Proof.
  intros Dp Nd. destruct (show_N_ok (Z.to_N d)) as (Ne & F & _ & Hz).
  assert (H0 : hd 0%N (show_N (Z.to_N d)) <> 48%N) by (intros X; destruct (Hz X) as [X' _]; lia).
  unfold positional. destruct (Z.leb_spec 0 k) as [K|K].
  - constructor. destruct (show_N (Z.to_N d)) as [|c s]; [congruence|]. cbn [app hd] in *. inversion F; subst.
    constructor; auto. apply Forall_app. split; [assumption|apply digits_zeros].
  - destruct (last_digit d Dp (Nd K)) as (l & c & E & Fl & Dc & Nc). rewrite E in *. clear E.
    set (n := Z.to_nat (- k)) in *. assert (Np : (0 < n)%nat) by (unfold n; lia). rewrite app_length. cbn [length].
    destruct (Nat.ltb_spec n (length l + 1)) as [L|L].
    + rewrite skipn_app. replace (length l + 1 - n - length l)%nat with 0%nat by lia. cbn [skipn].
      apply tidy_fraction; auto.
      * apply tidy_firstn; auto. lia.
      * clear -Fl. generalize (length l + 1 - n)%nat as i. intros i. revert l Fl.
        induction i as [|i IH]; intros l Fl; [exact Fl|]. destruct l as [|x l]; [constructor|]. cbn [skipn].
        inversion Fl; subst. auto.
    + rewrite app_assoc. change (48%N :: 46%N :: ((repeat 48%N (n - (length l + 1)) ++ l) ++ [c]))
        with ([48%N] ++ 46%N :: (repeat 48%N (n - (length l + 1)) ++ l) ++ [c]).
      apply tidy_fraction; auto; [constructor|]. apply Forall_app. split; [apply digits_zeros|exact Fl].
Qed.

Theorem printed_tidy x r : fin x r -> tidy (show_f32 x).
Proof.
  intros (b & <- & F & _). destruct b as [s| | |s m e B]; try discriminate; cbn [B2SF].
  - destruct s; [apply tidy_minus|apply tidy_plain]; do 2 constructor.
  - pose proof (bounded_canon m e B) as C. pose proof (bounded_exp m e B) as He. cbn [show_f32].
    destruct (shown_pos _ _ C) as (d & k & Sh & Dp & Rd & _ & _). rewrite Sh.
    assert (T : tidy_pos (positional d k)).
    { apply positional_tidy; [exact Dp|]. intros _ Z. apply Z.mod_divide in Z; [|discriminate]. destruct Z as (a & ->).
      destruct (shortest_digits _ _ _ _ C He Sh a (k + 1)) as (L & _); [lia| |lia].
      unfold rounds in *. cbv zeta in *. replace (IZR a * ten (k + 1))%R with (IZR (a * 10) * ten k)%R; [exact Rd|].
      rewrite mult_IZR, !ten_bpow, bpow_plus. change (bpow radix10 1) with 10%R. ring. }
    destruct s; [apply tidy_minus|apply tidy_plain]; exact T.
Qed.
