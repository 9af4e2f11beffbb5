(** Tables never overlap, whatever their number. *)
From Coq Require Import List Arith NArith ZArith Reals Bool Lia Lra.
From Flocq Require Import Core BinarySingleNaN.
From Verif Require Import Base F32 Geometry Mir Erd SpecMir MirFacts Heap Route Layout
  SpecF32 SpecLayout F32Facts GeomFacts PlaceFacts GridFacts.
Import ListNotations.
Local Open Scope R_scope.
Local Instance prec24 : Prec_gt_0 24 := eq_refl _.
Local Instance lt24 : Prec_lt_emax 24 128 := eq_refl _.

Lemma format_bpow e : (-149 <= e)%Z -> generic_format radix2 fexp32 (bpow radix2 e).
Proof. intros H. apply generic_format_FLT_bpow; [reflexivity|exact H]. Qed.

Lemma rnd_bpow e : (-149 <= e)%Z -> rnd (bpow radix2 e) = bpow radix2 e.
Proof. intros H. apply round_generic; [apply valid_rnd_N|now apply format_bpow]. Qed.

Definition B100 : R := bpow radix2 100.
Definition B70 : R := bpow radix2 70.

Lemma B70_pos : 0 < B70. Proof. apply bpow_gt_0. Qed.
Lemma B100_pos : 0 < B100. Proof. apply bpow_gt_0. Qed.

Lemma rnd_stall : rnd (B100 + B70) <= B100.
Proof.
  apply round_N_le_midp; [apply fexp32_valid|apply format_bpow; lia|].
  rewrite succ_eq_pos by (apply Rlt_le, B100_pos).
  assert (UL : ulp radix2 fexp32 B100 = bpow radix2 77) by (unfold B100; now rewrite ulp_bpow).
  rewrite UL.
  assert (B70 < bpow radix2 77 / 2).
  { assert (B70 * 2 < bpow radix2 77); [|lra]. unfold B70.
    change 2 with (bpow radix2 1). rewrite <- bpow_plus. apply bpow_lt. lia. }
  lra.
Qed.

Lemma small_emax v : Rabs v <= B100 + B70 -> Rabs (rnd v) < emaxR.
Proof.
  intros H. apply Rle_lt_trans with B100.
  - rewrite <- round_NE_abs by apply fexp32_valid. apply Rle_trans with (rnd (B100 + B70)); [now apply rnd_mono|apply rnd_stall].
  - apply bpow_lt. lia.
Qed.

Lemma fin_of_Z z : Rabs (IZR z) <= B100 + B70 -> fin (f32_of_Z z) (rnd (IZR z)).
Proof.
  intros H. unfold f32_of_Z. rewrite normalize_equiv.
  eexists. split; [reflexivity|].
  pose proof (binary_normalize_correct 24 128 _ _ mode_NE z 0 false) as C.
  assert (E : F2R (Float radix2 z 0) = IZR z) by (unfold F2R; simpl; lra).
  cbv zeta in C. rewrite E in C. change (round_mode mode_NE) with ZnearestE in C.
  rewrite Rlt_bool_true in C by now apply small_emax. tauto.
Qed.

Definition usize (n : nat) : Prop := (Z.of_nat n < 2 ^ 64)%Z.

(** Heights are finite and far below 2^70. *)
Lemma height_small n : usize n -> exists v, fin (table_h n) v /\ 0 <= v <= B70.
Proof.
  intros U. unfold usize in U. unfold table_h, f32_of_nat.
  assert (U0 : 0 <= IZR (Z.of_nat n)) by (apply IZR_le; lia).
  assert (U1 : IZR (Z.of_nat n) <= bpow radix2 64).
  { change (bpow radix2 64) with (IZR (2 ^ 64)). apply IZR_le. lia. }
  assert (L : bpow radix2 64 <= B100) by (apply bpow_le; lia).
  pose proof B70_pos as P70.
  assert (F : fin (f32_of_Z (Z.of_nat n)) (rnd (IZR (Z.of_nat n)))).
  { apply fin_of_Z. rewrite Rabs_pos_eq by trivial. lra. }
  assert (R0 : 0 <= rnd (IZR (Z.of_nat n))) by (rewrite <- rnd_0; now apply rnd_mono).
  assert (R1 : rnd (IZR (Z.of_nat n)) <= bpow radix2 64) by (rewrite <- (rnd_bpow 64) by lia; now apply rnd_mono).
  assert (V0 : 0 <= 70 / 2 * rnd (IZR (Z.of_nat n))) by lra.
  assert (V1 : 70 / 2 * rnd (IZR (Z.of_nat n)) <= B70).
  { apply Rle_trans with (bpow radix2 6 * bpow radix2 64).
    - change (bpow radix2 6) with 64. pose proof (bpow_ge_0 radix2 64). nra.
    - unfold B70. rewrite <- bpow_plus. apply Rle_refl. }
  assert (L2 : B70 <= B100) by (apply bpow_le; lia).
  eexists. split.
  - apply fin_mul; [exact hv_35|exact F|]. apply small_emax. rewrite Rabs_pos_eq; lra.
  - split; [rewrite <- rnd_0; now apply rnd_mono|].
    unfold B70. rewrite <- (rnd_bpow 70) by lia. now apply rnd_mono.
Qed.

Lemma fin_format x v : fin x v -> rnd v = v.
Proof.
  intros (b & _ & _ & <-). apply round_generic; [apply valid_rnd_N|]. apply generic_format_B2R.
Qed.

(** State of the grid loop after [n] tables. *)
Definition loose (n : nat) (y m : f32) (vy vm : R) : Prop :=
  fin y vy /\ fin m vm /\ 0 <= vy <= B100 /\
  match n with O => m = F_MIN | S _ => 0 <= vm <= bpow radix2 70 end.

Lemma rnd_80 v : 0 <= v <= B70 -> 0 <= rnd (v + 160 / 2) <= B70 * 2.
Proof.
  intros H. split.
  - rewrite <- rnd_0. apply rnd_mono. lra.
  - assert (E : B70 * 2 = bpow radix2 71) by (unfold B70; change 2 with (bpow radix2 1); now rewrite <- bpow_plus).
    rewrite E, <- (rnd_bpow 71) by lia. apply rnd_mono. rewrite <- E.
    assert (128 <= B70) by (change 128 with (bpow radix2 7); apply bpow_le; lia). lra.
Qed.

Lemma rnd_stall2 : rnd (B100 + B70 * 2) <= B100.
Proof.
  apply round_N_le_midp; [apply fexp32_valid|apply format_bpow; lia|].
  rewrite succ_eq_pos by (apply Rlt_le, B100_pos).
  assert (UL : ulp radix2 fexp32 B100 = bpow radix2 77) by (unfold B100; now rewrite ulp_bpow).
  rewrite UL.
  assert (B70 * 2 < bpow radix2 77 / 2).
  { assert (B70 * 2 * 2 < bpow radix2 77); [|lra]. unfold B70.
    change 2 with (bpow radix2 1). rewrite <- !bpow_plus. apply bpow_lt. lia. }
  lra.
Qed.

Lemma emax_of v : 0 <= v -> rnd v <= B100 -> Rabs (rnd v) < emaxR.
Proof.
  intros H H1. assert (0 <= rnd v) by (rewrite <- rnd_0; now apply rnd_mono).
  rewrite Rabs_pos_eq by trivial. apply Rle_lt_trans with (1 := H1). apply bpow_lt. lia.
Qed.

Lemma advance_loose n y m vy vm h : usize h -> loose n y m vy vm ->
  let '(y1, m1) := advance n y m in
  exists vy1 vm1 vh, fin (table_h h) vh /\ 0 <= vh <= vm1 /\
    loose (S n) y1 (fmax (table_h h) m1) vy1 vm1 /\ vy <= vy1 /\
    (n <> 0%nat -> if Nat.eqb (n mod 3) 0 then rnd (vy + vm) <= vy1 else vy1 = vy /\ vm <= vm1).
Proof.
  intros U (Fy & Fm & By & Bm). destruct (height_small h U) as (vh & Fh & Bh).
  unfold advance. change GRID_N_COLUMNS with 3%nat.
  destruct n as [|k].
  - cbn [Nat.ltb Nat.leb andb]. subst m.
    exists vy, vh, vh.
    assert (E : fmax (table_h h) F_MIN = table_h h).
    { unfold fmax. rewrite (fin_nan _ _ Fh), (fin_nan _ _ fin_MIN), (fin_lt _ _ _ _ Fh fin_MIN).
      rewrite Rlt_bool_false; [reflexivity|]. pose proof RMAX_pos.
      assert (0 <= IZR (2 ^ 127)) by (apply IZR_le; discriminate). lra. }
    rewrite E. repeat split; try lra; auto; tauto.
  - cbn [Nat.ltb Nat.leb andb]. destruct (Nat.eqb_spec (S k mod 3) 0) as [E|E].
    + pose proof (rnd_80 vm Bm) as R8.
      assert (F8 : fin (fadd m RECORD_SPACE) (rnd (vm + 160 / 2))).
      { apply fin_add; [exact Fm|exact hv_80|]. apply emax_of; [lra|].
        apply Rle_trans with (B70 * 2); [lra|].
        assert (EB : B70 * 2 = bpow radix2 71) by (unfold B70; change 2 with (bpow radix2 1); now rewrite <- bpow_plus).
        rewrite EB. apply bpow_le. lia. }
      assert (S8 : rnd (vy + rnd (vm + 160 / 2)) <= B100).
      { apply Rle_trans with (2 := rnd_stall2). apply rnd_mono. lra. }
      exists (rnd (vy + rnd (vm + 160 / 2))), vh, vh.
      assert (Em : fmax (table_h h) F_MIN = table_h h).
      { unfold fmax. rewrite (fin_nan _ _ Fh), (fin_nan _ _ fin_MIN), (fin_lt _ _ _ _ Fh fin_MIN).
        rewrite Rlt_bool_false; [reflexivity|]. pose proof RMAX_pos.
        assert (0 <= IZR (2 ^ 127)) by (apply IZR_le; discriminate). lra. }
      rewrite Em. assert (P8 : 0 <= rnd (vy + rnd (vm + 160 / 2))) by (rewrite <- rnd_0; apply rnd_mono; lra).
      repeat split; try lra; auto.
      * apply fin_add; auto. apply emax_of; lra.
      * unfold B70 in Bh; lra.
      * rewrite <- (fin_format _ _ Fy) at 1. apply rnd_mono. lra.
      * intros _. apply rnd_mono. rewrite <- (fin_format _ _ Fm) at 1.
        apply Rplus_le_compat_l. apply rnd_mono. lra.
    + exists vy, (Rmax vh vm), vh.
      pose proof (Rmax_l vh vm). pose proof (Rmax_r vh vm).
      repeat split; try lra; auto.
      * now apply fin_max.
      * apply Rmax_lub; unfold B70 in *; lra.
Qed.

Lemma grid_loose : forall c n y m vy vm,
  Forall (fun e => usize (rows e)) c -> loose n y m vy vm ->
  exists vys vhs, length vys = length c /\
    Forall2 fin (grid_ys n y m c) vys /\ Forall2 (fun e v => fin (table_h (rows e)) v) c vhs /\
    Forall (fun v => vy <= v <= B100) vys /\ Forall (fun v => 0 <= v <= B70) vhs /\
    (forall k v, nth_error vys k = Some v -> n <> 0%nat -> ((n - 1) / 3 < (n + k) / 3)%nat -> rnd (vy + vm) <= v) /\
    (forall k k' v h v', (k < k')%nat -> nth_error vys k = Some v -> nth_error vhs k = Some h ->
       nth_error vys k' = Some v' -> ((n + k) / 3 < (n + k') / 3)%nat -> rnd (v + h) <= v').
Proof.
  induction c as [|e c IH]; intros n y m vy vm HU HL.
  - exists [], []. do 5 (split; [first [reflexivity | apply Forall2_nil | apply Forall_nil]|]).
    split; [intros [|k]|intros [|k] k' v h v' Lt]; discriminate.
  - inversion_clear HU as [|? ? Ue Uc]. cbn [grid_ys].
    pose proof (advance_loose n y m vy vm (rows e) Ue HL) as A.
    destruct (advance n y m) as [y1 m1]. destruct A as (vy1 & vm1 & vh & Fh & Bh & L1 & M1 & K1).
    destruct (IH (S n) y1 _ vy1 vm1 Uc L1) as (vys & vhs & Ln & Fy & Fhs & Bys & Bhs & C1 & C2).
    pose proof L1 as (Fy1 & Fm1 & By1 & Bm1).
    exists (vy1 :: vys), (vh :: vhs). split; [cbn; lia|].
    split; [constructor; auto|]. split; [constructor; auto|].
    split; [constructor; [lra|]; revert Bys; apply Forall_impl; intros; lra|].
    split; [constructor; [unfold B70; lra|exact Bhs]|].
    split.
    + intros [|k] v Hv N Q.
      * cbn in Hv. injection Hv as <-. rewrite Nat.add_0_r in Q. specialize (K1 N).
        destruct (Nat.eqb_spec (n mod 3) 0) as [E|E]; [exact K1|].
        destruct (tall_upto_next [] n E) as [_ Q']. lia.
      * cbn [nth_error] in Hv. specialize (K1 N). destruct (Nat.eqb_spec (n mod 3) 0) as [E|E].
        -- apply Rle_trans with (1 := K1). apply nth_error_In in Hv.
           rewrite Forall_forall in Bys. apply (Bys v Hv).
        -- destruct K1 as [-> Kv]. destruct (tall_upto_next [] n E) as [_ Q'].
           apply Rle_trans with (rnd (vy + vm1)); [apply rnd_mono; lra|].
           apply (C1 k v Hv); [lia|]. replace (S n - 1)%nat with n by lia.
           replace (S n + k)%nat with (n + S k)%nat by lia. lia.
    + intros [|k] [|k'] v h v' Lt Hv Hh Hv' Q; try lia.
      * cbn [nth_error] in *. injection Hv as <-. injection Hh as <-.
        apply Rle_trans with (rnd (vy1 + vm1)); [apply rnd_mono; lra|].
        apply (C1 k' v' Hv'); [lia|]. replace (S n - 1)%nat with n by lia.
        rewrite Nat.add_0_r in Q. replace (S n + k')%nat with (n + S k')%nat by lia. exact Q.
      * cbn [nth_error] in *. apply (C2 k k' v h v'); auto; [lia|].
        replace (S n + k)%nat with (n + S k)%nat by lia.
        replace (S n + k')%nat with (n + S k')%nat by lia. exact Q.
Qed.

Lemma Forall2_nth {A B} (P : A -> B -> Prop) l1 l2 k a : Forall2 P l1 l2 ->
  nth_error l1 k = Some a -> exists b, nth_error l2 k = Some b /\ P a b.
Proof.
  intros H. revert k. induction H as [|x y l1 l2 Hxy H IH]; intros [|k] E; try discriminate.
  - cbn in *. injection E as ->. eauto.
  - cbn in *. now apply IH.
Qed.

Lemma start_loose : loose 0 (py ORIGIN) F_MIN (100 / 2) (- RMAX).
Proof.
  split; [exact hv_50|]. split; [exact fin_MIN|]. split; [|reflexivity].
  assert (64 <= B100) by (change 64 with (bpow radix2 6); apply bpow_le; lia). lra.
Qed.

Definition nth_rect (ds : list entity_definition) (i : nat) (e : entity_definition) : rect :=
  geo_rect (table_geo i (y_of ds i) e).

Lemma tables_apart ds i j ei ej : Forall (fun e => usize (rows e)) ds -> (i < j)%nat ->
  nth_error ds i = Some ei -> nth_error ds j = Some ej ->
  left_or_above (nth_rect ds i ei) (nth_rect ds j ej).
Proof.
  intros U Lt Hi Hj.
  destruct (grid_loose ds 0 _ _ _ _ U start_loose) as (vys & vhs & Ln & Fy & Fh & By & Bh & _ & C).
  assert (Li : (i < length ds)%nat) by (apply nth_error_Some; congruence).
  assert (Lj : (j < length ds)%nat) by (apply nth_error_Some; congruence).
  assert (Yi : nth_error (grid_ys 0 (py ORIGIN) F_MIN ds) i = Some (y_of ds i))
    by (apply nth_error_nth'; now rewrite grid_ys_length).
  assert (Yj : nth_error (grid_ys 0 (py ORIGIN) F_MIN ds) j = Some (y_of ds j))
    by (apply nth_error_nth'; now rewrite grid_ys_length).
  destruct (Forall2_nth _ _ _ _ _ Fy Yi) as (vi & Vi & Fi).
  destruct (Forall2_nth _ _ _ _ _ Fy Yj) as (vj & Vj & Fj).
  destruct (Forall2_nth _ _ _ _ _ Fh Hi) as (hi & Hhi & Fhi).
  rewrite Forall_forall in By, Bh.
  pose proof (By _ (nth_error_In _ _ Vi)) as Bi. pose proof (By _ (nth_error_In _ _ Vj)) as Bj.
  pose proof (Bh _ (nth_error_In _ _ Hhi)) as Bhi.
  destruct (Nat.eq_dec (i / 3) (j / 3)) as [Q|Q].
  - left. unfold max_x, min_x, nth_rect, geo_rect. cbn [table_geo fst snd origin px rsize width].
    pose proof (Nat.div_mod i 3 ltac:(lia)). pose proof (Nat.div_mod j 3 ltac:(lia)).
    pose proof (Nat.mod_upper_bound i 3 ltac:(lia)). pose proof (Nat.mod_upper_bound j 3 ltac:(lia)).
    assert (X : hv (fadd (table_x i) RECORD_WIDTH) (2 * table_left i + 600)).
    { apply hv_add; [apply x_exact|apply hv_300|]. unfold table_left, M24. lia. }
    rewrite (hv_le _ _ _ _ X (x_exact j)). apply Z.leb_le. unfold table_left. lia.
  - right. unfold max_y, min_y, nth_rect, geo_rect. cbn [table_geo fst snd origin py rsize height].
    assert (Q' : (i / 3 < j / 3)%nat) by (pose proof (Nat.div_le_mono i j 3); lia).
    assert (S1 : rnd (vi + hi) <= B100).
    { apply Rle_trans with (2 := rnd_stall). apply rnd_mono. lra. }
    assert (M : fin (fadd (y_of ds i) (table_h (rows ei))) (rnd (vi + hi))).
    { apply fin_add; auto. apply emax_of; lra. }
    rewrite (fin_le _ _ _ _ M Fj). apply Rle_bool_true. apply (C i j); auto.
Qed.

Lemma tables_finite ds i e : Forall (fun e => usize (rows e)) ds -> nth_error ds i = Some e ->
  finite_rect (nth_rect ds i e).
Proof.
  intros U Hi.
  destruct (grid_loose ds 0 _ _ _ _ U start_loose) as (vys & vhs & Ln & Fy & Fh & By & Bh & _ & _).
  assert (Li : (i < length ds)%nat) by (apply nth_error_Some; congruence).
  assert (Yi : nth_error (grid_ys 0 (py ORIGIN) F_MIN ds) i = Some (y_of ds i))
    by (apply nth_error_nth'; now rewrite grid_ys_length).
  destruct (Forall2_nth _ _ _ _ _ Fy Yi) as (vi & Vi & Fi).
  destruct (Forall2_nth _ _ _ _ _ Fh Hi) as (hi & Hhi & Fhi).
  rewrite Forall_forall in By, Bh.
  pose proof (By _ (nth_error_In _ _ Vi)) as Bi. pose proof (Bh _ (nth_error_In _ _ Hhi)) as Bhi.
  assert (S1 : rnd (vi + hi) <= B100).
  { apply Rle_trans with (2 := rnd_stall). apply rnd_mono. lra. }
  intros f Hf. cbn [In] in Hf.
  destruct Hf as [<-|[<-|[<-|[<-|[]]]]]; unfold max_x, min_x, max_y, min_y, nth_rect, geo_rect;
    cbn [table_geo fst snd origin px py rsize width height].
  - eexists. apply x_exact.
  - eauto.
  - eexists. apply hv_add; [apply x_exact|apply hv_300|].
    pose proof (Nat.mod_upper_bound i 3 ltac:(lia)). unfold table_left, M24. lia.
  - eexists. apply fin_add; eauto. apply emax_of; lra.
Qed.
