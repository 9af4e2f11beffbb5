(** The points that [intersected_line] returns. *)
From Coq Require Import List ZArith Reals Bool Lia Lra.
From Flocq Require Import Core.
From Verif Require Import Base F32 Geometry SpecF32 SpecGeom SpecClip F32Facts GeomFacts ClipFacts.
Import ListNotations.
Local Open Scope Z_scope.

(** What one direction contributes to [negarr] and [posarr]. *)
Definition axis (d q1 q2 : f32) : list f32 * list f32 :=
  if negb (feq (fneg d) fzero) then
    if flt (fneg d) fzero then ([fdiv q1 (fneg d)], [fdiv q2 (fneg (fneg d))])
    else ([fdiv q2 (fneg (fneg d))], [fdiv q1 (fneg d)])
  else ([], []).
Definition at_ (x y dx dy s : f32) : point := mkPoint (fadd x (fmul (fneg (fneg dx)) s)) (fadd y (fmul (fneg (fneg dy)) s)).
Definition highest (fs : list f32) : f32 := fold_left (fun m v => fmax v m) fs (fmax fzero (fmax fzero F_nan)).
Definition lowest (fs : list f32) : f32 := fold_left (fun m v => fmin v m) fs (fmin (f32_of_Z 1) (fmin (f32_of_Z 1) F_nan)).

Lemma intersected_some r a b e l : intersected_line r a b = Some (e, l) ->
  let '(x, y, dx, dy) :=
    if flt (px b) (px a)
    then (px b, py b, fsub (px a) (px b), fsub (py a) (py b))
    else (px a, py a, fsub (px b) (px a), fsub (py b) (py a)) in
  let h := axis dx (fsub x (min_x r)) (fsub (max_x r) x) in
  let v := axis dy (fsub y (min_y r)) (fsub (max_y r) y) in
  e = at_ x y dx dy (highest (fst h ++ fst v)) /\ l = at_ x y dx dy (lowest (snd h ++ snd v)).
Proof.
  unfold intersected_line.
  set (T := if flt (px b) (px a) then _ else _). destruct T as [[[x y] dx] dy]. cbv zeta.
  destruct (fgt x (min_x r) && _ && _ && _); [discriminate|].
  destruct (_ || _ || _ || _); [discriminate|]. unfold axis.
  destruct (negb (feq (fneg dx) fzero)); [destruct (flt (fneg dx) fzero)|];
  (destruct (negb (feq (fneg dy) fzero)); [destruct (flt (fneg dy) fzero)|]);
  match goal with |- (if ?c then _ else _) = _ -> _ => destruct c; [discriminate|] end;
  intros [= <- <-]; split; reflexivity.
Qed.

Lemma rnd_max a b : rnd (Rmax a b) = Rmax (rnd a) (rnd b).
Proof.
  destruct (Rle_or_lt a b) as [L|L].
  - rewrite (Rmax_right a b) by trivial. now rewrite Rmax_right by now apply rnd_mono.
  - rewrite (Rmax_left a b) by lra. rewrite Rmax_left; trivial. apply rnd_mono. lra.
Qed.
Lemma rnd_min a b : rnd (Rmin a b) = Rmin (rnd a) (rnd b).
Proof.
  destruct (Rle_or_lt a b) as [L|L].
  - rewrite (Rmin_left a b) by trivial. now rewrite Rmin_left by now apply rnd_mono.
  - rewrite (Rmin_right a b) by lra. rewrite Rmin_right; trivial. apply rnd_mono. lra.
Qed.

Definition quot (f : f32) (u : R) : Prop := fin f (rnd u).

Lemma fold_highest fs us m u : Forall2 quot fs us -> quot m u ->
  exists t, quot (fold_left (fun m v => fmax v m) fs m) t /\ forall s, (t <= s <-> u <= s /\ Forall (fun v => v <= s) us)%R.
Proof.
  intros F. revert m u. induction F as [|f v fs us Q F IH]; intros m u M.
  - exists u. split; [exact M|]. intros s. split; [|tauto]. auto.
  - cbn [fold_left]. destruct (IH (fmax f m) (Rmax v u)) as (t & T & E).
    + unfold quot in *. rewrite rnd_max. now apply fin_max.
    + exists t. split; [exact T|]. intros s. rewrite E. split.
      * intros [H1 H2]. pose proof (Rmax_l v u). pose proof (Rmax_r v u). split; [lra|]. constructor; [lra|exact H2].
      * intros [H1 H2]. inversion H2; subst. split; [|assumption]. now apply Rmax_lub.
Qed.
Lemma fold_lowest fs us m u : Forall2 quot fs us -> quot m u ->
  exists t, quot (fold_left (fun m v => fmin v m) fs m) t /\ forall s, (s <= t <-> s <= u /\ Forall (fun v => s <= v) us)%R.
Proof.
  intros F. revert m u. induction F as [|f v fs us Q F IH]; intros m u M.
  - exists u. split; [exact M|]. intros s. split; [|tauto]. auto.
  - cbn [fold_left]. destruct (IH (fmin f m) (Rmin v u)) as (t & T & E).
    + unfold quot in *. rewrite rnd_min. now apply fin_min.
    + exists t. split; [exact T|]. intros s. rewrite E. split.
      * intros [H1 H2]. pose proof (Rmin_l v u). pose proof (Rmin_r v u). split; [lra|]. constructor; [lra|exact H2].
      * intros [H1 H2]. inversion H2; subst. split; [|assumption]. now apply Rmin_glb.
Qed.

Lemma quot_zero : quot (fmax fzero (fmax fzero F_nan)) 0.
Proof. unfold quot. rewrite rnd_0. replace (fmax fzero (fmax fzero F_nan)) with fzero by reflexivity. exact fin_zero. Qed.
Lemma quot_one : quot (fmin (f32_of_Z 1) (fmin (f32_of_Z 1) F_nan)) 1.
Proof. unfold quot. rewrite rnd_1. replace (fmin (f32_of_Z 1) (fmin (f32_of_Z 1) F_nan)) with (f32_of_Z 1) by reflexivity. exact fin_one. Qed.

(** The parameters that one direction allows. *)
Lemma axis_quot fd q1 q2 l r x d : hv fd d -> hv q1 (x - l) -> hv q2 (r - x) ->
  Z.abs (x - l) <= M24 -> Z.abs (r - x) <= M24 -> (d = 0 -> l <= x <= r) ->
  exists us vs, Forall2 quot (fst (axis fd q1 q2)) us /\ Forall2 quot (snd (axis fd q1 q2)) vs /\
  forall s, within (IZR l) (IZR r) (IZR x) (IZR d) s <-> (Forall (fun u => u <= s) us /\ Forall (fun v => s <= v) vs)%R.
Proof.
  intros D Q1 Q2 B1 B2 Z0. unfold axis.
  assert (P1 : hv (fneg fd) (- d)) by now apply hv_neg.
  assert (P2 : hv (fneg (fneg fd)) d) by (replace d with (- - d) by lia; now apply hv_neg).
  rewrite (hv_feq _ _ _ _ P1 hv_zero), (hv_lt _ _ _ _ P1 hv_zero).
  destruct (Z.eqb_spec (- d) 0) as [E|N]; cbn [negb].
  - exists [], []. split; [constructor|]. split; [constructor|]. intros s. split; [split; constructor|]. intros _.
    assert (d = 0) as -> by lia. apply within_zero. auto.
  - destruct (Z.ltb_spec (- d) 0) as [L|L].
    + exists [(IZR (l - x) / IZR d)%R], [(IZR (r - x) / IZR d)%R]. cbn [fst snd]. split; [|split].
      * constructor; [|constructor]. eapply fin_eq; [apply (quot_fin _ _ _ _ Q1 P1); lia|].
        replace (x - l) with (- (l - x)) by lia. rewrite quot_opp by lia. reflexivity.
      * constructor; [|constructor]. apply (quot_fin _ _ _ _ Q2 P2); lia.
      * intros s. rewrite within_pos by lia. split.
        -- intros [H1 H2]. split; constructor; auto.
        -- intros [H1 H2]. inversion H1; inversion H2; subst. auto.
    + exists [(IZR (x - r) / IZR (- d))%R], [(IZR (x - l) / IZR (- d))%R]. cbn [fst snd]. split; [|split].
      * constructor; [|constructor]. eapply fin_eq; [apply (quot_fin _ _ _ _ Q2 P2); lia|].
        replace (x - r) with (- (r - x)) by lia. rewrite quot_opp by lia. reflexivity.
      * constructor; [|constructor]. apply (quot_fin _ _ _ _ Q1 P1); lia.
      * intros s. rewrite within_neg by lia. split.
        -- intros [H1 H2]. split; constructor; auto.
        -- intros [H1 H2]. inversion H1; inversion H2; subst. auto.
Qed.

(** Below 2^23 numbers are rounded by at most a quarter. *)
Lemma rnd_err x : (Rabs x <= 8388608)%R -> (Rabs (rnd x - x) <= / 4)%R.
Proof.
  intros H. destruct (Req_dec x 0) as [->|N0].
  { rewrite rnd_0, Rminus_0_r, Rabs_R0. lra. }
  destruct (Req_dec (Rabs x) 8388608) as [E|N1].
  { assert (F : rnd x = x).
    { assert (x = 8388608 \/ x = -8388608)%R as [-> | ->] by (unfold Rabs in E; destruct (Rcase_abs x); lra).
      - replace 8388608%R with (IZR M24 / 2)%R by (unfold M24; lra). apply rnd_half. unfold M24. lia.
      - replace (-8388608)%R with (IZR (- M24) / 2)%R by (unfold M24; cbn; lra). apply rnd_half. unfold M24. lia. }
    rewrite F. replace (x - x)%R with 0%R by lra. rewrite Rabs_R0. lra. }
  eapply Rle_trans; [apply error_le_half_ulp; apply fexp32_valid|].
  rewrite ulp_neq_0 by trivial. unfold cexp.
  assert (M : (mag radix2 x <= 23)%Z).
  { apply mag_le_bpow; trivial. simpl. lra. }
  assert (B : (bpow radix2 (fexp32 (mag radix2 x)) <= bpow radix2 (-1))%R).
  { apply bpow_le. transitivity (fexp32 23); [|compute; discriminate].
    unfold fexp32, SpecFloat.fexp, FLT_exp, SpecFloat.emin. lia. }
  change (bpow radix2 (-1)) with (/ IZR 2)%R in B. lra.
Qed.

Lemma small_emax x : (Rabs x <= 8388608)%R -> (Rabs (rnd x) < bpow radix2 128)%R.
Proof.
  intros H. pose proof (rnd_err x H) as E. apply Rle_lt_trans with (8388608 + 1)%R.
  - replace (rnd x) with ((rnd x - x) + x)%R by lra. eapply Rle_trans; [apply Rabs_triang|]. lra.
  - apply Rlt_le_trans with (bpow radix2 24); [simpl; lra|apply bpow_le; lia].
Qed.

Lemma scaled a s : (Rabs a <= 8388608)%R -> (0 <= s <= 1)%R -> (Rabs (a * s) <= 8388608)%R.
Proof. intros A S. rewrite Rabs_mult, (Rabs_pos_eq s) by lra. pose proof (Rabs_pos a). nra. Qed.

Lemma coordinate fx fd f x d t : hv fx x -> hv fd d -> quot f t -> (0 <= t <= 1)%R ->
  Z.abs x <= M24 -> Z.abs (x + d) <= M24 -> Z.abs d <= M24 ->
  exists v, fin (fadd fx (fmul fd f)) v /\ (Rabs (2 * v - (IZR x + t * IZR d)) <= 3 / 2)%R /\ (d = 0 -> v = (IZR x / 2)%R).
Proof.
  intros X D Q T B1 B2 B3. unfold hv, quot in *.
  assert (T' : (0 <= rnd t <= 1)%R) by (split; [rewrite <- rnd_0|rewrite <- rnd_1]; apply rnd_mono; lra).
  assert (A3 : (Rabs (IZR d / 2) <= 8388608)%R).
  { unfold Rdiv. rewrite Rabs_mult, Rabs_inv, (Rabs_pos_eq 2), <- abs_IZR by lra. apply IZR_le in B3. unfold M24 in B3. lra. }
  pose proof (scaled _ _ A3 T') as S. pose proof (rnd_err _ S) as E.
  assert (P : fin (fmul fd f) (rnd (IZR d / 2 * rnd t))) by (apply fin_mul; trivial; now apply small_emax).
  assert (R : (rnd (IZR d / 2) = IZR d / 2)%R) by now apply rnd_half.
  assert (I1 : (- M24 <= x <= M24)%Z) by lia. assert (I2 : (- M24 <= x + d <= M24)%Z) by lia.
  destruct I1 as [I1 I1'], I2 as [I2 I2']. apply IZR_le in I1, I1', I2, I2'. rewrite plus_IZR in I2, I2'. unfold M24 in *. cbn [Z.opp] in *.
  assert (Btw : (IZR d <= 0 -> IZR d / 2 <= rnd (IZR d / 2 * rnd t) <= 0)%R /\ (0 <= IZR d -> 0 <= rnd (IZR d / 2 * rnd t) <= IZR d / 2)%R).
  { assert (K : forall a s, (0 <= a -> 0 <= s <= 1 -> 0 <= a * s <= a)%R) by (intros; nra).
    assert (K' : forall a s, (a <= 0 -> 0 <= s <= 1 -> a <= a * s <= 0)%R) by (intros; nra).
    split; intros L.
    - destruct (K' (IZR d / 2)%R (rnd t)) as [G1 G2]; [lra|exact T'|]. apply rnd_mono in G1, G2. rewrite rnd_0 in G2. rewrite R in G1. auto.
    - destruct (K (IZR d / 2)%R (rnd t)) as [G1 G2]; [lra|exact T'|]. apply rnd_mono in G1, G2. rewrite rnd_0 in G1. rewrite R in G2. auto. }
  assert (C : (Rabs (IZR x / 2 + rnd (IZR d / 2 * rnd t)) <= 8388608)%R).
  { apply Rabs_le. destruct (Rle_or_lt (IZR d) 0) as [L|L]; [destruct (proj1 Btw L)|destruct (proj2 Btw (Rlt_le _ _ L))]; lra. }
  exists (rnd (IZR x / 2 + rnd (IZR d / 2 * rnd t))). split; [|split].
  - apply fin_add; trivial. now apply small_emax.
  - pose proof (rnd_err _ C) as E2. pose proof (rnd_unit_err _ T) as E3.
    apply Rabs_le_inv in E, E2, E3. apply Rabs_le.
    assert (G : (- / 4 <= IZR d / 2 * rnd t - IZR d / 2 * t <= / 4)%R).
    { assert (J : (- 16777216 <= IZR d <= 16777216)%R) by (split; apply IZR_le; lia). nra. }
    lra.
  - intros ->. replace (IZR 0 / 2 * rnd t)%R with 0%R by (unfold Rdiv; lra). rewrite rnd_0, Rplus_0_r. apply rnd_half. exact B1.
Qed.

Lemma double_neg f z : hv f z -> hv (fneg (fneg f)) z.
Proof. intros H. replace z with (- - z) by lia. now apply hv_neg, hv_neg. Qed.

Section Points.
  Variables (left right top bottom fx fy fdx fdy : f32) (l rr t b x y dx dy : Z).
  Hypotheses (Hl : hv left l) (Hr : hv right rr) (Ht : hv top t) (Hb : hv bottom b)
    (Hx : hv fx x) (Hy : hv fy y) (Hdx : hv fdx dx) (Hdy : hv fdy dy)
    (B1 : Z.abs (x - l) <= M24) (B2 : Z.abs (rr - x) <= M24)
    (B3 : Z.abs (y - t) <= M24) (B4 : Z.abs (b - y) <= M24) (B5 : Z.abs dx <= M24) (B6 : Z.abs dy <= M24)
    (B7 : Z.abs x <= M24) (B8 : Z.abs y <= M24) (B9 : Z.abs (x + dx) <= M24) (B10 : Z.abs (y + dy) <= M24)
    (C : crosses l t rr b x y (x + dx) (y + dy)).

  Let h := axis fdx (fsub fx left) (fsub right fx).
  Let v := axis fdy (fsub fy top) (fsub bottom fy).

  Lemma points_close : exists s1 s2, piece l t rr b x y (x + dx) (y + dy) s1 s2 /\
    close_to (at_ fx fy fdx fdy (highest (fst h ++ fst v))) x y (x + dx) (y + dy) s1 /\
    close_to (at_ fx fy fdx fdy (lowest (snd h ++ snd v))) x y (x + dx) (y + dy) s2.
  Proof.
    assert (C' : crossing l rr t b x y dx dy).
    { apply crosses_crossing in C. now replace (x + dx - x) with dx in C by lia; replace (y + dy - y) with dy in C by lia. }
    destruct C' as (s0 & S0 & X0 & Y0).
    destruct (axis_quot fdx (fsub fx left) (fsub right fx) l rr x dx) as (us & us' & U & U' & W); trivial; try (now apply hv_sub).
    { intros ->. now apply within_zero in X0. }
    destruct (axis_quot fdy (fsub fy top) (fsub bottom fy) t b y dy) as (vs & vs' & V & V' & W'); trivial; try (now apply hv_sub).
    { intros ->. now apply within_zero in Y0. }
    fold h in U, U'. fold v in V, V'.
    destruct (fold_highest _ _ _ _ (Forall2_app U V) quot_zero) as (s1 & Q1 & E1).
    destruct (fold_lowest _ _ _ _ (Forall2_app U' V') quot_one) as (s2 & Q2 & E2).
    assert (P : forall s, ((0 <= s <= 1)%R /\ within (IZR l) (IZR rr) (IZR x) (IZR dx) s /\ within (IZR t) (IZR b) (IZR y) (IZR dy) s <-> s1 <= s <= s2)%R).
    { intros s. rewrite E1, E2, W, W', !Forall_app. tauto. }
    assert (S1 : (s1 <= s0 <= s2)%R) by (apply P; auto).
    assert (L1 : (0 <= s1 <= 1)%R) by (split; [apply (E1 s1); lra|lra]).
    assert (L2 : (0 <= s2 <= 1)%R) by (split; [lra|apply (E2 s2); lra]).
    assert (K : forall f s, quot f s -> (0 <= s <= 1)%R -> close_to (at_ fx fy fdx fdy f) x y (x + dx) (y + dy) s).
    { intros f s Q L.
      destruct (coordinate fx (fneg (fneg fdx)) f x dx s) as (a & A1 & A2 & A3); trivial; [now apply double_neg|].
      destruct (coordinate fy (fneg (fneg fdy)) f y dy s) as (c & C1 & C2 & C3); trivial; [now apply double_neg|].
      exists a, c. cbn [at_ px py]. rewrite !plus_IZR.
      replace (IZR x + IZR dx - IZR x)%R with (IZR dx) by lra. replace (IZR y + IZR dy - IZR y)%R with (IZR dy) by lra.
      repeat split; trivial; intros; [apply A3|apply C3]; lia. }
    exists s1, s2. split; [|split; apply K; trivial].
    split; [lra|]. intros s. rewrite <- P, !plus_IZR. unfold within.
    replace (IZR x + IZR dx - IZR x)%R with (IZR dx) by lra. replace (IZR y + IZR dy - IZR y)%R with (IZR dy) by lra. reflexivity.
  Qed.
End Points.

Lemma piece_sym l t r b ax ay bx by_ s1 s2 : piece l t r b ax ay bx by_ s1 s2 -> piece l t r b bx by_ ax ay (1 - s2) (1 - s1).
Proof.
  intros [L P]. split; [lra|]. intros s. split.
  - intros H. assert (s1 <= 1 - s <= s2)%R by (apply P; repeat split; lra). lra.
  - intros H. assert (E : (s1 <= 1 - s <= s2)%R) by lra. apply P in E. repeat split; lra.
Qed.
Lemma close_sym p ax ay bx by_ s : close_to p ax ay bx by_ s -> close_to p bx by_ ax ay (1 - s).
Proof.
  intros (u & v & U & V & D1 & D2 & E1 & E2). exists u, v. split; [exact U|]. split; [exact V|].
  replace (IZR bx + (1 - s) * (IZR ax - IZR bx))%R with (IZR ax + s * (IZR bx - IZR ax))%R by ring.
  replace (IZR by_ + (1 - s) * (IZR ay - IZR by_))%R with (IZR ay + s * (IZR by_ - IZR ay))%R by ring.
  repeat split; trivial; intros ->; auto.
Qed.

Theorem clipped_points w0 r x y w h p q ax ay bx by_ e l :
  hrect r x y w h -> hpoint p ax ay -> hpoint q bx by_ ->
  0 <= w -> 0 <= h -> - M24 <= w0 <= 0 ->
  window w0 x -> window w0 y -> window w0 (x + w) -> window w0 (y + h) ->
  window w0 ax -> window w0 ay -> window w0 bx -> window w0 by_ ->
  crosses x y (x + w) (y + h) ax ay bx by_ -> intersected_line r p q = Some (e, l) ->
  exists s1 s2, piece x y (x + w) (y + h) ax ay bx by_ s1 s2 /\
  ((ax <= bx /\ close_to e ax ay bx by_ s1 /\ close_to l ax ay bx by_ s2) \/
   (bx < ax /\ close_to e ax ay bx by_ s2 /\ close_to l ax ay bx by_ s1)).
Proof.
  intros Hr [Pa Pb] [Qa Qb] Hw Hh W0 Wx Wy Wr Wb W1 W2 W3 W4 C I.
  destruct (hrect_box_window _ _ _ _ _ _ Hr W0 Wr Wb) as (H1 & H2 & H3 & H4).
  apply intersected_some in I. rewrite (hv_lt _ _ _ _ Qa Pa) in I. unfold window in *.
  destruct (Z.ltb_spec bx ax) as [S|S]; cbv beta iota zeta in I; destruct I as [-> ->].
  - destruct (points_close (min_x r) (max_x r) (min_y r) (max_y r) (px q) (py q) (fsub (px p) (px q)) (fsub (py p) (py q))
      x (x + w) y (y + h) bx by_ (ax - bx) (ay - by_)) as (s1 & s2 & P & K1 & K2); trivial; try lia; try (apply hv_sub; trivial; lia).
    + replace (bx + (ax - bx)) with ax by lia. replace (by_ + (ay - by_)) with ay by lia. now apply crosses_sym.
    + replace (bx + (ax - bx)) with ax in * by lia. replace (by_ + (ay - by_)) with ay in * by lia.
      exists (1 - s2)%R, (1 - s1)%R. split; [now apply piece_sym|]. right. split; [exact S|]. split; now apply close_sym.
  - destruct (points_close (min_x r) (max_x r) (min_y r) (max_y r) (px p) (py p) (fsub (px q) (px p)) (fsub (py q) (py p))
      x (x + w) y (y + h) ax ay (bx - ax) (by_ - ay)) as (s1 & s2 & P & K1 & K2); trivial; try lia; try (apply hv_sub; trivial; lia).
    + now replace (ax + (bx - ax)) with bx by lia; replace (ay + (by_ - ay)) with by_ by lia.
    + replace (ax + (bx - ax)) with bx in * by lia. replace (ay + (by_ - ay)) with by_ in * by lia.
      exists s1, s2. split; [exact P|]. left. auto.
Qed.
