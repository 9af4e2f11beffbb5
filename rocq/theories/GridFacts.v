(** The layout of a module in exact numbers. *)
From Coq Require Import List Arith NArith ZArith Reals Bool Lia Lra.
From Flocq Require Import Core BinarySingleNaN.
From Verif Require Import Base F32 Geometry Mir Erd SpecMir MirFacts Heap Route Layout
  SpecF32 SpecLayout F32Facts GeomFacts PlaceFacts.
Import ListNotations.
Local Open Scope Z_scope.

Definition hs_of (ds : list entity_definition) : list nat := map rows ds.

Lemma nth_hs ds a e c : ds = a ++ e :: c -> nth (length a) (hs_of ds) 0%nat = rows e.
Proof.
  intros ->. unfold hs_of. rewrite map_app, app_nth2; rewrite map_length; [|lia].
  now rewrite Nat.sub_diag.
Qed.

Lemma hs_length ds : length (hs_of ds) = length ds.
Proof. apply map_length. Qed.

(** ** The integer grid *)
Lemma row_top_mono hs q r : (q <= r)%nat -> row_top hs q + 80 * Z.of_nat (r - q) <= row_top hs r.
Proof.
  induction 1 as [|r L IH]; [lia|]. cbn [row_top]. lia.
Qed.

Lemma row_top_ge hs r : 50 <= row_top hs r.
Proof. pose proof (row_top_mono hs 0 r). cbn [row_top] in H. lia. Qed.

Lemma nth_tallest hs i : (nth i hs 0 <= tallest hs (i / 3))%nat.
Proof.
  unfold tallest. pose proof (Nat.div_mod i 3 ltac:(lia)) as D.
  pose proof (Nat.mod_upper_bound i 3 ltac:(lia)) as B.
  assert (i mod 3 = 0 \/ i mod 3 = 1 \/ i mod 3 = 2)%nat as [E|[E|E]] by lia; rewrite E in D.
  - replace (3 * (i / 3))%nat with i by lia. lia.
  - replace (3 * (i / 3) + 1)%nat with i by lia. lia.
  - replace (3 * (i / 3) + 2)%nat with i by lia. lia.
Qed.

Lemma row_bottom hs i : (i < length hs)%nat ->
  row_top hs (i / 3) + 35 * Z.of_nat (tallest hs (i / 3)) + 50 <= total_height hs.
Proof.
  intros H. unfold total_height.
  assert (i / 3 <= (length hs - 1) / 3)%nat as L by (apply Nat.div_le_mono; lia).
  destruct (Nat.eq_dec (i / 3) ((length hs - 1) / 3)) as [->|N]; [lia|].
  pose proof (row_top_mono hs (S (i / 3)) ((length hs - 1) / 3) ltac:(lia)) as M.
  cbn [row_top] in M. lia.
Qed.

(** Tallest so far in the current grid row, after [n] tables. *)
Definition tall_upto (hs : list nat) (n : nat) : nat := tallest (firstn n hs) ((n - 1) / 3).

Lemma nth_firstn_lt {A} (l : list A) d n k : (k < n)%nat -> nth k (firstn n l) d = nth k l d.
Proof.
  revert l k. induction n as [|n IH]; intros l k H; [lia|].
  destruct l as [|x l]; [now destruct k|]. destruct k; [reflexivity|]. cbn. apply IH. lia.
Qed.

Lemma nth_firstn_ge {A} (l : list A) d n k : (n <= k)%nat -> nth k (firstn n l) d = d.
Proof. intros H. apply nth_overflow. rewrite firstn_length. lia. Qed.

Lemma nth_firstn {A} (l : list A) d n k : nth k (firstn n l) d = if Nat.ltb k n then nth k l d else d.
Proof.
  destruct (Nat.ltb_spec k n); [now apply nth_firstn_lt|now apply nth_firstn_ge].
Qed.

Lemma tall_upto_first hs n : (n mod 3 = 0)%nat -> tall_upto hs (S n) = nth n hs 0%nat.
Proof.
  intros H. unfold tall_upto. replace (S n - 1)%nat with n by lia.
  pose proof (Nat.div_mod n 3 ltac:(lia)) as D. rewrite H in D.
  unfold tallest. rewrite !nth_firstn. replace (3 * (n / 3))%nat with n by lia.
  destruct (Nat.ltb_spec n (S n)), (Nat.ltb_spec (n + 1) (S n)), (Nat.ltb_spec (n + 2) (S n)); lia.
Qed.

Lemma tall_upto_next hs n : (n mod 3 <> 0)%nat ->
  tall_upto hs (S n) = Nat.max (nth n hs 0%nat) (tall_upto hs n) /\ ((n - 1) / 3 = n / 3)%nat.
Proof.
  intros H. pose proof (Nat.div_mod n 3 ltac:(lia)) as D.
  pose proof (Nat.mod_upper_bound n 3 ltac:(lia)) as B.
  assert (Q : ((n - 1) / 3 = n / 3)%nat).
  { symmetry. apply (Nat.div_unique _ _ _ (n mod 3 - 1)); lia. }
  split; [|exact Q]. unfold tall_upto. replace (S n - 1)%nat with n by lia. rewrite Q.
  unfold tallest. rewrite !nth_firstn.
  assert (n mod 3 = 1 \/ n mod 3 = 2)%nat as [E|E] by lia; rewrite E in D.
  - replace (3 * (n / 3) + 1)%nat with n by lia. replace (3 * (n / 3))%nat with (n - 1)%nat by lia.
    replace (n - 1 + 2)%nat with (S n) by lia. replace (3 * (n / 3) + 2)%nat with (S n) by lia.
    destruct (Nat.ltb_spec (n - 1) (S n)), (Nat.ltb_spec n (S n)), (Nat.ltb_spec (S n) (S n)),
      (Nat.ltb_spec (n - 1) n), (Nat.ltb_spec n n), (Nat.ltb_spec (S n) n); lia.
  - replace (3 * (n / 3) + 2)%nat with n by lia. replace (3 * (n / 3) + 1)%nat with (n - 1)%nat by lia.
    replace (3 * (n / 3))%nat with (n - 2)%nat by lia.
    destruct (Nat.ltb_spec (n - 2) (S n)), (Nat.ltb_spec (n - 1) (S n)), (Nat.ltb_spec n (S n)),
      (Nat.ltb_spec (n - 2) n), (Nat.ltb_spec (n - 1) n), (Nat.ltb_spec n n); lia.
Qed.

Lemma tall_upto_full hs n : (0 < n)%nat -> (n mod 3 = 0)%nat ->
  tall_upto hs n = tallest hs ((n - 1) / 3) /\ (S ((n - 1) / 3) = n / 3)%nat.
Proof.
  intros P H. pose proof (Nat.div_mod n 3 ltac:(lia)) as D. rewrite H in D.
  assert (Q : ((n - 1) / 3 = n / 3 - 1)%nat).
  { symmetry. apply (Nat.div_unique _ _ _ 2); lia. }
  split; [|lia]. unfold tall_upto. rewrite Q. unfold tallest. rewrite !nth_firstn.
  destruct (Nat.ltb_spec (3 * (n / 3 - 1)) n), (Nat.ltb_spec (3 * (n / 3 - 1) + 1) n),
    (Nat.ltb_spec (3 * (n / 3 - 1) + 2) n); lia.
Qed.

Lemma tall_upto_le hs n : (tall_upto hs n <= tallest hs ((n - 1) / 3))%nat.
Proof.
  unfold tall_upto, tallest. rewrite !nth_firstn.
  repeat match goal with |- context [Nat.ltb ?a ?b] => destruct (Nat.ltb_spec a b) end; lia.
Qed.

Lemma tall_upto_end hs : tall_upto hs (length hs) = tallest hs ((length hs - 1) / 3).
Proof. unfold tall_upto. now rewrite firstn_all. Qed.

(** ** The loop of place_nodes *)
Definition grid_ok (hs : list nat) (n : nat) (y m : f32) : Prop :=
  match n with
  | O => hv y 100 /\ m = F_MIN
  | S k => hv y (2 * row_top hs (k / 3)) /\ hv m (70 * Z.of_nat (tall_upto hs n))
  end.

Lemma hv_35 : hv LINE_HEIGHT 70.
Proof. apply (hv_of_Z 35). lia. Qed.
Lemma hv_80 : hv RECORD_SPACE 160.
Proof. apply (hv_of_Z 80). lia. Qed.
Lemma hv_300 : hv RECORD_WIDTH 600.
Proof. apply (hv_of_Z 300). lia. Qed.
Lemma hv_50 : hv (f32_of_Z 50) 100.
Proof. apply (hv_of_Z 50). lia. Qed.

Lemma hv_table_h n : 35 * Z.of_nat n <= 2 ^ 23 -> hv (table_h n) (70 * Z.of_nat n).
Proof.
  intros H. unfold table_h. apply hv_mul; [apply hv_35| |unfold M24; lia].
  apply hv_of_nat. lia.
Qed.

Lemma hv_row_y y z k : hv y (2 * z) -> 0 <= z -> z + 35 * Z.of_nat k <= 2 ^ 23 ->
  hv (row_y y k) (2 * (z + 35 * Z.of_nat k)).
Proof.
  intros H P B. unfold row_y. eapply (eq_rect _ (hv _)); [apply hv_add; [exact H|apply hv_table_h; lia|]|lia].
  unfold M24. lia.
Qed.

Lemma fmax_MIN x a : hv x a -> Z.abs a <= M24 -> fmax x F_MIN = x.
Proof.
  intros H B. unfold fmax. rewrite (fin_nan _ _ H), (fin_nan _ _ fin_MIN).
  rewrite (fin_lt _ _ _ _ H fin_MIN). rewrite Rlt_bool_false; [reflexivity|].
  pose proof (hv_lt_MAX (- a)) as L. rewrite opp_IZR in L. specialize (L ltac:(lia)). lra.
Qed.

Lemma advance_ok hs n y m : fits hs -> (n < length hs)%nat -> grid_ok hs n y m ->
  let '(y1, m1) := advance n y m in
  hv y1 (2 * row_top hs (n / 3)) /\ grid_ok hs (S n) y1 (fmax (table_h (nth n hs 0%nat)) m1).
Proof.
  intros F L G. unfold fits in F. pose proof (row_bottom hs n L) as RB.
  pose proof (nth_tallest hs n) as NT.
  pose proof (row_top_ge hs (n / 3)) as RG.
  assert (TH : hv (table_h (nth n hs 0%nat)) (70 * Z.of_nat (nth n hs 0%nat))) by (apply hv_table_h; lia).
  unfold advance. change GRID_N_COLUMNS with 3%nat.
  destruct n as [|k].
  - cbn [Nat.ltb Nat.leb andb] in *. destruct G as [Gy ->]. cbn [grid_ok].
    rewrite (fmax_MIN _ _ TH) by (unfold M24; lia).
    rewrite (tall_upto_first hs 0) by reflexivity. auto.
  - cbn [Nat.ltb Nat.leb andb]. destruct G as [Gy Gm].
    destruct (Nat.eqb_spec (S k mod 3) 0) as [E|E].
    + destruct (tall_upto_full hs (S k) ltac:(lia) E) as [TF Q].
      replace (S k - 1)%nat with k in * by lia.
      assert (HY : hv (fadd y (fadd m RECORD_SPACE)) (2 * row_top hs (S k / 3))).
      { rewrite <- Q. cbn [row_top]. rewrite <- Q in RB, RG. cbn [row_top] in RB, RG.
        pose proof (row_top_ge hs (k / 3)) as RG'.
        eapply (eq_rect _ (hv _)); [apply hv_add; [exact Gy|apply hv_add; [exact Gm|apply hv_80|]|]|];
          rewrite ?TF; unfold M24; lia. }
      split; [exact HY|]. cbn [grid_ok]. split; [exact HY|].
      rewrite (fmax_MIN _ _ TH) by (unfold M24; lia).
      now rewrite (tall_upto_first hs (S k) E).
    + destruct (tall_upto_next hs (S k) E) as [TN Q]. replace (S k - 1)%nat with k in * by lia.
      rewrite <- Q. split; [exact Gy|]. cbn [grid_ok]. rewrite <- Q. split; [exact Gy|].
      rewrite TN. eapply (eq_rect _ (hv _)); [apply hv_max; [exact TH|exact Gm]|lia].
Qed.

Lemma grid_exact ds : fits (hs_of ds) -> forall c a y m,
  ds = a ++ c -> grid_ok (hs_of ds) (length a) y m ->
  (forall k, (k < length c)%nat ->
     hv (nth k (grid_ys (length a) y m c) F_nan) (2 * table_top (hs_of ds) (length a + k))) /\
  grid_ok (hs_of ds) (length ds) (fst (grid_end (length a) y m c)) (snd (grid_end (length a) y m c)).
Proof.
  intros F. induction c as [|e c IH]; intros a y m Hd G.
  - split; [cbn; intros k Hk; lia|]. rewrite app_nil_r in Hd. subst a. exact G.
  - cbn [grid_ys grid_end].
    assert (L : (length a < length (hs_of ds))%nat) by (rewrite hs_length, Hd, app_length; cbn; lia).
    pose proof (advance_ok _ _ _ _ F L G) as A. destruct (advance (length a) y m) as [y1 m1].
    destruct A as [Ay A]. rewrite (nth_hs ds a e c Hd) in A.
    assert (Hd' : ds = (a ++ [e]) ++ c) by (rewrite <- app_assoc; exact Hd).
    assert (La : length (a ++ [e]) = S (length a)) by (rewrite app_length; cbn; lia).
    destruct (IH (a ++ [e]) y1 (fmax (table_h (rows e)) m1) Hd') as [I1 I2]; [now rewrite La|].
    rewrite La in I1, I2. split; [|exact I2].
    intros [|k] Hk.
    + cbn [nth]. rewrite Nat.add_0_r. exact Ay.
    + cbn [nth]. replace (length a + S k)%nat with (S (length a) + k)%nat by lia. apply I1. cbn in Hk. lia.
Qed.

Lemma grid_start hs : grid_ok hs 0 (py ORIGIN) F_MIN.
Proof. split; [apply hv_50|reflexivity]. Qed.

Lemma y_exact ds i : fits (hs_of ds) -> (i < length ds)%nat -> hv (y_of ds i) (2 * table_top (hs_of ds) i).
Proof.
  intros F L. exact (proj1 (grid_exact ds F ds [] _ _ eq_refl (grid_start _)) i L).
Qed.

Lemma x_exact i : hv (table_x i) (2 * table_left i).
Proof.
  unfold table_x, table_left. change GRID_N_COLUMNS with 3%nat.
  pose proof (Nat.mod_upper_bound i 3 ltac:(lia)) as B.
  assert (H : hv (fadd RECORD_WIDTH RECORD_SPACE) 760).
  { apply (hv_add _ _ 600 160 hv_300 hv_80). unfold M24. lia. }
  assert (H2 : hv (fmul (fadd RECORD_WIDTH RECORD_SPACE) (f32_of_nat (i mod 3))) (760 * Z.of_nat (i mod 3))).
  { apply hv_mul; [exact H|apply hv_of_nat; lia|unfold M24; lia]. }
  eapply (eq_rect _ (hv _)); [apply (hv_add _ _ _ _ hv_50 H2)|]; unfold M24; lia.
Qed.

Lemma table_exact ds a e c : fits (hs_of ds) -> ds = a ++ e :: c ->
  exact_rect (geo_rect (table_geo (length a) (y_of ds (length a)) e))
    (table_left (length a)) (table_top (hs_of ds) (length a)) 300 (table_height (hs_of ds) (length a)).
Proof.
  intros F Hd. assert (L : (length a < length ds)%nat) by (rewrite Hd, app_length; cbn; lia).
  pose proof (row_bottom (hs_of ds) (length a) ltac:(now rewrite hs_length)) as RB.
  pose proof (nth_tallest (hs_of ds) (length a)) as NT. rewrite (nth_hs ds a e c Hd) in NT.
  pose proof (row_top_ge (hs_of ds) (length a / 3)) as RG. unfold fits in F.
  unfold table_height. rewrite (nth_hs ds a e c Hd).
  split; [split; [apply x_exact|now apply y_exact]|]. split; [apply hv_300|].
  cbn [geo_rect table_geo fst snd rsize height].
  eapply (eq_rect _ (hv _)); [apply hv_table_h|]; lia.
Qed.

Lemma row_exact ds a e c k : fits (hs_of ds) -> ds = a ++ e :: c -> (k < rows e)%nat ->
  exact_rect (geo_rect (row_geo (length a) (y_of ds (length a)) k))
    (table_left (length a)) (table_top (hs_of ds) (length a) + 35 * Z.of_nat k) 300 35.
Proof.
  intros F Hd Hk. assert (L : (length a < length ds)%nat) by (rewrite Hd, app_length; cbn; lia).
  pose proof (row_bottom (hs_of ds) (length a) ltac:(now rewrite hs_length)) as RB.
  pose proof (nth_tallest (hs_of ds) (length a)) as NT. rewrite (nth_hs ds a e c Hd) in NT.
  pose proof (row_top_ge (hs_of ds) (length a / 3)) as RG.
  pose proof (y_exact ds (length a) F L) as Y. unfold fits in F. unfold table_top in *.
  split; [split; [apply x_exact|]|].
  - cbn [geo_rect row_geo fst snd origin py]. apply hv_row_y; [exact Y| |]; lia.
  - split; [apply hv_300|apply hv_35].
Qed.

Lemma view_exact ds : fits (hs_of ds) -> ds <> [] ->
  exact_rect (view_of ds) 0 0 1160 (total_height (hs_of ds)).
Proof.
  intros F N. destruct (grid_exact ds F ds [] _ _ eq_refl (grid_start _)) as [_ G].
  unfold view_of. cbn [length] in G. destruct (grid_end 0 (py ORIGIN) F_MIN ds) as [y m]. cbn [fst snd] in G.
  assert (exists k, length ds = S k) as [k K] by (destruct ds; [congruence|cbn; eauto]).
  rewrite K in G. destruct G as [Gy Gm].
  assert (T : tall_upto (hs_of ds) (S k) = tallest (hs_of ds) (k / 3)).
  { rewrite <- K, <- (hs_length ds), tall_upto_end, hs_length, K. do 2 f_equal. lia. }
  unfold fits, total_height in *. rewrite hs_length, K in *. replace (S k - 1)%nat with k in * by lia.
  rewrite T in Gm. pose proof (row_top_ge (hs_of ds) (k / 3)) as RG.
  split; [split; apply hv_zero|]. split.
  - cbn [rsize width].
    assert (A : hv (fmul (px ORIGIN) (f32_of_Z 2)) 200)
      by (apply (hv_mul _ _ 100 2 hv_50); [apply (hv_of_Z 2)|unfold M24]; lia).
    assert (B : hv (fmul (f32_of_nat GRID_N_COLUMNS) RECORD_WIDTH) 1800).
    { apply (hv_mul _ _ 6 300); [apply (hv_of_nat 3); lia|apply (hv_of_Z 300); lia|unfold M24; lia]. }
    assert (C : hv (fmul (f32_of_nat (GRID_N_COLUMNS - 1)) RECORD_SPACE) 320).
    { apply (hv_mul _ _ 4 80); [apply (hv_of_nat 2); lia|apply (hv_of_Z 80); lia|unfold M24; lia]. }
    apply (hv_add _ _ 2000 320); [|exact C|unfold M24; lia].
    apply (hv_add _ _ 200 1800 A B). unfold M24; lia.
  - cbn [rsize height].
    eapply (eq_rect _ (hv _)); [apply hv_add; [apply (hv_add _ _ _ _ Gy Gm)|apply hv_50|]|]; unfold M24; lia.
Qed.
