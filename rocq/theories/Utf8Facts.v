From Coq Require Import List NArith ZArith Bool Lia.
From Verif Require Import Base SpecLex Utf8 SpecUtf8.
Import ListNotations.
Local Open Scope N_scope.

Ltac Zify.zify_post_hook ::= Z.to_euclidean_division_equations.

Lemma land_mod x k : N.land x (N.ones k) = x mod 2 ^ k.
Proof. apply N.land_ones. Qed.
Lemma land63 x : N.land x 63 = x mod 64. Proof. exact (land_mod x 6). Qed.
Lemma land31 x : N.land x 31 = x mod 32. Proof. exact (land_mod x 5). Qed.
Lemma land15 x : N.land x 15 = x mod 16. Proof. exact (land_mod x 4). Qed.
Lemma land7 x : N.land x 7 = x mod 8. Proof. exact (land_mod x 3). Qed.


Lemma lor_add a b k : b < 2 ^ k -> N.lor (N.shiftl a k) b = a * 2 ^ k + b.
Proof.
  intros H.
  assert (N.land (N.shiftl a k) b = 0) as Z.
  { apply N.bits_inj. intros n. rewrite N.land_spec, N.bits_0.
    destruct (N.lt_ge_cases n k) as [L|L].
    - now rewrite N.shiftl_spec_low.
    - rewrite <- (N.mod_small b (2 ^ k)) by auto. rewrite N.mod_pow2_bits_high by auto. apply andb_false_r. }
  rewrite <- N.lxor_lor by exact Z. rewrite <- N.add_nocarry_lxor by exact Z. now rewrite N.shiftl_mul_pow2.
Qed.

Lemma acc_cont_eq c b : acc_cont c b = c * 64 + b mod 64.
Proof. unfold acc_cont. rewrite land63, lor_add; [reflexivity|]. change (2 ^ 6) with 64. lia. Qed.
Lemma lor12 a b : b < 4096 -> N.lor (N.shiftl a 12) b = a * 4096 + b.
Proof. exact (lor_add a b 12). Qed.
Lemma lor18 a b : b < 262144 -> N.lor (N.shiftl a 18) b = a * 262144 + b.
Proof. exact (lor_add a b 18). Qed.
Lemma lor_high a b k h : h = a * 2 ^ k -> b < 2 ^ k -> N.lor b h = h + b.
Proof. intros -> H. rewrite N.lor_comm, <- N.shiftl_mul_pow2, lor_add, N.shiftl_mul_pow2 by auto. lia. Qed.

Ltac bools := unfold between, is_cont, second3, second4, between in *;
  repeat (rewrite ?andb_true_iff, ?orb_true_iff, ?andb_false_iff, ?orb_false_iff, ?N.leb_le, ?N.leb_gt,
            ?N.ltb_lt, ?N.ltb_ge, ?N.eqb_eq, ?N.eqb_neq in *).

(** ** Decoding *)

Lemma next_char_complete c u r : utf8_char c u -> next_char (u ++ r) = Some (c, r).
Proof.
  destruct 1 as [c H|c a b H E Hb|c a1 a2 b H S E Ha Hb|c a1 a2 a3 b H E H2 H3 Hb]; cbn [app]; unfold next_char.
  - assert (c <? 128 = true) as -> by (bools; lia). reflexivity.
  - assert (192 + a <? 128 = false) as -> by (bools; lia).
    assert (between 194 223 (192 + a) = true) as -> by (bools; lia).
    assert (is_cont (128 + b) = true) as -> by (bools; lia).
    rewrite acc_cont_eq, land31. do 2 f_equal. lia.
  - assert (224 + a1 <? 128 = false) as -> by (bools; lia).
    assert (between 194 223 (224 + a1) = false) as -> by (bools; lia).
    assert (between 224 239 (224 + a1) = true) as -> by (bools; lia).
    assert (is_cont (128 + b) = true) as -> by (bools; lia).
    assert (second3 (224 + a1) (128 + a2) = true) as ->.
    { unfold scalar in S. bools. lia. }
    cbn [andb]. rewrite acc_cont_eq, land31, land63, lor12 by lia. do 2 f_equal. lia.
  - assert (240 + a1 <? 128 = false) as -> by (bools; lia).
    assert (between 194 223 (240 + a1) = false) as -> by (bools; lia).
    assert (between 224 239 (240 + a1) = false) as -> by (bools; lia).
    assert (between 240 244 (240 + a1) = true) as -> by (bools; lia).
    assert (is_cont (128 + b) = true) as -> by (bools; lia).
    assert (is_cont (128 + a3) = true) as -> by (bools; lia).
    assert (second4 (240 + a1) (128 + a2) = true) as -> by (bools; lia).
    cbn [andb]. rewrite !acc_cont_eq, land31, land63, land7, lor18 by lia. do 2 f_equal. lia.
Qed.

Lemma next_char_sound bs c r : next_char bs = Some (c, r) ->
  exists u, utf8_char c u /\ bs = u ++ r.
Proof.
  unfold next_char. destruct bs as [|x bs]; [discriminate|].
  destruct (x <? 128) eqn:E1.
  { intros [= <- <-]. exists [x]. split; auto. constructor. bools. lia. }
  destruct (between 194 223 x) eqn:E2.
  { destruct bs as [|y bs]; [discriminate|]. destruct (is_cont y) eqn:E3; [|discriminate].
    intros [= <- <-]. exists [x; y]. split; auto. rewrite acc_cont_eq, land31.
    replace x with (192 + (x - 192)) at 2 by (bools; lia). replace y with (128 + (y - 128)) at 2 by (bools; lia).
    bools. constructor; lia. }
  destruct (between 224 239 x) eqn:E3.
  { destruct bs as [|y [|z bs]]; try discriminate.
    destruct (second3 x y) eqn:E4; [|discriminate]. destruct (is_cont z) eqn:E5; [|discriminate]. cbn [andb].
    intros [= <- <-]. exists [x; y; z]. split; auto. rewrite acc_cont_eq, land31, land63, lor12 by lia.
    replace x with (224 + (x - 224)) at 2 by (bools; lia). replace y with (128 + (y - 128)) at 2 by (bools; lia).
    replace z with (128 + (z - 128)) at 2 by (bools; lia).
    bools. clear E1 E2. constructor; unfold scalar; try lia. }
  destruct (between 240 244 x) eqn:E4; [|discriminate].
  destruct bs as [|y [|z [|w bs]]]; try discriminate.
  destruct (second4 x y) eqn:E5; [|discriminate]. destruct (is_cont z) eqn:E6; [|discriminate].
  destruct (is_cont w) eqn:E7; [|discriminate]. cbn [andb].
  intros [= <- <-]. exists [x; y; z; w]. split; auto. rewrite !acc_cont_eq, land31, land63, land7, lor18 by lia.
  replace x with (240 + (x - 240)) at 2 by (bools; lia). replace y with (128 + (y - 128)) at 2 by (bools; lia).
  replace z with (128 + (z - 128)) at 2 by (bools; lia). replace w with (128 + (w - 128)) at 2 by (bools; lia).
  bools. clear E1 E2 E3. constructor; try lia.
Qed.

Lemma utf8_char_nonempty c u : utf8_char c u -> (0 < length u)%nat.
Proof. destruct 1; simpl; lia. Qed.

Lemma decode_loop n bs s : (length bs <= n)%nat -> from_utf8_loop n bs = Some s <-> utf8 s bs.
Proof.
  revert bs s. induction n as [|n IH]; intros bs s L.
  - destruct bs; [|simpl in L; lia]. simpl. split; [intros [= <-]; constructor|].
    intros H. inversion H as [|c u s' bs' Hc Hs E1 E]; auto. apply utf8_char_nonempty in Hc.
    destruct u; simpl in *; [lia|discriminate].
  - destruct bs as [|x bs].
    + simpl. split; [intros [= <-]; constructor|].
      intros H. inversion H as [|c u s' bs' Hc Hs E1 E]; auto. apply utf8_char_nonempty in Hc.
      destruct u; simpl in *; [lia|discriminate].
    + cbn [from_utf8_loop]. split.
      * destruct (next_char (x :: bs)) as [[c r]|] eqn:E; [|discriminate].
        apply next_char_sound in E as (u & Hu & E). destruct (from_utf8_loop n r) as [s'|] eqn:El; [|discriminate].
        intros [= <-]. rewrite E. constructor; auto. apply IH; auto.
        pose proof (utf8_char_nonempty _ _ Hu). rewrite E, app_length in L. lia.
      * intros H. inversion H as [|c u s' bs' Hc Hs E1 E]; subst.
        rewrite next_char_complete with (c := c) by auto.
        pose proof (utf8_char_nonempty _ _ Hc). rewrite <- E, app_length in L.
        rewrite (proj2 (IH bs' s' ltac:(lia))) by auto. reflexivity.
Qed.

Theorem from_utf8_spec bs s : from_utf8 bs = Some s <-> utf8 s bs.
Proof. apply decode_loop. lia. Qed.

(** ** Encoding *)

Lemma utf8_char_scalar c u : utf8_char c u -> scalar c /\ Forall byte u.
Proof.
  unfold scalar, byte. destruct 1; (split; [unfold scalar in *; lia|]); repeat constructor; unfold scalar in *; lia.
Qed.

Lemma encode_spec c : scalar c -> utf8_char c (encode_char c).
Proof.
  intros S. unfold encode_char. rewrite !land63, land31, land15, land7, !N.shiftr_div_pow2.
  change (2 ^ 0) with 1. change (2 ^ 6) with 64. change (2 ^ 12) with 4096. change (2 ^ 18) with 262144.
  rewrite !N.div_1_r.
  assert (forall x, N.lor (x mod 64) 128 = 128 + x mod 64) as T.
  { intros x. apply (lor_high 1 _ 7); [reflexivity|]. change (2 ^ 7) with 128. lia. }
  rewrite !T.
  destruct (N.ltb_spec c 128); [constructor; lia|].
  destruct (N.ltb_spec c 2048).
  { rewrite (lor_high 6 _ 5 192); [|reflexivity|change (2 ^ 5) with 32; lia]. constructor; lia. }
  destruct (N.ltb_spec c 65536).
  { rewrite (lor_high 14 _ 4 224); [|reflexivity|change (2 ^ 4) with 16; lia]. constructor; auto; lia. }
  rewrite (lor_high 30 _ 3 240); [|reflexivity|change (2 ^ 3) with 8; lia]. unfold scalar in S. constructor; lia.
Qed.

Theorem to_utf8_spec s : Forall scalar s -> utf8 s (to_utf8 s).
Proof. induction 1; simpl; constructor; auto. now apply encode_spec. Qed.

Lemma utf8_scalar s bs : utf8 s bs -> Forall scalar s /\ Forall byte bs.
Proof.
  induction 1 as [|c u s bs H _ [IH1 IH2]]; split; auto; apply utf8_char_scalar in H as [H1 H2].
  - now constructor.
  - apply Forall_app. auto.
Qed.

(** A text has only one encoding, and bytes encode only one text. *)
Lemma utf8_char_det c u u' : utf8_char c u -> utf8_char c u' -> u = u'.
Proof.
  destruct 1; inversion 1; subst; try lia; auto; repeat f_equal; lia.
Qed.
Theorem utf8_det s bs : utf8 s bs <-> Forall scalar s /\ bs = to_utf8 s.
Proof.
  split.
  - intros H. split; [now apply utf8_scalar in H|]. induction H as [|c u s bs Hc _ IH]; simpl; auto.
    f_equal; auto. eapply utf8_char_det; [exact Hc|]. apply encode_spec. now apply utf8_char_scalar in Hc.
  - intros [H ->]. now apply to_utf8_spec.
Qed.
Theorem utf8_inj s s' bs : utf8 s bs -> utf8 s' bs -> s = s'.
Proof. intros H H'. apply from_utf8_spec in H, H'. congruence. Qed.
