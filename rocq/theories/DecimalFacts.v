(** [show_N] prints the decimal numeral of its argument. *)
From Coq Require Import List Arith NArith ZArith Lia.
From Verif Require Import Base SpecDecimal.
Import ListNotations.
Local Open Scope N_scope.

Definition num_from (a : N) (s : str) : N := fold_left (fun a c => 10 * a + (c - 48)) s a.

Lemma num_from_app a s t : num_from a (s ++ t) = num_from (num_from a s) t.
Proof. apply fold_left_app. Qed.

Lemma num_from_acc s : forall a, num_from a s = a * 10 ^ N.of_nat (length s) + numeral s.
Proof.
  unfold numeral, num_from.
  induction s as [|c s IH]; intros a; [simpl; lia|].
  cbn [fold_left length]. rewrite IH, (IH (10 * 0 + (c - 48))), Nat2N.inj_succ, N.pow_succ_r'. lia.
Qed.

Lemma numeral_app s t : numeral (s ++ t) = numeral s * 10 ^ N.of_nat (length t) + numeral t.
Proof.
  unfold numeral at 1. change (num_from 0 (s ++ t) = numeral s * 10 ^ N.of_nat (length t) + numeral t).
  rewrite num_from_app, num_from_acc. reflexivity.
Qed.

Lemma pow2_size n : n < 2 ^ N.of_nat (N.size_nat n).
Proof.
  destruct n as [|p]; [reflexivity|]. simpl.
  induction p; cbn [Pos.size_nat]; rewrite ?Nat2N.inj_succ, ?N.pow_succ_r'; [| |reflexivity]; lia.
Qed.

Lemma digits_fuel_ok f : forall n acc, n < 10 ^ N.of_nat f -> f <> 0%nat ->
  exists s, digits_fuel f n acc = s ++ acc /\ s <> [] /\ Forall digit s /\ numeral s = n /\
            (hd 0 s = 48 -> n = 0 /\ s = [48]).
Proof.
  induction f as [|f IH]; intros n acc H NZ; [congruence|].
  cbn [digits_fuel]. rewrite Nat2N.inj_succ, N.pow_succ_r' in H.
  pose proof (N.div_mod' n 10) as DM. pose proof (N.mod_lt n 10 ltac:(lia)) as ML.
  assert (DG : digit (48 + n mod 10)) by (split; [apply N.le_add_r|unfold char in *; lia]).
  destruct (n / 10) as [|q] eqn:Q.
  - exists [48 + n mod 10]. repeat split; auto; try discriminate.
    + unfold numeral; cbn [fold_left]. lia.
    + cbn [hd] in H0. lia.
    + cbn [hd] in H0. f_equal. lia.
  - assert (NQ : n / 10 <> 0) by (rewrite Q; discriminate). rewrite <- Q. rewrite <- Q in DM. clear Q.
    pose proof (N.le_0_l (n mod 10)).
    destruct f as [|f]; [simpl in H; lia|].
    destruct (IH (n / 10) ((48 + n mod 10) :: acc)) as (s & E & NE & D & V & L); [lia|lia|].
    exists (s ++ [48 + n mod 10]). rewrite <- app_assoc. repeat split.
    + exact E.
    + now destruct s.
    + apply Forall_app. auto.
    + rewrite numeral_app, V. unfold numeral; cbn [fold_left length]. change (10 ^ N.of_nat 1) with 10. lia.
    + destruct s as [|c s]; [congruence|]. cbn [hd app] in *. match goal with X : c = 48 |- _ => specialize (L X) end. lia.
    + destruct s as [|c s]; [congruence|]. cbn [hd app] in *. match goal with X : c = 48 |- _ => specialize (L X) end. lia.
Qed.

Lemma show_N_ok n : show_N n <> [] /\ Forall digit (show_N n) /\ numeral (show_N n) = n /\
  (hd 0 (show_N n) = 48 -> n = 0 /\ show_N n = [48]).
Proof.
  unfold show_N.
  destruct (digits_fuel_ok (S (N.size_nat n)) n []) as (s & E & NE & D & V & L); [|discriminate|].
  - pose proof (pow2_size n). rewrite Nat2N.inj_succ, N.pow_succ_r'.
    pose proof (N.pow_le_mono_l 2 10 (N.of_nat (N.size_nat n)) ltac:(lia)). lia.
  - rewrite E, app_nil_r. auto.
Qed.

Lemma show_N_inj a b : show_N a = show_N b -> a = b.
Proof.
  intros E. rewrite <- (proj1 (proj2 (proj2 (show_N_ok a)))), <- (proj1 (proj2 (proj2 (show_N_ok b)))).
  now rewrite E.
Qed.
Lemma show_nat_inj a b : show_nat a = show_nat b -> a = b.
Proof. intros E. apply show_N_inj in E. lia. Qed.

Lemma numeral_zeros k : numeral (repeat 48 k) = 0.
Proof.
  induction k; [reflexivity|].
  change (numeral ([48] ++ repeat 48 k) = 0). rewrite numeral_app, IHk. reflexivity.
Qed.
Lemma digits_zeros k : Forall digit (repeat 48 k).
Proof. apply Forall_forall. intros c H. apply repeat_spec in H. subst. unfold digit, char; lia. Qed.
