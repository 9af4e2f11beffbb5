(** The binary heap: order and contents. *)
From Coq Require Import List Arith NArith Bool Lia Permutation.
From Verif Require Import Base Heap SpecHeap.
Import ListNotations.

(** ** [set_nth] *)

Lemma set_nth_length i x v : length (set_nth i x v) = length v.
Proof. unfold set_nth. revert i. induction v as [|a v IH]; intros [|i]; cbn; auto. Qed.
Lemma nth_set_nth i x v j :
  nth_error (set_nth i x v) j = if Nat.eqb i j then option_map (fun _ => x) (nth_error v j) else nth_error v j.
Proof.
  unfold set_nth. revert i j. induction v as [|a v IH]; intros [|i] [|j]; cbn; auto.
  destruct (Nat.eqb i j); reflexivity.
Qed.
Lemma nth_set_same i x v : i < length v -> nth_error (set_nth i x v) i = Some x.
Proof.
  intros H. rewrite nth_set_nth, Nat.eqb_refl. apply nth_error_Some in H. now destruct (nth_error v i).
Qed.
Lemma nth_set_other i x v j : i <> j -> nth_error (set_nth i x v) j = nth_error v j.
Proof. intros H. rewrite nth_set_nth. now apply Nat.eqb_neq in H as ->. Qed.
Lemma set_nth_twice i x y v : set_nth i x (set_nth i y v) = set_nth i x v.
Proof. unfold set_nth. revert i. induction v as [|a v IH]; intros [|i]; cbn; auto. f_equal. apply IH. Qed.

Lemma set_nth_perm i x y v : nth_error v i = Some y -> Permutation (y :: set_nth i x v) (x :: v).
Proof.
  unfold set_nth. revert i. induction v as [|a v IH]; intros [|i] H; try discriminate; cbn in *.
  - injection H as ->. apply perm_swap.
  - rewrite perm_swap. rewrite (perm_swap a x v). apply perm_skip. now apply IH.
Qed.

Lemma set_swap i j x y v : i <> j -> nth_error v i = Some y -> j < length v ->
  Permutation (set_nth i x (set_nth j y v)) (set_nth j x v).
Proof.
  intros N Hi Hj. destruct (nth_error v j) as [a|] eqn:Ha; [|apply nth_error_None in Ha; lia].
  apply (Permutation_cons_inv (a := a)), (Permutation_cons_inv (a := y)).
  rewrite perm_swap. rewrite (set_nth_perm i x y (set_nth j y v)) by (now rewrite nth_set_other by auto).
  rewrite perm_swap, (set_nth_perm j y a v Ha). rewrite (set_nth_perm j x a v Ha). apply perm_swap.
Qed.

(** ** Order *)

Definition parent (i : nat) : nat := Nat.div2 (i - 1).
Lemma parent_lt i : 0 < i -> parent i < i.
Proof. intros H. unfold parent. rewrite Nat.div2_div. pose proof (Nat.div_le_upper_bound (i - 1) 2 (i - 1) ltac:(lia) ltac:(lia)). lia. Qed.
Lemma parent_children p c : 0 < c -> parent c = p <-> c = 2 * p + 1 \/ c = 2 * p + 2.
Proof.
  intros H. unfold parent. rewrite Nat.div2_div. split.
  - intros E. pose proof (Nat.div_mod (c - 1) 2 ltac:(lia)). pose proof (Nat.mod_upper_bound (c - 1) 2 ltac:(lia)). lia.
  - intros [->| ->].
    + replace (2 * p + 1 - 1) with (p * 2) by lia. now apply Nat.div_mul.
    + replace (2 * p + 2 - 1) with (1 + p * 2) by lia. rewrite Nat.div_add by lia. reflexivity.
Qed.

Definition below (v : list scored) (c : nat) : Prop :=
  forall x p, nth_error v c = Some x -> nth_error v (parent c) = Some p -> (fst p <= fst x)%N.
Definition heap_ok (v : list scored) : Prop := forall c, 0 < c -> below v c.

(** The vector with a hole at [h] that would hold [x]. *)
Record holed (h : nat) (v : list scored) : Prop := {
  hole_inside : h < length v;
  hole_rest : forall c, 0 < c -> c <> h -> parent c <> h -> below v c;
  hole_across : forall c x p, 0 < h -> 0 < c -> parent c = h -> nth_error v c = Some x ->
                 nth_error v (parent h) = Some p -> (fst p <= fst x)%N }.
Definition hole_fits (h : nat) (x : scored) (v : list scored) : Prop :=
  forall c y, 0 < c -> parent c = h -> nth_error v c = Some y -> (fst x <= fst y)%N.

Lemma sift_up_ok f : forall h x v, holed h v -> hole_fits h x v -> h <= f ->
  heap_ok (sift_up f h x v) /\ Permutation (sift_up f h x v) (set_nth h x v).
Proof.
  induction f as [|f IH]; intros h x v H F Hf.
  - assert (h = 0) by lia. subst h. cbn [sift_up]. split; [|reflexivity].
    intros c Hc y p Hy Hp. rewrite nth_set_other in Hy by lia. destruct (Nat.eq_dec (parent c) 0) as [E|E].
    + rewrite E, nth_set_same in Hp by apply H. injection Hp as <-. exact (F c y Hc E Hy).
    + rewrite nth_set_other in Hp by auto. exact (hole_rest _ _ H c Hc ltac:(lia) E y p Hy Hp).
  - cbn [sift_up]. destruct h as [|h'].
    + split; [|reflexivity]. intros c Hc y p Hy Hp. rewrite nth_set_other in Hy by lia.
      destruct (Nat.eq_dec (parent c) 0) as [E|E].
      * rewrite E, nth_set_same in Hp by apply H. injection Hp as <-. exact (F c y Hc E Hy).
      * rewrite nth_set_other in Hp by auto. exact (hole_rest _ _ H c Hc ltac:(lia) E y p Hy Hp).
    + set (h := S h') in *. assert (P : Nat.div2 h' = parent h) by (unfold parent, h; now rewrite Nat.sub_succ, Nat.sub_0_r).
      rewrite P. assert (PL : parent h < h) by (apply parent_lt; unfold h; lia).
      pose proof (hole_inside _ _ H) as L.
      destruct (nth_error v (parent h)) as [y|] eqn:Ey; [|apply nth_error_None in Ey; lia].
      destruct (sc_le x y) eqn:C; unfold sc_le in C.
      * apply N.leb_le in C. split; [|reflexivity]. intros c Hc z p Hz Hp.
        destruct (Nat.eq_dec c h) as [->|Nc].
        -- rewrite nth_set_same in Hz by auto. injection Hz as <-.
           rewrite nth_set_other in Hp by lia. rewrite Ey in Hp. now injection Hp as <-.
        -- rewrite nth_set_other in Hz by auto. destruct (Nat.eq_dec (parent c) h) as [E|E].
           ++ rewrite E, nth_set_same in Hp by auto. injection Hp as <-. exact (F c z Hc E Hz).
           ++ rewrite nth_set_other in Hp by auto. exact (hole_rest _ _ H c Hc Nc E z p Hz Hp).
      * apply N.leb_gt in C.
        destruct (IH (parent h) x (set_nth h y v)) as [A B].
        -- split.
           ++ rewrite set_nth_length. lia.
           ++ intros c Hc N1 N2 z p Hz Hp.
              assert (Nc : c <> h) by (intros ->; apply N2; reflexivity).
              rewrite nth_set_other in Hz by auto. destruct (Nat.eq_dec (parent c) h) as [E|E].
              ** rewrite E, nth_set_same in Hp by auto. injection Hp as <-.
                 exact (hole_across _ _ H c z y ltac:(lia) Hc E Hz Ey).
              ** rewrite nth_set_other in Hp by auto. exact (hole_rest _ _ H c Hc Nc E z p Hz Hp).
           ++ intros c z p G Hc E Hz Hp.
              assert (parent (parent h) < parent h) by now apply parent_lt.
              rewrite nth_set_other in Hp by lia.
              assert (Q : (fst p <= fst y)%N).
              { apply (hole_rest _ _ H (parent h) G ltac:(lia) ltac:(lia) y p Ey Hp). }
              destruct (Nat.eq_dec c h) as [->|Nc].
              ** rewrite nth_set_same in Hz by auto. now injection Hz as <-.
              ** rewrite nth_set_other in Hz by auto.
                 assert (fst y <= fst z)%N; [|lia].
                 apply (hole_rest _ _ H c Hc Nc ltac:(lia) z y Hz). now rewrite E.
        -- intros c z Hc E Hz. destruct (Nat.eq_dec c h) as [->|Nc].
           ++ rewrite nth_set_same in Hz by auto. injection Hz as <-. lia.
           ++ rewrite nth_set_other in Hz by auto.
              assert (fst y <= fst z)%N; [|lia].
              apply (hole_rest _ _ H c Hc Nc ltac:(lia) z y Hz). now rewrite E.
        -- lia.
        -- split; [exact A|]. rewrite B. apply set_swap; auto. lia.
Qed.

Lemma heap_app v w : heap_ok (v ++ w) -> heap_ok v.
Proof.
  intros H c Hc x p Hx Hp. apply (H c Hc x p).
  - rewrite nth_error_app1; [exact Hx|]. apply nth_error_Some. congruence.
  - rewrite nth_error_app1; [exact Hp|]. apply nth_error_Some. congruence.
Qed.

Theorem push_ok v x : heap_ok v -> heap_ok (heap_push v x) /\ Permutation (heap_push v x) (x :: v).
Proof.
  intros H. unfold heap_push.
  assert (C : forall c y, 0 < c -> parent c = length v -> nth_error (v ++ [x]) c = Some y -> False).
  { intros c y Hc E Hy. assert (c < length (v ++ [x])) by (apply nth_error_Some; congruence).
    rewrite app_length in H0. cbn in H0. pose proof (parent_lt c Hc). lia. }
  destruct (sift_up_ok (length v) (length v) x (v ++ [x])) as [A B].
  - split.
    + rewrite app_length. cbn. lia.
    + intros c Hc N1 N2 y p Hy Hp.
      assert (c < length (v ++ [x])) by (apply nth_error_Some; congruence).
      rewrite app_length in H0. cbn in H0. pose proof (parent_lt c Hc).
      rewrite nth_error_app1 in Hy, Hp by lia. exact (H c Hc y p Hy Hp).
    + intros c y p _ Hc E Hy _. destruct (C c y Hc E Hy).
  - intros c y Hc E Hy. destruct (C c y Hc E Hy).
  - lia.
  - split; [exact A|]. rewrite B. clear. unfold set_nth. induction v as [|a v IH]; cbn; [reflexivity|].
    rewrite IH. apply perm_swap.
Qed.

Lemma sift_down_ok f : forall h v, holed h v -> length v <= h + f ->
  let '(h', v') := sift_to_bottom f h v in
  holed h' v' /\ (forall x, hole_fits h' x v') /\ (forall x, Permutation (set_nth h' x v') (set_nth h x v)).
Proof.
  induction f as [|f IH]; intros h v H Hf.
  - pose proof (hole_inside _ _ H). lia.
  - cbn [sift_to_bottom]. set (c := 2 * h + 1). pose proof (hole_inside _ _ H) as L.
    assert (Pc : parent c = h) by (apply parent_children; unfold c; lia).
    assert (Pc' : parent (c + 1) = h) by (apply parent_children; unfold c; lia).
    assert (step : forall k y, (k = c \/ k = c + 1) -> nth_error v k = Some y ->
              (forall k' z, (k' = c \/ k' = c + 1) -> nth_error v k' = Some z -> (fst y <= fst z)%N) ->
              holed k (set_nth h y v)).
    { intros k y Kk Hy Hmin. assert (Pk : parent k = h) by (destruct Kk as [->| ->]; assumption).
      assert (Kl : k < length v) by (apply nth_error_Some; congruence). assert (Kh : h < k) by (destruct Kk as [->| ->]; unfold c; lia).
      split.
      - now rewrite set_nth_length.
      - intros j Hj N1 N2 z p Hz Hp. destruct (Nat.eq_dec j h) as [->|Nj].
        + rewrite nth_set_same in Hz by auto. injection Hz as <-.
          rewrite nth_set_other in Hp by (pose proof (parent_lt h Hj); lia).
          exact (hole_across _ _ H k y p Hj ltac:(lia) Pk Hy Hp).
        + rewrite nth_set_other in Hz by auto. destruct (Nat.eq_dec (parent j) h) as [E|E].
          * rewrite E, nth_set_same in Hp by auto. injection Hp as <-.
            apply (Hmin j z); [|exact Hz]. apply parent_children in E; [|exact Hj]. unfold c. lia.
          * rewrite nth_set_other in Hp by auto. exact (hole_rest _ _ H j Hj Nj E z p Hz Hp).
      - intros j z p _ Hj E Hz Hp. rewrite Pk, nth_set_same in Hp by auto. injection Hp as <-.
        assert (h < k < j) by (split; [lia|rewrite <- E; now apply parent_lt]).
        rewrite nth_set_other in Hz by lia.
        apply (hole_rest _ _ H j Hj ltac:(lia) ltac:(lia) z y Hz). now rewrite E. }
    destruct (nth_error v c) as [a|] eqn:Ea.
    + destruct (nth_error v (c + 1)) as [b|] eqn:Eb.
      * destruct (sc_le a b) eqn:C; unfold sc_le in C.
        -- apply N.leb_le in C. assert (H2 : holed (c + 1) (set_nth h b v)).
           { apply step; auto. intros k z [->| ->] Hz; rewrite Hz in *; congruence || (injection Ea as <-; lia) || (injection Eb as <-; lia). }
           specialize (IH (c + 1) (set_nth h b v) H2). rewrite set_nth_length in IH.
           assert (Lf : length v <= c + 1 + f) by (unfold c; lia). specialize (IH Lf).
           destruct (sift_to_bottom f (c + 1) (set_nth h b v)) as [h' v'].
           destruct IH as (A & B & D). split; [exact A|]. split; [exact B|]. intros x. rewrite D.
           apply set_swap; auto. unfold c. lia.
        -- apply N.leb_gt in C. assert (H2 : holed c (set_nth h a v)).
           { apply step; auto. intros k z [->| ->] Hz; rewrite Hz in *; (injection Ea as <-; lia) || (injection Eb as <-; lia). }
           specialize (IH c (set_nth h a v) H2). rewrite set_nth_length in IH.
           assert (Lf : length v <= c + f) by (unfold c; lia). specialize (IH Lf).
           destruct (sift_to_bottom f c (set_nth h a v)) as [h' v'].
           destruct IH as (A & B & D). split; [exact A|]. split; [exact B|]. intros x. rewrite D.
           apply set_swap; auto. unfold c. lia.
      * assert (H2 : holed c (set_nth h a v)).
        { apply step; auto. intros k z [->| ->] Hz; [|congruence]. rewrite Hz in Ea. injection Ea as ->. lia. }
        split; [exact H2|]. split.
        -- intros x j y Hj E Hy. exfalso. apply parent_children in E; [|exact Hj].
           assert (j < length v) by (rewrite <- (set_nth_length h a v); apply nth_error_Some; congruence).
           apply nth_error_None in Eb. unfold c in *. lia.
        -- intros x. apply set_swap; auto. unfold c. lia.
    + split; [exact H|]. split; [|reflexivity].
      intros x j y Hj E Hy. exfalso. apply parent_children in E; [|exact Hj].
      assert (j < length v) by (apply nth_error_Some; congruence).
      apply nth_error_None in Ea. unfold c in *. lia.
Qed.

Lemma root_least v : heap_ok v -> forall i x r, nth_error v i = Some x -> nth_error v 0 = Some r -> (fst r <= fst x)%N.
Proof.
  intros H i. induction i as [i IH] using lt_wf_ind. intros x r Hx Hr.
  destruct (Nat.eq_dec i 0) as [->|N]; [rewrite Hr in Hx; injection Hx as ->; lia|].
  assert (Hi : 0 < i) by lia. pose proof (parent_lt i Hi) as P.
  destruct (nth_error v (parent i)) as [p|] eqn:Ep.
  - specialize (IH _ P p r Ep Hr). pose proof (H i Hi x p Hx Ep). lia.
  - apply nth_error_None in Ep. assert (i < length v) by (apply nth_error_Some; congruence). lia.
Qed.

Theorem pop_ok v : heap_ok v ->
  match heap_pop v with
  | None => v = []
  | Some (m, v') => Permutation v (m :: v') /\ heap_ok v' /\ forall x, In x v -> (fst m <= fst x)%N
  end.
Proof.
  intros H. unfold heap_pop. destruct (rev v) as [|x r] eqn:R.
  { now apply (f_equal (@rev _)) in R; rewrite rev_involutive in R. }
  assert (E : v = rev r ++ [x]) by (apply (f_equal (@rev _)) in R; rewrite rev_involutive in R; exact R).
  clear R. subst v. destruct (rev r) as [|top w] eqn:W.
  - cbn. split; [reflexivity|]. split; [intros c Hc y p Hy; destruct c; discriminate|].
    intros y [->|[]]. lia.
  - try rewrite W in H. clear r W. set (v := top :: w) in *.
    assert (L1 : holed 0 (set_nth 0 x v)).
    { split.
      - rewrite set_nth_length. cbn. lia.
      - intros c Hc N1 N2 y p Hy Hp. rewrite nth_set_other in Hy, Hp by auto.
        exact (heap_app _ _ H c Hc y p Hy Hp).
      - intros. lia. }
    pose proof (sift_down_ok (length (set_nth 0 x v)) 0 _ L1 (le_n _)) as S.
    destruct (sift_to_bottom (length (set_nth 0 x v)) 0 (set_nth 0 x v)) as [h v2].
    destruct S as (A & B & C). destruct (sift_up_ok h h x v2 A (B x) (le_n _)) as [D P].
    split; [|split; [exact D|]].
    + rewrite P, C, set_nth_twice. rewrite (set_nth_perm 0 x top v eq_refl).
      rewrite Permutation_app_comm. reflexivity.
    + intros y I. apply In_nth_error in I as (i & Hi). exact (root_least _ H i y top Hi eq_refl).
Qed.

Lemma contents_ok v l : contents v l -> heap_ok v /\ Permutation v l.
Proof.
  induction 1 as [|v l x H [A B]|v l x v' l1 l2 H [A B] P E].
  - split; [|reflexivity]. intros c Hc x p Hx. destruct c; discriminate.
  - destruct (push_ok v x A) as [C D]. split; [exact C|]. rewrite D. now apply perm_skip.
  - pose proof (pop_ok v A) as Q. rewrite P in Q. destruct Q as (Q & C & _). split; [exact C|].
    subst l. apply (Permutation_cons_inv (a := x)). rewrite <- Q, B. symmetry. apply Permutation_middle.
Qed.

Theorem heap_delivers v l : contents v l ->
  Permutation v l /\ (heap_pop v = None <-> l = []) /\
  forall x v', heap_pop v = Some (x, v') -> In x l /\ (forall y, In y l -> (fst x <= fst y)%N) /\
    forall l', Permutation l (x :: l') -> Permutation v' l'.
Proof.
  intros H. destruct (contents_ok v l H) as [A P]. split; [exact P|]. pose proof (pop_ok v A) as Q. split.
  - split.
    + intros E. rewrite E in Q. subst v. now apply Permutation_nil in P.
    + intros ->. apply Permutation_sym, Permutation_nil in P. now subst v.
  - intros x v' E. rewrite E in Q. destruct Q as (Q & _ & M). split; [|split].
    + apply (Permutation_in _ P). rewrite Q. now left.
    + intros y I. apply M. apply (Permutation_in _ (Permutation_sym P) I).
    + intros l' PL. apply (Permutation_cons_inv (a := x)). now rewrite <- Q, P.
Qed.
