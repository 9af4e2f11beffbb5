(** The nodes that are joined are the nearest of those in sight and the first of all. *)
From Coq Require Import String List Arith NArith ZArith Bool Lia SpecFloat.
From Verif Require Import Base F32 Geometry Mir Erd Heap Route Layout Parser Cli SpecMir SpecF32 SpecGeom SpecLayout SpecRoute SpecGraph SpecSight
  F32Facts GeomFacts SearchFacts MirFacts GridFacts LayoutFacts RenderFacts PipelineFacts GraphFacts PathFacts LatticeFacts ConnectFacts CrashFacts ThroughFacts.
Import ListNotations.

(** ** The order of numbers *)

Lemma flt_proper x y : flt x y = true -> is_nan x = false /\ is_nan y = false.
Proof. destruct x as [?|?| |[] ? ?], y as [?|?| |[] ? ?]; cbn; auto; try discriminate; destruct s; discriminate. Qed.

Lemma flt_weak x u k : flt x u = true -> is_nan k = false -> flt k u = false -> flt x k = true.
Proof.
  intros A K B. destruct x as [[]|[]| |[] mx ex], u as [[]|[]| |[] mu eu], k as [[]|[]| |[] mk ek];
    cbn in A, B, K |- *; try discriminate; try reflexivity; revert A B; unfold flt, SFltb; cbn [SFcompare];
    change (Pos.compare_cont Eq mx mu) with (Pos.compare mx mu); change (Pos.compare_cont Eq mk mu) with (Pos.compare mk mu);
    change (Pos.compare_cont Eq mx mk) with (Pos.compare mx mk);
    destruct (Z.compare_spec ex eu), (Z.compare_spec ek eu), (Z.compare_spec ex ek); try lia; try discriminate; try reflexivity;
    cbn; destruct (Pos.compare_spec mx mu), (Pos.compare_spec mk mu), (Pos.compare_spec mx mk); cbn; try lia; try discriminate; reflexivity.
Qed.

Lemma flt_chain x y z : flt x y = true -> flt y z = true -> flt x z = true.
Proof.
  intros A B. destruct (flt x z) eqn:E; [reflexivity|]. apply flt_asym in A as A'.
  rewrite (flt_weak y z x B (proj1 (flt_proper _ _ A)) E) in A'. discriminate.
Qed.

Lemma before_iff o p q : before o p q = true <-> sooner o p q.
Proof. destruct o; reflexivity. Qed.

Lemma candidate_iff o n m : candidate o n m = true <-> in_line o n m.
Proof.
  unfold candidate, in_line, open_to, is_connectable. rewrite !andb_true_iff.
  assert (S : straightb o (rn_loc n) (rn_loc m) = true <-> straight o (rn_loc n) (rn_loc m)).
  { destruct o; cbn; apply andb_true_iff. }
  assert (C : forall k w, match rn_orient k with None => true | Some v => orientation_eqb v w end = true <-> rn_orient k = None \/ rn_orient k = Some w).
  { intros k w. destruct (rn_orient k) as [v|]; [|split; auto]. destruct v, w; cbn; split; auto; try discriminate;
    intros [Q|Q]; discriminate. }
  rewrite S, !C. tauto.
Qed.

(** Places in line with a node can be compared. *)
Lemma in_line_weak o n m u k : in_line o n m -> in_line o n u -> in_line o n k ->
  sooner o (rn_loc m) (rn_loc u) -> ~ sooner o (rn_loc k) (rn_loc u) -> sooner o (rn_loc m) (rn_loc k).
Proof.
  intros (Sm & _) (Su & _) (Sk & _) A B. destruct o; cbn in *; destruct Sk as [_ Sk]; apply flt_proper in Sk as [K1 K2];
    destruct Sm as [_ Sm], Su as [_ Su].
  - destruct (flt (py (rn_loc k)) (py (rn_loc m))) eqn:E; [reflexivity|]. exfalso. apply B.
    destruct (flt_trichotomy (py (rn_loc u)) (py (rn_loc k))) as [(Q & _)|[(_ & Q & _)|(_ & Q & _)]]; auto.
    + apply (flt_proper _ _ Su).
    + rewrite (flt_weak _ _ _ A K1 E) in *. reflexivity.
    + rewrite (flt_weak _ _ _ A K1 E) in *. reflexivity.
  - eapply flt_weak; [exact A|exact K2|]. destruct (flt (py (rn_loc k)) (py (rn_loc u))); congruence.
  - destruct (flt (px (rn_loc k)) (px (rn_loc m))) eqn:E; [reflexivity|]. exfalso. apply B.
    exact (flt_weak _ _ _ A K1 E).
  - eapply flt_weak; [exact A|exact K2|]. destruct (flt (px (rn_loc k)) (px (rn_loc u))); congruence.
Qed.
Lemma sooner_chain o p q r : sooner o p q -> sooner o q r -> sooner o p r.
Proof. destruct o; cbn; intros A B; eapply flt_chain; eauto. Qed.
Lemma sooner_asym o p q : sooner o p q -> ~ sooner o q p.
Proof. rewrite <- !before_iff. intros A B. apply before_asym in A. congruence. Qed.

(** ** The search *)

Section Search.
Variables (d : document) (o : orientation) (n : route_node).
Let rects := map (fun r => inset_by r (f32_of_Z 1%Z) (f32_of_Z 1%Z)) (shape_rects d).

Lemma sight_iff q : existsb (fun r => intersects_line r (rn_loc n) q) rects = false <-> in_sight d (rn_loc n) q.
Proof.
  unfold in_sight, rects. split.
  - intros E r T. apply in_shape_rects in T. destruct (intersects_line _ _ _) eqn:Q; [|reflexivity].
    rewrite <- E. symmetry. apply existsb_exists. exists (inset_by r (f32_of_Z 1%Z) (f32_of_Z 1%Z)). split; [|exact Q].
    apply in_map_iff. eauto.
  - intros H. destruct (existsb _ _) eqn:E; [|reflexivity]. apply existsb_exists in E as (r' & I & Q).
    apply in_map_iff in I as (r & <- & I). apply in_shape_rects in I. rewrite (H r I) in Q. discriminate.
Qed.

Lemma contender_app ns x c k : c < length ns -> (contender d (ns ++ [x]) o n c k <-> contender d ns o n c k).
Proof.
  intros L. unfold contender. rewrite nth_error_app1 by exact L.
  split; intros (A & B & C); (split; [exact A|]); (split; [exact B|]); (destruct C as [C|C]; [now left|right]);
    intros c' k' Lc Hk; apply (C c' k' Lc).
  - rewrite nth_error_app1 by lia. exact Hk.
  - rewrite nth_error_app1 in Hk by lia. exact Hk.
Qed.

Lemma nth_last {A} (l : list A) x c k : nth_error (l ++ [x]) c = Some k -> c < length l \/ (c = length l /\ k = x).
Proof.
  intros H. destruct (lt_dec c (length l)) as [L|L]; [now left|]. right.
  rewrite nth_error_app2 in H by lia. destruct (c - length l) as [|i] eqn:E; cbn in H; [|destruct i; discriminate].
  injection H as <-. split; [lia|reflexivity].
Qed.

Lemma enum_snoc {A} (l : list A) x : forall i, enum_from i (l ++ [x]) = enum_from i l ++ [(i + length l, x)].
Proof.
  induction l as [|y l IH]; intros i; cbn; [now rewrite Nat.add_0_r|]. rewrite IH. cbn. do 3 f_equal. f_equal. lia.
Qed.

Definition found (ns : list route_node) : option (nat * route_node) :=
  near_in o (fold_left (nearest_step rects n) (enum ns) (mkNear None None None None)).

Lemma found_spec ns : match found ns with
  | None => forall c k, nth_error ns c = Some k -> ~ in_line o n k
  | Some (b, m) => picked d ns o n b m
  end.
Proof.
  induction ns as [|x ns IH] using rev_ind.
  - unfold found. cbn. destruct o; cbn; intros [|c] k H; discriminate.
  - unfold found, enum. rewrite enum_snoc, fold_left_app. cbn [fold_left plus]. rewrite near_step.
    change (near_in o (fold_left (nearest_step rects n) (enum_from 0 ns) (mkNear None None None None))) with (found ns).
    destruct (candidate o n x) eqn:C.
    2:{ assert (Nx : ~ in_line o n x) by (rewrite <- candidate_iff; congruence).
        destruct (found ns) as [[b m]|].
        - destruct IH as [P H]. assert (Lb : b < length ns) by (apply nth_error_Some; destruct P as (-> & _); discriminate).
          split; [now apply contender_app|]. intros c k Hc.
          destruct (nth_last ns x c k (proj1 Hc)) as [L|[_ ->]]; [apply H; exact (proj1 (contender_app ns x c k L) Hc)|].
          exfalso. apply Nx, Hc.
        - intros c k Hk. destruct (nth_last _ _ _ _ Hk) as [L|[_ ->]]; [|exact Nx]. rewrite nth_error_app1 in Hk by exact L. eauto. }
    apply candidate_iff in C.
    assert (Ex : nth_error (ns ++ [x]) (length ns) = Some x).
    { rewrite nth_error_app2, Nat.sub_diag by lia. reflexivity. }
    destruct (found ns) as [[b m]|].
    + destruct IH as [P H]. pose proof P as (Hb & Lm & _).
      assert (Lb : b < length ns) by (apply nth_error_Some; rewrite Hb; discriminate).
      destruct (before o (rn_loc x) (rn_loc m)) eqn:Bf; cbn [andb].
      * apply before_iff in Bf. destruct (existsb _ _) eqn:Sg; cbn [negb].
        -- split; [now apply contender_app|]. intros c k Hc.
           destruct (nth_last ns x c k (proj1 Hc)) as [L|[-> ->]]; [apply H; exact (proj1 (contender_app ns x c k L) Hc)|].
           exfalso. destruct Hc as (_ & _ & [S|S]).
           ++ apply sight_iff in S. congruence.
           ++ apply (S b m Lb); [|exact Lm]. now rewrite nth_error_app1.
        -- apply sight_iff in Sg. split; [split; [exact Ex|]; split; [exact C|now left]|].
           intros c k Hc. destruct (nth_last ns x c k (proj1 Hc)) as [L|[-> ->]]; [|split; lia].
           split; [intros _|lia]. apply (proj1 (contender_app ns x c k L)) in Hc. destruct (H c k Hc) as [H1 H2].
           destruct (lt_eq_lt_dec c b) as [[Q|Q]|Q].
           ++ eapply sooner_chain; [exact Bf|]. now apply H1.
           ++ subst c. destruct Hc as (Hk & _). rewrite Hb in Hk. now injection Hk as <-.
           ++ apply (in_line_weak o n x m k); auto. apply Hc.
      * split; [now apply contender_app|]. intros c k Hc.
        destruct (nth_last ns x c k (proj1 Hc)) as [L|[-> ->]]; [apply H; exact (proj1 (contender_app ns x c k L) Hc)|].
        split; [lia|]. intros _ Q. apply before_iff in Q. congruence.
    + split; [split; [exact Ex|]; split; [exact C|]; right|].
      * intros c k L Hk. rewrite nth_error_app1 in Hk by exact L. eauto.
      * intros c k Hc. destruct (nth_last ns x c k (proj1 Hc)) as [L|[-> ->]]; [|split; lia].
        apply (proj1 (contender_app ns x c k L)) in Hc. exfalso. apply (IH c k); apply Hc.
Qed.

Lemma picked_unique ns b m b' m' : picked d ns o n b m -> picked d ns o n b' m' -> b = b' /\ m = m'.
Proof.
  intros [P H] [P' H']. destruct (lt_eq_lt_dec b b') as [[L|E]|L].
  - exfalso. exact (proj2 (H b' m' P') L (proj1 (H' b m P) L)).
  - subst b'. split; [reflexivity|]. destruct P as (A & _), P' as (A' & _). congruence.
  - exfalso. exact (proj2 (H' b m P) L (proj1 (H b' m' P') L)).
Qed.

Lemma found_iff ns b m : found ns = Some (b, m) <-> picked d ns o n b m.
Proof.
  pose proof (found_spec ns) as F. split; intros H; [now rewrite H in F|].
  destruct (found ns) as [[b' m']|].
  - destruct (picked_unique _ _ _ _ _ H F) as [-> ->]. reflexivity.
  - exfalso. destruct H as [(A & B & _) _]. exact (F _ _ A B).
Qed.
End Search.

Lemma picks_iff d ns a b : In (a, b) (neighbor_edges d ns) <-> picks d ns a b.
Proof.
  rewrite neighbor_edge_iff. unfold picks. split.
  - intros (n & o & m & Hn & F). exists o, n, m. split; [exact Hn|]. now apply found_iff.
  - intros (o & n & m & Hn & F). exists n, o, m. split; [exact Hn|]. now apply found_iff in F.
Qed.

Lemma table_rects_same d d' r : d_nodes d' = d_nodes d -> table_rect d' r <-> table_rect d r.
Proof. unfold table_rect, body_children, get_node. intros ->. reflexivity. Qed.
Lemma picks_same d d' ns a b : d_nodes d' = d_nodes d -> picks d ns a b -> picks d' ns a b.
Proof.
  intros E. assert (Cs : forall o n c k, contender d' ns o n c k <-> contender d ns o n c k).
  { intros. unfold contender, in_sight. split; intros (A & B & [C|C]); (split; [exact A|]); (split; [exact B|]);
      ((right; exact C) || (left; intros r T; apply C; now apply (table_rects_same d d' r E))). }
  intros (o & n & m & Hn & P & H). exists o, n, m. split; [exact Hn|]. split; [now apply Cs|].
  intros c k Hc. now apply H, Cs.
Qed.

Theorem joined_iff m vb g d : layout_module m = Ret (vb, g, d) -> forall a b,
  joined (rg_edges g) a b <-> picks d (rg_nodes g) a b \/ picks d (rg_nodes g) b a.
Proof.
  intros L. destruct (layout_split m vb g d L) as (d0 & M & V & D). apply draw_split in D as (B & N & _).
  set (d2 := place_terminal_ports (fst (place_nodes d0))) in *.
  unfold build_routes in B. apply bind_ret in B as (g1 & A1 & B). apply bind_ret in B as (g2 & A2 & B). injection B as <-.
  destruct (add_nodes_spec _ _ _ A1) as ([_ E1] & _). destruct (add_ports_spec _ _ _ A2) as ([_ E2] & _).
  unfold connect_neighbors. destruct (add_edges_spec (neighbor_edges d2 (rg_nodes g2)) g2) as (Nn & _ & _ & S & _ & J).
  cbn zeta in *. rewrite Nn.
  assert (S' : forall a b, In (a, b) (rg_edges (fold_left rg_add_edge (neighbor_edges d2 (rg_nodes g2)) g2)) -> picks d (rg_nodes g2) a b).
  { intros a b I. apply S in I as [I|I]; [rewrite E2, E1 in I; destruct I|]. apply picks_iff in I. now apply (picks_same d2). }
  assert (J' : forall a b, picks d (rg_nodes g2) a b -> joined (rg_edges (fold_left rg_add_edge (neighbor_edges d2 (rg_nodes g2)) g2)) a b).
  { intros a b P. apply J, picks_iff. now apply (picks_same d d2). }
  intros a b. split.
  - intros [I|I]; [left|right]; now apply S'.
  - intros [P|P]; apply J' in P; [exact P|]. destruct P; [now right|now left].
Qed.

(** ** Nodes joined through tables *)

Definition shrunken (d : document) : list rect := map (fun r => inset_by r (f32_of_Z 1%Z) (f32_of_Z 1%Z)) (shape_rects d).

(** Node [a] picks node [b] in direction [o], and a table lies between them. *)
Definition pick_hidden (md : module) (o : orientation) (a b : nat) : bool :=
  match layout_module md with
  | Ret (_, g, d) =>
      match nth_error (rg_nodes g) a with
      | Some n =>
          match found d o n (rg_nodes g) with
          | Some (c, m) => Nat.eqb c b && existsb (fun r => intersects_line r (rn_loc n) (rn_loc m)) (shrunken d)
          | None => false
          end
      | None => false
      end
  | Panic _ => false
  end.

Lemma pick_hidden_ok md o a b : pick_hidden md o a b = true -> exists vb g d n m,
  layout_module md = Ret (vb, g, d) /\ nth_error (rg_nodes g) a = Some n /\ picked d (rg_nodes g) o n b m /\
  ~ in_sight d (rn_loc n) (rn_loc m).
Proof.
  unfold pick_hidden. intros H. destruct (layout_module md) as [[[vb g] d]|] eqn:L; [|discriminate].
  destruct (nth_error (rg_nodes g) a) as [n|] eqn:Hn; [|discriminate].
  destruct (found d o n (rg_nodes g)) as [[c m]|] eqn:F; [|discriminate].
  apply andb_true_iff in H as [E H]. apply Nat.eqb_eq in E as ->. exists vb, g, d, n, m.
  split; [reflexivity|]. split; [exact Hn|]. split; [now apply found_iff|].
  intros S. apply sight_iff in S. unfold shrunken in H. congruence.
Qed.

Theorem hidden_picks : forall o, o <> Up -> exists md vb g d a b n m,
  layout_module md = Ret (vb, g, d) /\ nth_error (rg_nodes g) a = Some n /\ picked d (rg_nodes g) o n b m /\
  ~ in_sight d (rn_loc n) (rn_loc m).
Proof.
  assert (W : forall md o a b, pick_hidden md o a b = true -> exists md vb g d a b n m,
    layout_module md = Ret (vb, g, d) /\ nth_error (rg_nodes g) a = Some n /\ picked d (rg_nodes g) o n b m /\
    ~ in_sight d (rn_loc n) (rn_loc m)).
  { intros md o a b H. destruct (pick_hidden_ok md o a b H) as (vb & g & d & n & m & Q). exists md, vb, g, d, a, b, n, m. exact Q. }
  intros o N. destruct o; [contradiction| | |].
  - apply (W tower Down 16 17). vm_compute. reflexivity.
  - apply (W crossing_module Left 13 8). vm_compute. reflexivity.
  - apply (W crossing_module Right 8 11). vm_compute. reflexivity.
Qed.

Theorem one_pick d ns o n : (exists c k, nth_error ns c = Some k /\ in_line o n k) ->
  exists b m, picked d ns o n b m /\ forall b' m', picked d ns o n b' m' -> b' = b /\ m' = m.
Proof.
  intros (c & k & Hk & I). pose proof (found_spec d o n ns) as F. destruct (found d o n ns) as [[b m]|].
  - exists b, m. split; [exact F|]. intros b' m' H. exact (picked_unique _ _ _ _ _ _ _ _ H F).
  - exfalso. exact (F c k Hk I).
Qed.
