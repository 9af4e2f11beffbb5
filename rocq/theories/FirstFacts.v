(** The first of the cheapest pairs of ports. *)
From Coq Require Import List Arith NArith ZArith Bool Lia SpecFloat.
From Verif Require Import Base F32 Geometry Mir Erd Heap Route Layout Cli SpecF32 SpecGeom SpecLayout SpecRoute SpecGraph SpecFirst
  F32Facts GeomFacts SearchFacts MirFacts LayoutFacts RenderFacts PipelineFacts GraphFacts PathFacts LatticeFacts ConnectFacts HubFacts DrawFacts.
Import ListNotations.

(** ** All pairs, in order *)

Section Pairs.
Variable g : route_graph.
Hypothesis Hw : within (length (rg_nodes g)) (rg_edges g).
Hypothesis Hp : forall id i, rg_get_port g id = Some i -> i < length (rg_nodes g).
Let cost := rg_cost (rg_nodes g).

Lemma pairs_first l : forall st st', foldM (try_pair g) l st = Ret st' ->
  st' = st \/ exists n pq w, nth_error l n = Some pq /\ snd st' = Some w /\ pair_walk g pq w /\ walk_cost cost w = fst st' /\ (fst st' < fst st)%N /\
    forall n' pq' w', n' < n -> nth_error l n' = Some pq' -> pair_walk g pq' w' -> (fst st' < walk_cost cost w')%N.
Proof.
  induction l as [|pq l IH]; intros st st' H; cbn [foldM] in H; [injection H as <-; now left|].
  apply bind_ret in H as (s1 & T & H). apply (try_pair_ok g Hw Hp) in T as (L1 & M1 & C1).
  destruct (IH _ _ H) as [->|(n & q & w & I & R & Pw & Cw & Lw & Fi)].
  - destruct C1 as [->|(w & R & Pw & Cw & Lw)]; [now left|]. right. exists 0, pq, w. split; [reflexivity|]. repeat split; auto. intros n' ? ? B. lia.
  - right. exists (S n), q, w. split; [exact I|]. repeat split; auto; [lia|]. intros [|n'] pq' w' B E P.
    + injection E as <-. apply M1 in P. fold cost in P. lia.
    + exact (Fi n' pq' w' ltac:(lia) E P).
Qed.
End Pairs.

(** ** Positions of pairs *)

Lemma row_nth {A B} (x : A) (ys : list B) k : nth_error (map (fun y => (x, y)) ys) k = option_map (fun y => (x, y)) (nth_error ys k).
Proof. revert k. induction ys as [|y ys IH]; intros [|k]; cbn; auto. Qed.
Definition pairs {A B} (xs : list A) (ys : list B) : list (A * B) := flat_map (fun p => map (fun q => (p, q)) ys) xs.
Lemma pairs_at {A B} (xs : list A) (ys : list B) i j p q : nth_error xs i = Some p -> nth_error ys j = Some q ->
  nth_error (pairs xs ys) (i * length ys + j) = Some (p, q).
Proof.
  unfold pairs. revert i. induction xs as [|x xs IH]; intros [|i] Hp Hq; try discriminate; cbn [flat_map].
  - injection Hp as ->. cbn [Nat.mul plus]. rewrite nth_error_app1 by (rewrite map_length; apply nth_error_Some; congruence). now rewrite row_nth, Hq.
  - rewrite nth_error_app2 by (rewrite map_length; lia). rewrite map_length. replace (S i * length ys + j - length ys) with (i * length ys + j) by lia. now apply IH.
Qed.
Lemma pairs_where {A B} (xs : list A) (ys : list B) n pq : nth_error (pairs xs ys) n = Some pq ->
  exists i j, nth_error xs i = Some (fst pq) /\ nth_error ys j = Some (snd pq) /\ n = i * length ys + j.
Proof.
  unfold pairs. revert n. induction xs as [|x xs IH]; intros n H; [destruct n; discriminate|]. cbn [flat_map] in H.
  destruct (Nat.lt_ge_cases n (length ys)) as [L|L].
  - rewrite nth_error_app1 in H by (rewrite map_length; exact L). rewrite row_nth in H. destruct (nth_error ys n) as [y|] eqn:E; [|discriminate].
    injection H as <-. exists 0, n. auto.
  - rewrite nth_error_app2 in H by (rewrite map_length; exact L). rewrite map_length in H. destruct (IH _ H) as (i & j & Hi & Hj & E).
    exists (S i), j. split; [exact Hi|]. split; [exact Hj|]. cbn [Nat.mul]. lia.
Qed.

(** ** Drawn edges *)

Section Drawn.
Variables (g g' : route_graph) (d d' : document).
Hypothesis Hg : engine_graph g.
Hypothesis Hd : draw_edge_path g d = Ret (g', d').
Hypothesis Hn : named_ports d.

Theorem drawn_first : (forall p, end_port d p -> proper (port_location p)) ->
  forall e', In e' (d_edges d') -> exists s t i j l ps,
  get_node d (e_source e') = Some s /\ get_node d (e_target e') = Some t /\
  e_path e' = Some ps /\ places g' l ps /\ first_route g' s t i j l.
Proof.
  intros Pr e' I. destruct (draw_split _ _ _ _ Hd) as (B & _ & F).
  assert (X : exists e, In e (d_edges d) /\ same_ends e e' /\ exists p, e_path e' = Some p /\ find_edge_path g' d e = Ret (Some p)).
  { clear -F I. induction F as [|a b l l' R F IH]; [destruct I|]. destruct I as [<-|I].
    - exists a. split; [now left|exact R].
    - destruct (IH I) as (e & J & R'). exists e. split; [now right|exact R']. }
  destruct X as (e & Ie & [E1 E2] & ps & Ep & Fp). rewrite E1, E2. unfold find_edge_path in Fp.
  destruct (get_node d (e_source e)) as [s|] eqn:Es; [|discriminate].
  destruct (get_node d (e_target e)) as [t|] eqn:Et; [|discriminate].
  apply bind_ret in Fp as ([c best] & Fo & Fp). cbn [snd] in Fp. destruct best as [l|]; [|discriminate].
  apply bind_ret in Fp as (ps' & L & Fp). injection Fp as ->. apply locations_ok in L.
  destruct (drawn_graph _ _ _ _ Hg Hd) as [G P].
  pose proof (straight_within g' (ok_straight g' G)) as Wi.
  pose proof (pairs_ok g' Wi P _ _ _ Fo) as (_ & M & _). pose proof (pairs_first g' Wi P _ _ _ Fo) as C. cbn [fst snd] in *.
  assert (Pe : forall p, In p (n_ports s) \/ In p (n_ports t) -> proper (port_location p)).
  { intros x J. apply Pr. destruct J as [J|J]; [exists e, (e_source e), s|exists e, (e_target e), t]; auto. }
  assert (Rg : forall p, In p (n_ports s) \/ In p (n_ports t) -> exists i, rg_get_port g' (port_ident p) = Some i /\ stands_for g' p i).
  { intros p J. destruct (registered g d g' e s t p Hn B Ie Es Et J) as (i & Gi & Si). exists i. split; [exact Gi|]. apply weak_stands; auto. }
  assert (Un : forall p a i, stands_for g' p a -> stands_for g' p i -> a = i).
  { intros p a i (n & Ha & X & _) (n' & Hi & X' & _). eapply distinct_index; eauto. apply G. }
  destruct C as [C|(n & [p q] & w & J & R & (a & b & Ga & Gb & W) & Cw & _ & Fi)]; [discriminate|]. injection R as <-. cbn [fst snd] in *.
  change (port_pairs s t) with (pairs (n_ports s) (n_ports t)) in *.
  destruct (pairs_where _ _ _ _ J) as (i & j & Hi & Hj & En). cbn [fst snd] in *.
  pose proof (nth_error_In _ _ Hi) as Ip. pose proof (nth_error_In _ _ Hj) as Iq.
  exists s, t, i, j, l, ps. split; [reflexivity|]. split; [reflexivity|]. split; [exact Ep|]. split; [exact L|]. split.
  - destruct (Rg p (or_introl Ip)) as (a' & Ga' & Sa). destruct (Rg q (or_intror Iq)) as (b' & Gb' & Sb).
    rewrite Ga in Ga'. rewrite Gb in Gb'. injection Ga' as <-. injection Gb' as <-. exists p, q, a, b. auto.
  - intros i' j' p' q' a' b' l' Hi' Hj' Sa' Sb' W'. rewrite Cw.
    pose proof (nth_error_In _ _ Hi') as Ip'. pose proof (nth_error_In _ _ Hj') as Iq'.
    destruct (Rg p' (or_introl Ip')) as (a0 & Ga0 & Sa0). destruct (Rg q' (or_intror Iq')) as (b0 & Gb0 & Sb0).
    rewrite (Un _ _ _ Sa' Sa0), (Un _ _ _ Sb' Sb0) in W'. pose proof (pairs_at _ _ _ _ _ _ Hi' Hj') as Nt.
    assert (Pw : pair_walk g' (p', q') l') by (exists a0, b0; auto). split; [exact (M _ _ (nth_error_In _ _ Nt) Pw)|].
    intros Lx. apply (Fi _ _ _) with (2 := Nt) (3 := Pw). rewrite En.
    assert (j' < length (n_ports t)) by (apply nth_error_Some; congruence). assert (j < length (n_ports t)) by (apply nth_error_Some; congruence). nia.
Qed.
End Drawn.

Theorem module_first m vb g d : fits (table_rows m) -> layout_module m = Ret (vb, g, d) ->
  forall e, In e (d_edges d) -> exists s t i j l ps,
  get_node d (e_source e) = Some s /\ get_node d (e_target e) = Some t /\
  e_path e = Some ps /\ places g l ps /\ first_route g s t i j l.
Proof.
  intros F L e I. destruct (layout_routes m vb g d F L) as (d0 & M & V & D & R).
  pose proof (module_grid m d0 M F) as GD.
  pose proof (drawn_first _ _ _ _ engine_new D (module_named m d0 M)) as C.
  apply draw_split in D as (_ & N & _). unfold get_node in *. rewrite N. apply C; [|exact I].
  intros p E. destruct (gd_port _ _ GD p E) as (i & X & Y & _ & H & _). eapply hpoint_proper, H.
Qed.
