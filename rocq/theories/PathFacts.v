(** The drawn paths: cheapest over all pairs of ports, rectilinear, outward. *)
From Coq Require Import List Arith NArith ZArith Bool Lia SpecFloat.
From Verif Require Import Base F32 Geometry Mir Erd Heap Route Layout Cli SpecF32 SpecGeom SpecLayout SpecRoute SpecGraph
  F32Facts GeomFacts SearchFacts MirFacts LayoutFacts RenderFacts PipelineFacts GraphFacts.
Import ListNotations.

Lemma Forall2_length' {A B} (R : A -> B -> Prop) l l' : Forall2 R l l' -> length l = length l'.
Proof. induction 1; cbn; congruence. Qed.

(** ** One search *)

Theorem shortest_path_cases g a b : within (length (rg_nodes g)) (rg_edges g) -> a < length (rg_nodes g) ->
  match compute_shortest_path g a b with
  | Ret (c, l) => cheapest (rg_edges g) (rg_cost (rg_nodes g)) a b c l
  | Panic PNoRoute => forall l, ~ walk (rg_edges g) a b l
  | Panic PCostOverflow => exists x w, overflows (rg_edges g) (rg_cost (rg_nodes g)) a b x w
  | Panic _ => False
  end.
Proof.
  intros W A. unfold compute_shortest_path.
  pose proof (search_correct (rg_edges g) (rg_cost (rg_nodes g)) (length (rg_nodes g)) a b W A) as S.
  destruct S as [c l C|N|x w O]; cbn [bind]; eauto.
Qed.

Lemma shortest_ret g a b c l : within (length (rg_nodes g)) (rg_edges g) -> a < length (rg_nodes g) ->
  compute_shortest_path g a b = Ret (c, l) -> cheapest (rg_edges g) (rg_cost (rg_nodes g)) a b c l.
Proof. intros W A E. pose proof (shortest_path_cases g a b W A) as S. now rewrite E in S. Qed.

(** ** All pairs *)

Section Pairs.
Variable g : route_graph.
Hypothesis Hw : within (length (rg_nodes g)) (rg_edges g).
Hypothesis Hp : forall id i, rg_get_port g id = Some i -> i < length (rg_nodes g).
Let cost := rg_cost (rg_nodes g).

Definition pair_walk (pq : terminal_port * terminal_port) (l : list nat) : Prop :=
  exists a b, rg_get_port g (port_ident (fst pq)) = Some a /\ rg_get_port g (port_ident (snd pq)) = Some b /\
    walk (rg_edges g) a b l.

Lemma try_pair_ok pq st st' : try_pair g st pq = Ret st' ->
  (fst st' <= fst st)%N /\
  (forall l, pair_walk pq l -> (fst st' <= walk_cost cost l)%N) /\
  (st' = st \/ exists l, snd st' = Some l /\ pair_walk pq l /\ walk_cost cost l = fst st' /\ (fst st' < fst st)%N).
Proof.
  destruct st as [c0 best]. unfold try_pair, pair_walk.
  destruct (rg_get_port g (port_ident (fst pq))) as [a|] eqn:Ea.
  2:{ intros E. injection E as <-. cbn. split; [lia|]. split; [|now left]. intros l (x & y & X & _). discriminate. }
  destruct (rg_get_port g (port_ident (snd pq))) as [b|] eqn:Eb.
  2:{ intros E. injection E as <-. cbn. split; [lia|]. split; [|now left]. intros l (x & y & _ & X & _). discriminate. }
  intros E. apply bind_ret in E as ([c p] & S & E).
  apply shortest_ret in S as (W & C & _ & L); [|exact Hw|eauto].
  destruct (N.ltb_spec c c0) as [Lt|Ge]; injection E as <-; cbn.
  - split; [lia|]. split.
    + intros l (x & y & X & Y & V). injection X as <-. injection Y as <-. now apply L.
    + right. exists p. split; [reflexivity|]. split; [eauto 6|]. auto.
  - split; [lia|]. split; [|now left]. intros l (x & y & X & Y & V). injection X as <-. injection Y as <-.
    specialize (L l V). fold cost in L. lia.
Qed.

Lemma pairs_ok l : forall st st', foldM (try_pair g) l st = Ret st' ->
  (fst st' <= fst st)%N /\
  (forall pq w, In pq l -> pair_walk pq w -> (fst st' <= walk_cost cost w)%N) /\
  (st' = st \/ exists pq w, In pq l /\ snd st' = Some w /\ pair_walk pq w /\ walk_cost cost w = fst st' /\ (fst st' < fst st)%N).
Proof.
  induction l as [|pq l IH]; intros st st' H; cbn [foldM] in H.
  - injection H as <-. split; [lia|]. split; [intros ? ? []|now left].
  - apply bind_ret in H as (s1 & T & H). apply try_pair_ok in T as (L1 & M1 & C1). apply IH in H as (L2 & M2 & C2).
    split; [lia|]. split.
    + intros q w [<-|I] Pw; [apply M1 in Pw; lia|eauto].
    + destruct C2 as [->|(q & w & I & R & Pw & Cw & Lw)].
      * destruct C1 as [->|(w & R & Pw & Cw & Lw)]; [now left|]. right. exists pq, w. split; [now left|]. auto.
      * right. exists q, w. split; [now right|]. repeat split; auto. lia.
Qed.
End Pairs.

Lemma in_port_pairs s t p q : In (p, q) (port_pairs s t) <-> In p (n_ports s) /\ In q (n_ports t).
Proof.
  unfold port_pairs. rewrite in_flat_map. split.
  - intros (x & I & H). apply in_map_iff in H as (y & E & J). injection E as <- <-. auto.
  - intros [I J]. exists p. split; [exact I|]. apply in_map_iff. eauto.
Qed.

Lemma locations_ok ns l : forall ps, locations ns l = Ret ps ->
  Forall2 (fun i p => exists n, nth_error ns i = Some n /\ rn_loc n = p) l ps.
Proof.
  induction l as [|i l IH]; intros ps H; cbn in H; [injection H as <-; constructor|].
  destruct (nth_error ns i) as [n|] eqn:E; [|discriminate]. apply bind_ret in H as (r & R & H). injection H as <-.
  constructor; eauto.
Qed.

(** ** All edges *)

Lemma find_paths_le g d es : forall ps, find_paths g d es = Ret ps -> length ps <= length es.
Proof.
  induction es as [|e es IH]; intros ps H; cbn in H; [injection H as <-; auto|].
  apply bind_ret in H as (o & F & H). apply bind_ret in H as (r & R & H). injection H as <-. apply IH in R.
  destruct o; cbn; lia.
Qed.
Lemma assign_length es : forall ps r, assign_paths es ps = Ret r -> length es <= length ps.
Proof.
  induction es as [|e es IH]; intros ps r H; [cbn; lia|]. destruct ps as [|p ps]; [discriminate|]. cbn in *.
  apply bind_ret in H as (x & X & H). apply IH in X. lia.
Qed.

Lemma drawn_edges g d es : forall ps r, find_paths g d es = Ret ps -> assign_paths es ps = Ret r ->
  Forall2 (fun e e' => same_ends e e' /\ exists p, e_path e' = Some p /\ find_edge_path g d e = Ret (Some p)) es r.
Proof.
  induction es as [|e es IH]; intros ps r F A; [injection A as <-; constructor|].
  cbn [find_paths] in F. apply bind_ret in F as (o & Fo & F). apply bind_ret in F as (rest & R & F). injection F as <-.
  destruct o as [p|].
  - cbn [assign_paths] in A. apply bind_ret in A as (x & X & A). injection A as <-. constructor; [|eauto].
    split; [split; reflexivity|]. exists p. auto.
  - apply assign_length in A. apply find_paths_le in R. cbn in A. lia.
Qed.

Lemma draw_split g d g' d' : draw_edge_path g d = Ret (g', d') ->
  build_routes g d = Ret g' /\ d_nodes d' = d_nodes d /\
  Forall2 (fun e e' => same_ends e e' /\ exists p, e_path e' = Some p /\ find_edge_path g' d e = Ret (Some p)) (d_edges d) (d_edges d').
Proof.
  unfold draw_edge_path. intros H. apply bind_ret in H as (g1 & B & H). apply bind_ret in H as (ps & F & H).
  apply bind_ret in H as (es & A & H). injection H as <- <-. split; [exact B|]. split; [reflexivity|].
  eapply drawn_edges; eauto.
Qed.

(** Every registered port exists. *)
Definition ports_exist (g : route_graph) : Prop :=
  forall id i, rg_get_port g id = Some i -> i < length (rg_nodes g).

Lemma build_ports g d g' : ports_exist g -> build_routes g d = Ret g' -> ports_exist g'.
Proof.
  intros P H. unfold build_routes in H. apply bind_ret in H as (g1 & A1 & H). apply bind_ret in H as (g2 & A2 & H).
  injection H as <-. destruct (add_nodes_spec _ _ _ A1) as ([(l1 & L1) _] & P1 & _).
  destruct (add_ports_spec _ _ _ A2) as ([(l2 & L2) _] & _ & _ & G2 & _).
  unfold connect_neighbors. destruct (add_edges_spec (neighbor_edges d (rg_nodes g2)) g2) as (N & PP & _).
  intros id i E. unfold rg_get_port in E. rewrite PP in E. rewrite N.
  destruct (G2 id) as [X|(p & k & _ & _ & X & (n & Hn & _))]; unfold rg_get_port in X; rewrite X in E.
  - rewrite P1 in E. apply P in E. rewrite L2, L1, !app_length. lia.
  - injection E as ->. apply nth_error_Some. congruence.
Qed.
Lemma engine_ports g : engine_graph g -> ports_exist g.
Proof.
  induction 1 as [|g d g' d' G IH H]; [intros id i H; discriminate|].
  apply draw_split in H as (B & _). eapply build_ports; eauto.
Qed.

Lemma in_end_ports d p : In p (flat_map (edge_end_ports d) (d_edges d)) -> end_port d p.
Proof.
  intros I. apply in_flat_map in I as (e & Ie & I). unfold edge_end_ports in I.
  destruct (get_node d (e_source e)) as [s|] eqn:Es; [|destruct I].
  destruct (get_node d (e_target e)) as [t|] eqn:Et; [|destruct I].
  apply in_app_iff in I as [I|I]; [exists e, (e_source e), s|exists e, (e_target e), t]; auto.
Qed.
Lemma end_ports_in d e s t p : In e (d_edges d) -> get_node d (e_source e) = Some s -> get_node d (e_target e) = Some t ->
  In p (n_ports s) \/ In p (n_ports t) -> In p (flat_map (edge_end_ports d) (d_edges d)).
Proof.
  intros Ie Es Et I. apply in_flat_map. exists e. split; [exact Ie|]. unfold edge_end_ports. rewrite Es, Et.
  apply in_app_iff. exact I.
Qed.

(** The node registered for a port of an edge end stands for it. *)
Lemma registered g d g' e s t p : named_ports d -> build_routes g d = Ret g' ->
  In e (d_edges d) -> get_node d (e_source e) = Some s -> get_node d (e_target e) = Some t ->
  In p (n_ports s) \/ In p (n_ports t) ->
  exists i, rg_get_port g' (port_ident p) = Some i /\ stands_weak g' p i.
Proof.
  intros Nm H Ie Es Et I. unfold build_routes in H. apply bind_ret in H as (g1 & A1 & H). apply bind_ret in H as (g2 & A2 & H).
  injection H as <-. destruct (add_ports_spec _ _ _ A2) as (_ & _ & _ & _ & M).
  unfold connect_neighbors. destruct (add_edges_spec (neighbor_edges d (rg_nodes g2)) g2) as (N & PP & _).
  pose proof (end_ports_in d e s t p Ie Es Et I) as J.
  destruct (M p J) as (q & i & Jq & Eq & Gq & Sq). assert (q = p) as ->.
  { apply Nm; [now apply in_end_ports|now apply in_end_ports|exact Eq]. }
  exists i. split; [unfold rg_get_port; now rewrite PP|]. destruct Sq as (n & Hn & R). exists n. rewrite N. auto.
Qed.

Section Drawn.
Variables (g g' : route_graph) (d d' : document).
Hypothesis Hg : engine_graph g.
Hypothesis Hd : draw_edge_path g d = Ret (g', d').
Hypothesis Hn : named_ports d.

Lemma drawn_graph : graph_ok g' /\ ports_exist g'.
Proof.
  destruct (draw_split _ _ _ _ Hd) as (B & _). split.
  - apply (build_ok g d g'); [now apply engine_ok|exact B].
  - apply (build_ports g d g'); [now apply engine_ports|exact B].
Qed.

(** What an edge path is, in terms of registered nodes. *)
Lemma drawn_path e' : In e' (d_edges d') -> exists s t ps l,
  get_node d (e_source e') = Some s /\ get_node d (e_target e') = Some t /\ e_path e' = Some ps /\
  places g' l ps /\
  (exists p q a b, In p (n_ports s) /\ In q (n_ports t) /\ stands_weak g' p a /\ stands_weak g' q b /\
     walk (rg_edges g') a b l) /\
  (forall p q a b l', In p (n_ports s) -> In q (n_ports t) ->
     rg_get_port g' (port_ident p) = Some a -> rg_get_port g' (port_ident q) = Some b ->
     walk (rg_edges g') a b l' -> (walk_cost (rg_cost (rg_nodes g')) l <= walk_cost (rg_cost (rg_nodes g')) l')%N) /\
  (forall p, In p (n_ports s) \/ In p (n_ports t) -> exists i, rg_get_port g' (port_ident p) = Some i /\ stands_weak g' p i).
Proof.
  intros I. destruct (draw_split _ _ _ _ Hd) as (B & _ & F).
  assert (X : exists e, In e (d_edges d) /\ same_ends e e' /\ exists p, e_path e' = Some p /\ find_edge_path g' d e = Ret (Some p)).
  { clear -F I. induction F as [|a b l l' R F IH]; [destruct I|]. destruct I as [<-|I].
    - exists a. split; [now left|exact R].
    - destruct (IH I) as (e & J & R'). exists e. split; [now right|exact R']. }
  destruct X as (e & Ie & [E1 E2] & ps & Ep & Fp). rewrite E1, E2. unfold find_edge_path in Fp.
  destruct (get_node d (e_source e)) as [s|] eqn:Es; [|discriminate].
  destruct (get_node d (e_target e)) as [t|] eqn:Et; [|discriminate].
  apply bind_ret in Fp as ([c best] & Fo & Fp). cbn [snd] in Fp. destruct best as [l|]; [|discriminate].
  apply bind_ret in Fp as (ps' & L & Fp). injection Fp as ->. apply locations_ok in L.
  destruct drawn_graph as [G P].
  pose proof (pairs_ok g' (straight_within g' (ok_straight g' G)) P _ _ _ Fo) as (_ & M & C). cbn [fst snd] in *.
  assert (Rg : forall p, In p (n_ports s) \/ In p (n_ports t) -> exists i, rg_get_port g' (port_ident p) = Some i /\ stands_weak g' p i).
  { intros p J. exact (registered g d g' e s t p Hn B Ie Es Et J). }
  exists s, t, ps, l. split; [reflexivity|]. split; [reflexivity|]. split; [exact Ep|]. split; [exact L|].
  destruct C as [C|([p q] & w & J & R & (a & b & Ga & Gb & W) & Cw & _)]; [discriminate|]. injection R as <-.
  apply in_port_pairs in J as [Jp Jq]. cbn [fst snd] in *. split; [|split].
  - destruct (Rg p (or_introl Jp)) as (a' & Ga' & Sa). destruct (Rg q (or_intror Jq)) as (b' & Gb' & Sb).
    rewrite Ga in Ga'. rewrite Gb in Gb'. injection Ga' as <-. injection Gb' as <-. exists p, q, a, b. auto.
  - intros p' q' a' b' l' Jp' Jq' Ga' Gb' W'. rewrite Cw. apply (M (p', q')).
    + now apply in_port_pairs.
    + exists a', b'. auto.
  - exact Rg.
Qed.

Theorem drawn_cheapest : (forall p, end_port d p -> proper (port_location p)) ->
  forall e', In e' (d_edges d') -> exists s t l ps,
  get_node d (e_source e') = Some s /\ get_node d (e_target e') = Some t /\
  e_path e' = Some ps /\ places g' l ps /\ best_route g' s t l.
Proof.
  intros Pr e' I. destruct (drawn_path e' I) as (s & t & ps & l & Es & Et & Ep & L & (p & q & a & b & Jp & Jq & Sa & Sb & W) & M & Rg).
  exists s, t, l, ps. split; [exact Es|]. split; [exact Et|]. split; [exact Ep|]. split; [exact L|].
  assert (Pe : forall p, In p (n_ports s) \/ In p (n_ports t) -> proper (port_location p)).
  { intros x J. apply Pr. destruct (draw_split _ _ _ _ Hd) as (_ & _ & F).
    assert (X : exists e, In e (d_edges d) /\ same_ends e e').
    { clear -F I. induction F as [|a b l l' R F IH]; [destruct I|]. destruct I as [<-|I].
      - exists a. split; [now left|apply R].
      - destruct (IH I) as (e & J & R'). exists e. split; [now right|exact R']. }
    destruct X as (e & Ie & E1 & E2). rewrite E1 in Es. rewrite E2 in Et.
    destruct J as [J|J]; [exists e, (e_source e), s|exists e, (e_target e), t]; auto. }
  destruct drawn_graph as [G _]. split.
  - exists p, q, a, b. repeat split; auto; apply weak_stands; auto.
  - intros p' q' a' b' l' Jp' Jq' Sa' Sb' W'.
    destruct (Rg p' (or_introl Jp')) as (i & Gi & Si). destruct (Rg q' (or_intror Jq')) as (j & Gj & Sj).
    apply weak_stands in Si; [|auto]. apply weak_stands in Sj; [|auto].
    assert (i = a') as ->.
    { destruct Si as (n & Hi & X & _), Sa' as (n' & Hi' & X' & _). eapply distinct_index; eauto. apply G. }
    assert (j = b') as ->.
    { destruct Sj as (n & Hi & X & _), Sb' as (n' & Hi' & X' & _). eapply distinct_index; eauto. apply G. }
    eapply M; eauto.
Qed.

(** ** Shape of the paths *)

Lemma straight_opposite o p q : straight o p q -> straight (opposite o) q p.
Proof. destruct o; intros [A B]; split; auto; now rewrite feq_sym. Qed.
Lemma opposite_involutive o : opposite (opposite o) = o.
Proof. now destruct o. Qed.

Lemma joined_straight a b n m : joined (rg_edges g') a b -> nth_error (rg_nodes g') a = Some n ->
  nth_error (rg_nodes g') b = Some m -> straight_edge n m.
Proof.
  destruct drawn_graph as [G _]. intros [J|J] Ha Hb.
  - destruct (ok_straight g' G a b J) as (n' & m' & Hn' & Hm' & S). congruence.
  - destruct (ok_straight g' G b a J) as (n' & m' & Hn' & Hm' & o & S & O1 & O2).
    exists (opposite o). replace n with m' by congruence. replace m with n' by congruence.
    split; [now apply straight_opposite|]. split; [exact O2|]. now rewrite opposite_involutive.
Qed.

Lemma walk_adjacent es a b l l1 x y l2 : walk es a b l -> l = l1 ++ x :: y :: l2 -> joined es x y.
Proof.
  intros W. revert l1. induction W as [a|a b c l J W IH]; intros l1 E.
  - destruct l1 as [|? [|]]; discriminate.
  - destruct l1 as [|z l1]; cbn in E; injection E as -> E.
    + destruct W as [?|? ? ? ? ? W']; injection E as -> E'; [|exact J]. exact J.
    + eapply IH, E.
Qed.

Lemma places_adjacent l ps l1 p q l2 : places g' l ps -> ps = l1 ++ p :: q :: l2 ->
  exists k1 x y k2 n m, l = k1 ++ x :: y :: k2 /\ length k1 = length l1 /\
    nth_error (rg_nodes g') x = Some n /\ nth_error (rg_nodes g') y = Some m /\ rn_loc n = p /\ rn_loc m = q.
Proof.
  intros L E. subst ps. unfold places in L. apply Forall2_app_inv_r in L as (k1 & k2 & F1 & F2 & ->).
  inversion F2 as [|x ? k3 ? (n & Hx & Ln) F3]; subst. inversion F3 as [|y ? k4 ? (m & Hy & Lm) F4]; subst.
  exists k1, x, y, k4, n, m. repeat split; auto. eapply Forall2_length'; eauto.
Qed.

Theorem drawn_rectilinear : forall e', In e' (d_edges d') -> exists s t ps,
  get_node d (e_source e') = Some s /\ get_node d (e_target e') = Some t /\ e_path e' = Some ps /\ ps <> [] /\
  rectilinear ps /\ leaves_outward s ps /\ leaves_outward t (rev ps).
Proof.
  intros e' I. destruct (drawn_path e' I) as (s & t & ps & l & Es & Et & Ep & L & (p & q & a & b & Jp & Jq & Sa & Sb & W) & _ & _).
  exists s, t, ps. split; [exact Es|]. split; [exact Et|]. split; [exact Ep|]. split; [|split; [|split]].
  - intros ->. destruct (walk_nonempty _ _ _ _ W) as (r & ->). inversion L.
  - intros l1 x y l2 E. destruct (places_adjacent _ _ _ _ _ _ L E) as (k1 & i & j & k2 & n & m & El & _ & Hi & Hj & <- & <-).
    pose proof (walk_adjacent _ _ _ _ _ _ _ _ W El) as J.
    destruct (joined_straight _ _ _ _ J Hi Hj) as (o & S & _). eauto.
  - intros x y l2 E. destruct (places_adjacent l ps [] x y l2 L E) as (k1 & i & j & k2 & n & m & El & Lk & Hi & Hj & <- & <-).
    destruct k1; [|discriminate]. cbn in El.
    destruct (walk_nonempty _ _ _ _ W) as (r & El'). assert (i = a) as -> by congruence.
    pose proof (walk_adjacent _ _ _ _ [] _ _ _ W El) as J.
    destruct (joined_straight _ _ _ _ J Hi Hj) as (o & S & O & _).
    destruct Sa as (n' & Hn' & Pl & On). assert (n' = n) as -> by congruence.
    exists p. split; [exact Jp|]. rewrite <- (O _ On) in S.
    assert (Pr : proper (rn_loc n)).
    { clear -S. destruct (port_orientation p), S as [A B]; split;
        (match goal with |- is_nan ?x = false => destruct x; cbn in *; auto; try discriminate end);
        repeat match goal with H : context [SFcompare ?u ?v] |- _ => destruct u; discriminate end;
        try (destruct (px (rn_loc m)); discriminate); try (destruct (py (rn_loc m)); discriminate). }
    split; [|exact S]. destruct Pl as [Pl|<-]; [exact Pl|]. now apply proper_same.
  - intros x y l2 E.
    assert (E' : ps = rev l2 ++ y :: x :: []).
    { rewrite <- (rev_involutive ps), E. cbn. now rewrite <- app_assoc. }
    destruct (places_adjacent l ps _ y x [] L E') as (k1 & j & i & k2 & m & n & El & Lk & Hj & Hi & <- & <-).
    assert (k2 = []) as ->.
    { apply Forall2_length' in L. rewrite El, E', !app_length in L. cbn in L. destruct k2; [reflexivity|]. cbn in L. lia. }
    assert (i = b) as ->.
    { destruct (walk_snoc_inv _ _ _ _ W) as [[-> El']|(z & l' & _ & _ & El')].
      - rewrite El' in El. destruct k1 as [|? [|]]; discriminate.
      - rewrite El' in El. change (k1 ++ [j; i]) with (k1 ++ [j] ++ [i]) in El. rewrite app_assoc in El.
        apply app_inj_tail in El. now destruct El. }
    pose proof (walk_adjacent _ _ _ _ k1 _ _ _ W El) as J.
    destruct (joined_straight _ _ _ _ J Hj Hi) as (o & S & _ & O).
    destruct Sb as (n' & Hn' & Pl & On). assert (n' = n) as -> by congruence.
    apply straight_opposite in S. rewrite <- (O _ On) in S. exists q. split; [exact Jq|].
    assert (Pr : proper (rn_loc n)).
    { clear -S. destruct (port_orientation q), S as [A B]; split;
        (match goal with |- is_nan ?x = false => destruct x; cbn in *; auto; try discriminate end);
        repeat match goal with H : context [SFcompare ?u ?v] |- _ => destruct u; discriminate end;
        try (destruct (px (rn_loc m)); discriminate); try (destruct (py (rn_loc m)); discriminate). }
    split; [|exact S]. destruct Pl as [Pl|<-]; [exact Pl|]. now apply proper_same.
Qed.
End Drawn.

(** ** Nothing but paths changes *)

Theorem draw_frame g d g' d' : draw_edge_path g d = Ret (g', d') ->
  d_nodes d' = d_nodes d /\ Forall2 same_ends (d_edges d) (d_edges d').
Proof.
  intros H. apply draw_split in H as (_ & N & F). split; [exact N|].
  refine (forall2_impl _ _ _ _ _ F). intros a b [S _]. exact S.
Qed.

Lemma add_junctions l : forall g, Forall (fun n => rn_orient n = None) (rg_nodes g) ->
  exists g', foldM rg_add_node l g = Ret g'.
Proof.
  induction l as [|p l IH]; intros g H; cbn [foldM]; [eauto|].
  unfold rg_add_node at 1. pose proof (add_node_cases g p None) as C.
  destruct (rg_add_node_ g p None) as [[g1 i]|q]; cbn [bind fst].
  - apply IH. destruct C as (_ & _ & [(-> & _)|(-> & _)]); [exact H|]. apply Forall_app. split; [exact H|]. now constructor.
  - destruct C as (_ & i & n & Hn & _ & O). apply nth_error_In in Hn. rewrite Forall_forall in H. now apply H in Hn.
Qed.

Theorem draw_nothing d : d_edges d = [] -> exists g, draw_edge_path rg_new d = Ret (g, d).
Proof.
  intros E. unfold draw_edge_path, build_routes. rewrite E. cbn [flat_map foldM].
  destruct (add_junctions (edge_junctions d) rg_new) as (g & ->); [constructor|]. cbn [bind find_paths assign_paths].
  eexists. rewrite <- E at 1. now destruct d.
Qed.

(** ** Modules *)

Lemma nodup_map_inj {A B} (f : A -> B) l x y : NoDup (map f l) -> In x l -> In y l -> f x = f y -> x = y.
Proof.
  induction l as [|a l IH]; intros N X Y E; [destruct X|]. cbn in N. inversion N as [|? ? Na Nl]; subst.
  destruct X as [->|X], Y as [->|Y]; auto.
  - destruct Na. rewrite E. now apply in_map.
  - destruct Na. rewrite <- E. now apply in_map.
Qed.

Lemma module_named m d : into_mir m = Ret d -> named_ports (place_terminal_ports (fst (place_nodes d))).
Proof.
  intros M. destruct (port_ids_unique m d M) as [N _]. intros p q (e & i & n & _ & _ & G & I) (e' & i' & n' & _ & _ & G' & I') E.
  apply (nodup_map_inj port_ident (flat_map n_ports (d_nodes (place_terminal_ports (fst (place_nodes d)))))); auto;
    apply in_flat_map; [exists n|exists n']; split; auto; eapply nth_error_In; eassumption.
Qed.

Lemma layout_split m vb g d : layout_module m = Ret (vb, g, d) -> exists d0,
  into_mir m = Ret d0 /\ vb = snd (place_nodes d0) /\
  draw_edge_path rg_new (place_terminal_ports (fst (place_nodes d0))) = Ret (g, d).
Proof.
  unfold layout_module. intros H. apply bind_ret in H as (d0 & M & H). exists d0. split; [exact M|].
  destruct (place_nodes d0) as [d1 vb1]. apply bind_ret in H as ([g' d3] & D & H). injection H as <- <- <-. auto.
Qed.

Theorem module_rectilinear m vb g d : layout_module m = Ret (vb, g, d) ->
  forall e, In e (d_edges d) -> exists s t ps,
  get_node d (e_source e) = Some s /\ get_node d (e_target e) = Some t /\ e_path e = Some ps /\ ps <> [] /\
  rectilinear ps /\ leaves_outward s ps /\ leaves_outward t (rev ps).
Proof.
  intros L e I. destruct (layout_split m vb g d L) as (d0 & M & _ & D).
  pose proof (drawn_rectilinear _ _ _ _ engine_new D (module_named m d0 M) e I) as R.
  apply draw_frame in D as [N _]. unfold get_node in *. rewrite N. exact R.
Qed.

(** ** The search, for arbitrary graphs and costs *)

Theorem search_cases es cost n src goal : within n es -> src < n ->
  match astar_loop (2 * length es + 2) (neighbors es) cost goal n (mkA [(0%N, src)] [(src, 0%N)] [] []) with
  | Ret (Some (c, l)) => cheapest es cost src goal c l
  | Ret None => forall l, ~ walk es src goal l
  | Panic PCostOverflow => exists x w l, joined es x w /\ walk es src x l /\ NoDup l /\
      (u32_max < walk_cost cost l + cost x w)%N /\ at_least es cost src goal (walk_cost cost l)
  | Panic _ => False
  end.
Proof.
  intros W A. destruct (search_correct es cost n src goal W A) as [c l C|N|x w (J & l & (C1 & _ & C3 & _) & O & L)]; auto.
  exists x, w, l. auto 6.
Qed.

Theorem search_without_overflow es cost n src goal : within n es -> src < n ->
  (forall x w l, walk es src x l -> NoDup l -> joined es x w -> (walk_cost cost l + cost x w <= u32_max)%N) ->
  let run := astar_loop (2 * length es + 2) (neighbors es) cost goal n (mkA [(0%N, src)] [(src, 0%N)] [] []) in
  ((exists l, walk es src goal l) <-> exists c l, run = Ret (Some (c, l))) /\
  ((forall l, ~ walk es src goal l) <-> run = Ret None) /\
  (forall c l, run = Ret (Some (c, l)) -> cheapest es cost src goal c l).
Proof.
  intros W A H run. pose proof (search_cases es cost n src goal W A) as S. fold run in S.
  destruct run as [[[c l]|]|p].
  - split; [|split].
    + split; [eauto|]. intros _. exists l. apply S.
    + split; [|discriminate]. intros N. destruct (N l). apply S.
    + intros c' l' E. injection E as <- <-. exact S.
  - split; [|split].
    + split; [intros (l & X); destruct (S l X)|]. intros (c & l & E). discriminate.
    + split; auto.
    + discriminate.
  - destruct p; try contradiction. destruct S as (x & w & l & J & Wl & N & O & _). specialize (H x w l Wl N J). lia.
Qed.
