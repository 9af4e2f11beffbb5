(** Relations between places that are joined already. *)
From Coq Require Import String List Arith NArith ZArith Bool Lia.
From Verif Require Import Base F32 Geometry Mir Erd Route Layout Svg Render Parser Cli SpecMir SpecF32 SpecGeom SpecLayout SpecRoute SpecGraph SpecRender SpecLink SpecRepeat
  GeomFacts MirFacts PlaceFacts GridFacts LayoutFacts RenderFacts PictureFacts PipelineFacts SearchFacts GraphFacts PathFacts LatticeFacts DrawFacts OrderFacts TableFacts LinkFacts EndFacts.
From Verif Require ConnectFacts.
Import ListNotations.

(** ** Adding what is there *)

Lemma add_known g p o n : distinct_places (rg_nodes g) -> In n (rg_nodes g) -> same_place (rn_loc n) p -> rn_orient n = o ->
  exists i, rg_add_node_ g p o = Ret (g, i) /\ nth_error (rg_nodes g) i = Some n.
Proof.
  intros D I S O. apply In_nth_error in I as (i & Hi). unfold rg_add_node_. pose proof (find_loc_spec p (rg_nodes g) 0) as F.
  destruct (find_loc p 0 (rg_nodes g)) as [[k m]|].
  - destruct F as (_ & N & P). rewrite Nat.sub_0_r in N. assert (k = i) as -> by (eapply distinct_index; eauto).
    rewrite Hi in N. injection N as <-. rewrite (proj2 (opt_orient_eq _ _) O). eauto.
  - exfalso. exact (F n (nth_error_In _ _ Hi) S).
Qed.

Lemma foldM_join {A B} (f : A -> B -> res A) l1 l2 a b : foldM f l1 a = Ret b -> foldM f (l1 ++ l2) a = foldM f l2 b.
Proof.
  revert a. induction l1 as [|x l1 IH]; intros a E; cbn in *; [congruence|].
  apply bind_ret in E as (c & F & E). rewrite F. cbn [bind]. now apply IH.
Qed.

Lemma nodes_known l g : distinct_places (rg_nodes g) ->
  (forall p, In p l -> exists n, In n (rg_nodes g) /\ same_place (rn_loc n) p /\ rn_orient n = None) -> foldM rg_add_node l g = Ret g.
Proof.
  intros D. induction l as [|p l IH]; intros K; [reflexivity|]. cbn [foldM].
  destruct (K p (or_introl eq_refl)) as (n & I & S & O). destruct (add_known g p None n D I S O) as (i & A & _).
  unfold rg_add_node at 1. rewrite A. cbn [bind fst]. apply IH. intros q J. apply K. now right.
Qed.

(** Graphs that differ only in how often ports are registered. *)
Definition same_graph (g h : route_graph) : Prop :=
  rg_nodes g = rg_nodes h /\ rg_edges g = rg_edges h /\ forall i, rg_get_port g i = rg_get_port h i.

Lemma same_refl g : same_graph g g. Proof. repeat split. Qed.

Lemma same_step g h p g' : same_graph g h -> rg_add_port g p = Ret g' -> exists h', rg_add_port h p = Ret h' /\ same_graph g' h'.
Proof.
  intros (N & E & G) H. unfold rg_add_port, rg_add_node_ in *. rewrite <- N.
  destruct (find_loc (port_location p) 0 (rg_nodes g)) as [[i n]|].
  - destruct (opt_orient_eqb (rn_orient n) (Some (port_orientation p))); [|discriminate]. cbn [bind] in *. injection H as <-.
    eexists. split; [reflexivity|]. unfold same_graph. cbn [rg_nodes rg_edges]. split; [exact N|]. split; [exact E|].
    intros k. unfold rg_get_port in *. cbn [rg_ports assoc]. now rewrite G.
  - cbn [bind] in *. injection H as <-. eexists. split; [reflexivity|]. unfold same_graph. cbn [rg_nodes rg_edges]. split; [now rewrite N|]. split; [exact E|].
    intros k. unfold rg_get_port in *. cbn [rg_ports assoc]. rewrite G. reflexivity.
Qed.
Lemma same_ports l : forall g h g', same_graph g h -> foldM rg_add_port l g = Ret g' -> exists h', foldM rg_add_port l h = Ret h' /\ same_graph g' h'.
Proof.
  induction l as [|p l IH]; intros g h g' S H; cbn [foldM] in *; [injection H as <-; eauto|].
  apply bind_ret in H as (g1 & A & H). destruct (same_step _ _ _ _ S A) as (h1 & B & S1). rewrite B. cbn [bind]. eauto.
Qed.

Lemma port_id_eqb_eq a b : port_id_eqb a b = true -> a = b.
Proof. destruct a, b. unfold port_id_eqb. cbn. intros H. apply andb_true_iff in H as [A B]. apply Nat.eqb_eq in A, B. congruence. Qed.

Lemma ports_known l g : distinct_places (rg_nodes g) ->
  (forall p, In p l -> exists i, rg_get_port g (port_ident p) = Some i /\ stands_for g p i) ->
  exists g', foldM rg_add_port l g = Ret g' /\ same_graph g g'.
Proof.
  revert g. induction l as [|p l IH]; intros g D K; [exists g; split; [reflexivity|apply same_refl]|]. cbn [foldM].
  destruct (K p (or_introl eq_refl)) as (i & G & n & Hn & S & O). destruct (add_known g _ _ n D (nth_error_In _ _ Hn) S O) as (j & A & Hj).
  assert (j = i) as -> by (eapply distinct_index; eauto). unfold rg_add_port at 1. rewrite A. cbn [bind].
  set (g1 := mkRG (rg_nodes g) (rg_edges g) ((port_ident p, i) :: rg_ports g)).
  assert (S1 : same_graph g g1).
  { split; [reflexivity|]. split; [reflexivity|]. intros k. unfold g1, rg_get_port in *. cbn [rg_ports assoc].
    destruct (port_id_eqb k (port_ident p)) eqn:E; [|reflexivity]. apply port_id_eqb_eq in E. subst k. exact G. }
  destruct (IH g1) as (g' & F & (N & E & Gp)); [exact D| |].
  - intros q J. destruct (K q (or_intror J)) as (k & Gk & Sk). exists k. split; [|exact Sk]. now rewrite <- (proj2 (proj2 S1)).
  - exists g'. split; [exact F|]. split; [exact N|]. split; [exact E|]. intros k. rewrite <- Gp. apply S1.
Qed.

(** ** Searching in such graphs *)

Lemma foldM_ext {A B} (f f' : A -> B -> res A) l : (forall a b, f a b = f' a b) -> forall a, foldM f l a = foldM f' l a.
Proof. intros E. induction l as [|x l IH]; intros a; cbn; [reflexivity|]. rewrite E. destruct (f' a x); cbn; [apply IH|reflexivity]. Qed.

Lemma same_pair g h st pq : same_graph g h -> try_pair g st pq = try_pair h st pq.
Proof.
  intros (N & E & G). unfold try_pair, compute_shortest_path. destruct st as [c b]. rewrite !G, N, E. reflexivity.
Qed.
Lemma same_find g h d d' e : same_graph g h -> d_nodes d = d_nodes d' -> find_edge_path g d e = find_edge_path h d' e.
Proof.
  intros S N. unfold find_edge_path, get_node. rewrite N.
  destruct (nth_error (d_nodes d') (e_source e)) as [s|]; [|reflexivity]. destruct (nth_error (d_nodes d') (e_target e)) as [t|]; [|reflexivity].
  rewrite (foldM_ext _ (try_pair h)) by (intros; now apply same_pair). destruct S as (Ns & _). now rewrite Ns.
Qed.

Lemma edges_same l : forall g h, rg_nodes g = rg_nodes h -> rg_edges g = rg_edges h -> rg_edges (fold_left rg_add_edge l g) = rg_edges (fold_left rg_add_edge l h).
Proof.
  induction l as [|[a b] l IH]; intros g h N E; [exact E|]. cbn [fold_left]. apply IH; unfold rg_add_edge; rewrite E;
    destruct (existsb (Nat.eqb b) (neighbors (rg_edges h) a)); cbn; congruence.
Qed.

(** ** One edge more *)
Section More.
Variables (nodes : list node_data) (E1 E2 : list edge_data) (e : edge_data) (hs : list nat).
Let d := mkDoc nodes (E1 ++ E2).
Let d' := mkDoc nodes (E1 ++ e :: E2).
Hypothesis known : forall i, i = e_source e \/ i = e_target e -> exists e1, In e1 E1 /\ (i = e_source e1 \/ i = e_target e1).
Hypothesis ends_exist : forall e1, In e1 (E1 ++ E2) -> exists s t, nth_error nodes (e_source e1) = Some s /\ nth_error nodes (e_target e1) = Some t.
Hypothesis proper_ports : forall p, end_port d p -> proper (port_location p).
Hypothesis proper_junctions : forall p, In p (edge_junctions d) -> proper p.
Hypothesis named : named_ports d.

Lemma ends_known p : In p (edge_end_ports d' e) -> In p (flat_map (edge_end_ports d) E1).
Proof.
  unfold edge_end_ports at 1, get_node. cbn [d_nodes d'].
  destruct (nth_error nodes (e_source e)) as [s|] eqn:Gs; [|intros []]. destruct (nth_error nodes (e_target e)) as [t|] eqn:Gt; [|intros []].
  intros I. assert (X : exists i n, (i = e_source e \/ i = e_target e) /\ nth_error nodes i = Some n /\ In p (n_ports n)).
  { apply in_app_or in I as [I|I]; [exists (e_source e), s|exists (e_target e), t]; auto. }
  destruct X as (i & n & Ei & G & J). destruct (known i Ei) as (e1 & I1 & K). apply in_flat_map. exists e1. split; [exact I1|].
  destruct (ends_exist e1 (in_or_app _ _ _ (or_introl I1))) as (s1 & t1 & Hs & Ht). unfold edge_end_ports, get_node. cbn [d_nodes d]. rewrite Hs, Ht.
  apply in_or_app. destruct K as [-> | ->]; [left|right]; congruence.
Qed.

Let shaped l := remove_overlapped d l.
Lemma removed_app a b : remove_overlapped d (a ++ b) = remove_overlapped d a ++ remove_overlapped d b.
Proof. unfold remove_overlapped. apply filter_app. Qed.

Let cross es := flat_map (fun e => flat_map (fun p => junctions_from_port d p (junctions_around_shapes d)) (edge_end_ports d e)) es.
Lemma junctions_first : edge_junctions d = (remove_overlapped d (junctions_around_shapes d) ++ remove_overlapped d (cross E1)) ++ remove_overlapped d (cross E2).
Proof. unfold edge_junctions. cbn [d_edges d]. rewrite flat_map_app, !removed_app, app_assoc. reflexivity. Qed.
Lemma junctions_second : edge_junctions d' = (remove_overlapped d (junctions_around_shapes d) ++ remove_overlapped d (cross E1)) ++
  remove_overlapped d (flat_map (fun p => junctions_from_port d p (junctions_around_shapes d)) (edge_end_ports d e)) ++ remove_overlapped d (cross E2).
Proof.
  unfold edge_junctions. cbn [d_edges d']. change (remove_overlapped d') with (remove_overlapped d).
  rewrite flat_map_app. cbn [flat_map]. rewrite !removed_app, app_assoc. reflexivity.
Qed.

Lemma more_junctions g1 : foldM rg_add_node (edge_junctions d) rg_new = Ret g1 -> foldM rg_add_node (edge_junctions d') rg_new = Ret g1.
Proof.
  rewrite junctions_first, junctions_second. intros H. apply foldM_app in H as (g0 & A & B). rewrite (foldM_join _ _ _ _ _ A).
  destruct (add_nodes_spec _ _ _ A) as (_ & _ & D & _ & K). rewrite (foldM_join _ _ _ _ g0); [exact B|].
  apply nodes_known; [apply D; intros i j n m Hn; destruct i; discriminate|]. intros p I. unfold remove_overlapped in I. apply filter_In in I as (I & C).
  assert (J : In p (remove_overlapped d (cross E1))).
  { apply filter_In. split; [|exact C]. unfold cross. apply in_flat_map in I as (q & Iq & I). apply ends_known in Iq. apply in_flat_map in Iq as (e1 & I1 & Iq).
    apply in_flat_map. exists e1. split; [exact I1|]. apply in_flat_map. eauto. }
  apply K; [apply in_or_app; now right|]. apply proper_junctions. rewrite junctions_first. apply in_or_app. left. apply in_or_app. now right.
Qed.

Lemma port_known p : In p (flat_map (edge_end_ports d) E1) -> end_port d p.
Proof.
  intros I. apply in_flat_map in I as (e1 & I1 & I). unfold edge_end_ports in I. destruct (get_node d (e_source e1)) as [s|] eqn:Gs; [|destruct I].
  destruct (get_node d (e_target e1)) as [t|] eqn:Gt; [|destruct I]. assert (J : In e1 (d_edges d)) by (apply in_or_app; now left).
  apply in_app_or in I as [I|I]; [exists e1, (e_source e1), s|exists e1, (e_target e1), t]; auto.
Qed.

Lemma more_ports g1 g2 : distinct_places (rg_nodes g1) -> foldM rg_add_port (flat_map (edge_end_ports d) (E1 ++ E2)) g1 = Ret g2 ->
  exists g2', foldM rg_add_port (flat_map (edge_end_ports d) (E1 ++ e :: E2)) g1 = Ret g2' /\ same_graph g2 g2'.
Proof.
  intros D. rewrite !flat_map_app. cbn [flat_map]. intros H. apply foldM_app in H as (g0 & A & B). rewrite (foldM_join _ _ _ _ _ A).
  destruct (add_ports_spec _ _ _ A) as (_ & D0 & _ & _ & K). destruct (ports_known (edge_end_ports d e) g0 (D0 D)) as (g' & F & S).
  - intros p I. pose proof (ends_known p I) as J. destruct (K p J) as (q & i & Jq & Eq & G & W). exists i. split; [exact G|].
    assert (q = p) as -> by (apply named; [now apply port_known|now apply port_known|exact Eq]). apply weak_stands; [exact W|]. now apply proper_ports, port_known.
  - rewrite (foldM_join _ _ _ _ _ F). exact (same_ports _ _ _ _ S B).
Qed.

Lemma more_routes g : build_routes rg_new d = Ret g -> exists g', build_routes rg_new d' = Ret g' /\ same_graph g g'.
Proof.
  unfold build_routes. intros H. apply bind_ret in H as (g1 & A & H). apply bind_ret in H as (g2 & B & H). injection H as <-.
  rewrite (more_junctions g1 A). cbn [bind]. destruct (add_nodes_spec _ _ _ A) as (_ & _ & D & _).
  destruct (more_ports g1 g2 (D ltac:(intros i j n m Hn; destruct i; discriminate)) B) as (g2' & B' & S).
  cbn [d_edges d']. change (edge_end_ports d') with (edge_end_ports d). rewrite B'. cbn [bind]. eexists. split; [reflexivity|].
  destruct S as (N & E & G). unfold connect_neighbors. change (neighbor_edges d') with (neighbor_edges d). rewrite <- N.
  destruct (add_edges_spec (neighbor_edges d (rg_nodes g2)) g2) as (N1 & P1 & _). destruct (add_edges_spec (neighbor_edges d (rg_nodes g2)) g2') as (N2 & P2 & _).
  split; [congruence|]. split; [now apply edges_same|]. intros k. unfold rg_get_port in *. now rewrite P1, P2.
Qed.

Lemma more_drawn g x g' x' : draw_edge_path rg_new d = Ret (g, x) -> draw_edge_path rg_new d' = Ret (g', x') -> exists e',
  same_graph g g' /\ one_more (length E1) e' x x' /\ same_ends e e' /\ (exists p, e_path e' = Some p /\ find_edge_path g' d' e = Ret (Some p)) /\
  forall k e1 e1', nth_error E1 k = Some e1 -> same_ends e e1 -> nth_error (d_edges x) k = Some e1' -> e_path e' = e_path e1'.
Proof.
  intros H H'. apply draw_split in H as (B & N & F). apply draw_split in H' as (B' & N' & F'). destruct (more_routes g B) as (g1 & B1 & S).
  rewrite B1 in B'. injection B' as ->. cbn [d_edges d d' d_nodes] in *.
  apply Forall2_app_inv_l in F as (a & b & Fa & Fb & Ex). apply Forall2_app_inv_l in F' as (a' & b' & Fa' & Fb' & Ex').
  inversion Fb' as [|? e' ? b2 (Se & p & Ep & Fp) Fb2]; subst b'. clear Fb'.
  assert (X : forall l m m', Forall2 (fun e0 e1 => same_ends e0 e1 /\ exists p, e_path e1 = Some p /\ find_edge_path g d e0 = Ret (Some p)) l m ->
                Forall2 (fun e0 e1 => same_ends e0 e1 /\ exists p, e_path e1 = Some p /\ find_edge_path g' d' e0 = Ret (Some p)) l m' -> m = m').
  { clear - S. intros l m m' Q. revert m'. induction Q as [|e0 e1 l0 m0 ((A1 & A2) & q & Eq & Fq) Q IH]; intros m' Q'; inversion Q' as [|? e2 ? m2 ((A3 & A4) & q' & Eq' & Fq') Q2]; subst; [reflexivity|].
    f_equal; [|now apply IH]. rewrite (same_find g g' d d' e0 S eq_refl) in Fq. rewrite Fq in Fq'. injection Fq' as <-.
    destruct e1, e2. cbn in *. congruence. }
  pose proof (X _ _ _ Fa Fa'). pose proof (X _ _ _ Fb Fb2). subst a' b2. exists e'. split; [exact S|]. split; [|split; [exact Se|split; [eauto|]]].
  - split; [congruence|]. exists a, b. rewrite Ex, Ex'. split; [reflexivity|]. split; [reflexivity|]. symmetry. eapply Forall2_length'; eauto.
  - intros k e1 e1' K1 [Q1 Q2] K2. rewrite Ex, nth_error_app1 in K2.
    2:{ rewrite <- (Forall2_length' _ _ _ Fa). apply nth_error_Some. congruence. }
    destruct (forall2_nth_l _ _ _ Fa k e1 K1) as (e2 & K3 & (_ & q & Eq & Fq)). rewrite K2 in K3. injection K3 as <-.
    rewrite (same_find g g' d d' e1 S eq_refl) in Fq. rewrite Ep, Eq.
    assert (find_edge_path g' d' e1 = find_edge_path g' d' e) as W by (unfold find_edge_path; now rewrite Q1, Q2). congruence.
Qed.
End More.

(** ** Places and nodes *)

Lemma split_at_length {A} (a c b d : list A) x y : a ++ x :: c = b ++ y :: d -> length a = length b -> a = b /\ x = y /\ c = d.
Proof.
  revert b. induction a as [|h a IH]; intros [|k b] E L; cbn in *; try discriminate; injection E as E1 E2; [auto|].
  injection L as L. destruct (IH b E2 L) as (-> & -> & ->). subst. auto.
Qed.
Lemma node_of_unique ds p i j : node_of ds p i -> node_of ds p j -> i = j.
Proof.
  destruct p as [n|n k]; cbn [node_of].
  - intros (a & e & c & E & L & ->) (a' & e' & c' & E' & L' & ->). rewrite E in E'.
    destruct (split_at_length _ _ _ _ _ _ E' ltac:(congruence)) as (-> & -> & _). reflexivity.
  - intros (a & e & c & E & L & _ & ->) (a' & e' & c' & E' & L' & _ & ->). rewrite E in E'.
    destruct (split_at_length _ _ _ _ _ _ E' ltac:(congruence)) as (-> & _ & _). reflexivity.
Qed.

Definition joins (ds : list entity_definition) (pq : place * place) (e : edge_data) : Prop :=
  node_of ds (fst pq) (e_source e) /\ node_of ds (snd pq) (e_target e).

Lemma edges_blank pre es l : edges_of pre es l -> Forall (fun e => e_path e = None) l.
Proof. induction 1; auto. Qed.

Lemma mir_links m d : into_mir m = Ret d -> exists ls, links [] (m_entries m) ls /\
  Forall2 (joins (definitions (m_entries m))) ls (d_edges d) /\ Forall (fun e => e_path e = None) (d_edges d).
Proof.
  intros M. pose proof (proj2 (into_mir_edges m d M (d_edges d)) eq_refl) as Eo.
  destruct (edges_links [] (m_entries m) _ Eo) as (ls & L & F). exists ls. split; [exact L|]. split; [exact F|]. exact (edges_blank _ _ _ Eo).
Qed.

Lemma joins_unique ds ls : forall l l', Forall2 (joins ds) ls l -> Forall2 (joins ds) ls l' ->
  Forall (fun e => e_path e = None) l -> Forall (fun e => e_path e = None) l' -> l = l'.
Proof.
  induction ls as [|pq ls IH]; intros l l' F F' N N'; inversion F as [|? e ? l1 (A & B) F1]; inversion F' as [|? e' ? l1' (A' & B') F1']; subst; [reflexivity|].
  inversion N as [|? ? P N1]; inversion N' as [|? ? P' N1']; subst. f_equal; [|now apply IH].
  destruct e as [s t x], e' as [s' t' x']. cbn in *. rewrite (node_of_unique _ _ _ _ A A'), (node_of_unique _ _ _ _ B B'). congruence.
Qed.

Lemma links_join a : forall ds b l1 l2, links ds a l1 -> links (ds ++ definitions a) b l2 -> links ds (a ++ b) (l1 ++ l2).
Proof.
  induction a as [|x a IH]; intros ds b l1 l2 L1 L2; inversion L1; subst; cbn [app definitions] in *.
  - now rewrite app_nil_r in L2.
  - constructor. apply IH; [assumption|]. now rewrite <- app_assoc.
  - constructor; auto.
  - apply links_drop; auto.
Qed.
Lemma links_split a : forall ds b l, links ds (a ++ b) l -> exists l1 l2, l = l1 ++ l2 /\ links ds a l1 /\ links (ds ++ definitions a) b l2.
Proof.
  induction a as [|x a IH]; intros ds b l L; cbn [app definitions] in *.
  - exists [], l. rewrite app_nil_r. repeat split; [constructor|exact L].
  - inversion L as [|? ? ? ? L1|? ? ? ? p q P Q L1|? ? ? ? D L1]; subst; destruct (IH _ _ _ L1) as (l1 & l2 & E & A & B).
    + exists l1, l2. split; [exact E|]. split; [now constructor|]. now rewrite <- app_assoc in B.
    + exists ((p, q) :: l1), l2. split; [now rewrite E|]. split; [now constructor|exact B].
    + exists l1, l2. split; [exact E|]. split; [now apply links_drop|exact B].
Qed.

Lemma ends_joined ds p i ls l : In p (ends ls) -> node_of ds p i -> Forall2 (joins ds) ls l -> exists e, In e l /\ (i = e_source e \/ i = e_target e).
Proof.
  intros I N F. apply in_flat_map in I as (pq & I & K). apply In_nth_error in I as (k & I). destruct (forall2_nth_l _ _ _ F k pq I) as (e & H & A & B).
  exists e. split; [exact (nth_error_In _ _ H)|]. destruct K as [<-|[<-|[]]]; [left|right]; eapply node_of_unique; eauto.
Qed.

Lemma updates_doc {A} (f : A -> node_id) (h : A -> node_data -> node_data) l : forall ns E,
  fold_left (fun d p => update_node d (f p) (h p)) l (mkDoc ns E) = mkDoc (fold_left (fun ns p => update (f p) (h p) ns) l ns) E.
Proof. induction l as [|p l IH]; intros ns E; [reflexivity|]. cbn [fold_left]. unfold update_node at 2. cbn [d_nodes d_edges]. apply IH. Qed.
Lemma ported_doc ds : exists ns, forall E, ported ds E = mkDoc ns E.
Proof.
  unfold ported, placed, apply_ports, apply_geo, doc_of. eexists. intros E. rewrite updates_doc, updates_doc. reflexivity.
Qed.

Lemma box_same ds E E' : snd (place_nodes (doc_of ds E)) = snd (place_nodes (doc_of ds E')).
Proof. rewrite (place_nodes_eq ds E) by (now intros i). rewrite (place_nodes_eq ds E') by (now intros i). reflexivity. Qed.

(** ** Modules *)

Lemma definitions_rel es r es' : definitions (es ++ ERel r :: es') = definitions (es ++ es').
Proof. rewrite !definitions_app. reflexivity. Qed.

Theorem known_ends n es r es' ls p q vb g d vb' g' d' : fits (table_rows (mkModule n (es ++ es'))) -> links [] es ls ->
  refers (definitions es) (rel_start r) p -> refers (definitions es) (rel_end r) q -> In p (ends ls) -> In q (ends ls) ->
  layout_module (mkModule n (es ++ es')) = Ret (vb, g, d) ->
  layout_module (mkModule n (es ++ ERel r :: es')) = Ret (vb', g', d') ->
  vb' = vb /\ exists e, one_more (length ls) e d d' /\
  forall k e1, nth_error ls k = Some (p, q) -> nth_error (d_edges d) k = Some e1 -> e_path e = e_path e1.
Proof.
  intros F Ll P Q Ip Iq L L'. set (m := mkModule n (es ++ es')) in *. set (m' := mkModule n (es ++ ERel r :: es')) in *.
  destruct (layout_split m vb g d L) as (d0 & M & V & D). destruct (layout_split m' vb' g' d' L') as (d0' & M' & V' & D').
  destruct (mir_doc m d0 M) as (E & Hd). destruct (mir_doc m' d0' M') as (E' & Hd').
  assert (Ed : definitions (m_entries m') = definitions (m_entries m)) by apply definitions_rel. rewrite Ed in Hd'. set (ds := definitions (m_entries m)) in *.
  split; [rewrite V, V', Hd, Hd'; apply box_same|].
  destruct (mir_links m d0 M) as (lm & Lm & Fm & Nm). destruct (mir_links m' d0' M') as (lm' & Lm' & Fm' & Nm'). fold ds in Fm. rewrite Ed in Fm'. fold ds in Fm'.
  rewrite Hd in Fm, Nm. rewrite Hd' in Fm', Nm'. cbn [doc_of d_edges] in Fm, Nm, Fm', Nm'.
  destruct (links_split es [] es' lm Lm) as (l1 & l2 & -> & A & B). pose proof (links_unique _ _ _ A _ Ll) as ->. clear A.
  assert (C : links [] (m_entries m') (ls ++ (p, q) :: l2)) by (apply links_join; [exact Ll|constructor; assumption]).
  pose proof (links_unique _ _ _ Lm' _ C) as ->. clear C Lm'.
  apply Forall2_app_inv_l in Fm as (E1 & E2 & F1 & F2 & ->). apply Forall2_app_inv_l in Fm' as (E1' & E2' & F1' & F2' & ->).
  inversion F2' as [|? e ? E3 J F3]; subst E2'. clear F2'.
  apply Forall_app in Nm as [N1 N2]. apply Forall_app in Nm' as [N1' N2']. inversion N2' as [|? ? _ N3]; subst.
  pose proof (joins_unique ds ls E1' E1 F1' F1 N1' N1) as ->. pose proof (joins_unique ds l2 E3 E2 F3 F2 N3 N2) as ->.
  rewrite layout_eq in D, D'. pose proof (module_grid m _ M F) as GD. rewrite layout_eq in GD. destruct (ported_doc ds) as (nodes & Hn). rewrite Hn in D, D', GD.
  destruct (more_drawn nodes E1 E2 e) with (g := g) (x := d) (g' := g') (x' := d') as (e' & S & O & Se & _ & K).
  - intros i [-> | ->]; [exact (ends_joined ds p _ ls E1 Ip (proj1 J) F1)|exact (ends_joined ds q _ ls E1 Iq (proj2 J) F1)].
  - intros e1 I. destruct (gd_ends _ _ GD e1 I) as (s & t & Gs & Gt & _). eauto.
  - intros t I. destruct (gd_port _ _ GD t I) as (i & X & Y & _ & H & _). eapply ConnectFacts.hpoint_proper, H.
  - intros t I. destruct (junctions_sound _ _ GD t I) as (X & Y & H & _). eapply ConnectFacts.hpoint_proper, H.
  - exact (gd_named _ _ GD).
  - exact D.
  - exact D'.
  - exists e'. split.
    + rewrite (Forall2_length' _ _ _ F1). exact O.
    + intros k e1 Kp Ke. destruct (forall2_nth_l _ _ _ F1 k _ Kp) as (e0 & K0 & J0 & J1). cbn [fst snd] in *. apply (K k e0 e1 K0); [|exact Ke].
      split; eapply node_of_unique; [exact J0|exact (proj1 J)|exact J1|exact (proj2 J)].
Qed.

Theorem known_layout n es r es' ls p q vb g d : fits (table_rows (mkModule n (es ++ es'))) -> links [] es ls ->
  refers (definitions es) (rel_start r) p -> refers (definitions es) (rel_end r) q -> In p (ends ls) -> In q (ends ls) ->
  layout_module (mkModule n (es ++ es')) = Ret (vb, g, d) ->
  exists g' d' e, layout_module (mkModule n (es ++ ERel r :: es')) = Ret (vb, g', d') /\ one_more (length ls) e d d' /\
  forall k e1, nth_error ls k = Some (p, q) -> nth_error (d_edges d) k = Some e1 -> e_path e = e_path e1.
Proof.
  intros F Ll P Q Ip Iq L. assert (F' : fits (table_rows (mkModule n (es ++ ERel r :: es')))).
  { unfold table_rows in *. cbn [m_entries] in *. now rewrite definitions_rel. }
  destruct (layout_returns _ F') as (vb' & g' & d' & L' & _).
  destruct (known_ends n es r es' ls p q vb g d vb' g' d' F Ll P Q Ip Iq L L') as (-> & e & O & K). exists g', d', e. auto.
Qed.

(** ** The picture *)

Lemma elems_same e e' : e_path e = e_path e' -> e_path e' <> None -> edge_elems e = edge_elems e'.
Proof. intros E N. unfold edge_elems, draw_edge. rewrite E. destruct (e_path e'); [reflexivity|congruence]. Qed.
Lemma bad_same e e' : e_path e = e_path e' -> bad_edge e -> bad_edge e'.
Proof. intros E. unfold bad_edge. now rewrite E. Qed.

Lemma line_shape e : ~ bad_edge e -> exists path c1 c2, edge_elems e = [path; c1; c2] /\ svg_name path = lit "path" /\
  svg_name c1 = lit "circle" /\ svg_name c2 = lit "circle".
Proof.
  intros B. unfold edge_elems.
  destruct (draw_edge_cases e) as [(P & Q)|(ps & P & [(L & Q)|[(i & L & R & F & Q)|(cs & p & L & N & D & Hd & Q)]])]; rewrite Q.
  - destruct B. now left.
  - destruct B. right. eauto.
  - destruct B. right. eauto.
  - do 3 eexists. split; [reflexivity|]. repeat split.
Qed.

Theorem repeated_picture n es r es' ls p q svg j : fits (table_rows (mkModule n (es ++ es'))) -> links [] es ls ->
  refers (definitions es) (rel_start r) p -> refers (definitions es) (rel_end r) q -> nth_error ls j = Some (p, q) ->
  render_module (mkModule n (es ++ es')) = Okay svg ->
  exists svg', render_module (mkModule n (es ++ ERel r :: es')) = Okay svg' /\ one_line_more (length ls) j svg svg'.
Proof.
  intros F Ll P Q Hj. unfold render_module. destruct (layout_module (mkModule n (es ++ es'))) as [[[vb g] d]|] eqn:L; [|discriminate].
  assert (I : In (p, q) ls) by exact (nth_error_In _ _ Hj).
  destruct (known_layout n es r es' ls p q vb g d F Ll P Q) as (g' & d' & e & L' & (Nd & a & b & Ea & Ea' & La) & K);
    [apply in_flat_map; exists (p, q); split; [exact I|now left]|apply in_flat_map; exists (p, q); split; [exact I|right; now left]|exact L|].
  rewrite L'. intros Rd. destruct (render_cases (Some vb) None d) as [((B1 & B2 & B3) & R)|(_ & R)]; [|now destruct (R svg)].
  rewrite R in Rd. injection Rd as <-. destruct d as [nodes E], d' as [nodes' E']. cbn [d_nodes d_edges] in *. subst nodes' E E'.
  assert (exists e1, nth_error a j = Some e1) as (e1 & H1).
  { destruct (nth_error a j) as [e1|] eqn:H; [eauto|]. apply nth_error_None in H. assert (j < length ls) by (apply nth_error_Some; congruence). lia. }
  assert (Ee : e_path e = e_path e1).
  { apply (K j e1 Hj). rewrite nth_error_app1; [exact H1|]. apply nth_error_Some. congruence. }
  assert (G1 : ~ bad_edge e1). { unfold none_of in B3. rewrite Forall_forall in B3. apply B3, in_or_app. left. exact (nth_error_In _ _ H1). }
  assert (B3' : none_of bad_edge (a ++ e :: b)).
  { unfold none_of in *. apply Forall_app in B3 as [Ba Bb]. apply Forall_app. split; [exact Ba|]. constructor; [|exact Bb]. intros X. apply G1. exact (bad_same _ _ Ee X). }
  rewrite (render_good (Some vb) None (mkDoc nodes (a ++ e :: b)) B1 B2 B3'). eexists. split; [reflexivity|].
  split; [reflexivity|]. split; [reflexivity|].
  set (d := mkDoc nodes (a ++ b)). exists (background_rect :: Elem (lit "defs") [] (flat_map (clip_elem d) (enum (body_children d))) ::
          flat_map (record_elems d) (enum (body_children d))), (map edge_elems a), (map edge_elems b), (edge_elems e).
  split; [|split; [|split; [|split; [|split]]]].
  - unfold picture. cbn [svg_children debug_part]. rewrite app_nil_r, <- map_app, <- flat_map_concat_map. reflexivity.
  - unfold picture. cbn [svg_children debug_part]. rewrite app_nil_r. change (edge_elems e :: map edge_elems b) with (map edge_elems (e :: b)).
    rewrite <- map_app, <- flat_map_concat_map. reflexivity.
  - apply no_paths_in_front.
  - now rewrite map_length.
  - rewrite nth_error_map, H1. cbn [option_map]. f_equal. symmetry. apply elems_same; [exact Ee|]. intros X. apply G1. now left.
  - rewrite <- map_app. apply Forall_map, Forall_forall. intros x Ix. apply line_shape. unfold none_of in B3. rewrite Forall_forall in B3. now apply B3.
Qed.

(** ** Both directions *)

Lemma layout_joins m vb g d ls : layout_module m = Ret (vb, g, d) -> links [] (m_entries m) ls ->
  Forall2 (joins (definitions (m_entries m))) ls (d_edges d).
Proof.
  intros L Ll. destruct (layout_split m vb g d L) as (d0 & M & V & D). destruct (mir_links m d0 M) as (ls' & L' & F & _).
  rewrite (links_unique _ _ _ L' _ Ll) in F. destruct (draw_split _ _ _ _ D) as (_ & _ & F2). rewrite (module_edges m d0 M) in F2.
  clear - F F2. revert F. generalize ls. induction F2 as [|e e' l l' ((S1 & S2) & _) F2 IH]; intros ls0 F; inversion F as [|pq ? ls1 ? (A & B) F1]; subst; [constructor|].
  constructor; [|now apply IH]. unfold joins. now rewrite S1, S2.
Qed.

Theorem same_way m vb g d ls i j p q e e' : layout_module m = Ret (vb, g, d) -> links [] (m_entries m) ls ->
  nth_error ls i = Some (p, q) -> nth_error ls j = Some (p, q) -> nth_error (d_edges d) i = Some e -> nth_error (d_edges d) j = Some e' -> e_path e' = e_path e.
Proof.
  intros L Ll Hi Hj He He'. pose proof (layout_joins m vb g d ls L Ll) as F.
  destruct (forall2_nth_l _ _ _ F i _ Hi) as (x & Hx & A1 & A2). rewrite He in Hx. injection Hx as <-.
  destruct (forall2_nth_l _ _ _ F j _ Hj) as (x & Hx & B1 & B2). rewrite He' in Hx. injection Hx as <-. cbn [fst snd] in *.
  pose proof (node_of_unique _ _ _ _ A1 B1) as S1. pose proof (node_of_unique _ _ _ _ A2 B2) as S2.
  destruct (layout_split m vb g d L) as (d0 & M & V & D). destruct (draw_split _ _ _ _ D) as (_ & _ & F2).
  destruct (forall2_nth_r _ _ _ F2 i e He) as (x & _ & (C1 & C2) & ps & E1 & F1). destruct (forall2_nth_r _ _ _ F2 j e' He') as (y & _ & (C3 & C4) & ps' & E3 & F3).
  assert (W : find_edge_path g (place_terminal_ports (fst (place_nodes d0))) x = find_edge_path g (place_terminal_ports (fst (place_nodes d0))) y).
  { unfold find_edge_path. rewrite <- C1, <- C2, <- C3, <- C4, S1, S2. reflexivity. }
  rewrite F1, F3 in W. congruence.
Qed.

Lemma travelled_snoc zs a b : travelled (zs ++ [a; b]) = (travelled (zs ++ [a]) + (Z.abs (fst a - fst b) + Z.abs (snd a - snd b)) / 2)%Z.
Proof.
  induction zs as [|x zs IH]; [cbn [app travelled]; lia|]. destruct zs as [|y zs]; [cbn [app travelled]; lia|].
  change ((x :: y :: zs) ++ [a; b]) with (x :: (y :: zs) ++ [a; b]). change ((x :: y :: zs) ++ [a]) with (x :: (y :: zs) ++ [a]).
  cbn [app] in *. cbn [travelled] in *. lia.
Qed.
Lemma travelled_rev zs : travelled (rev zs) = travelled zs.
Proof.
  induction zs as [|a zs IH]; [reflexivity|]. destruct zs as [|b zs]; [reflexivity|]. cbn [rev] in *. rewrite <- app_assoc. cbn [app]. rewrite travelled_snoc, IH.
  change (travelled (a :: b :: zs)) with ((Z.abs (fst a - fst b) + Z.abs (snd a - snd b)) / 2 + travelled (b :: zs))%Z.
  replace (Z.abs (fst a - fst b)) with (Z.abs (fst b - fst a)) by lia. replace (Z.abs (snd a - snd b)) with (Z.abs (snd b - snd a)) by lia. lia.
Qed.

Lemma walk_reversed es a b l : walk es a b l -> walk es b a (rev l).
Proof.
  induction 1 as [a|a b c l J W IH]; [constructor|]. cbn [rev]. apply (walk_snoc _ _ _ _ _ IH). destruct J; [now right|now left].
Qed.

Section Far.
Variables (d : document) (hs : list nat).
Hypothesis GD : grid_doc d hs.
Variable g : route_graph.
Hypothesis R : ConnectFacts.routes d hs g.

Lemma walk_travelled a b l : walk (rg_edges g) a b l -> forall zs, Forall2 (fun i z => exists o, ConnectFacts.spot (rg_nodes g) i (fst z) (snd z) o) l zs ->
  Z.of_N (walk_cost (rg_cost (rg_nodes g)) l) = travelled zs.
Proof.
  induction 1 as [a|a b c l J W IH]; intros zs F; inversion F as [|? z ? zs' (o & A) F1]; subst; [inversion F1; reflexivity|].
  specialize (IH _ F1). destruct l as [|x l]; [inversion W|]. assert (x = b) as -> by (inversion W; reflexivity).
  inversion F1 as [|? z' ? zs2 (u & B) F2]; subst. 
  change (walk_cost (rg_cost (rg_nodes g)) (a :: b :: l)) with (rg_cost (rg_nodes g) a b + walk_cost (rg_cost (rg_nodes g)) (b :: l))%N.
  change (travelled (z :: z' :: zs2)) with ((Z.abs (fst z - fst z') + Z.abs (snd z - snd z')) / 2 + travelled (z' :: zs2))%Z.
  assert (S : fst z = fst z' \/ snd z = snd z').
  { destruct (edge_straight d hs g R a b _ _ _ _ _ _ J A B) as [(E & _)|[(E & _)|(E & _)]]; auto. }
  rewrite N2Z.inj_add, IH, (ConnectFacts.spot_cost d hs GD g R a b _ _ _ _ _ _ A B S), Z2N.id by (apply Z.div_pos; lia). reflexivity.
Qed.

Lemma places_spots l ps : places g l ps -> exists zs, Forall2 (fun i z => exists o, ConnectFacts.spot (rg_nodes g) i (fst z) (snd z) o) l zs /\
  Forall2 (fun p z => hpoint p (fst z) (snd z)) ps zs.
Proof.
  induction 1 as [|i p l ps (n & Hn & <-) P (zs & F1 & F2)]; [exists []; split; constructor|].
  destruct (ConnectFacts.nth_spot d hs g R i n Hn) as (X & Y & S & H). exists ((X, Y) :: zs). split; constructor; cbn; eauto.
Qed.
End Far.

Lemma forall2_rev {A B} (P : A -> B -> Prop) l m : Forall2 P l m -> Forall2 P (rev l) (rev m).
Proof. induction 1; cbn; [constructor|]. apply Forall2_app; [assumption|]. now repeat constructor. Qed.

Theorem both_ways m vb g d ls i j p q e e' : fits (table_rows m) -> layout_module m = Ret (vb, g, d) -> links [] (m_entries m) ls ->
  nth_error ls i = Some (p, q) -> nth_error ls j = Some (q, p) -> nth_error (d_edges d) i = Some e -> nth_error (d_edges d) j = Some e' ->
  exists ps ps', e_path e = Some ps /\ e_path e' = Some ps' /\ as_far ps ps'.
Proof.
  intros F L Ll Hi Hj He He'. pose proof (layout_joins m vb g d ls L Ll) as J.
  destruct (forall2_nth_l _ _ _ J i _ Hi) as (x & Hx & A1 & A2). rewrite He in Hx. injection Hx as <-.
  destruct (forall2_nth_l _ _ _ J j _ Hj) as (x & Hx & B1 & B2). rewrite He' in Hx. injection Hx as <-. cbn [fst snd] in *.
  pose proof (node_of_unique _ _ _ _ A1 B2) as S1. pose proof (node_of_unique _ _ _ _ A2 B1) as S2.
  destruct (module_cheapest m vb g d F L e (nth_error_In _ _ He)) as (s & t & l & ps & Gs & Gt & Ep & Pl & ((p1 & p2 & a & b & I1 & I2 & Sa & Sb & W) & Best)).
  destruct (module_cheapest m vb g d F L e' (nth_error_In _ _ He')) as (s' & t' & l' & ps' & Gs' & Gt' & Ep' & Pl' & ((p1' & p2' & a' & b' & I1' & I2' & Sa' & Sb' & W') & Best')).
  rewrite <- S1 in Gt'. rewrite <- S2 in Gs'. rewrite Gs in Gt'. rewrite Gt in Gs'. injection Gt' as <-. injection Gs' as <-.
  destruct (layout_routes m vb g d F L) as (d0 & M & V & D & R). pose proof (module_grid m d0 M F) as GD.
  destruct (places_spots _ _ g R l ps Pl) as (zs & Fz & Hz). destruct (places_spots _ _ g R l' ps' Pl') as (ws & Fw & Hw).
  exists ps, ps'. split; [exact Ep|]. split; [exact Ep'|]. exists zs, ws. split; [exact Hz|]. split; [exact Hw|].
  pose proof (Best _ _ _ _ _ I2' I1' Sb' Sa' (walk_reversed _ _ _ _ W')) as C1. pose proof (Best' _ _ _ _ _ I2 I1 Sb Sa (walk_reversed _ _ _ _ W)) as C2.
  pose proof (walk_travelled _ _ GD g R a b l W zs Fz) as T1. pose proof (walk_travelled _ _ GD g R a' b' l' W' ws Fw) as T2.
  pose proof (walk_travelled _ _ GD g R _ _ _ (walk_reversed _ _ _ _ W) (rev zs) (forall2_rev _ _ _ Fz)) as T3.
  pose proof (walk_travelled _ _ GD g R _ _ _ (walk_reversed _ _ _ _ W') (rev ws) (forall2_rev _ _ _ Fw)) as T4.
  rewrite travelled_rev in T3, T4. clear - C1 C2 T1 T2 T3 T4. lia.
Qed.

(** ** Samples *)

Definition two (n : string) : entity_definition := mkEntity (lit n) [mkField (lit "x") TInt None; mkField (lit "y") TInt None].
Definition relate (a f b h : string) : entity_relation := mkRelation (PField (lit a) (lit f)) (PField (lit b) (lit h)).
Definition four : list module_entry := [EDef (two "a"); EDef (one "b"); EDef (one "c"); EDef (two "d")].

(** There and back. *)
Definition back : module := mkModule None (four ++ [ERel (relate "c" "x" "d" "y"); ERel (relate "d" "y" "c" "x")]).
Lemma back_links : links [] (m_entries back) [(Row 2 1, Row 3 2); (Row 3 2, Row 2 1)].
Proof.
  unfold back, four. cbn [m_entries app]. repeat apply links_def. cbn [app].
  apply links_rel; [eapply refers_row; [is_latest|is_last_field]|eapply refers_row; [is_latest|is_last_field]|].
  apply links_rel; [eapply refers_row; [is_latest|is_last_field]|eapply refers_row; [is_latest|is_last_field]|]. constructor.
Qed.
Lemma two_lengths (r : res (rect * route_graph * document)) a b :
  match r with Ret (_, _, d) => map (fun e => option_map (@length point) (e_path e)) (d_edges d) | Panic _ => [] end = [Some a; Some b] ->
  exists vb g d e e' ps ps', r = Ret (vb, g, d) /\ d_edges d = [e; e'] /\ e_path e = Some ps /\ e_path e' = Some ps' /\ length ps = a /\ length ps' = b.
Proof.
  destruct r as [[[vb g] d]|]; [|discriminate]. intros E. destruct (d_edges d) as [|e [|e' [|? ?]]] eqn:Ed; try discriminate E. cbn [map] in E. injection E as E1 E2.
  destruct (e_path e) as [ps|] eqn:P1; [|discriminate E1]. destruct (e_path e') as [ps'|] eqn:P2; [|discriminate E2].
  cbn [option_map] in E1, E2. injection E1 as E1. injection E2 as E2. exists vb, g, d, e, e', ps, ps'. repeat split; assumption.
Qed.
Lemma back_differs : exists m vb g d ls p q e e' ps ps', fits (table_rows m) /\ layout_module m = Ret (vb, g, d) /\ links [] (m_entries m) ls /\
  ls = [(p, q); (q, p)] /\ d_edges d = [e; e'] /\ e_path e = Some ps /\ e_path e' = Some ps' /\ ps' <> rev ps /\ length ps' <> length ps.
Proof.
  destruct (two_lengths (layout_module back) 6 7) as (vb & g & d & e & e' & ps & ps' & L & Ed & P1 & P2 & E1 & E2); [vm_compute; reflexivity|].
  exists back, vb, g, d, [(Row 2 1, Row 3 2); (Row 3 2, Row 2 1)], (Row 2 1), (Row 3 2), e, e', ps, ps'.
  split; [unfold fits; vm_compute; discriminate|]. split; [exact L|]. split; [exact back_links|]. split; [reflexivity|]. split; [exact Ed|].
  split; [exact P1|]. split; [exact P2|]. clear L. split; [|rewrite E1, E2; discriminate]. intros X. rewrite X, rev_length, E1 in E2. discriminate E2.
Qed.

(** Two relations that are joined crosswise by a third, in the middle of the module. *)
Definition pairs : list module_entry := four ++ [ERel (relate "a" "x" "b" "x"); ERel (relate "c" "x" "d" "y")].
Definition rest : list module_entry := [EDef (one "e"); ERel (relate "e" "x" "a" "y")].
Definition cross_link : entity_relation := relate "d" "y" "b" "x".
Lemma pairs_links : links [] pairs [(Row 0 1, Row 1 1); (Row 2 1, Row 3 2)].
Proof.
  unfold pairs, four. cbn [app]. repeat apply links_def. cbn [app].
  apply links_rel; [eapply refers_row; [is_latest|is_last_field]|eapply refers_row; [is_latest|is_last_field]|].
  apply links_rel; [eapply refers_row; [is_latest|is_last_field]|eapply refers_row; [is_latest|is_last_field]|]. constructor.
Qed.
Lemma cross_refers : refers (definitions pairs) (rel_start cross_link) (Row 3 2) /\ refers (definitions pairs) (rel_end cross_link) (Row 1 1).
Proof. cbn [pairs four app definitions rel_start rel_end cross_link relate]. split; (eapply refers_row; [is_latest|is_last_field]). Qed.
Lemma first_refers : refers (definitions pairs) (rel_start (relate "a" "x" "b" "x")) (Row 0 1) /\ refers (definitions pairs) (rel_end (relate "a" "x" "b" "x")) (Row 1 1).
Proof. cbn [pairs four app definitions rel_start rel_end relate]. split; (eapply refers_row; [is_latest|is_last_field]). Qed.
