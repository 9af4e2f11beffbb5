(** How large the routing graph gets. *)
From Coq Require Import List Arith NArith ZArith Bool Lia.
From Verif Require Import Base F32 Geometry Mir Erd Heap Route Layout Parser Cli SpecMir SpecF32 SpecGeom SpecLayout SpecRoute SpecGraph
  F32Facts SearchFacts MirFacts LayoutFacts PipelineFacts GraphFacts PathFacts DrawFacts LatticeFacts ConnectFacts HubFacts OrderFacts RowFacts MidFacts
  TurnFacts CalmFacts.
Import ListNotations.

(** ** Every document *)

Lemma flat_map_bound {A B} (f : A -> list B) k l : (forall x, In x l -> length (f x) <= k) -> length (flat_map f l) <= length l * k.
Proof.
  induction l as [|x l IH]; intros H; cbn [flat_map length]; [lia|]. rewrite app_length.
  specialize (H x (or_introl eq_refl)) as H1. assert (length (flat_map f l) <= length l * k) by (apply IH; intros; apply H; now right). lia.
Qed.
Lemma filter_map_bound {A B} (f : A -> option B) l : length (filter_map f l) <= length l.
Proof. induction l as [|x l IH]; cbn; [lia|]. destruct (f x); cbn; lia. Qed.
Lemma filter_bound {A} (f : A -> bool) l : length (filter f l) <= length l.
Proof. induction l as [|x l IH]; cbn; [lia|]. destruct (f x); cbn; lia. Qed.

Lemma around_count d : length (junctions_around_shapes d) <= 4 * length (body_children d).
Proof.
  unfold junctions_around_shapes. cbn zeta. rewrite (flat_map_bound _ 4); [|cbn; lia].
  unfold shape_rects. pose proof (filter_map_bound (fun i => match get_node d i with Some n => node_rect n | None => None end) (body_children d)). lia.
Qed.
Lemma from_port_count d tp l : length (junctions_from_port d tp l) <= length l.
Proof. unfold junctions_from_port. cbn zeta. destruct (port_orientation tp); apply filter_map_bound. Qed.

(** At most four ports at each end of an edge. *)
Definition few_ports (d : document) : Prop :=
  forall e i n, In e (d_edges d) -> i = e_source e \/ i = e_target e -> get_node d i = Some n -> length (n_ports n) <= 4.

Section Any.
Variable d : document.
Hypothesis Few : few_ports d.

Lemma end_ports_count e : In e (d_edges d) -> length (edge_end_ports d e) <= 8.
Proof.
  intros I. unfold edge_end_ports. destruct (get_node d (e_source e)) as [s|] eqn:Gs; [|cbn; lia].
  destruct (get_node d (e_target e)) as [t|] eqn:Gt; [|cbn; lia]. rewrite app_length.
  pose proof (Few e _ s I (or_introl eq_refl) Gs). pose proof (Few e _ t I (or_intror eq_refl) Gt). lia.
Qed.
Lemma junctions_count : length (edge_junctions d) <= 4 * length (body_children d) + length (d_edges d) * (32 * length (body_children d)).
Proof.
  unfold edge_junctions, remove_overlapped. cbn zeta. rewrite filter_bound, app_length.
  pose proof (around_count d) as A.
  assert (B : length (flat_map (fun e => flat_map (fun p => junctions_from_port d p (junctions_around_shapes d)) (edge_end_ports d e)) (d_edges d))
              <= length (d_edges d) * (32 * length (body_children d))).
  { apply flat_map_bound. intros e I.
    rewrite (flat_map_bound _ (4 * length (body_children d))); [pose proof (end_ports_count e I); nia|].
    intros p _. rewrite from_port_count. exact A. }
  lia.
Qed.

Lemma add_node_count g loc o g' i : rg_add_node_ g loc o = Ret (g', i) -> length (rg_nodes g') <= S (length (rg_nodes g)).
Proof.
  intros H. pose proof (add_node_cases g loc o) as C. rewrite H in C. destruct C as (_ & _ & [(-> & _)|(-> & _)]); [lia|].
  rewrite app_length. cbn. lia.
Qed.
Lemma add_nodes_count l : forall g g', foldM rg_add_node l g = Ret g' -> length (rg_nodes g') <= length (rg_nodes g) + length l.
Proof.
  induction l as [|p l IH]; intros g g' H; cbn [foldM] in H; [injection H as <-; lia|].
  apply bind_ret in H as (g1 & A & H). apply IH in H. unfold rg_add_node in A. apply bind_ret in A as ([g2 i] & A & X). injection X as <-.
  apply add_node_count in A. cbn [fst length] in *. lia.
Qed.
Lemma add_ports_count l : forall g g', foldM rg_add_port l g = Ret g' -> length (rg_nodes g') <= length (rg_nodes g) + length l.
Proof.
  induction l as [|p l IH]; intros g g' H; cbn [foldM] in H; [injection H as <-; lia|].
  apply bind_ret in H as (g1 & A & H). apply IH in H. unfold rg_add_port in A. apply bind_ret in A as ([g2 i] & A & X). injection X as <-.
  apply add_node_count in A. cbn [rg_nodes length] in *. lia.
Qed.
Lemma add_edges_count l : forall g, length (rg_edges (fold_left rg_add_edge l g)) <= length (rg_edges g) + length l.
Proof.
  induction l as [|[a b] l IH]; intros g; cbn [fold_left length]; [lia|]. rewrite IH.
  destruct (add_edge_cases g a b) as (_ & _ & [[_ ->]|[_ ->]]); [lia|]. rewrite app_length. cbn. lia.
Qed.
Lemma nearest_count a nr : length (nearest_edges a nr) <= 4.
Proof. unfold nearest_edges. destruct nr as [[[? ?]|] [[? ?]|] [[? ?]|] [[? ?]|]]; cbn; lia. Qed.

Lemma enum_length {A} (l : list A) : length (enum l) = length l.
Proof. unfold enum. generalize 0. induction l as [|x l IH]; intros k; cbn; [reflexivity|now rewrite IH]. Qed.
Lemma neighbor_count ns : length (neighbor_edges d ns) <= 4 * length ns.
Proof.
  unfold neighbor_edges. cbn zeta. rewrite (flat_map_bound _ 4); [rewrite enum_length; lia|]. intros x _. apply nearest_count.
Qed.

Theorem graph_bounds g : build_routes rg_new d = Ret g ->
  length (rg_nodes g) <= 4 * length (body_children d) + length (d_edges d) * (32 * length (body_children d) + 8) /\
  length (rg_edges g) <= 4 * length (rg_nodes g).
Proof.
  intros H. unfold build_routes in H. apply bind_ret in H as (g1 & A1 & H). apply bind_ret in H as (g2 & A2 & H). injection H as <-.
  unfold connect_neighbors. destruct (add_edges_spec (neighbor_edges d (rg_nodes g2)) g2) as (-> & _).
  pose proof (add_edges_count (neighbor_edges d (rg_nodes g2)) g2) as E. pose proof (neighbor_count (rg_nodes g2)) as N.
  pose proof (add_nodes_spec _ _ _ A1) as ((_ & E1) & _). pose proof (add_ports_spec _ _ _ A2) as ((_ & E2) & _).
  rewrite E2, E1 in E. cbn [rg_new rg_edges length] in E.
  apply add_nodes_count in A1. apply add_ports_count in A2. cbn [rg_new rg_nodes length] in A1.
  pose proof junctions_count as J.
  assert (P : length (flat_map (edge_end_ports d) (d_edges d)) <= length (d_edges d) * 8) by (apply flat_map_bound; intros e; apply end_ports_count).
  split; [nia|lia].
Qed.
End Any.

(** The document of a module. *)
Lemma sides_few count k : length (row_sides count k) <= 4.
Proof. unfold row_sides. destruct (Nat.eqb k 0), (Nat.eqb k (count - 1)); cbn; lia. Qed.
Lemma module_few m d : into_mir m = Ret d -> few_ports (place_terminal_ports (fst (place_nodes d))).
Proof.
  intros M. destruct (port_sides m d M) as [T R]. cbn zeta in *.
  assert (Q : forall q id n, shows_path d q id -> get_node (place_terminal_ports (fst (place_nodes d))) id = Some n -> length (n_ports n) <= 4).
  { intros q id n S G. destruct S as [j en I Hs|r en x h rows k j f I Hs Gr C K F].
    - apply In_nth_error in I as (i & I). destruct (T i j I) as (n' & G' & P). rewrite G in G'. injection G' as <-.
      apply (f_equal (@length _)) in P. rewrite map_length in P. rewrite P. cbn. lia.
    - apply In_nth_error in I as (i & I). assert (X : row_id d i (S k) j) by (exists r, x; split; [exact I|]; split; [exact Gr|]; rewrite C; exact K).
      destruct (R i (S k) j X) as (n' & G' & P). rewrite G in G'. injection G' as <-.
      apply (f_equal (@length _)) in P. rewrite map_length in P. rewrite P. apply sides_few. }
  pose proof (into_mir_edges_show m d M) as Sh. rewrite Forall_forall in Sh.
  intros e i n I Ei G. rewrite (module_edges m d M) in I. destruct (Sh e I) as (r & _ & S1 & S2).
  destruct Ei as [-> | ->]; [exact (Q _ _ _ S1 G)|exact (Q _ _ _ S2 G)].
Qed.

Theorem any_graph m vb g d : layout_module m = Ret (vb, g, d) ->
  let t := length (table_rows m) in let r := length (d_edges d) in
  length (rg_nodes g) <= 4 * t + r * (32 * t + 8) /\ length (rg_edges g) <= 4 * length (rg_nodes g).
Proof.
  intros L. destruct (layout_split m vb g d L) as (d0 & M & V & D). destruct (draw_split _ _ _ _ D) as (B & _ & F2).
  pose proof (graph_bounds _ (module_few m d0 M) g B) as H. rewrite (module_body m d0 M), (module_count m d0 M) in H.
  apply Forall2_length' in F2. rewrite F2 in H. exact H.
Qed.

(** ** Documents within the exact range *)

Local Open Scope Z_scope.
Definition line_ends (hs : list nat) : list anchor :=
  flat_map (fun t => table_end t :: map (row_end t) (seq 1 (nth t hs 0%nat - 1))) (seq 0 (length hs)).
Definition line_ys (hs : list nat) : list Z := flat_map (fun t => [zt hs t - 80; zb hs t + 80]) (seq 0 (length hs)).
Definition spots (hs : list nat) : list (Z * Z) :=
  list_prod [20; 780; 1540; 2300] (line_ys hs ++ map (rowY hs) (line_ends hs)) ++
  list_prod [400; 1160; 1920] (line_ys hs) ++
  flat_map (fun a => [(zl (tab a), rowY hs a); (zl (tab a) + 600, rowY hs a)]) (line_ends hs) ++
  flat_map (fun t => [(zl t + 300, zt hs t); (zl t + 300, zb hs t)]) (seq 0 (length hs)).

Lemma seq_nth_sum (f : nat -> nat) hs : forall k, (forall i, (i < length hs)%nat -> f (k + i)%nat = nth i hs 0%nat) ->
  list_sum (map f (seq k (length hs))) = list_sum hs.
Proof.
  induction hs as [|h hs IH]; intros k H; cbn [length seq map list_sum fold_right]; [reflexivity|].
  unfold list_sum in *. cbn [fold_right]. rewrite (IH (Datatypes.S k)).
  - pose proof (H 0%nat ltac:(cbn; lia)) as H0. rewrite Nat.add_0_r in H0. cbn in H0. now rewrite H0.
  - intros i Li. replace (Datatypes.S k + i)%nat with (k + Datatypes.S i)%nat by lia. rewrite (H (Datatypes.S i)) by (cbn; lia). reflexivity.
Qed.
Lemma flat_map_sum {A B} (f : A -> list B) l : length (flat_map f l) = list_sum (map (fun x => length (f x)) l).
Proof. induction l as [|x l IH]; cbn; [reflexivity|]. now rewrite app_length, IH. Qed.
Lemma flat_map_two {A B} (f : A -> list B) l : (forall x, length (f x) = 2%nat) -> length (flat_map f l) = (2 * length l)%nat.
Proof. intros H. induction l as [|x l IH]; cbn [flat_map length]; [reflexivity|]. rewrite app_length, H, IH. lia. Qed.

Section Doc.
Variables (d : document) (hs : list nat).
Hypothesis FD : end_doc d hs.
Let GD := ed_grid d hs FD.
Variable g : route_graph.
Hypothesis R : routes d hs g.
Let ns := rg_nodes g.

Lemma line_ends_count : length (line_ends hs) = list_sum hs.
Proof.
  unfold line_ends. rewrite flat_map_sum. rewrite <- (seq_nth_sum (fun t => nth t hs 0%nat) hs 0) by reflexivity.
  f_equal. apply map_ext_in. intros t I. apply in_seq in I. cbn [length]. rewrite map_length, seq_length.
  pose proof (gd_pos _ _ GD t ltac:(lia)). lia.
Qed.
Lemma spots_count : length (spots hs) = (16 * length hs + 6 * list_sum hs)%nat.
Proof.
  assert (Y : length (line_ys hs) = (2 * length hs)%nat) by (unfold line_ys; rewrite flat_map_two by reflexivity; now rewrite seq_length).
  unfold spots. rewrite !app_length, !prod_length, app_length, map_length, !flat_map_two by reflexivity.
  rewrite Y, seq_length, line_ends_count. cbn [length]. lia.
Qed.

Lemma line_ends_all a : anchor_ok hs a -> In a (line_ends hs).
Proof.
  intros [T K]. unfold line_ends. apply in_flat_map. exists (tab a). split; [apply in_seq; lia|].
  destruct a as [t k|t]; cbn [tab] in *; [right|now left]. apply in_map, in_seq. lia.
Qed.
Lemma line_ys_all Y : ys hs Y -> In Y (line_ys hs).
Proof. intros (t & L & H). unfold line_ys. apply in_flat_map. exists t. split; [apply in_seq; lia|]. cbn. destruct H; auto. Qed.
Lemma corridor_in X : corridor X -> In X [20; 780; 1540; 2300].
Proof. unfold corridor. cbn. intuition. Qed.

Lemma spots_all a X Y o : spot ns a X Y o -> In (X, Y) (spots hs).
Proof.
  intros A. unfold spots. rewrite !in_app_iff.
  destruct (spot_kind d hs FD g R a X Y o A) as [(_ & C & _ & Hy)|[(_ & C & _ & c & (e & E & _ & ->) & _)|[(_ & c & C & -> & Hy & _)|[(_ & (e & E & Z & ->) & _)|[(_ & (e & E & Z & ->) & _)|(e & E & -> & H)]]]]].
  - left. apply in_prod; [now apply corridor_in|]. apply in_app_iff. left. now apply line_ys_all.
  - left. apply in_prod; [now apply corridor_in|]. apply in_app_iff. right. apply in_map, line_ends_all, (end_ok d hs e E).
  - right. left. apply in_prod; [|now apply line_ys_all]. destruct C as [-> | [-> | ->]]; cbn; auto.
  - do 2 right. left. apply in_flat_map. exists e. split; [apply line_ends_all, (end_ok d hs e E)|]. left. congruence.
  - do 2 right. left. apply in_flat_map. exists e. split; [apply line_ends_all, (end_ok d hs e E)|]. right. left. rewrite Z. f_equal. lia.
  - do 3 right. apply in_flat_map. exists (tab e). split; [apply in_seq; pose proof (end_range d hs e E); lia|].
    destruct H as [(_ & -> & _)|(_ & -> & _)]; cbn; auto.
Qed.

Lemma node_places : exists zs, Forall2 (fun n z => hpoint (rn_loc n) (fst z) (snd z)) ns zs /\ incl zs (spots hs).
Proof.
  assert (H : forall l, (forall n, In n l -> In n ns) -> exists zs, Forall2 (fun n z => hpoint (rn_loc n) (fst z) (snd z)) l zs /\ incl zs (spots hs)).
  { induction l as [|n l IH]; intros I; [exists []; split; [constructor|intros ? []]|].
    destruct IH as (zs & F & Inc); [intros; apply I; now right|].
    destruct (In_nth_error _ _ (I n (or_introl eq_refl))) as (a & Ha). destruct (nth_spot d hs g R a n Ha) as (X & Y & A & Hp).
    exists ((X, Y) :: zs). split; [now constructor|]. intros z [<-|Iz]; [exact (spots_all a X Y _ A)|now apply Inc]. }
  apply H. auto.
Qed.
Theorem grid_nodes : (length (rg_nodes g) <= 16 * length hs + 6 * list_sum hs)%nat.
Proof.
  destruct node_places as (zs & F & Inc). fold ns. rewrite (Forall2_length' _ _ _ F), <- spots_count. apply NoDup_incl_length; [|exact Inc].
  apply NoDup_nth_error. intros i j Li E. destruct (Nat.eq_dec i j) as [|Ne]; [assumption|]. exfalso.
  destruct (nth_error zs i) as [z|] eqn:Hi; [|apply nth_error_None in Hi; lia].
  destruct (forall2_nth_r _ _ _ F i z Hi) as (n & Hn & Pn). destruct (forall2_nth_r _ _ _ F j z (eq_sym E)) as (n' & Hn' & Pn').
  exact (rt_distinct _ _ _ R i j n n' Hn Hn' Ne (hpoint_same _ _ _ _ Pn Pn')).
Qed.
End Doc.

Theorem module_graph m vb g d : fits (table_rows m) -> layout_module m = Ret (vb, g, d) ->
  (length (rg_nodes g) <= 16 * length (table_rows m) + 6 * list_sum (table_rows m))%nat.
Proof.
  intros F L. destruct (layout_routes m vb g d F L) as (d0 & M & V & D & R). exact (grid_nodes _ _ (module_ends m d0 M F) g R).
Qed.

(** ** The searches *)

Lemma loop_more nbrs cost goal n f : forall k st, astar_loop f nbrs cost goal n st <> Panic POutOfFuel ->
  astar_loop (f + k) nbrs cost goal n st = astar_loop f nbrs cost goal n st.
Proof.
  induction f as [|f IH]; intros k st H; [now destruct H|]. cbn [astar_loop Nat.add] in *.
  destruct (heap_pop (a_heap st)) as [[[s x] h]|]; [|reflexivity]. destruct (Nat.eqb x goal); [reflexivity|].
  destruct (nget x (a_scores st)); [|reflexivity]. cbn zeta in *.
  destruct (match nget x (a_est st) with Some old => negb (old <=? s)%N | None => true end); [|now apply IH].
  destruct (foldM _ _ _) as [st'|]; cbn [bind] in *; [now apply IH|reflexivity].
Qed.

Theorem search_steps m vb g d a b : layout_module m = Ret (vb, g, d) -> (a < length (rg_nodes g))%nat ->
  astar_loop (8 * length (rg_nodes g) + 2) (neighbors (rg_edges g)) (rg_cost (rg_nodes g)) b (length (rg_nodes g)) (mkA [(0%N, a)] [(a, 0%N)] [] []) <> Panic POutOfFuel.
Proof.
  intros L La. destruct (any_graph m vb g d L) as (_ & E). cbn zeta in E.
  destruct (layout_split m vb g d L) as (d0 & M & V & D). destruct (draw_split _ _ _ _ D) as (B & _ & _).
  destruct (build_ok rg_new _ g graph_new B) as (Ok & _).
  pose proof (search_correct (rg_edges g) (rg_cost (rg_nodes g)) (length (rg_nodes g)) a b (straight_within g (ok_straight g Ok)) La) as S.
  cbn zeta in S. replace (8 * length (rg_nodes g) + 2)%nat with ((2 * length (rg_edges g) + 2) + (8 * length (rg_nodes g) - 2 * length (rg_edges g)))%nat by lia.
  rewrite loop_more; destruct S as [c l H|H|x w H]; discriminate.
Qed.

(** At most 16 searches for a relation. *)
Lemma pairs_count s t : (length (n_ports s) <= 4)%nat -> (length (n_ports t) <= 4)%nat -> (length (port_pairs s t) <= 16)%nat.
Proof.
  intros Hs Ht. unfold port_pairs. rewrite (flat_map_bound _ 4); [lia|]. intros x _. now rewrite map_length.
Qed.
Theorem few_searches m vb g d e s t : layout_module m = Ret (vb, g, d) -> In e (d_edges d) ->
  get_node d (e_source e) = Some s -> get_node d (e_target e) = Some t -> (length (port_pairs s t) <= 16)%nat.
Proof.
  intros L I Gs Gt. destruct (layout_split m vb g d L) as (d0 & M & V & D). destruct (draw_split _ _ _ _ D) as (_ & N & F2).
  destruct (forall2_in_r _ _ _ _ F2 I) as (e0 & I0 & (E1 & E2) & _). unfold get_node in Gs, Gt. rewrite N, E1 in Gs. rewrite N, E2 in Gt.
  pose proof (module_few m d0 M) as Few. apply pairs_count; [exact (Few e0 (e_source e0) s I0 (or_introl eq_refl) Gs)|exact (Few e0 (e_target e0) t I0 (or_intror eq_refl) Gt)].
Qed.
