(** Tables beyond the range in which coordinates are exact. *)
From Coq Require Import String Ascii List Arith NArith ZArith Bool Lia.
From Verif Require Import Base F32 Geometry Mir Erd Route Layout Svg Render Parser Cli
  SpecGrammar SpecGraph SpecMir SpecLayout SpecRender SpecLink SpecCrash SpecXml
  SearchFacts MirFacts PlaceFacts GridFacts LayoutFacts RenderFacts PipelineFacts GraphFacts PathFacts CrashFacts LinkFacts ParseFacts ParseWitness RoundTrip.
Import ListNotations.

(** ** Relations between places with a port in common *)

Lemma common_path g d e s t p ps q qs a pts : get_node d (e_source e) = Some s -> get_node d (e_target e) = Some t ->
  n_ports s = p :: ps -> n_ports t = q :: qs -> rg_get_port g (port_ident p) = Some a -> rg_get_port g (port_ident q) = Some a ->
  find_edge_path g d e = Ret (Some pts) -> length pts = 1.
Proof.
  intros Gs Gt Ps Pt A B H. unfold find_edge_path in H. rewrite Gs, Gt in H.
  apply bind_ret in H as ([c best] & F & H). unfold port_pairs in F. rewrite Ps, Pt in F. cbn [flat_map map app foldM] in F.
  unfold try_pair at 1 in F. cbn [fst snd] in F. rewrite A, B, search_self in F. cbn [bind] in F.
  change ((0 <? u32_max)%N) with true in F. cbn iota in F. cbn [bind] in F. apply best_kept in F. injection F as -> ->.
  cbn [snd] in H. apply bind_ret in H as (l & L & H). injection H as ->. apply locations_ok in L.
  inversion L as [|? ? ? ? _ L']; subst. now inversion L'.
Qed.

Lemma place_twice g p q a b : distinct_places (rg_nodes g) -> stands_weak g p a -> stands_weak g q b ->
  port_location p = port_location q -> same_place (port_location p) (port_location p) -> a = b.
Proof.
  intros D (n & Hn & Sn & _) (n' & Hn' & Sn' & _) E P. destruct (Nat.eq_dec a b) as [|N]; [assumption|exfalso].
  apply (D a b n n' Hn Hn' N). rewrite <- E in Sn'.
  assert (J : same_place (rn_loc n) (port_location p)) by (destruct Sn as [S| ->]; auto).
  assert (J' : same_place (rn_loc n') (port_location p)) by (destruct Sn' as [S| ->]; auto).
  exact (same_place_trans _ _ _ J (same_place_sym _ _ J')).
Qed.

Theorem common_port_crashes m d e s t p ps q qs : into_mir m = Ret d -> In e (d_edges d) ->
  get_node (place_terminal_ports (fst (place_nodes d))) (e_source e) = Some s ->
  get_node (place_terminal_ports (fst (place_nodes d))) (e_target e) = Some t ->
  n_ports s = p :: ps -> n_ports t = q :: qs -> port_location p = port_location q -> same_place (port_location p) (port_location p) ->
  exists x, render_module m = Abort x.
Proof.
  intros M I Gs Gt Ps Pt Lq Pr. destruct (render_module m) as [svg|x|x] eqn:R; [exfalso|destruct (modules_never_lack_geometry m x R)|eauto].
  unfold render_module in R. destruct (layout_module m) as [[[vb g] d3]|] eqn:L; [|discriminate].
  destruct (layout_split m vb g d3 L) as (d0 & M0 & _ & D). rewrite M in M0. injection M0 as <-.
  pose proof (module_named m d M) as Nm.
  set (d2 := place_terminal_ports (fst (place_nodes d))) in *.
  assert (Ed : d_edges d2 = d_edges d).
  { destruct (place_nodes d) as [d1 v1] eqn:P. destruct (places_all m d d1 v1 M P) as [[E1 _] _].
    destruct (ports_frame d1) as [E2 _]. subst d2. cbn [fst]. congruence. }
  destruct (draw_split _ _ _ _ D) as (B & _ & F). rewrite Ed in F.
  assert (X : exists e' p, In e' (d_edges d3) /\ e_path e' = Some p /\ find_edge_path g d2 e = Ret (Some p)).
  { clear -F I. induction F as [|a b l l' (S & p & P1 & P2) F IH]; [destruct I|]. destruct I as [<-|I].
    - exists b, p. split; [now left|auto].
    - destruct (IH I) as (e' & q & J & K). exists e', q. split; [now right|exact K]. }
  destruct X as (e' & pts & I' & P' & Fp). rewrite <- Ed in I.
  destruct (registered rg_new d2 g e s t p Nm B I Gs Gt) as (a & Ga & Sa); [rewrite Ps; left; now left|].
  destruct (registered rg_new d2 g e s t q Nm B I Gs Gt) as (b & Gb & Sb); [rewrite Pt; right; now left|].
  destruct (build_ok rg_new d2 g graph_new B) as [Go _].
  pose proof (place_twice g p q a b (ok_places g Go) Sa Sb Lq Pr) as <-.
  pose proof (common_path g d2 e s t p ps q qs a pts Gs Gt Ps Pt Ga Gb Fp) as Len.
  apply render_okay in R as [(_ & _ & N3) _]. unfold none_of in N3. rewrite Forall_forall in N3.
  apply (N3 e' I'). right. exists pts. split; [exact P'|]. left. lia.
Qed.

(** ** A table with many rows *)

Definition field_named (s : string) : entity_field := mkField (lit s) TInt None.
Definition long_table (n : nat) : entity_definition :=
  mkEntity (lit "a") (repeat (field_named "z") n ++ [field_named "x"; field_named "y"]).
Definition long_module (n : nat) : module :=
  mkModule None [EDef (long_table n); ERel (mkRelation (PField (lit "a") (lit "x")) (PField (lit "a") (lit "y")))].

Lemma long_rows n : rows (long_table n) = n + 3.
Proof. unfold rows, long_table. cbn [ent_fields]. rewrite app_length, repeat_length. cbn. lia. Qed.

Lemma long_row n (E : list edge_data) k : k < n + 3 -> exists nd, get_node (doc_of [long_table n] E) (1 + k) = Some nd /\ n_ports nd = [] /\
  get_node (ported [long_table n] E) (1 + k) =
  Some (mkNode (Some (mkPoint (table_x 0) (row_y (py ORIGIN) k))) (Some (mkSize RECORD_WIDTH LINE_HEIGHT))
     (number_ports (1 + k) 0 (field_ports (n + 3) k (mkRect (mkPoint (table_x 0) (row_y (py ORIGIN) k)) (mkSize RECORD_WIDTH LINE_HEIGHT))))
     (n_kind nd) (n_children nd)).
Proof.
  intros L. rewrite <- (long_rows n) in L. destruct (row_node [long_table n] E [] (long_table n) [] k eq_refl L) as (nd & G & P & _).
  exists nd. change (base []) with 1 in G. split; [exact G|]. split; [exact P|].
  pose proof (ported_row [long_table n] E [] (long_table n) [] k nd eq_refl L G) as R. cbn zeta in R.
  change (base []) with 1 in R. rewrite P in R. rewrite long_rows in R. exact R.
Qed.

Lemma long_links n : links [] (m_entries (long_module n)) [(Row 0 (n + 1), Row 0 (n + 2))].
Proof.
  cbn [m_entries long_module]. apply links_def. cbn [app].
  assert (F : forall s k, nth_error (ent_fields (long_table n)) k = Some (field_named s) ->
    (forall j f, k < j -> nth_error (ent_fields (long_table n)) j = Some f -> f_name f <> lit s) ->
    refers [long_table n] (PField (lit "a") (lit s)) (Row 0 (S k))).
  { intros s k H N. apply refers_row with (long_table n).
    - split; [reflexivity|]. split; [split; [reflexivity|]|].
      + change (lit s) with (f_name (field_named s)). apply in_map. now apply nth_error_In in H.
      + intros [|j] e' L Q; [lia|]. destruct j; discriminate.
    - split; [eauto|]. intros j f L Q. apply (N j f L Q). }
  assert (G : forall j, nth_error (ent_fields (long_table n)) (n + j) = nth_error [field_named "x"; field_named "y"] j).
  { intros j. unfold long_table. cbn [ent_fields]. rewrite nth_error_app2; rewrite repeat_length; [|lia]. f_equal. lia. }
  apply links_rel; [| |constructor]; cbn [rel_start rel_end].
  - rewrite Nat.add_1_r. apply F; [pose proof (G 0) as G0; rewrite Nat.add_0_r in G0; exact G0|].
    intros j f L Q. replace j with (n + (j - n)) in Q by lia. rewrite G in Q.
    destruct (j - n) as [|[|k]] eqn:J; [lia| |destruct k; discriminate]. injection Q as <-. discriminate.
  - replace (n + 2) with (S (n + 1)) by lia. apply F; [rewrite G; reflexivity|].
    intros j f L Q. replace j with (n + (j - n)) in Q by lia. rewrite G in Q.
    destruct (j - n) as [|[|k]] eqn:J; [lia|lia|destruct k; discriminate].
Qed.

Lemma long_plain n : plain_module (long_module n).
Proof.
  split; [discriminate|]. cbn [m_entries long_module]. constructor; [|constructor; [|constructor]].
  - constructor; [now apply plainb_plain|]. cbn [ent_fields long_table]. apply Forall_app. split.
    + apply Forall_forall. intros f I. apply repeat_spec in I as ->. now apply plainb_plain.
    + constructor; [now apply plainb_plain|]. constructor; [now apply plainb_plain|constructor].
  - constructor; constructor; now apply plainb_plain.
Qed.

Lemma row_y_at (k : nat) (z : Z) : Z.of_nat k = z -> row_y (py ORIGIN) k = fadd (py ORIGIN) (fmul LINE_HEIGHT (f32_of_Z z)).
Proof. intros <-. reflexivity. Qed.

Theorem long_crashes : exists src m ls p, accepted src m /\ countable m /\ links [] (m_entries m) ls /\
  Forall (fun pq => exists i k j l, pq = (Row i k, Row j l) /\ (i, k) <> (j, l)) ls /\
  (forall r, In (ERel r) (m_entries m) -> fields_joined r) /\ render_module m = Abort p.
Proof.
  assert (Hn : exists n, Z.of_nat n = 15339169%Z) by (exists (Z.to_nat 15339169); apply Z2Nat.id; discriminate).
  destruct Hn as (n & Hn). exists (show_module (long_module n)), (long_module n), [(Row 0 (n + 1), Row 0 (n + 2))].
  assert (C : exists p, render_module (long_module n) = Abort p).
  { destruct (into_mir_returns (long_module n)) as (d & M & _). destruct (ported_result _ _ M) as (E & Hd & Hp). cbn zeta in Hd, Hp.
    change (definitions (m_entries (long_module n))) with [long_table n] in Hd, Hp.
    pose proof (proj2 (into_mir_edges _ d M (d_edges d)) eq_refl) as Eo.
    destruct (edges_links [] _ _ Eo) as (ls & L & F). cbn [definitions] in L.
    pose proof (links_unique _ _ _ L _ (long_links n)) as ->. cbn [app] in F.
    assert (X : exists e, In e (d_edges d) /\ node_of [long_table n] (Row 0 (n + 1)) (e_source e) /\ node_of [long_table n] (Row 0 (n + 2)) (e_target e)).
    { clear -F. destruct (d_edges d) as [|e es]; inversion F as [|? ? ? ? N]; subst. exists e. split; [now left|exact N]. }
    destruct X as (e & Ie & N1 & N2). cbn [node_of] in N1, N2.
    destruct N1 as (a & x & c & Q & La & _ & S1). destruct N2 as (a' & x' & c' & Q' & La' & _ & S2).
    destruct a; [|discriminate]. destruct a'; [|discriminate]. change (base []) with 1 in S1, S2.
    destruct (long_row n E (n + 1)) as (n1 & _ & _ & G1); [lia|]. destruct (long_row n E (n + 2)) as (n2 & _ & _ & G2); [lia|].
    rewrite <- S1 in G1. rewrite <- S2 in G2. 
    assert (Y1 : row_y (py ORIGIN) (n + 1) = fadd (py ORIGIN) (fmul LINE_HEIGHT (f32_of_Z 15339170))) by (apply row_y_at; lia).
    assert (Y2 : row_y (py ORIGIN) (n + 2) = row_y (py ORIGIN) (n + 1)).
    { rewrite Y1. rewrite (row_y_at (n + 2) 15339171) by lia. vm_compute. reflexivity. }
    assert (P1 : forall r, field_ports (n + 3) (n + 1) r = [port_right r; port_left r]).
    { intros r. unfold field_ports. destruct (Nat.eqb_spec (n + 3) 1); [lia|]. destruct (Nat.eqb_spec (n + 1) 0); [lia|].
      destruct (Nat.eqb_spec (n + 1) (n + 3 - 1)); [lia|reflexivity]. }
    assert (P2 : forall r, field_ports (n + 3) (n + 2) r = [port_right r; port_down r; port_left r]).
    { intros r. unfold field_ports. destruct (Nat.eqb_spec (n + 3) 1); [lia|]. destruct (Nat.eqb_spec (n + 2) 0); [lia|].
      destruct (Nat.eqb_spec (n + 2) (n + 3 - 1)); [reflexivity|lia]. }
    rewrite P1 in G1. rewrite P2, Y2 in G2. rewrite Y1 in G1, G2.
    eapply (common_port_crashes (long_module n) _ e _ _ _ _ _ _ M); [|rewrite Hp; exact G1|rewrite Hp; exact G2|reflexivity|reflexivity|reflexivity|].
    - exact Ie.
    - vm_compute. split; reflexivity. }
  destruct C as (p & C). exists p. split; [|split; [|split; [|split; [|split]]]].
  - exists (mkParse (Some (long_module n)) [] []). split; [exact (print_parse _ (long_plain n))|]. repeat split.
  - unfold countable, table_rows. cbn [m_entries long_module definitions map]. constructor; [|constructor].
    change (S (length (ent_fields (long_table n)))) with (rows (long_table n)). rewrite long_rows. lia.
  - exact (long_links n).
  - constructor; [|constructor]. exists 0, (n + 1), 0, (n + 2). split; [reflexivity|]. intros Q. injection Q. lia.
  - intros r [Q|[Q|[]]]; [discriminate|]. injection Q as <-. exists (lit "a"), (lit "x"), (lit "a"), (lit "y"). split; [reflexivity|]. split; [reflexivity|discriminate].
  - exact C.
Qed.

(** ** Rows that overlap *)

Theorem long_overlaps : exists m d d' vb k id jd r s, into_mir m = Ret d /\ place_nodes d = (d', vb) /\ countable m /\ row_id d 0 k id /\ row_id d 0 (S k) jd /\ has_rect d' id r /\ has_rect d' jd s /\ flt (min_y r) (min_y s) = true /\ flt (min_y s) (max_y r) = true.
Proof.
  assert (Hn : exists n, Z.of_nat n = 479350%Z) by (exists (Z.to_nat 479350); apply Z2Nat.id; discriminate).
  destruct Hn as (n & Hn). exists (long_module n).
  destruct (into_mir_returns (long_module n)) as (d & M & _). destruct (place_nodes d) as [d' vb] eqn:P. exists d, d', vb, n, (1 + n), (1 + S n).
  destruct (placed_result _ _ _ _ M P) as (E & Hd & Hp & _ & _). cbn zeta in Hd, Hp.
  change (definitions (m_entries (long_module n))) with [long_table n] in Hd, Hp. subst d d'.
  assert (G : forall k, k < n + 3 -> exists nd, get_node (placed [long_table n] E) (1 + k) =
     Some (set_geometry (mkPoint (table_x 0) (row_y (py ORIGIN) k)) (mkSize RECORD_WIDTH LINE_HEIGHT) nd)).
  { intros k L. rewrite <- (long_rows n) in L. destruct (row_node [long_table n] E [] (long_table n) [] k eq_refl L) as (nd & G & _).
    exists nd. exact (placed_row [long_table n] E [] (long_table n) [] k nd eq_refl L G). }
  assert (R : forall k, k < n + 3 -> row_id (doc_of [long_table n] E) 0 k (1 + k)).
  { intros k L. exists (record_at 1 (long_table n)), (record_node 1 (long_table n)).
    split; [exact (table_id_at [long_table n] E _ [] (long_table n) [] (shape_refl _) eq_refl)|].
    split; [exact (get_record [long_table n] E [] (long_table n) [] eq_refl)|]. change (n_children (record_node 1 (long_table n))) with (seq 1 (rows (long_table n))). rewrite long_rows.
    rewrite (nth_error_nth' _ 0) by (rewrite seq_length; lia). now rewrite seq_nth by lia. }
  destruct (G n) as (n1 & G1); [lia|]. destruct (G (S n)) as (n2 & G2); [lia|].
  assert (Y1 : row_y (py ORIGIN) n = fadd (py ORIGIN) (fmul LINE_HEIGHT (f32_of_Z 479350))) by (apply row_y_at; lia).
  assert (Y2 : row_y (py ORIGIN) (S n) = fadd (py ORIGIN) (fmul LINE_HEIGHT (f32_of_Z 479351))) by (apply row_y_at; lia).
  exists (mkRect (mkPoint (table_x 0) (row_y (py ORIGIN) n)) (mkSize RECORD_WIDTH LINE_HEIGHT)),
    (mkRect (mkPoint (table_x 0) (row_y (py ORIGIN) (S n))) (mkSize RECORD_WIDTH LINE_HEIGHT)).
  split; [exact M|]. split; [exact P|]. split.
  { unfold countable, table_rows. cbn [m_entries long_module definitions map]. constructor; [|constructor].
    change (S (length (ent_fields (long_table n)))) with (rows (long_table n)). rewrite long_rows. lia. }
  split; [apply R; lia|]. split; [apply R; lia|].
  split; [eexists; split; [exact G1|reflexivity]|]. split; [eexists; split; [exact G2|reflexivity]|].
  unfold min_y, max_y. cbn [origin rsize px py height]. rewrite Y1, Y2. split; vm_compute; reflexivity.
Qed.

(** ** Diagrams without lines *)

Lemma junctions_added l : forall g, Forall (fun n => rn_orient n = None) (rg_nodes g) -> exists g', foldM rg_add_node l g = Ret g'.
Proof.
  induction l as [|p l IH]; intros g F; cbn [foldM]; [eauto|].
  assert (A : exists g', rg_add_node g p = Ret g' /\ Forall (fun n => rn_orient n = None) (rg_nodes g')).
  { unfold rg_add_node, rg_add_node_. pose proof (find_loc_spec p (rg_nodes g) 0) as S.
    destruct (find_loc p 0 (rg_nodes g)) as [[k n]|].
    - destruct S as (_ & N & _). apply nth_error_In in N. rewrite Forall_forall in F. rewrite (F n N). cbn. exists g.
      split; [reflexivity|]. apply Forall_forall. exact F.
    - cbn. eexists. split; [reflexivity|]. cbn [rg_nodes]. apply Forall_app. split; [exact F|]. repeat constructor. }
  destruct A as (g' & -> & F'). cbn [bind]. now apply IH.
Qed.

Theorem no_lines m : links [] (m_entries m) [] -> exists svg, render_module m = Okay svg.
Proof.
  intros L. destruct (into_mir_returns m) as (d & M & _).
  pose proof (proj2 (into_mir_edges _ d M (d_edges d)) eq_refl) as Eo.
  destruct (edges_links [] _ _ Eo) as (ls & L' & F). pose proof (links_unique _ _ _ L' _ L) as ->.
  assert (E : d_edges d = []) by now inversion F. clear F Eo L L'.
  destruct (place_nodes d) as [d1 vb] eqn:P. destruct (places_all m d d1 vb M P) as [[E1 _] _].
  destruct (ports_frame d1) as [E2 _]. set (d2 := place_terminal_ports d1) in *. rewrite E1, E in E2.
  assert (D : exists g d3, layout_module m = Ret (vb, g, d3) /\ d_edges d3 = []).
  { unfold layout_module. rewrite M. cbn [bind]. rewrite P. fold d2. unfold draw_edge_path, build_routes, edge_junctions. rewrite E2.
    destruct (junctions_added (remove_overlapped d2 (junctions_around_shapes d2 ++ [])) rg_new (Forall_nil _)) as (g & G).
    cbn [flat_map]. rewrite G. cbn. eexists. eexists. split; reflexivity. }
  destruct D as (g & d3 & Lm & E3). pose proof (modules_never_lack_geometry m) as NF. unfold render_module in *. rewrite Lm in *.
  destruct (render (Some vb) None d3) as [svg|x|p] eqn:R; [eauto|now destruct (NF x)|exfalso].
  apply render_abort_iff in R as (_ & _ & e & ps & Fo & _). rewrite E3 in Fo. destruct Fo as (a & b & Q & _). destruct a; discriminate Q.
Qed.
