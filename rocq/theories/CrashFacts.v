(** Witnesses of crossed tables and crashes; self relations always crash. *)
From Coq Require Import String List Arith NArith ZArith Bool Lia.
From Verif Require Import Base F32 Geometry Mir Erd Heap Chumsky Parser Route Layout Svg Render Cli
  SpecRoute SpecGraph SpecMir SpecLayout SpecRender SpecCrash
  SearchFacts MirFacts GridFacts LayoutFacts RenderFacts PipelineFacts GraphFacts PathFacts.
Import ListNotations.

(** ** Crossing, decided *)

Definition betweenb (a x b : f32) : bool := flt a x && flt x b.
Definition spansb (u v lo hi : f32) : bool := flt u lo && flt hi v || flt v lo && flt hi u.
Definition throughb (p q : point) (r : rect) : bool :=
  (feq (py p) (py q) && betweenb (min_y r) (py p) (max_y r) && spansb (px p) (px q) (min_x r) (max_x r)) ||
  (feq (px p) (px q) && betweenb (min_x r) (px p) (max_x r) && spansb (py p) (py q) (min_y r) (max_y r)).
Lemma throughb_ok p q r : throughb p q r = true -> runs_through p q r.
Proof.
  unfold throughb, runs_through, betweenb, spansb, between. rewrite !orb_true_iff, !andb_true_iff, !orb_true_iff, !andb_true_iff.
  tauto.
Qed.

Fixpoint stepsb (ps : list point) (r : rect) : bool :=
  match ps with
  | p :: (q :: _) as t => throughb p q r || stepsb t r
  | _ => false
  end.
Lemma stepsb_ok ps r : stepsb ps r = true -> exists l1 p q l2, ps = l1 ++ p :: q :: l2 /\ runs_through p q r.
Proof.
  induction ps as [|p ps IH]; [discriminate|]. destruct ps as [|q ps]; [discriminate|].
  change (stepsb (p :: q :: ps) r) with (throughb p q r || stepsb (q :: ps) r).
  rewrite orb_true_iff. intros [H|H].
  - exists [], p, q, ps. split; [reflexivity|]. now apply throughb_ok.
  - destruct (IH H) as (l1 & x & y & l2 & E & R). exists (p :: l1), x, y, l2. rewrite E. auto.
Qed.

Definition crossesb (d : document) (e : edge_data) (i : node_id) : bool :=
  existsb (Nat.eqb i) (body_children d) &&
  negb (Nat.eqb i (e_source e) || Nat.eqb i (e_target e)) &&
  match get_node d i with
  | Some n => negb (existsb (Nat.eqb (e_source e)) (n_children n) || existsb (Nat.eqb (e_target e)) (n_children n)) &&
      match node_rect n, e_path e with Some r, Some ps => stepsb ps r | _, _ => false end
  | None => false
  end.
Lemma crossesb_ok d e i : crossesb d e i = true -> crosses_table d e i.
Proof.
  unfold crossesb, crosses_table, own_table. rewrite !andb_true_iff, negb_true_iff, orb_false_iff, existsb_nat, !Nat.eqb_neq.
  intros [[B [N1 N2]] H]. split; [exact B|]. destruct (get_node d i) as [n|] eqn:G; [|discriminate].
  apply andb_true_iff in H as [N H]. apply negb_true_iff, orb_false_iff in N as [C1 C2]. split.
  - intros [E|[E|(n' & G' & [C|C])]]; try congruence; injection G' as <-; apply existsb_nat in C; congruence.
  - destruct (node_rect n) as [r|] eqn:R; [|discriminate]. destruct (e_path e) as [ps|] eqn:P; [|discriminate].
    apply stepsb_ok in H as (l1 & p & q & l2 & E & T). exists n, r, l1, p, q, l2. rewrite E. auto.
Qed.

Definition some_crossing (m : module) : bool :=
  match layout_module m with
  | Ret (_, _, d) => existsb (fun e => existsb (crossesb d e) (body_children d)) (d_edges d)
  | Panic _ => false
  end.
Lemma some_crossing_ok m : some_crossing m = true ->
  exists vb g d e i, layout_module m = Ret (vb, g, d) /\ In e (d_edges d) /\ crosses_table d e i.
Proof.
  unfold some_crossing. destruct (layout_module m) as [[[vb g] d]|]; [|discriminate].
  intros H. apply existsb_exists in H as (e & I & H). apply existsb_exists in H as (i & _ & H).
  exists vb, g, d, e, i. split; [reflexivity|]. split; [exact I|]. now apply crossesb_ok.
Qed.

(** Three tables with one field each, the outer ones related. *)
Definition crossing_source : str :=
  lit "erd { a { x int }; b { x int }; c { x int }; a.x o--o c.x }".
Definition crossing_module : module :=
  let e := fun s => EDef (mkEntity (lit s) [mkField (lit "x") TInt None]) in
  mkModule None [e "a"%string; e "b"%string; e "c"%string;
    ERel (mkRelation (PField (lit "a") (lit "x")) (PField (lit "c") (lit "x")))].
Lemma crossing_parsed : parse crossing_source = Ret (mkParse (Some crossing_module) [] []).
Proof. vm_compute. reflexivity. Qed.
Lemma crossing_crosses : some_crossing crossing_module = true.
Proof. vm_compute. reflexivity. Qed.

Theorem table_crossed : exists src m vb g d e i, parse src = Ret (mkParse (Some m) [] []) /\
  layout_module m = Ret (vb, g, d) /\ In e (d_edges d) /\ crosses_table d e i.
Proof.
  destruct (some_crossing_ok _ crossing_crosses) as (vb & g & d & e & i & H).
  exists crossing_source, crossing_module, vb, g, d, e, i. split; [exact crossing_parsed|exact H].
Qed.

(** ** Self relations *)

Lemma search_self g a : compute_shortest_path g a a = Ret (0%N, [a]).
Proof.
  unfold compute_shortest_path. rewrite Nat.add_comm. cbn [Nat.add astar_loop heap_pop rev app a_heap a_scores a_pred].
  rewrite Nat.eqb_refl. cbn [walk_back nget assoc bind]. unfold nget. cbn [assoc]. now rewrite Nat.eqb_refl.
Qed.

Lemma best_kept g l : forall best st, foldM (try_pair g) l (0%N, best) = Ret st -> st = (0%N, best).
Proof.
  induction l as [|pq l IH]; intros best st H; cbn [foldM] in H; [now injection H as <-|].
  apply bind_ret in H as (s & T & H). assert (s = (0%N, best)) as ->; [|eauto].
  unfold try_pair in T. destruct (rg_get_port g (port_ident (fst pq))); [|congruence].
  destruct (rg_get_port g (port_ident (snd pq))); [|congruence].
  apply bind_ret in T as ([c p] & _ & T). destruct (N.ltb_spec c 0); [lia|]. congruence.
Qed.

Lemma self_path g d e n p ps a pts : e_source e = e_target e -> get_node d (e_source e) = Some n ->
  n_ports n = p :: ps -> rg_get_port g (port_ident p) = Some a ->
  find_edge_path g d e = Ret (Some pts) -> length pts = 1.
Proof.
  intros E G P A H. unfold find_edge_path in H. rewrite <- E, G in H.
  apply bind_ret in H as ([c best] & F & H). unfold port_pairs in F. rewrite P in F. cbn [flat_map map app foldM] in F.
  unfold try_pair at 1 in F. cbn [fst snd] in F. rewrite A, search_self in F. cbn [bind] in F.
  change ((0 <? u32_max)%N) with true in F. cbn iota in F. cbn [bind] in F. apply best_kept in F. injection F as -> ->.
  cbn [snd] in H. apply bind_ret in H as (l & L & H). injection H as ->. apply locations_ok in L.
  inversion L as [|? ? ? ? _ L']; subst. now inversion L'.
Qed.

Lemma shown_has_ports m d e q : into_mir m = Ret d -> shows_path d q e ->
  exists n p ps, get_node (place_terminal_ports (fst (place_nodes d))) e = Some n /\ n_ports n = p :: ps.
Proof.
  intros M S. destruct (port_sides m d M) as [T R].
  destruct S as [i en I Hs|r en n h rows k i f I Hs G C K F].
  - apply In_nth_error in I as (k & I). destruct (T k i I) as (n & Gn & Pn). exists n.
    destruct (n_ports n) as [|p ps]; [discriminate|]. eauto.
  - apply In_nth_error in I as (j & I). destruct (R j (S k) i) as (n' & Gn & Pn).
    { exists r, n. split; [exact I|]. split; [exact G|]. rewrite C. exact K. }
    exists n'. destruct (n_ports n') as [|p ps]; [|eauto]. exfalso. cbn in Pn. unfold row_sides in Pn.
    destruct (Nat.eqb (S k) 0); discriminate.
Qed.

Theorem self_relation_crashes m d e : into_mir m = Ret d -> In e (d_edges d) -> e_source e = e_target e ->
  exists p, render_module m = Abort p.
Proof.
  intros M I E. destruct (render_module m) as [svg|x|p] eqn:R; [exfalso|destruct (modules_never_lack_geometry m x R)|eauto].
  unfold render_module in R. destruct (layout_module m) as [[[vb g] d3]|] eqn:L; [|discriminate].
  destruct (layout_split m vb g d3 L) as (d0 & M0 & _ & D). rewrite M in M0. injection M0 as <-.
  pose proof (module_named m d M) as Nm.
  set (d2 := place_terminal_ports (fst (place_nodes d))) in *.
  assert (Ed : d_edges d2 = d_edges d).
  { destruct (place_nodes d) as [d1 v1] eqn:P. destruct (places_all m d d1 v1 M P) as [[E1 _] _].
    destruct (ports_frame d1) as [E2 _]. subst d2. cbn [fst]. congruence. }
  destruct (draw_split _ _ _ _ D) as (B & _ & F). rewrite Ed in F.
  assert (X : exists e' p, In e' (d_edges d3) /\ e_path e' = Some p /\ find_edge_path g d2 e = Ret (Some p)).
  { clear -F I. induction F as [|a b l l' (S & p & P1 & P2) F IH]; [destruct I|]. destruct I as [<-|I].
    - exists b, p. split; [now left|auto].
    - destruct (IH I) as (e' & q & J & K). exists e', q. split; [now right|exact K]. }
  destruct X as (e' & pts & I' & P' & Fp).
  pose proof (into_mir_edges_show m d M) as Sh. rewrite Forall_forall in Sh.
  destruct (Sh e I) as (r & _ & S1 & S2).
  destruct (shown_has_ports m d (e_source e) _ M S1) as (n & p & ps & Gn & Pn). fold d2 in Gn.
  destruct (registered rg_new d2 g e n n p Nm B) as (a & Ga & _); auto.
  { now rewrite Ed. } { now rewrite <- E. } { rewrite Pn. left. now left. }
  pose proof (self_path g d2 e n p ps a pts E Gn Pn Ga Fp) as Len.
  apply render_okay in R as [(_ & _ & N3) _]. unfold none_of in N3. rewrite Forall_forall in N3.
  apply (N3 e' I'). right. exists pts. split; [exact P'|]. left. lia.
Qed.

(** ** Sources that crash *)

Definition crash_of (src : str) : option panic :=
  match parse src with
  | Ret r => match pr_ast r, pr_lex_errs r, pr_parse_errs r with
             | Some m, [], [] => match render_module m with Abort p => Some p | _ => None end
             | _, _, _ => None
             end
  | Panic _ => None
  end.
Lemma crash_of_ok src p : crash_of src = Some p ->
  exists m, parse src = Ret (mkParse (Some m) [] []) /\ render_module m = Abort p.
Proof.
  unfold crash_of. destruct (parse src) as [[[m|] [|? ?] [|? ?]]|]; cbn; try discriminate.
  intros H. exists m. split; [reflexivity|]. destruct (render_module m); congruence.
Qed.

Definition self_source : str := lit "erd { users { id int; name text }; users.id o--o users.id }".
Definition own_field_source : str := lit "erd { users { id int }; users. o--o users.id }".
Definition turn_source : str :=
  lit "erd { a { x int; y int }; b { x int; y int; z int }; c { }; d { x int }; a. o--o d.x }".

Lemma self_crash : crash_of self_source = Some PShortPath.
Proof. vm_compute. reflexivity. Qed.
Lemma own_field_crash : crash_of own_field_source = Some PShortPath.
Proof. vm_compute. reflexivity. Qed.
Lemma turn_crash : exists i, crash_of turn_source = Some (PTurnaround i).
Proof. eexists. vm_compute. reflexivity. Qed.
