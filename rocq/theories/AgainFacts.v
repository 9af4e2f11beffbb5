(** Layout done again. *)
From Coq Require Import String List Arith NArith ZArith Bool Lia.
From Verif Require Import Base F32 Geometry Mir Erd Route Layout Cli SpecMir SpecF32 SpecGeom SpecLayout SpecRoute SpecGraph SpecCrash SpecAgain
  GeomFacts MirFacts LayoutFacts PipelineFacts SearchFacts GraphFacts PathFacts LatticeFacts DrawFacts RepeatFacts CrashFacts OuterFacts.
From Verif Require ConnectFacts.
Import ListNotations.

(** ** Positions *)

Definition bare_node (n : node_data) : node_data := mkNode None None [] (n_kind n) (n_children n).
Definition bare (d : document) : document := mkDoc (map bare_node (d_nodes d)) [].
Definition put (d : document) (w : node_id * (point * size)) : document := update_node d (fst w) (set_geometry (fst (snd w)) (snd (snd w))).

Lemma update_map_same {A B} (h : A -> B) (k : A -> A) i l : (forall x, h (k x) = h x) -> map h (update i k l) = map h l.
Proof. intros E. revert i. induction l as [|x l IH]; intros [|i]; cbn; try reflexivity; [now rewrite E|now rewrite IH]. Qed.
Lemma put_bare d w : bare (put d w) = bare d.
Proof. unfold bare, put, update_node. cbn [d_nodes d_edges]. f_equal. now apply update_map_same. Qed.
Lemma puts_bare ws : forall d, bare (fold_left put ws d) = bare d.
Proof. induction ws as [|w ws IH]; intros d; cbn [fold_left]; [reflexivity|]. now rewrite IH, put_bare. Qed.
Lemma bare_get d d' i n : bare d = bare d' -> get_node d i = Some n -> exists n', get_node d' i = Some n' /\ n_kind n' = n_kind n /\ n_children n' = n_children n.
Proof.
  unfold bare, get_node. intros E H. injection E as E. pose proof (map_nth_error bare_node i _ H) as M. rewrite E, nth_error_map in M.
  destruct (nth_error (d_nodes d') i) as [n'|]; [|discriminate]. exists n'. split; [reflexivity|]. cbn in M. injection M as M1 M2. auto.
Qed.
Lemma bare_none d d' i : bare d = bare d' -> get_node d i = None -> get_node d' i = None.
Proof.
  intros E H. destruct (get_node d' i) as [n|] eqn:G; [|reflexivity]. destruct (bare_get d' d i n (eq_sym E) G) as (n' & G' & _). congruence.
Qed.

(** What is written depends neither on positions nor on sizes. *)
Lemma field_puts x y ic d : exists ws, forall d', bare d' = bare d -> place_field x y d' ic = fold_left put ws d'.
Proof.
  destruct ic as [k id]. destruct (get_node d id) as [n|] eqn:G.
  - destruct (n_kind n) as [|r|f] eqn:K.
    + exists []. intros d' E. destruct (bare_get d d' id n (eq_sym E) G) as (n' & G' & K' & _). unfold place_field. now rewrite G', K', K.
    + exists []. intros d' E. destruct (bare_get d d' id n (eq_sym E) G) as (n' & G' & K' & _). unfold place_field. now rewrite G', K', K.
    + eexists [(id, (_, _))]. intros d' E. destruct (bare_get d d' id n (eq_sym E) G) as (n' & G' & K' & _). unfold place_field. rewrite G', K', K. reflexivity.
  - exists []. intros d' E. unfold place_field. now rewrite (bare_none d d' id (eq_sym E) G).
Qed.
Lemma fields_puts x y l d : exists ws, forall d', bare d' = bare d -> fold_left (place_field x y) l d' = fold_left put ws d'.
Proof.
  induction l as [|ic l (ws & IH)]; [exists []; reflexivity|]. destruct (field_puts x y ic d) as (w1 & H). exists (w1 ++ ws).
  intros d' E. cbn [fold_left]. rewrite fold_left_app, (H d' E). apply IH. now rewrite puts_bare.
Qed.
Lemma record_puts ic d y h : exists ws y' h', forall d', bare d' = bare d -> place_record (d', y, h) ic = (fold_left put ws d', y', h').
Proof.
  destruct ic as [k id]. unfold place_record.
  destruct (if Nat.ltb 0 k && Nat.eqb (k mod GRID_N_COLUMNS) 0 then (fadd y (fadd h RECORD_SPACE), F_MIN) else (y, h)) as [y1 h1].
  destruct (get_node d id) as [n|] eqn:G.
  - destruct (n_kind n) as [|r|f] eqn:K.
    + exists [], y1, h1. intros d' E. destruct (bare_get d d' id n (eq_sym E) G) as (n' & G' & K' & _). now rewrite G', K', K.
    + set (x := fadd (px ORIGIN) (fmul (fadd RECORD_WIDTH RECORD_SPACE) (f32_of_nat (k mod GRID_N_COLUMNS)))).
      destruct (fields_puts x y1 (enum (n_children n)) d) as (ws & H).
      exists ((id, (mkPoint x y1, mkSize RECORD_WIDTH (fmul LINE_HEIGHT (f32_of_nat (length (n_children n)))))) :: ws), y1, (fmax (fmul LINE_HEIGHT (f32_of_nat (length (n_children n)))) h1).
      intros d' E. destruct (bare_get d d' id n (eq_sym E) G) as (n' & G' & K' & C'). rewrite G', K', K, C'. cbn [fold_left]. f_equal. f_equal.
      match goal with |- _ = fold_left put ws ?z => apply (H z) end. rewrite put_bare. exact E.
    + exists [], y1, h1. intros d' E. destruct (bare_get d d' id n (eq_sym E) G) as (n' & G' & K' & _). now rewrite G', K', K.
  - exists [], y1, h1. intros d' E. now rewrite (bare_none d d' id (eq_sym E) G).
Qed.
Lemma records_puts l d : forall y h, exists ws y' h', forall d', bare d' = bare d -> fold_left place_record l (d', y, h) = (fold_left put ws d', y', h').
Proof.
  induction l as [|ic l IH]; intros y h; [exists [], y, h; reflexivity|].
  destruct (record_puts ic d y h) as (w1 & y1 & h1 & H1). destruct (IH y1 h1) as (w2 & y2 & h2 & H2). exists (w1 ++ w2), y2, h2.
  intros d' E. cbn [fold_left]. rewrite (H1 d' E), fold_left_app. apply H2. now rewrite puts_bare.
Qed.
Lemma place_puts d : exists ws vb, forall d', bare d' = bare d -> place_nodes d' = (fold_left put ws d', vb).
Proof.
  destruct (records_puts (enum (body_children d)) d (py ORIGIN) F_MIN) as (ws & y & h & H). do 2 eexists. intros d' E. unfold place_nodes.
  assert (B : body_children d' = body_children d).
  { unfold body_children. destruct (get_node d 0) as [n|] eqn:G; [|now rewrite (bare_none d d' 0 (eq_sym E) G)].
    destruct (bare_get d d' 0 n (eq_sym E) G) as (n' & -> & _ & ->). reflexivity. }
  rewrite B, (H d' E). reflexivity.
Qed.

(** The last position given counts. *)
Fixpoint given (ws : list (node_id * (point * size))) (i : node_id) : option (point * size) :=
  match ws with
  | [] => None
  | w :: ws => match given ws i with Some v => Some v | None => if Nat.eqb (fst w) i then Some (snd w) else None end
  end.
Definition settle (v : option (point * size)) (n : node_data) : node_data := match v with Some (o, s) => set_geometry o s n | None => n end.
Lemma puts_get ws : forall d i, nth_error (d_nodes (fold_left put ws d)) i = option_map (settle (given ws i)) (nth_error (d_nodes d) i).
Proof.
  induction ws as [|[k [o s]] ws IH]; intros d i; cbn [fold_left given fst snd].
  - cbn [settle]. now destruct (nth_error (d_nodes d) i).
  - rewrite IH. unfold put at 1, update_node. cbn [d_nodes fst snd]. destruct (Nat.eqb_spec k i) as [->|Ne].
    + rewrite nth_update_same. destruct (nth_error (d_nodes d) i) as [n|]; [|reflexivity]. cbn [option_map]. destruct (given ws i) as [[o' s']|]; reflexivity.
    + rewrite nth_update_other by exact Ne. now destruct (given ws i).
Qed.
Lemma puts_edges ws : forall d, d_edges (fold_left put ws d) = d_edges d.
Proof. induction ws as [|w ws IH]; intros d; cbn [fold_left]; [reflexivity|]. now rewrite IH. Qed.
Lemma nth_ext' {A} (l l' : list A) : (forall i, nth_error l i = nth_error l' i) -> l = l'.
Proof.
  revert l'. induction l as [|x l IH]; intros [|y l'] H; try reflexivity; try (specialize (H 0); discriminate).
  pose proof (H 0) as E. injection E as ->. f_equal. apply IH. intros i. exact (H (S i)).
Qed.
Lemma puts_twice ws d : fold_left put ws (fold_left put ws d) = fold_left put ws d.
Proof.
  enough (E : d_nodes (fold_left put ws (fold_left put ws d)) = d_nodes (fold_left put ws d)).
  { pose proof (puts_edges ws (fold_left put ws d)) as E'. destruct (fold_left put ws (fold_left put ws d)) as [a b]. cbn in *.
    destruct (fold_left put ws d) as [a' b']. cbn in *. congruence. }
  apply nth_ext'. intros i. rewrite !puts_get. destruct (nth_error (d_nodes d) i) as [n|]; [|reflexivity]. cbn [option_map].
  destruct (given ws i) as [[o s]|]; reflexivity.
Qed.

Theorem place_again d d1 vb : place_nodes d = (d1, vb) -> place_nodes d1 = (d1, vb).
Proof.
  destruct (place_puts d) as (ws & vb' & H). intros P. rewrite (H d eq_refl) in P. injection P as <- <-.
  rewrite (H _ (puts_bare ws d)), puts_twice. reflexivity.
Qed.

(** ** Paths *)

Section Draw.
Variables (g g' : route_graph) (d d' : document).
Hypothesis Hg : engine_graph g.
Hypothesis Hd : draw_edge_path g d = Ret (g', d').
Hypothesis Hn : named_ports d.
Hypothesis Hp : forall p, end_port d p -> proper (port_location p).
Hypothesis Hj : forall p, In p (edge_junctions d) -> proper p.

Lemma drawn_nodes : d_nodes d' = d_nodes d. Proof. apply draw_split in Hd. tauto. Qed.
Lemma drawn_ends {A} (f : node_id -> node_id -> list A) : flat_map (fun e => f (e_source e) (e_target e)) (d_edges d') = flat_map (fun e => f (e_source e) (e_target e)) (d_edges d).
Proof.
  apply draw_split in Hd as (_ & _ & F). induction F as [|e e' l l' ((E1 & E2) & _) F IH]; [reflexivity|]. cbn [flat_map]. now rewrite E1, E2, IH.
Qed.
Lemma same_shapes : shape_rects d' = shape_rects d.
Proof. unfold shape_rects, body_children, get_node. now rewrite drawn_nodes. Qed.
Lemma same_ends_ports e : edge_end_ports d' e = edge_end_ports d e.
Proof. unfold edge_end_ports, get_node. now rewrite drawn_nodes. Qed.
Lemma same_from p l : junctions_from_port d' p l = junctions_from_port d p l.
Proof. unfold junctions_from_port. now rewrite same_shapes. Qed.
Lemma same_junctions : edge_junctions d' = edge_junctions d.
Proof.
  unfold edge_junctions, remove_overlapped, junctions_around_shapes. rewrite same_shapes. f_equal. f_equal.
  set (around := flat_map _ (shape_rects d)).
  pose (f := fun s t => flat_map (fun p => junctions_from_port d p around) (match get_node d s, get_node d t with Some s, Some t => n_ports s ++ n_ports t | _, _ => [] end)).
  transitivity (flat_map (fun e => f (e_source e) (e_target e)) (d_edges d')); [|exact (drawn_ends f)].
  apply flat_map_ext. intros e. unfold f. rewrite same_ends_ports. apply flat_map_ext. intros p. apply same_from.
Qed.
Lemma same_port_list : flat_map (edge_end_ports d') (d_edges d') = flat_map (edge_end_ports d) (d_edges d).
Proof.
  pose (f := fun s t => match get_node d s, get_node d t with Some s, Some t => n_ports s ++ n_ports t | _, _ => [] end).
  transitivity (flat_map (fun e => f (e_source e) (e_target e)) (d_edges d')); [|exact (drawn_ends f)].
  apply flat_map_ext. intros e. apply same_ends_ports.
Qed.

Lemma edges_known l h : (forall a b, In (a, b) l -> joined (rg_edges h) a b) -> fold_left rg_add_edge l h = h.
Proof.
  induction l as [|[a b] l IH]; intros K; [reflexivity|]. cbn [fold_left rg_add_edge].
  pose proof (K a b (or_introl eq_refl)) as J. apply neighbors_joined, existsb_nat in J. rewrite J. apply IH. intros x y I. apply K. now right.
Qed.

Lemma listed_port p : In p (flat_map (edge_end_ports d) (d_edges d)) -> end_port d p.
Proof.
  intros I. apply in_flat_map in I as (e1 & I1 & I). unfold edge_end_ports in I. destruct (get_node d (e_source e1)) as [s|] eqn:Gs; [|destruct I].
  destruct (get_node d (e_target e1)) as [t|] eqn:Gt; [|destruct I].
  apply in_app_or in I as [I|I]; [exists e1, (e_source e1), s|exists e1, (e_target e1), t]; auto.
Qed.
Lemma routes_again : exists h, build_routes g' d' = Ret h /\ same_graph g' h.
Proof.
  pose proof (engine_ok g Hg) as G. destruct (draw_split _ _ _ _ Hd) as (B & _ & _). pose proof (build_ok g d g' G B) as [G' _].
  unfold build_routes in *. rewrite same_junctions, same_port_list.
  apply bind_ret in B as (g1 & A1 & B). apply bind_ret in B as (g2 & A2 & B). injection B as E.
  destruct (add_nodes_spec _ _ _ A1) as (_ & _ & _ & _ & K1). destruct (add_ports_spec _ _ _ A2) as (E2 & _ & _ & _ & K2).
  destruct (add_edges_spec (neighbor_edges d (rg_nodes g2)) g2) as (N & P & _ & _ & _ & J). unfold connect_neighbors in E. cbn zeta in *. rewrite E in N, P, J.
  assert (X1 : foldM rg_add_node (edge_junctions d) g' = Ret g').
  { apply nodes_known; [apply G'|]. intros p I. destruct (K1 p I (Hj p I)) as (n & In_ & S & O). exists n. split; [|auto]. rewrite N.
    apply In_nth_error in In_ as (k & Hk). eapply nth_error_In, extends_nth; eauto. }
  rewrite X1. cbn [bind].
  destruct (ports_known (flat_map (edge_end_ports d) (d_edges d)) g' (ok_places g' G')) as (h & F & S).
  { intros p I. destruct (K2 p I) as (q & i & Iq & Eq & Gq & W). exists i. unfold rg_get_port in *. rewrite P. split; [exact Gq|].
    assert (q = p) as -> by (apply Hn; [now apply listed_port|now apply listed_port|exact Eq]). pose proof (weak_stands _ _ _ W (Hp _ (listed_port _ I))) as (n & Hn' & R).
    exists n. rewrite N. auto. }
  rewrite F. cbn [bind]. exists (connect_neighbors d' h). split; [reflexivity|]. unfold connect_neighbors.
  assert (Ne : neighbor_edges d' (rg_nodes h) = neighbor_edges d (rg_nodes g2)).
  { unfold neighbor_edges. rewrite same_shapes. destruct S as (<- & _). now rewrite N. }
  rewrite Ne, edges_known; [exact S|]. intros a b I. destruct S as (_ & <- & _). now apply J.
Qed.

Lemma paths_again h : same_graph g' h -> forall l l', Forall2 (fun e e' => same_ends e e' /\ exists p, e_path e' = Some p /\ find_edge_path g' d e = Ret (Some p)) l l' ->
  exists ps, find_paths h d' l' = Ret ps /\ assign_paths l' ps = Ret l'.
Proof.
  intros S l l' F. induction F as [|e e' l l' ((E1 & E2) & p & Ep & Fp) F (ps & IH1 & IH2)]; [exists []; split; reflexivity|].
  exists (p :: ps). cbn [find_paths assign_paths].
  assert (X : find_edge_path h d' e' = Ret (Some p)).
  { rewrite (same_find g' h d d' e S (eq_sym drawn_nodes)) in Fp. unfold find_edge_path in *. now rewrite E1, E2. }
  rewrite X. cbn [bind]. rewrite IH1. cbn [bind]. rewrite IH2. cbn [bind]. split; [reflexivity|]. do 2 f_equal.
  destruct e' as [s t x]. cbn in *. unfold set_path_points. cbn. now rewrite Ep.
Qed.

Theorem draw_again : exists h, draw_edge_path g' d' = Ret (h, d') /\ same_routes g' h.
Proof.
  destruct routes_again as (h & B & S). exists h. split; [|exact S]. unfold draw_edge_path. rewrite B. cbn [bind].
  destruct (draw_split _ _ _ _ Hd) as (_ & _ & F). destruct (paths_again h S _ _ F) as (ps & P1 & P2). rewrite P1. cbn [bind]. rewrite P2. cbn [bind].
  now destruct d'.
Qed.
End Draw.

(** Every document of a module, once it is laid out, stays as it is. *)
Lemma place_settled d d1 vb d2 : place_nodes d = (d1, vb) ->
  Forall2 (fun n n' => n_kind n' = n_kind n /\ n_children n' = n_children n /\ n_origin n' = n_origin n /\ n_size n' = n_size n) (d_nodes d1) (d_nodes d2) ->
  place_nodes d2 = (d2, vb).
Proof.
  destruct (place_puts d) as (ws & vb' & H). intros P F. rewrite (H d eq_refl) in P. injection P as <- <-.
  assert (B : bare d2 = bare d).
  { rewrite <- (puts_bare ws d). unfold bare. f_equal. induction F as [|n n' l l' (K & C & _) F IH]; [reflexivity|]. cbn [map]. rewrite IH. f_equal.
    unfold bare_node. now rewrite K, C. }
  rewrite (H d2 B). f_equal. pose proof (puts_edges ws d2) as Ee.
  enough (E : d_nodes (fold_left put ws d2) = d_nodes d2).
  { destruct (fold_left put ws d2) as [a b], d2 as [a' b']. cbn in *. congruence. }
  apply nth_ext'. intros i. rewrite puts_get. destruct (nth_error (d_nodes d2) i) as [n'|] eqn:E2; [|reflexivity]. cbn [option_map].
  destruct (given ws i) as [[o s]|] eqn:Eg; [|reflexivity]. cbn [settle].
  assert (Q : exists n, nth_error (d_nodes (fold_left put ws d)) i = Some n /\ n_origin n' = n_origin n /\ n_size n' = n_size n).
  { clear - F E2. revert i E2. induction F as [|n m l l' X F IH]; intros [|i] E2; cbn in E2; try discriminate; [injection E2 as <-; exists n; cbn; tauto|exact (IH i E2)]. }
  destruct Q as (n & En & Eo & Es). rewrite puts_get, Eg in En. destruct (nth_error (d_nodes d) i) as [n0|]; [|discriminate]. cbn in En. injection En as <-. cbn in Eo, Es.
  unfold set_geometry. destruct n' as [o' s' ps k c]. cbn in *. now subst.
Qed.

Theorem module_again m vb g d : fits (table_rows m) -> layout_module m = Ret (vb, g, d) ->
  place_nodes d = (d, vb) /\ exists h, draw_edge_path g d = Ret (h, d) /\ same_routes g h.
Proof.
  intros F L. destruct (layout_split m vb g d L) as (d0 & M & V & D). pose proof (module_grid m d0 M F) as GD. split.
  - apply draw_split in D as (_ & N & _). destruct (place_nodes d0) as [d1 vb1] eqn:P. cbn in V. subst vb1.
    apply (place_settled d0 d1 vb d P). rewrite N. exact (proj2 (ports_frame d1)).
  - apply (draw_again _ _ _ _ engine_new D (module_named m d0 M)).
    + intros p E. destruct (gd_port _ _ GD p E) as (i & X & Y & _ & H & _). eapply ConnectFacts.hpoint_proper, H.
    + intros p I. destruct (junctions_sound _ _ GD _ I) as (x & y & H & _). eapply ConnectFacts.hpoint_proper, H.
Qed.

(** ** Another document *)

Definition low_tables : module := three 1 1 1 [rel_fields "a" "a" "b" "a"].
Definition high_tables : module := three 5 5 5 [rel_fields "a" "a" "c" "e"].

Lemma throughb_all p q r : runs_through p q r -> throughb p q r = true.
Proof. unfold throughb, runs_through, betweenb, spansb, between. rewrite !orb_true_iff, !andb_true_iff, !orb_true_iff, !andb_true_iff. tauto. Qed.
Lemma stepsb_all l1 p q l2 r : runs_through p q r -> stepsb (l1 ++ p :: q :: l2) r = true.
Proof.
  intros H. apply throughb_all in H. induction l1 as [|x l1 IH].
  - change (throughb p q r || stepsb (q :: l2) r = true). now rewrite H.
  - cbn [app]. destruct (l1 ++ p :: q :: l2) as [|y l] eqn:E; [discriminate|]. change (throughb x y r || stepsb (y :: l) r = true). rewrite IH. apply orb_true_r.
Qed.
Definition clearb (d : document) : bool := forallb (fun e => match e_path e with Some ps => forallb (fun r => negb (stepsb ps r)) (shape_rects d) | None => true end) (d_edges d).
Lemma clearb_ok d : clearb d = true -> forall e i, In e (d_edges d) -> ~ crosses_table d e i.
Proof.
  intros H e i I (B & _ & n & r & l1 & p & q & l2 & G & R & P & T). unfold clearb in H. rewrite forallb_forall in H. specialize (H e I).
  rewrite P, forallb_forall in H. assert (In r (shape_rects d)) as Ir.
  { unfold shape_rects. clear - B G R. induction (body_children d) as [|k l IH]; [destruct B|]. cbn [filter_map]. destruct B as [->|B].
    - rewrite G, R. now left.
    - specialize (IH B). destruct (get_node d k) as [m|]; [destruct (node_rect m)|]; [right| |]; exact IH. }
  specialize (H r Ir). now rewrite (stepsb_all l1 p q l2 r T) in H.
Qed.

Definition after_low : bool :=
  match layout_module low_tables, layout_module high_tables, into_mir high_tables with
  | Ret (_, g, _), Ret (_, _, d'), Ret d0 =>
      match draw_edge_path g (place_terminal_ports (fst (place_nodes d0))) with
      | Ret (_, d'') => clearb d' && existsb (fun e => existsb (crossesb d'' e) (body_children d'')) (d_edges d'')
      | Panic _ => false
      end
  | _, _, _ => false
  end.
Theorem used_engine :
  exists m m' vb g d vb' g' d' d0 h d'', fits (table_rows m) /\ fits (table_rows m') /\ layout_module m = Ret (vb, g, d) /\ layout_module m' = Ret (vb', g', d') /\
  into_mir m' = Ret d0 /\ draw_edge_path g (place_terminal_ports (fst (place_nodes d0))) = Ret (h, d'') /\
  (forall e i, In e (d_edges d') -> ~ crosses_table d' e i) /\ (exists e i, In e (d_edges d'') /\ crosses_table d'' e i).
Proof.
  assert (Q : after_low = true) by (vm_compute; reflexivity). unfold after_low in Q.
  destruct (layout_module low_tables) as [ [[vb g] d] |] eqn:L; [|discriminate].
  destruct (layout_module high_tables) as [ [[vb' g'] d'] |] eqn:L'; [|discriminate].
  destruct (into_mir high_tables) as [d0|] eqn:M; [|discriminate].
  destruct (draw_edge_path g (place_terminal_ports (fst (place_nodes d0)))) as [ [h d''] |] eqn:D; [|discriminate].
  exists low_tables, high_tables, vb, g, d, vb', g', d', d0, h, d''. apply andb_true_iff in Q as [Q1 Q2].
  split; [unfold fits; vm_compute; discriminate|]. split; [unfold fits; vm_compute; discriminate|]. do 4 (split; [assumption|]).
  split; [exact (clearb_ok d' Q1)|]. apply existsb_exists in Q2 as (e & Ie & Q2). apply existsb_exists in Q2 as (i & _ & Q2). exists e, i. split; [exact Ie|now apply crossesb_ok].
Qed.
