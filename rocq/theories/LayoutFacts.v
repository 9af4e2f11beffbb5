(** Properties of the layout of modules. *)
From Coq Require Import List Arith NArith ZArith Reals Bool Lia Lra.
From Verif Require Import Base F32 Geometry Mir Erd SpecMir MirFacts Heap Route Layout
  SpecF32 SpecLayout F32Facts GeomFacts PlaceFacts GridFacts OverlapFacts.
Import ListNotations.

Lemma mir_doc m d : into_mir m = Ret d -> exists E, d = doc_of (definitions (m_entries m)) E.
Proof.
  intros H. destruct (into_mir_eq m) as (l & _ & E). rewrite E in H. injection H as <-. eauto.
Qed.

Lemma hs_module m : table_rows m = hs_of (definitions (m_entries m)).
Proof. reflexivity. Qed.

(** ** Identifiers *)
Lemma record_ids_nth ds : forall b i id, nth_error (record_ids b ds) i = Some id <->
  exists a e c, ds = a ++ e :: c /\ length a = i /\ id = record_at (b + total_nodes a) e.
Proof.
  induction ds as [|e ds IH]; intros b i id.
  - split; [destruct i; discriminate|]. intros (a & e & c & H & _). destruct a; discriminate.
  - cbn [record_ids]. destruct i as [|i].
    + cbn [nth_error]. split.
      * intros [= <-]. exists [], e, ds. repeat split; auto. change (total_nodes []) with 0. now rewrite Nat.add_0_r.
      * intros (a & e' & c & H & L & ->). destruct a; [|discriminate]. injection H as -> ->.
        change (total_nodes []) with 0. now rewrite Nat.add_0_r.
    + cbn [nth_error]. rewrite IH. split.
      * intros (a & e' & c & -> & <- & ->). exists (e :: a), e', c. repeat split; auto.
        rewrite total_cons. unfold node_count, record_at in *. lia.
      * intros (a & e' & c & H & L & ->). destruct a as [|e0 a]; [discriminate|].
        injection H as -> ->. exists a, e', c. repeat split; auto.
        rewrite total_cons. unfold node_count, record_at in *. lia.
Qed.

Lemma table_id_eq ds E d i id : same_shape d (doc_of ds E) -> table_id d i id ->
  exists a e c, ds = a ++ e :: c /\ length a = i /\ id = record_at (base a) e.
Proof.
  intros S H. unfold table_id in H. rewrite (sk_body _ _ S) in H.
  change (body_children (doc_of ds E)) with (record_ids 1 ds) in H. now apply record_ids_nth in H.
Qed.

Lemma table_id_at ds E d a e c : same_shape d (doc_of ds E) -> ds = a ++ e :: c ->
  table_id d (length a) (record_at (base a) e).
Proof.
  intros S H. unfold table_id. rewrite (sk_body _ _ S).
  change (body_children (doc_of ds E)) with (record_ids 1 ds). apply record_ids_nth. eauto 7.
Qed.

Lemma row_id_eq ds E d i k id : same_shape d (doc_of ds E) -> row_id d i k id ->
  exists a e c, ds = a ++ e :: c /\ length a = i /\ (k < rows e)%nat /\ id = base a + k.
Proof.
  intros S (t & n & T & G & C). destruct (table_id_eq ds E d i t S T) as (a & e & c & Hd & L & ->).
  pose proof (sk_record ds E d a e c S Hd) as R. apply sk_some in R as (n' & G' & _ & C').
  rewrite G in G'. injection G' as <-. rewrite C' in C.
  assert (k < rows e)%nat.
  { rewrite <- (seq_length (rows e) (base a)). apply nth_error_Some. intros Q.
    revert C. unfold node_id. rewrite Q. discriminate. }
  exists a, e, c. repeat split; auto. unfold node_id in C.
  rewrite (nth_error_nth' _ 0) in C by (rewrite seq_length; lia).
  rewrite seq_nth in C by trivial. congruence.
Qed.

Lemma shape_refl d : same_shape d d.
Proof. now intros i. Qed.

Lemma row_node ds E a e c k : ds = a ++ e :: c -> (k < rows e)%nat ->
  exists n, get_node (doc_of ds E) (base a + k) = Some n /\ n_ports n = [] /\ n_children n = [].
Proof.
  intros Hd Hk. destruct k as [|k].
  - rewrite Nat.add_0_r, (get_header ds E a e c Hd). eauto.
  - destruct (nth_error (ent_fields e) k) as [f|] eqn:Ef.
    + replace (base a + S k) with (base a + 1 + k) by lia.
      rewrite (get_column ds E a e c k f Hd Ef). eauto.
    + apply nth_error_None in Ef. unfold rows in Hk. lia.
Qed.

(** ** C22 *)
Lemma doc_ext d d' : d_edges d = d_edges d' -> (forall i, get_node d i = get_node d' i) -> d = d'.
Proof.
  destruct d as [ns es], d' as [ns' es']. unfold get_node. cbn. intros -> H. f_equal.
  revert ns' H. induction ns as [|n ns IH]; intros [|n' ns'] H; auto.
  - specialize (H 0). discriminate.
  - specialize (H 0). discriminate.
  - pose proof (H 0) as H0. cbn in H0. injection H0 as ->. f_equal. apply IH. intros i. exact (H (S i)).
Qed.

Lemma Forall2_of_nth {A} (P : A -> A -> Prop) l l' :
  (forall i, match nth_error l i, nth_error l' i with
             | Some a, Some b => P a b | None, None => True | _, _ => False end) -> Forall2 P l l'.
Proof.
  revert l'. induction l as [|a l IH]; intros [|b l'] H.
  - apply Forall2_nil.
  - now specialize (H 0).
  - now specialize (H 0).
  - apply Forall2_cons; [exact (H 0)|]. apply IH. intros i. exact (H (S i)).
Qed.

Lemma apply_geo_frame l d : NoDup (map fst l) -> same_but_geometry d (apply_geo l d).
Proof.
  intros N. split; [apply apply_geo_edges|]. apply Forall2_of_nth. intros i.
  pose proof (get_apply_geo l d i N) as G. unfold get_node in G. rewrite G.
  destruct (nlookup i l) as [[o s]|]; destruct (nth_error (d_nodes d) i); cbn; auto.
Qed.

Lemma placed_all ds E i n : get_node (placed ds E) i = Some n -> i <> 0 -> exists r, node_rect n = Some r.
Proof.
  intros H N. pose proof (apply_geo_shape (full_log ds) (doc_of ds E) i) as SK.
  unfold sk in SK. fold (placed ds E) in SK. rewrite H in SK.
  destruct (get_node (doc_of ds E) i) as [n0|] eqn:G; [|discriminate].
  apply nodes_cases in G. destruct G as [|a e c Hd|a e c k f Hd Hk|a e c Hd]; [congruence| | |].
  - rewrite <- (Nat.add_0_r (base a)) in H.
    rewrite (placed_row ds E a e c 0 (header_node e)) in H; auto; [|unfold rows; lia|].
    + injection H as <-. cbn. eauto.
    + rewrite Nat.add_0_r. now apply (get_header ds E a e c).
  - replace (base a + 1 + k) with (base a + S k) in H by lia.
    rewrite (placed_row ds E a e c (S k) (column_node f)) in H; auto.
    + injection H as <-. cbn. eauto.
    + unfold rows. assert (k < length (ent_fields e)) by (apply nth_error_Some; congruence). lia.
    + replace (base a + S k) with (base a + 1 + k) by lia. now apply (get_column ds E a e c).
  - rewrite (placed_record ds E a e c Hd) in H. injection H as <-. cbn. eauto.
Qed.

Theorem places_all m d d' vb : into_mir m = Ret d -> place_nodes d = (d', vb) ->
  same_but_geometry d d' /\
  (forall i n, get_node d' i = Some n -> i <> 0 -> exists r, node_rect n = Some r) /\
  (exists n, get_node d' 0 = Some n /\ node_rect n = None) /\
  place_nodes d' = (d', vb).
Proof.
  intros H P. apply mir_doc in H as (E & ->). set (ds := definitions (m_entries m)) in *.
  rewrite (place_nodes_eq ds E) in P by apply shape_refl. injection P as <- <-.
  split; [apply apply_geo_frame, grid_log_nodup, keyed_geo|].
  split; [exact (placed_all ds E)|]. split.
  - fold (placed ds E). rewrite placed_body, get_body. eexists. split; reflexivity.
  - rewrite (place_nodes_eq ds E) by apply apply_geo_shape. f_equal.
    apply doc_ext; [now rewrite apply_geo_edges|]. intros i.
    rewrite !get_apply_geo by apply grid_log_nodup, keyed_geo.
    destruct (nlookup i (full_log ds)) as [[o s]|]; [|reflexivity].
    now destruct (get_node (doc_of ds E) i).
Qed.

(** ** C23, C25, C26 *)
Lemma placed_result m d d' vb : into_mir m = Ret d -> place_nodes d = (d', vb) ->
  exists E, let ds := definitions (m_entries m) in
  d = doc_of ds E /\ d' = placed ds E /\ vb = view_of ds /\ same_shape d' d.
Proof.
  intros H P. apply mir_doc in H as (E & ->). exists E. cbn zeta.
  rewrite (place_nodes_eq _ E) in P by apply shape_refl. injection P as <- <-.
  repeat split; auto. apply apply_geo_shape.
Qed.

Lemma placed_table_at ds E a e c : fits (hs_of ds) -> ds = a ++ e :: c ->
  node_at (placed ds E) (record_at (base a) e) (table_left (length a)) (table_top (hs_of ds) (length a))
          300 (table_height (hs_of ds) (length a)).
Proof.
  intros F Hd. eexists. eexists. split; [exact (placed_record ds E a e c Hd)|].
  split; [reflexivity|]. exact (table_exact ds a e c F Hd).
Qed.

Lemma placed_row_at ds E a e c k : fits (hs_of ds) -> ds = a ++ e :: c -> (k < rows e)%nat ->
  node_at (placed ds E) (base a + k) (table_left (length a))
          (table_top (hs_of ds) (length a) + 35 * Z.of_nat k) 300 35.
Proof.
  intros F Hd Hk. destruct (row_node ds E a e c k Hd Hk) as (n & En & _).
  eexists. eexists. split; [exact (placed_row ds E a e c k n Hd Hk En)|].
  split; [reflexivity|]. exact (row_exact ds a e c k F Hd Hk).
Qed.

Theorem grid_positions m d d' vb : into_mir m = Ret d -> place_nodes d = (d', vb) ->
  fits (table_rows m) -> forall i id, table_id d i id ->
  node_at d' id (table_left i) (table_top (table_rows m) i) 300 (table_height (table_rows m) i).
Proof.
  intros H P F i id T. destruct (placed_result m d d' vb H P) as (E & -> & -> & _ & _).
  destruct (table_id_eq _ E _ i id (shape_refl _) T) as (a & e & c & Hd & <- & ->).
  rewrite hs_module in *. now apply (placed_table_at _ E a e c).
Qed.

Theorem row_positions m d d' vb : into_mir m = Ret d -> place_nodes d = (d', vb) ->
  fits (table_rows m) -> forall i k id, row_id d i k id ->
  node_at d' id (table_left i) (table_top (table_rows m) i + 35 * Z.of_nat k) 300 35.
Proof.
  intros H P F i k id T. destruct (placed_result m d d' vb H P) as (E & -> & -> & _ & _).
  destruct (row_id_eq _ E _ i k id (shape_refl _) T) as (a & e & c & Hd & <- & Hk & ->).
  rewrite hs_module in *. now apply (placed_row_at _ E a e c).
Qed.

Lemma nth_error_seq_map {A} (f : nat -> A) n k x : nth_error (map f (seq 0 n)) k = Some x -> k < n /\ x = f k.
Proof.
  intros H. assert (L : k < n).
  { rewrite <- (seq_length n 0), <- (map_length f). apply nth_error_Some. congruence. }
  split; [exact L|]. rewrite nth_error_map in H.
  rewrite (nth_error_nth' _ 0) in H by now rewrite seq_length. rewrite seq_nth in H by trivial.
  cbn in H. congruence.
Qed.

Theorem rows_tile m d d' vb : into_mir m = Ret d -> place_nodes d = (d', vb) ->
  fits (table_rows m) -> forall i id, table_id d i id ->
  exists n r rs, get_node d' id = Some n /\ node_rect n = Some r /\
    Forall2 (has_rect d') (n_children n) rs /\ tiles r rs.
Proof.
  intros H P F i id T. destruct (placed_result m d d' vb H P) as (E & -> & -> & _ & _).
  destruct (table_id_eq _ E _ i id (shape_refl _) T) as (a & e & c & Hd & <- & ->).
  set (ds := definitions (m_entries m)) in *. rewrite hs_module in F. fold ds in F.
  pose proof (table_exact ds a e c F Hd) as ((X & Y) & W & Hh). unfold table_height in Hh.
  rewrite (nth_hs ds a e c Hd) in Hh.
  cbn [geo_rect table_geo fst snd origin px py rsize width height] in X, Y, W, Hh.
  assert (L : (length a < length (hs_of ds))%nat) by (rewrite hs_length, Hd, app_length; cbn; lia).
  pose proof (row_bottom (hs_of ds) (length a) L) as RB.
  pose proof (nth_tallest (hs_of ds) (length a)) as NT. rewrite (nth_hs ds a e c Hd) in NT.
  pose proof (row_top_ge (hs_of ds) (length a / 3)) as RG. unfold fits in F. fold (table_top (hs_of ds) (length a)) in *.
  assert (R : forall k, (k < rows e)%nat -> hv (row_y (y_of ds (length a)) k) (2 * (table_top (hs_of ds) (length a) + 35 * Z.of_nat k))).
  { intros k Hk. pose proof (row_exact ds a e c k F Hd Hk) as ((_ & Y') & _). exact Y'. }
  assert (Rb : forall k, (k < rows e)%nat -> hv (fadd (row_y (y_of ds (length a)) k) LINE_HEIGHT) (2 * (table_top (hs_of ds) (length a) + 35 * Z.of_nat k) + 70)%Z).
  { intros k Hk. apply hv_add; [now apply R|apply hv_35|]. unfold M24. lia. }
  eexists. exists (geo_rect (table_geo (length a) (y_of ds (length a)) e)).
  exists (map (fun k => geo_rect (row_geo (length a) (y_of ds (length a)) k)) (seq 0 (rows e))).
  split; [exact (placed_record ds E a e c Hd)|]. split; [reflexivity|]. split.
  - cbn [set_geometry n_children record_node].
    change (map (fun k => base a + k)%nat) with (map (fun k => base a + k)%nat).
    change (S (length (ent_fields e))) with (rows e).
    rewrite <- map_add_seq.
    assert (K : forall l, (forall k, In k l -> (k < rows e)%nat) ->
       Forall2 (has_rect (placed ds E)) (map (fun k => (base a + k)%nat) l)
         (map (fun k => geo_rect (row_geo (length a) (y_of ds (length a)) k)) l)).
    { induction l as [|k l IH]; intros Hl; [constructor|]. cbn [map]. constructor.
      - assert (Hk : (k < rows e)%nat) by (apply Hl; now left).
        destruct (row_node ds E a e c k Hd Hk) as (n & En & _).
        eexists. split; [exact (placed_row ds E a e c k n Hd Hk En)|reflexivity].
      - apply IH. intros k' Hk'. apply Hl. now right. }
    apply K. intros k Hk. apply in_seq in Hk. lia.
  - unfold tiles. rewrite map_length, seq_length. split; [discriminate|]. split; [|split; [|split]].
    + intros s Hs. apply in_map_iff in Hs as (k & <- & _). split; reflexivity.
    + intros s Hs. apply nth_error_seq_map in Hs as [Hk ->].
      unfold min_y. cbn [geo_rect row_geo table_geo fst snd origin py].
      rewrite (hv_feq _ _ _ _ (R 0%nat Hk) Y). apply Z.eqb_eq. lia.
    + intros k s t Hs Ht. apply nth_error_seq_map in Hs as [Hk ->]. apply nth_error_seq_map in Ht as [Hk' ->].
      unfold min_y, max_y. cbn [geo_rect row_geo fst snd origin py rsize height].
      rewrite (hv_feq _ _ _ _ (Rb k Hk) (R (S k) Hk')). apply Z.eqb_eq. lia.
    + intros s Hs. apply nth_error_seq_map in Hs as [Hk ->].
      unfold max_y. cbn [geo_rect row_geo table_geo fst snd origin py rsize height].
      assert (B : hv (fadd (y_of ds (length a)) (table_h (rows e))) (2 * table_top (hs_of ds) (length a) + 2 * (35 * Z.of_nat (rows e)))%Z).
      { apply hv_add; [exact Y|exact Hh|]. unfold M24. lia. }
      rewrite (hv_feq _ _ _ _ (Rb _ Hk) B). apply Z.eqb_eq. lia.
Qed.

Theorem view_box m d d' vb : into_mir m = Ret d -> place_nodes d = (d', vb) ->
  fits (table_rows m) -> table_rows m <> [] ->
  exact_rect vb 0 0 1160 (total_height (table_rows m)) /\
  (forall i id, table_id d i id -> exists x y w h, node_at d' id x y w h /\
     (50 <= x /\ 50 <= y /\ x + w + 50 <= 1160 /\ y + h + 50 <= total_height (table_rows m))%Z) /\
  (forall id, table_id d 0 id -> exists w h, node_at d' id 50 50 w h).
Proof.
  intros H P F N. destruct (placed_result m d d' vb H P) as (E & -> & -> & -> & _).
  pose proof (grid_positions m _ _ _ H P F) as G. rewrite hs_module in *.
  set (ds := definitions (m_entries m)) in *. split; [|split].
  - apply view_exact; [exact F|]. intros D. apply N. unfold hs_of. now rewrite D.
  - intros i id T. specialize (G i id T). do 4 eexists. split; [exact G|].
    destruct (table_id_eq _ E _ i id (shape_refl _) T) as (a & e & c & Hd & <- & ->).
    assert (L : (length a < length (hs_of ds))%nat) by (rewrite hs_length, Hd, app_length; cbn; lia).
    pose proof (row_bottom (hs_of ds) (length a) L) as RB.
    pose proof (nth_tallest (hs_of ds) (length a)) as NT.
    pose proof (row_top_ge (hs_of ds) (length a / 3)) as RG.
    pose proof (Nat.mod_upper_bound (length a) 3 ltac:(lia)).
    unfold table_left, table_top, table_height. lia.
  - intros id T. specialize (G 0%nat id T). do 2 eexists. exact G.
Qed.

Theorem empty_view_box m d d' vb : into_mir m = Ret d -> place_nodes d = (d', vb) ->
  definitions (m_entries m) = [] ->
  height (rsize vb) = F_MIN /\ flt (height (rsize vb)) fzero = true.
Proof.
  intros H P D. destruct (placed_result m d d' vb H P) as (E & _ & _ & -> & _). rewrite D.
  split; vm_compute; reflexivity.
Qed.

(** ** C24 *)
Lemma nth_split_eq ds (a : list entity_definition) e c : ds = a ++ e :: c -> nth_error ds (length a) = Some e.
Proof. intros ->. rewrite nth_error_app2, Nat.sub_diag by lia. reflexivity. Qed.

Theorem never_overlap m d d' vb : into_mir m = Ret d -> place_nodes d = (d', vb) -> countable m ->
  forall i j id jd r s, i <> j -> table_id d i id -> table_id d j jd ->
  has_rect d' id r -> has_rect d' jd s ->
  apart r s /\ finite_rect r /\ finite_rect s.
Proof.
  intros H P U i j id jd r s N Ti Tj (n1 & G1 & R1) (n2 & G2 & R2).
  destruct (placed_result m d d' vb H P) as (E & -> & -> & _ & _).
  unfold countable in U. rewrite hs_module in U.
  set (ds := definitions (m_entries m)) in *.
  assert (U' : Forall (fun e => usize (rows e)) ds) by (unfold hs_of in U; now apply Forall_map in U).
  destruct (table_id_eq _ E _ i id (shape_refl _) Ti) as (a & e & c & Hd & <- & ->).
  destruct (table_id_eq _ E _ j jd (shape_refl _) Tj) as (a' & e' & c' & Hd' & <- & ->).
  rewrite (placed_record ds E a e c Hd) in G1. injection G1 as <-. cbn in R1. injection R1 as <-.
  rewrite (placed_record ds E a' e' c' Hd') in G2. injection G2 as <-. cbn in R2. injection R2 as <-.
  pose proof (nth_split_eq ds a e c Hd) as Ni. pose proof (nth_split_eq ds a' e' c' Hd') as Nj.
  split; [|split; [exact (tables_finite ds _ e U' Ni)|exact (tables_finite ds _ e' U' Nj)]].
  destruct (Nat.lt_total (length a) (length a')) as [L|[L|L]]; [|congruence|].
  - left. exact (tables_apart ds _ _ e e' U' L Ni Nj).
  - right. exact (tables_apart ds _ _ e' e U' L Nj Ni).
Qed.

Theorem gap_80 m d d' vb : into_mir m = Ret d -> place_nodes d = (d', vb) -> fits (table_rows m) ->
  forall i j id jd, (i < j)%nat -> table_id d i id -> table_id d j jd ->
  exists x y w h x' y' w' h', node_at d' id x y w h /\ node_at d' jd x' y' w' h' /\
    (x + w + 80 <= x' \/ y + h + 80 <= y')%Z.
Proof.
  intros H P F i j id jd L Ti Tj.
  pose proof (grid_positions m d d' vb H P F i id Ti) as Gi.
  pose proof (grid_positions m d d' vb H P F j jd Tj) as Gj.
  do 8 eexists. split; [exact Gi|]. split; [exact Gj|].
  set (hs := table_rows m) in *. unfold table_left, table_top, table_height.
  pose proof (Nat.div_mod i 3 ltac:(lia)). pose proof (Nat.div_mod j 3 ltac:(lia)).
  pose proof (Nat.div_le_mono i j 3 ltac:(lia) ltac:(lia)).
  destruct (Nat.eq_dec (i / 3) (j / 3)) as [Q|Q]; [left; lia|right].
  pose proof (row_top_mono hs (S (i / 3)) (j / 3) ltac:(lia)) as M. cbn [row_top] in M.
  pose proof (nth_tallest hs i). lia.
Qed.

(** ** C28 *)
Lemma hv_mid x w a b : hv x (2 * a) -> hv w (2 * b) -> (0 <= b)%Z -> (0 <= a)%Z -> (2 * a + 2 * b <= M24)%Z ->
  hv (fadd x (fdiv w (f32_of_Z 2))) (2 * a + b).
Proof.
  intros X W B A L. apply hv_add; [exact X|apply hv_div2; [exact W|]|]; lia.
Qed.

Lemma port_exact id k r x y w h o : exact_rect r x y w h ->
  (0 <= x)%Z -> (0 <= y)%Z -> (0 <= w)%Z -> (0 <= h)%Z -> (2 * x + 2 * w <= M24)%Z -> (2 * y + 2 * h <= M24)%Z ->
  is_port id x y w h o
    (let '(fx, fy, o) := match o with Up => port_up r | Right => port_right r | Down => port_down r | Left => port_left r end in
     mkPort (id, k) (mkPoint fx fy) o).
Proof.
  intros ((X & Y) & W & H) Px Py Pw Ph Bx By.
  assert (Mx : hv (mid_x r) (2 * x + w)) by (apply hv_mid; auto).
  assert (My : hv (mid_y r) (2 * y + h)) by (apply hv_mid; auto).
  assert (Ax : hv (max_x r) (2 * x + 2 * w)) by (apply hv_add; auto; lia).
  assert (Ay : hv (max_y r) (2 * y + 2 * h)) by (apply hv_add; auto; lia).
  destruct o; cbn; unfold is_port, side_midpoint; cbn; split; auto; split; auto; split; auto.
Qed.

Lemma field_ports_sides count k r id : (k < count)%nat ->
  number_ports id 0 (field_ports count k r) =
  map (fun jo => let '(fx, fy, o) := match snd jo with Up => port_up r | Right => port_right r
                                              | Down => port_down r | Left => port_left r end in
       mkPort (id, fst jo) (mkPoint fx fy) o) (enum (row_sides count k)).
Proof.
  intros H. unfold field_ports, row_sides.
  destruct (Nat.eqb_spec count 1) as [->|N1].
  - replace k with 0 by lia. reflexivity.
  - destruct (Nat.eqb_spec k 0) as [->|N2].
    + destruct (Nat.eqb_spec 0 (count - 1)) as [E|E]; [lia|reflexivity].
    + destruct (Nat.eqb_spec k (count - 1)); reflexivity.
Qed.

Lemma Forall2_enum {A B} (P : A -> B -> Prop) (f : nat * A -> B) l :
  (forall k a, P a (f (k, a))) -> Forall2 P l (map f (enum l)).
Proof.
  intros H. unfold enum. generalize 0. induction l as [|a l IH]; intros i; constructor; auto.
Qed.

Definition ports_of (m : module) (d : document) : document := place_terminal_ports (fst (place_nodes d)).

Lemma ported_result m d : into_mir m = Ret d -> exists E, let ds := definitions (m_entries m) in
  d = doc_of ds E /\ place_terminal_ports (fst (place_nodes d)) = ported ds E.
Proof.
  intros H. apply mir_doc in H as (E & ->). exists E. split; [reflexivity|]. apply layout_eq.
Qed.

Theorem table_ports m d : into_mir m = Ret d -> fits (table_rows m) -> forall i id, table_id d i id ->
  exists n, get_node (place_terminal_ports (fst (place_nodes d))) id = Some n /\
    Forall2 (is_port id (table_left i) (table_top (table_rows m) i) 300 (table_height (table_rows m) i))
            [Up; Right; Down; Left] (n_ports n).
Proof.
  intros H F i id T. destruct (ported_result m d H) as (E & -> & ->).
  destruct (table_id_eq _ E _ i id (shape_refl _) T) as (a & e & c & Hd & <- & ->).
  rewrite hs_module in *. set (ds := definitions (m_entries m)) in *.
  eexists. split; [exact (ported_record ds E a e c Hd)|]. cbn [n_ports].
  pose proof (table_exact ds a e c F Hd) as X.
  assert (L : (length a < length (hs_of ds))%nat) by (rewrite hs_length, Hd, app_length; cbn; lia).
  pose proof (row_bottom (hs_of ds) (length a) L) as RB.
  pose proof (nth_tallest (hs_of ds) (length a)) as NT.
  pose proof (row_top_ge (hs_of ds) (length a / 3)) as RG.
  pose proof (Nat.mod_upper_bound (length a) 3 ltac:(lia)). unfold fits in F.
  assert (P : forall k o, is_port (record_at (base a) e) (table_left (length a)) (table_top (hs_of ds) (length a)) 300 (table_height (hs_of ds) (length a)) o
    (let '(fx, fy, o) := match o with Up => port_up (geo_rect (table_geo (length a) (y_of ds (length a)) e)) | Right => port_right (geo_rect (table_geo (length a) (y_of ds (length a)) e)) | Down => port_down (geo_rect (table_geo (length a) (y_of ds (length a)) e)) | Left => port_left (geo_rect (table_geo (length a) (y_of ds (length a)) e)) end in
     mkPort (record_at (base a) e, k) (mkPoint fx fy) o)).
  { intros k o. apply port_exact; auto; unfold table_left, table_top, table_height, M24 in *; lia. }
  cbn [four_ports number_ports].
  apply Forall2_cons; [exact (P 0%nat Up)|]. apply Forall2_cons; [exact (P 1%nat Right)|].
  apply Forall2_cons; [exact (P 2%nat Down)|]. apply Forall2_cons; [exact (P 3%nat Left)|]. apply Forall2_nil.
Qed.

Theorem row_ports m d : into_mir m = Ret d -> fits (table_rows m) -> forall i k id, row_id d i k id ->
  exists n, get_node (place_terminal_ports (fst (place_nodes d))) id = Some n /\
    Forall2 (is_port id (table_left i) (table_top (table_rows m) i + 35 * Z.of_nat k) 300 35)
            (row_sides (nth i (table_rows m) 0%nat) k) (n_ports n).
Proof.
  intros H F i k id T. destruct (ported_result m d H) as (E & -> & ->).
  destruct (row_id_eq _ E _ i k id (shape_refl _) T) as (a & e & c & Hd & <- & Hk & ->).
  rewrite hs_module in *. set (ds := definitions (m_entries m)) in *.
  destruct (row_node ds E a e c k Hd Hk) as (n & En & Pn & _).
  eexists. split; [exact (ported_row ds E a e c k n Hd Hk En)|]. cbn [n_ports].
  rewrite Pn. cbn [app length]. rewrite (nth_hs ds a e c Hd).
  rewrite field_ports_sides by trivial. apply Forall2_enum. intros j o. cbn [fst snd].
  pose proof (row_exact ds a e c k F Hd Hk) as X.
  assert (L : (length a < length (hs_of ds))%nat) by (rewrite hs_length, Hd, app_length; cbn; lia).
  pose proof (row_bottom (hs_of ds) (length a) L) as RB.
  pose proof (nth_tallest (hs_of ds) (length a)) as NT. rewrite (nth_hs ds a e c Hd) in NT.
  pose proof (row_top_ge (hs_of ds) (length a / 3)) as RG.
  pose proof (Nat.mod_upper_bound (length a) 3 ltac:(lia)). unfold fits in F.
  apply port_exact; auto; unfold table_left, table_top, M24 in *; lia.
Qed.

(** ** C29 *)
Lemma number_ports_ids id ps : forall k, map port_ident (number_ports id k ps) = map (fun j => (id, j)) (seq k (length ps)).
Proof.
  induction ps as [|[[x y] o] ps IH]; intros k; [reflexivity|]. cbn. f_equal. apply IH.
Qed.

Lemma ported_ports ds E i n : get_node (ported ds E) i = Some n -> exists ps, n_ports n = number_ports i 0 ps.
Proof.
  intros H. unfold ported in H. rewrite get_apply_ports in H by apply grid_log_nodup, keyed_ports.
  unfold placed in H. rewrite get_apply_geo in H by apply grid_log_nodup, keyed_geo.
  assert (Z : forall n0, get_node (doc_of ds E) i = Some n0 -> n_ports n0 = []).
  { intros n0 G. apply nodes_cases in G. destruct G; reflexivity. }
  destruct (get_node (doc_of ds E) i) as [n0|].
  - specialize (Z n0 eq_refl).
    destruct (nlookup i (full_log ds)) as [[o s]|]; destruct (nlookup i (port_log ds)) as [ps|];
      cbn [option_map] in H; injection H as <-; rewrite ?add_ports_eq; cbn [n_ports set_geometry];
      rewrite ?Z; cbn [app length]; first [now exists ps | now exists []].
  - destruct (nlookup i (full_log ds)) as [[o s]|]; destruct (nlookup i (port_log ds)) as [ps|]; discriminate.
Qed.

Lemma nodup_ports ns : forall b,
  (forall k n, nth_error ns k = Some n -> exists ps, n_ports n = number_ports (b + k) 0 ps) ->
  NoDup (map port_ident (flat_map n_ports ns)) /\
  (forall p, In p (map port_ident (flat_map n_ports ns)) -> b <= fst p).
Proof.
  induction ns as [|n ns IH]; intros b H; [split; [constructor|intros p []]|].
  cbn [flat_map]. rewrite map_app.
  destruct (IH (S b)) as [I1 I2].
  { intros k n' Hk. replace (S b + k) with (b + S k) by lia. now apply (H (S k)). }
  destruct (H 0 n eq_refl) as (ps & Hp). rewrite Hp, Nat.add_0_r, number_ports_ids. split.
  - apply NoDup_app_intro; [|exact I1|].
    + apply FinFun.Injective_map_NoDup; [intros x y E; congruence|apply seq_NoDup].
    + intros p Hp1 Hp2. apply in_map_iff in Hp1 as (j & <- & _). apply I2 in Hp2. cbn in Hp2. lia.
  - intros p Hp'. apply in_app_iff in Hp' as [Hp'|Hp'].
    + apply in_map_iff in Hp' as (j & <- & _). cbn. lia.
    + apply I2 in Hp'. lia.
Qed.

Theorem port_ids_unique m d : into_mir m = Ret d ->
  let d2 := place_terminal_ports (fst (place_nodes d)) in
  NoDup (map port_ident (flat_map n_ports (d_nodes d2))) /\
  (forall i n p, get_node d2 i = Some n -> In p (n_ports n) -> fst (port_ident p) = i).
Proof.
  intros H d2. subst d2. destruct (ported_result m d H) as (E & -> & ->).
  set (ds := definitions (m_entries m)) in *. split.
  - apply (nodup_ports _ 0). intros k n Hk. now apply (ported_ports ds E).
  - intros i n p G Hp. destruct (ported_ports ds E i n G) as (ps & Ep). rewrite Ep in Hp.
    apply (in_map port_ident) in Hp. rewrite number_ports_ids in Hp.
    apply in_map_iff in Hp as (j & <- & _). reflexivity.
Qed.

(** ** C30 *)
Definition port_frame (n n' : node_data) : Prop :=
  n_kind n' = n_kind n /\ n_children n' = n_children n /\ n_origin n' = n_origin n /\ n_size n' = n_size n.

Lemma port_frame_refl ns : Forall2 port_frame ns ns.
Proof. induction ns; constructor; auto. repeat split. Qed.

Lemma port_frame_trans a b c : Forall2 port_frame a b -> Forall2 port_frame b c -> Forall2 port_frame a c.
Proof.
  intros H. revert c. induction H as [|x y a b Hxy H IH]; intros c Hc; inversion_clear Hc; constructor; auto.
  unfold port_frame in *. intuition congruence.
Qed.

Lemma update_frame i f ns : (forall n, port_frame n (f n)) -> Forall2 port_frame ns (update i f ns).
Proof.
  intros Hf. revert i. induction ns as [|n ns IH]; intros [|i]; cbn; constructor; auto using port_frame_refl.
  repeat split.
Qed.

Lemma add_ports_frame id ps n : port_frame n (add_ports id ps n).
Proof. rewrite add_ports_eq. repeat split. Qed.

Lemma fold_frame {A} (f : document -> A -> document) l :
  (forall d x, same_but_ports d (f d x)) -> forall d, same_but_ports d (fold_left f l d).
Proof.
  intros H. induction l as [|x l IH]; intros d.
  - split; [reflexivity|apply port_frame_refl].
  - cbn. destruct (H d x) as [E1 F1], (IH (f d x)) as [E2 F2]. split; [congruence|].
    eapply port_frame_trans; eassumption.
Qed.

Lemma same_but_ports_refl d : same_but_ports d d.
Proof. split; [reflexivity|apply port_frame_refl]. Qed.

Lemma same_but_ports_update d i ps : same_but_ports d (update_node d i (add_ports i ps)).
Proof. split; [reflexivity|]. apply update_frame. intros n. apply add_ports_frame. Qed.

Theorem ports_frame d : same_but_ports d (place_terminal_ports d).
Proof.
  unfold place_terminal_ports. apply fold_frame. intros d0 id. unfold port_record.
  destruct (get_node d0 id) as [n|]; [|apply same_but_ports_refl].
  destruct (node_rect n) as [r|]; [|apply same_but_ports_refl].
  destruct (same_but_ports_update d0 id [port_up r; port_right r; port_down r; port_left r]) as [E1 F1].
  match goal with |- same_but_ports d0 (fold_left ?f ?l ?x) =>
    assert (K : same_but_ports x (fold_left f l x)) end.
  { apply fold_frame. intros d1 [k fid]. unfold port_field.
    destruct (get_node d1 fid) as [n1|]; [|apply same_but_ports_refl].
    destruct (node_rect n1) as [r1|]; [|apply same_but_ports_refl]. apply same_but_ports_update. }
  destruct K as [E2 F2]. split; [now rewrite E2|]. eapply port_frame_trans; eassumption.
Qed.

Lemma number_sides id ps : forall k, map port_side (number_ports id k ps) = map (fun p => (mkPoint (fst (fst p)) (snd (fst p)), snd p)) ps.
Proof. induction ps as [|[[x y] o] ps IH]; intros k; [reflexivity|]. cbn. f_equal. apply IH. Qed.

Theorem ports_twice m d : into_mir m = Ret d ->
  let d2 := place_terminal_ports (fst (place_nodes d)) in
  forall i n, get_node d2 i = Some n -> exists n', get_node (place_terminal_ports d2) i = Some n' /\
    map port_side (n_ports n') = map port_side (n_ports n) ++ map port_side (n_ports n).
Proof.
  intros H d2 i n G. subst d2. destruct (ported_result m d H) as (E & -> & R). rewrite R in *.
  set (ds := definitions (m_entries m)) in *.
  rewrite (place_terminal_ports_eq ds E) by apply apply_ports_geo.
  rewrite get_apply_ports by apply grid_log_nodup, keyed_ports.
  pose proof G as G0. unfold ported in G0. rewrite get_apply_ports in G0 by apply grid_log_nodup, keyed_ports.
  unfold placed in G0. rewrite get_apply_geo in G0 by apply grid_log_nodup, keyed_geo.
  rewrite G.
  assert (Z : forall n0, get_node (doc_of ds E) i = Some n0 -> n_ports n0 = []).
  { intros n0 G1. apply nodes_cases in G1. destruct G1; reflexivity. }
  destruct (get_node (doc_of ds E) i) as [n0|];
    [specialize (Z n0 eq_refl)|destruct (nlookup i (full_log ds)) as [[o s]|]; destruct (nlookup i (port_log ds)) as [ps|]; discriminate].
  destruct (nlookup i (port_log ds)) as [ps|].
  - cbn [option_map]. eexists. split; [reflexivity|]. rewrite add_ports_eq. cbn [n_ports].
    rewrite map_app, number_sides. f_equal.
    destruct (nlookup i (full_log ds)) as [[o s]|]; cbn [option_map] in G0; injection G0 as <-;
      rewrite add_ports_eq; cbn [n_ports set_geometry]; rewrite Z; cbn [app length]; now rewrite number_sides.
  - exists n. split; [reflexivity|].
    destruct (nlookup i (full_log ds)) as [[o s]|]; cbn [option_map] in G0; injection G0 as <-;
      cbn [n_ports set_geometry]; rewrite Z; reflexivity.
Qed.

Theorem ports_not_idempotent m d : into_mir m = Ret d -> definitions (m_entries m) <> [] ->
  let d2 := place_terminal_ports (fst (place_nodes d)) in place_terminal_ports d2 <> d2.
Proof.
  intros H N d2 Q. destruct (ported_result m d H) as (E & -> & R).
  pose proof (ports_twice m _ H) as T. cbn zeta in T. fold d2 in T. rewrite Q in T.
  subst d2. rewrite R in *. destruct (definitions (m_entries m)) as [|e c] eqn:D; [congruence|].
  pose proof (ported_record (e :: c) E [] e c eq_refl) as G. cbn zeta in G.
  destruct (T _ _ G) as (n' & G' & L). rewrite G in G'. injection G' as <-.
  apply (f_equal (@length _)) in L. cbn in L. discriminate.
Qed.

(** Which sides carry ports, without any bound on the height. *)
Lemma number_orientations id ps : forall k, map port_orientation (number_ports id k ps) = map snd ps.
Proof. induction ps as [|[[x y] o] ps IH]; intros k; [reflexivity|]. cbn. f_equal. apply IH. Qed.

Theorem port_sides m d : into_mir m = Ret d ->
  let d2 := place_terminal_ports (fst (place_nodes d)) in
  (forall i id, table_id d i id -> exists n, get_node d2 id = Some n /\
     map port_orientation (n_ports n) = [Up; Right; Down; Left]) /\
  (forall i k id, row_id d i k id -> exists n, get_node d2 id = Some n /\
     map port_orientation (n_ports n) = row_sides (nth i (table_rows m) 0%nat) k).
Proof.
  intros H d2. subst d2. destruct (ported_result m d H) as (E & -> & ->).
  rewrite hs_module. set (ds := definitions (m_entries m)) in *. split.
  - intros i id T. destruct (table_id_eq _ E _ i id (shape_refl _) T) as (a & e & c & Hd & <- & ->).
    eexists. split; [exact (ported_record ds E a e c Hd)|]. cbn [n_ports]. now rewrite number_orientations.
  - intros i k id T. destruct (row_id_eq _ E _ i k id (shape_refl _) T) as (a & e & c & Hd & <- & Hk & ->).
    destruct (row_node ds E a e c k Hd Hk) as (n & En & Pn & _).
    eexists. split; [exact (ported_row ds E a e c k n Hd Hk En)|]. cbn [n_ports].
    rewrite Pn. cbn [app length]. rewrite (nth_hs ds a e c Hd), number_orientations.
    unfold field_ports, row_sides. destruct (Nat.eqb_spec (rows e) 1) as [R1|N1].
    + rewrite R1 in *. replace k with 0%nat by lia. reflexivity.
    + destruct (Nat.eqb_spec k 0) as [->|N2].
      * destruct (Nat.eqb_spec 0 (rows e - 1)) as [Z|Z]; [unfold rows in *; lia|reflexivity].
      * destruct (Nat.eqb_spec k (rows e - 1)); reflexivity.
Qed.
