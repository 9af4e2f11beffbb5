(** The document of a module in closed form, and what follows: C16-C21. *)
From Coq Require Import String List NArith Arith Lia Bool.
From Verif Require Import Base F32 Color Geometry Mir Erd SpecMir LexFacts.
Import ListNotations.

(** ** Lists *)
Lemma update_app {A} (f : A -> A) l1 x l2 : update (length l1) f (l1 ++ x :: l2) = l1 ++ f x :: l2.
Proof. induction l1; simpl; congruence. Qed.
Lemma update_length {A} (f : A -> A) i l : length (update i f l) = length l.
Proof. revert i. induction l; destruct i; simpl; auto. Qed.
Lemma nth_update_same {A} (f : A -> A) i l : nth_error (update i f l) i = option_map f (nth_error l i).
Proof. revert i. induction l; destruct i; simpl; auto. Qed.
Lemma nth_update_other {A} (f : A -> A) i j l : i <> j -> nth_error (update i f l) j = nth_error l j.
Proof. revert i j. induction l; destruct i, j; simpl; auto; congruence. Qed.

(** ** Closed form *)
Definition body_node (ids : list node_id) : node_data := mkNode None None [] KBody ids.
Definition header_node (e : entity_definition) : node_data := node_new (KField (header_shape (ent_name e))).
Definition column_node (f : entity_field) : node_data := node_new (KField (column_shape f)).
Definition record_node (b : nat) (e : entity_definition) : node_data :=
  mkNode None None [] (KRecord table_shape) (seq b (S (length (ent_fields e)))).
Definition block (b : nat) (e : entity_definition) : list node_data :=
  header_node e :: map column_node (ent_fields e) ++ [record_node b e].
Fixpoint blocks (b : nat) (ds : list entity_definition) : list node_data :=
  match ds with [] => [] | e :: ds' => block b e ++ blocks (b + node_count e) ds' end.
Definition record_at (b : nat) (e : entity_definition) : nat := b + length (ent_fields e) + 1.
Fixpoint record_ids (b : nat) (ds : list entity_definition) : list node_id :=
  match ds with [] => [] | e :: ds' => record_at b e :: record_ids (b + node_count e) ds' end.
Definition total_nodes (ds : list entity_definition) : nat := list_sum (map node_count ds).

Lemma block_length b e : length (block b e) = node_count e.
Proof. unfold block, node_count. simpl. rewrite app_length, map_length. simpl. lia. Qed.
Lemma blocks_length b ds : length (blocks b ds) = total_nodes ds.
Proof.
  revert b. induction ds as [|e ds IH]; intros b; auto. cbn [blocks].
  rewrite app_length, block_length, IH. reflexivity.
Qed.
Lemma total_app a b : total_nodes (a ++ b) = total_nodes a + total_nodes b.
Proof. unfold total_nodes. now rewrite map_app, list_sum_app. Qed.
Lemma total_cons e ds : total_nodes (e :: ds) = node_count e + total_nodes ds.
Proof. reflexivity. Qed.
Lemma blocks_app b a c : blocks b (a ++ c) = blocks b a ++ blocks (b + total_nodes a) c.
Proof.
  revert b. induction a as [|e a IH]; intros b; cbn [app blocks].
  - now rewrite Nat.add_0_r.
  - rewrite IH, <- app_assoc. unfold total_nodes. cbn [map list_sum fold_right]. now rewrite Nat.add_assoc.
Qed.
Lemma record_ids_app b a c : record_ids b (a ++ c) = record_ids b a ++ record_ids (b + total_nodes a) c.
Proof.
  revert b. induction a as [|e a IH]; intros b; cbn [app record_ids].
  - now rewrite Nat.add_0_r.
  - rewrite IH. unfold total_nodes. cbn [map list_sum fold_right]. now rewrite Nat.add_assoc.
Qed.

Definition doc_of (ds : list entity_definition) (es : list edge_data) : document :=
  mkDoc (body_node (record_ids 1 ds) :: blocks 1 ds) es.

(** The declarations of an entity whose nodes begin at [b]. *)
Fixpoint field_decls (ename : str) (b : nat) (fs : list entity_field) : list (entity_path * node_id) :=
  match fs with [] => [] | f :: fs' => (PField ename (f_name f), b) :: field_decls ename (S b) fs' end.
Definition decls (b : nat) (e : entity_definition) : list (entity_path * node_id) :=
  field_decls (ent_name e) (S b) (ent_fields e) ++ [(PEntity (ent_name e), record_at b e)].
Fixpoint all_decls (b : nat) (ds : list entity_definition) : list (entity_path * node_id) :=
  match ds with [] => [] | e :: ds' => decls b e ++ all_decls (b + node_count e) ds' end.

Lemma all_decls_app b a c : all_decls b (a ++ c) = all_decls b a ++ all_decls (b + total_nodes a) c.
Proof.
  revert b. induction a as [|e a IH]; intros b; cbn [app all_decls].
  - now rewrite Nat.add_0_r.
  - rewrite IH, <- app_assoc. unfold total_nodes. cbn [map list_sum fold_right]. now rewrite Nat.add_assoc.
Qed.

Lemma add_columns_eq ename fs : forall ns es ps,
  add_columns ename fs (mkDoc ns es) ps =
  (mkDoc (ns ++ map column_node fs) es,
   rev (field_decls ename (length ns) fs) ++ ps, seq (length ns) (length fs)).
Proof.
  induction fs as [|f fs IH]; intros ns es ps; simpl.
  - now rewrite app_nil_r.
  - rewrite IH. rewrite app_length, Nat.add_1_r, <- !app_assoc. auto.
Qed.

Lemma fold_append_child ids : forall n,
  fold_left append_child ids n =
  mkNode (n_origin n) (n_size n) (n_ports n) (n_kind n) (n_children n ++ ids).
Proof.
  induction ids as [|i ids IH]; intros n; simpl.
  - rewrite app_nil_r. destruct n; auto.
  - rewrite IH. simpl. now rewrite <- app_assoc.
Qed.

Lemma add_definition_eq e ds es ps :
  add_definition e (doc_of ds es) ps =
  (doc_of (ds ++ [e]) es, rev (decls (1 + total_nodes ds) e) ++ ps).
Proof.
  set (b := 1 + total_nodes ds).
  assert (length (body_node (record_ids 1 ds) :: blocks 1 ds) = b) as L.
  { cbn [length]. now rewrite blocks_length. }
  unfold add_definition, create_field, create_record, add_node, doc_of.
  cbn [d_nodes d_edges]. rewrite add_columns_eq. cbn [d_nodes d_edges].
  rewrite L. unfold update_node. cbn [d_nodes d_edges].
  replace (length (((body_node (record_ids 1 ds) :: blocks 1 ds)
                    ++ [node_new (KField (header_shape (ent_name e)))]) ++ map column_node (ent_fields e)))
    with (b + 1 + length (ent_fields e)) by (rewrite !app_length, L, map_length; reflexivity).
  replace (length ((body_node (record_ids 1 ds) :: blocks 1 ds)
                    ++ [node_new (KField (header_shape (ent_name e)))]))
    with (b + 1) by (rewrite !app_length, L; reflexivity).
  set (pre := (body_node (record_ids 1 ds) :: blocks 1 ds) ++ [node_new (KField (header_shape (ent_name e)))]
              ++ map column_node (ent_fields e)).
  replace ((((body_node (record_ids 1 ds) :: blocks 1 ds) ++
              [node_new (KField (header_shape (ent_name e)))]) ++ map column_node (ent_fields e)) ++
            [node_new (KRecord table_shape)])
    with (pre ++ node_new (KRecord table_shape) :: []) by (unfold pre; now rewrite <- !app_assoc).
  assert (b + 1 + length (ent_fields e) = length pre) as Lp.
  { unfold pre. rewrite !app_length, L, map_length. cbn [length]. lia. }
  rewrite Lp, update_app, fold_append_child, <- Lp.
  unfold pre. cbn [app update].
  f_equal.
  - f_equal. f_equal.
    + unfold append_child, body_node. cbn [n_children n_origin n_size n_ports n_kind].
      rewrite record_ids_app. cbn [record_ids]. do 3 f_equal.
      unfold record_at. fold b. lia.
    + rewrite blocks_app. cbn [blocks]. rewrite app_nil_r. unfold block. rewrite <- !app_assoc.
      cbn [app]. do 4 f_equal. unfold record_node, node_new. cbn [n_children n_origin n_size n_ports n_kind seq].
      do 2 f_equal. fold b. now rewrite Nat.add_1_r.
  - unfold decls. rewrite rev_app_distr. cbn [rev app]. unfold record_at. fold b.
    replace (b + 1 + length (ent_fields e)) with (b + length (ent_fields e) + 1) by lia.
    now rewrite (Nat.add_1_r b).
Qed.

Lemma entity_path_eqb_spec p q : entity_path_eqb p q = true <-> p = q.
Proof.
  destruct p, q; simpl; rewrite ?andb_true_iff, ?str_eqb_spec; split; try discriminate; try congruence.
  - intros [-> ->]. auto.
  - intros [= -> ->]. auto.
Qed.

(** ** The loop *)
Lemma assoc_in {V} p (l : list (entity_path * V)) :
  assoc entity_path_eqb p l = None <-> ~ In p (map fst l).
Proof.
  induction l as [|[q v] l IH]; simpl; [tauto|].
  destruct (entity_path_eqb p q) eqn:E.
  - apply entity_path_eqb_spec in E. split; [discriminate|]. intros H. exfalso. auto.
  - rewrite IH. split; [|tauto]. intros H [->|H']; auto.
    rewrite (proj2 (entity_path_eqb_spec p p) eq_refl) in E. discriminate.
Qed.

Lemma assoc_app {V} p (l1 l2 : list (entity_path * V)) :
  assoc entity_path_eqb p (l1 ++ l2) =
  match assoc entity_path_eqb p l1 with Some v => Some v | None => assoc entity_path_eqb p l2 end.
Proof. induction l1 as [|[q v] l1 IH]; simpl; auto. destruct (entity_path_eqb p q); auto. Qed.

Lemma definitions_app a b : definitions (a ++ b) = definitions a ++ definitions b.
Proof. induction a as [|[d|r] a IH]; simpl; congruence. Qed.

Lemma nodes_before_eq pre : nodes_before pre = 1 + total_nodes (definitions pre).
Proof. reflexivity. Qed.

Lemma field_decls_fst n b fs p :
  In p (map fst (field_decls n b fs)) <-> exists f, In f fs /\ p = PField n (f_name f).
Proof.
  revert b. induction fs as [|f fs IH]; intros b; simpl.
  - split; [tauto|intros (f & [] & _)].
  - rewrite IH. split.
    + intros [<-|(g & Hg & ->)]; eauto.
    + intros (g & [->|Hg] & ->); eauto.
Qed.
Lemma decls_fst b e p : In p (map fst (decls b e)) <-> declares e p.
Proof.
  unfold decls, declares. rewrite map_app, in_app_iff, field_decls_fst. simpl. split.
  - intros [H|[H|[]]]; auto.
  - intros [->|H]; auto.
Qed.
Lemma all_decls_fst b ds p : In p (map fst (all_decls b ds)) <-> exists e, In e ds /\ declares e p.
Proof.
  revert b. induction ds as [|e ds IH]; intros b; simpl.
  - split; [tauto|intros (e & [] & _)].
  - rewrite map_app, in_app_iff, decls_fst, IH. split.
    + intros [H|(g & Hg & H)]; eauto.
    + intros (g & [->|Hg] & H); eauto.
Qed.

(** The map of paths after the entries [pre]. *)
Definition paths_of (pre : list module_entry) : path_map := rev (all_decls 1 (definitions pre)).

Lemma paths_none pre p : assoc entity_path_eqb p (paths_of pre) = None <-> ~ declared pre p.
Proof.
  rewrite assoc_in. unfold paths_of. rewrite map_rev, <- in_rev, all_decls_fst. reflexivity.
Qed.

Lemma field_decls_app n b fs gs :
  field_decls n b (fs ++ gs) = field_decls n b fs ++ field_decls n (b + length fs) gs.
Proof.
  revert b. induction fs as [|f fs IH]; intros b; simpl.
  - now rewrite Nat.add_0_r.
  - rewrite IH. do 3 f_equal. lia.
Qed.

Lemma field_lookup n fs b name i :
  assoc entity_path_eqb (PField n name) (rev (field_decls n b fs)) = Some i <->
  exists k, i = b + k /\ (exists f, nth_error fs k = Some f /\ f_name f = name) /\
            forall k' f', k < k' -> nth_error fs k' = Some f' -> f_name f' <> name.
Proof.
  revert i. induction fs as [|f fs IH] using rev_ind; intros i.
  - simpl. split; [discriminate|]. intros (k & _ & (f & E & _) & _). destruct k; discriminate.
  - rewrite field_decls_app, rev_app_distr. cbn [field_decls rev app assoc].
    destruct (entity_path_eqb (PField n name) (PField n (f_name f))) eqn:E.
    + apply entity_path_eqb_spec in E. injection E as ->. split.
      * intros [= <-]. exists (length fs). repeat split.
        -- exists f. split; auto. rewrite nth_error_app2, Nat.sub_diag; auto.
        -- intros k' f' Hk En. assert (nth_error (fs ++ [f]) k' <> None) as K by congruence.
           apply nth_error_Some in K. rewrite app_length in K. simpl in K. lia.
      * intros (k & -> & (g & Eg & _) & Hl). f_equal.
        assert (nth_error (fs ++ [f]) k <> None) as K by congruence.
        apply nth_error_Some in K. rewrite app_length in K. simpl in K.
        destruct (Nat.eq_dec k (length fs)) as [->|N]; auto.
        exfalso. apply (Hl (length fs) f); [lia| |auto].
        rewrite nth_error_app2, Nat.sub_diag; auto.
    + assert (f_name f <> name) as Nf.
      { intros <-. rewrite (proj2 (entity_path_eqb_spec _ _) eq_refl) in E. discriminate. }
      rewrite IH. split; intros (k & -> & (g & Eg & En) & Hl); exists k; repeat split.
      * exists g. split; auto. rewrite nth_error_app1; auto. apply nth_error_Some. congruence.
      * intros k' f' Hk Ef. destruct (lt_dec k' (length fs)) as [H|H].
        -- rewrite nth_error_app1 in Ef by auto. eapply Hl; eauto.
        -- rewrite nth_error_app2 in Ef by lia. destruct (k' - length fs) as [|j]; simpl in Ef.
           ++ congruence.
           ++ destruct j; discriminate.
      * destruct (lt_dec k (length fs)) as [H|H].
        -- rewrite nth_error_app1 in Eg by auto. eauto.
        -- rewrite nth_error_app2 in Eg by lia. destruct (k - length fs) as [|j]; simpl in Eg.
           ++ congruence.
           ++ destruct j; discriminate.
      * intros k' f' Hk Ef. apply (Hl k'); auto. rewrite nth_error_app1; auto.
        apply nth_error_Some. congruence.
Qed.

Lemma assoc_key {V} p (l : list (entity_path * V)) i : assoc entity_path_eqb p l = Some i -> In p (map fst l).
Proof.
  induction l as [|[q v] l IH]; simpl; [discriminate|].
  destruct (entity_path_eqb p q) eqn:E; auto. apply entity_path_eqb_spec in E. auto.
Qed.
Lemma field_paths n b fs p i :
  assoc entity_path_eqb p (rev (field_decls n b fs)) = Some i -> exists name, p = PField n name.
Proof.
  intros H. apply assoc_key in H. rewrite map_rev, <- in_rev in H.
  apply field_decls_fst in H as (f & _ & ->). eauto.
Qed.

Lemma decls_lookup b e p i :
  assoc entity_path_eqb p (rev (decls b e)) = Some i <->
  (p = PEntity (ent_name e) /\ i = record_at b e) \/
  (exists name k, p = PField (ent_name e) name /\ last_field e name k /\ i = b + 1 + k).
Proof.
  unfold decls. rewrite rev_app_distr. cbn [rev app assoc].
  destruct (entity_path_eqb p (PEntity (ent_name e))) eqn:E.
  - apply entity_path_eqb_spec in E. subst p. split.
    + intros [= <-]. auto.
    + intros [(_ & ->)|(name & k & E & _)]; auto. discriminate.
  - assert (p <> PEntity (ent_name e)) as Np.
    { intros ->. rewrite (proj2 (entity_path_eqb_spec _ _) eq_refl) in E. discriminate. }
    split.
    + intros H. pose proof H as H'. apply field_paths in H' as (name & ->).
      apply field_lookup in H as (k & -> & H1 & H2). right. exists name, k.
      repeat split; auto. lia.
    + intros [(-> & _)|(name & k & -> & (H1 & H2) & ->)]; [contradiction|].
      apply field_lookup. exists k. repeat split; auto. lia.
Qed.

Lemma declared_app a b p : declared (a ++ b) p <-> declared a p \/ declared b p.
Proof.
  unfold declared. rewrite definitions_app. split.
  - intros (e & He & H). apply in_app_or in He as [He|He]; eauto.
  - intros [(e & He & H)|(e & He & H)]; exists e; split; auto; apply in_or_app; auto.
Qed.
Lemma resolves_weaken pre post p i : resolves pre p i -> ~ declared post p -> resolves (pre ++ post) p i.
Proof.
  intros [es e post' N|es e post' name k N L] N'; rewrite <- app_assoc; cbn [app]; constructor; auto;
    rewrite declared_app; tauto.
Qed.

Lemma paths_of_app pre post :
  paths_of (pre ++ post) = rev (all_decls (1 + total_nodes (definitions pre)) (definitions post)) ++ paths_of pre.
Proof. unfold paths_of. rewrite definitions_app, all_decls_app, rev_app_distr. reflexivity. Qed.

Lemma all_decls_none b es p :
  assoc entity_path_eqb p (rev (all_decls b (definitions es))) = None <-> ~ declared es p.
Proof. rewrite assoc_in, map_rev, <- in_rev, all_decls_fst. reflexivity. Qed.

Lemma paths_some pre p i : assoc entity_path_eqb p (paths_of pre) = Some i <-> resolves pre p i.
Proof.
  split.
  - revert i. induction pre as [|x pre IH] using rev_ind; intros i; [discriminate|].
    rewrite paths_of_app, assoc_app.
    destruct (assoc _ _ (rev _)) as [j|] eqn:E.
    + intros [= ->]. destruct x as [e|r]; [|discriminate].
      cbn [definitions all_decls] in E. rewrite app_nil_r in E.
      apply decls_lookup in E as [(-> & ->)|(name & k & -> & L & ->)].
      * unfold record_at. rewrite <- nodes_before_eq. constructor. intros (e' & [] & _).
      * rewrite <- nodes_before_eq. constructor; auto. intros (e' & [] & _).
    + intros H. apply resolves_weaken; auto. now apply all_decls_none in E.
  - intros [es e post N|es e post name k N L].
    + rewrite paths_of_app. cbn [definitions all_decls]. rewrite rev_app_distr, !assoc_app.
      rewrite (proj2 (all_decls_none _ _ _) N).
      rewrite (proj2 (decls_lookup _ _ _ (record_at (1 + total_nodes (definitions es)) e))); auto.
    + rewrite paths_of_app. cbn [definitions all_decls]. rewrite rev_app_distr, !assoc_app.
      rewrite (proj2 (all_decls_none _ _ _) N).
      rewrite (proj2 (decls_lookup _ _ _ (1 + total_nodes (definitions es) + 1 + k))); auto.
      right. eauto.
Qed.

Lemma resolves_unique pre p i j : resolves pre p i -> resolves pre p j -> i = j.
Proof. intros H1 H2. apply paths_some in H1, H2. congruence. Qed.
Lemma resolves_declared pre p : declared pre p <-> exists i, resolves pre p i.
Proof.
  split.
  - intros H. destruct (assoc entity_path_eqb p (paths_of pre)) as [i|] eqn:E.
    + apply paths_some in E. eauto.
    + now apply paths_none in E.
  - intros (i & H). destruct H as [es e post N|es e post name k N ((f & E & <-) & _)];
      exists e; (split; [rewrite definitions_app; apply in_or_app; right; now left|]).
    + now left.
    + right. exists f. split; auto. eapply nth_error_In; eauto.
Qed.
Lemma declared_dec pre p : declared pre p \/ ~ declared pre p.
Proof.
  destruct (assoc entity_path_eqb p (paths_of pre)) as [i|] eqn:E.
  - left. apply resolves_declared. exists i. now apply paths_some.
  - right. now apply paths_none.
Qed.

Lemma resolves_bound pre p i : resolves pre p i -> i < nodes_before pre.
Proof.
  intros [es e post N|es e post name k N ((f & E & _) & _)]; rewrite !nodes_before_eq, definitions_app, total_app;
    cbn [definitions]; unfold total_nodes; cbn [map list_sum fold_right]; unfold node_count.
  - lia.
  - assert (k < length (ent_fields e)) by (apply nth_error_Some; congruence). lia.
Qed.

Lemma doc_of_length ds es : length (d_nodes (doc_of ds es)) = 1 + total_nodes ds.
Proof. unfold doc_of. cbn [d_nodes length]. now rewrite blocks_length. Qed.

Lemma add_entries_eq es : forall pre E,
  exists l, edges_of pre es l /\
    add_entries es (doc_of (definitions pre) E) (paths_of pre) = Ret (doc_of (definitions (pre ++ es)) (E ++ l)).
Proof.
  induction es as [|[e|r] es IH]; intros pre E.
  - exists []. split; [constructor|]. simpl. now rewrite !app_nil_r.
  - destruct (IH (pre ++ [EDef e]) E) as (l & Hl & K). exists l. split; [now constructor|].
    rewrite definitions_app, paths_of_app in K. rewrite <- app_assoc in K. cbn [app definitions all_decls] in K.
    rewrite app_nil_r in K.
    cbn [add_entries]. rewrite add_definition_eq. exact K.
  - cbn [add_entries].
    assert (forall E', exists l, edges_of (pre ++ [ERel r]) es l /\
       add_entries es (doc_of (definitions pre) E') (paths_of pre) = Ret (doc_of (definitions (pre ++ ERel r :: es)) (E' ++ l))) as K.
    { intros E'. destruct (IH (pre ++ [ERel r]) E') as (l & Hl & K). exists l. split; auto.
      rewrite definitions_app, paths_of_app in K. rewrite <- app_assoc in K.
      cbn [app definitions all_decls rev] in K. rewrite app_nil_r in K. exact K. }
    unfold add_relation.
    destruct (assoc _ (rel_start r) _) as [s|] eqn:Es.
    + destruct (assoc _ (rel_end r) _) as [t|] eqn:Et.
      * apply paths_some in Es, Et. destruct (K (E ++ [mkEdge s t None])) as (l & Hl & K').
        exists (mkEdge s t None :: l). split; [now constructor|].
        unfold add_edge. rewrite doc_of_length. cbn [e_source e_target].
        apply resolves_bound in Es, Et. rewrite nodes_before_eq in Es, Et.
        apply Nat.ltb_lt in Es, Et. rewrite Es, Et. cbn [andb bind].
        unfold doc_of in *. cbn [d_nodes d_edges]. rewrite K', <- app_assoc. reflexivity.
      * destruct (K E) as (l & Hl & K'). exists l. split; auto. apply paths_none in Et. now apply edges_drop; auto.
    + destruct (K E) as (l & Hl & K'). exists l. split; auto. apply paths_none in Es. now apply edges_drop; auto.
Qed.

Theorem into_mir_eq m : exists l, edges_of [] (m_entries m) l /\
  into_mir m = Ret (doc_of (definitions (m_entries m)) l).
Proof. apply (add_entries_eq (m_entries m) [] []). Qed.

(** ** The nodes of the closed form *)
Definition base (a : list entity_definition) : nat := 1 + total_nodes a.

Lemma get_block ds E a e c k : ds = a ++ e :: c -> k < node_count e ->
  get_node (doc_of ds E) (base a + k) = nth_error (block (base a) e) k.
Proof.
  intros -> Hk. unfold get_node, doc_of, base. cbn [d_nodes]. cbn [Nat.add nth_error].
  rewrite blocks_app. cbn [blocks].
  rewrite nth_error_app2 by (rewrite blocks_length; lia). rewrite blocks_length.
  replace (total_nodes a + k - total_nodes a) with k by lia.
  rewrite nth_error_app1 by (now rewrite block_length). reflexivity.
Qed.
Lemma get_header ds E a e c : ds = a ++ e :: c -> get_node (doc_of ds E) (base a) = Some (header_node e).
Proof.
  intros H. rewrite <- (Nat.add_0_r (base a)), (get_block ds E a e c 0 H); auto. unfold node_count; lia.
Qed.
Lemma get_column ds E a e c k f : ds = a ++ e :: c -> nth_error (ent_fields e) k = Some f ->
  get_node (doc_of ds E) (base a + 1 + k) = Some (column_node f).
Proof.
  intros H Hk. assert (k < length (ent_fields e)) as L by (apply nth_error_Some; congruence).
  rewrite <- Nat.add_assoc, (get_block ds E a e c (1 + k) H) by (unfold node_count; lia).
  unfold block. cbn [Nat.add nth_error]. rewrite nth_error_app1 by (now rewrite map_length).
  now rewrite nth_error_map, Hk.
Qed.
Lemma get_record ds E a e c : ds = a ++ e :: c ->
  get_node (doc_of ds E) (record_at (base a) e) = Some (record_node (base a) e).
Proof.
  intros H. unfold record_at. rewrite <- Nat.add_assoc, (get_block ds E a e c _ H) by (unfold node_count; lia).
  unfold block. rewrite Nat.add_1_r. cbn [nth_error].
  rewrite nth_error_app2 by (now rewrite map_length). now rewrite map_length, Nat.sub_diag.
Qed.
Lemma get_body ds E : get_node (doc_of ds E) 0 = Some (body_node (record_ids 1 ds)).
Proof. reflexivity. Qed.

Inductive node_case (ds : list entity_definition) : nat -> node_data -> Prop :=
| case_body : node_case ds 0 (body_node (record_ids 1 ds))
| case_header a e c : ds = a ++ e :: c -> node_case ds (base a) (header_node e)
| case_column a e c k f : ds = a ++ e :: c -> nth_error (ent_fields e) k = Some f ->
    node_case ds (base a + 1 + k) (column_node f)
| case_record a e c : ds = a ++ e :: c -> node_case ds (record_at (base a) e) (record_node (base a) e).

Lemma locate ds i : i < total_nodes ds ->
  exists a e c k, ds = a ++ e :: c /\ i = total_nodes a + k /\ k < node_count e.
Proof.
  revert i. induction ds as [|e ds IH]; intros i H; [unfold total_nodes in H; simpl in H; lia|].
  destruct (lt_dec i (node_count e)) as [L|L].
  - exists [], e, ds, i. repeat split; auto.
  - destruct (IH (i - node_count e)) as (a & e' & c & k & -> & E & Hk).
    + rewrite total_cons in H. lia.
    + exists (e :: a), e', c, k. repeat split; auto.
      rewrite total_cons. lia.
Qed.

Lemma nodes_cases ds E i n : get_node (doc_of ds E) i = Some n -> node_case ds i n.
Proof.
  intros H. destruct i as [|i]; [injection H as <-; constructor|].
  assert (i < total_nodes ds) as L.
  { apply Nat.succ_lt_mono. change (S (total_nodes ds)) with (1 + total_nodes ds).
    rewrite <- (doc_of_length ds E). apply nth_error_Some. unfold get_node in H. congruence. }
  apply locate in L as (a & e & c & k & Hd & -> & Hk).
  change (S (total_nodes a + k)) with (base a + k) in *.
  destruct k as [|k].
  - rewrite Nat.add_0_r in *. rewrite (get_header ds E a e c Hd) in H. injection H as <-. econstructor; eauto.
  - destruct (nth_error (ent_fields e) k) as [f|] eqn:Ef.
    + replace (base a + S k) with (base a + 1 + k) in * by lia.
      rewrite (get_column ds E a e c k f Hd Ef) in H. injection H as <-. econstructor; eauto.
    + apply nth_error_None in Ef. unfold node_count in Hk.
      replace (base a + S k) with (record_at (base a) e) in * by (unfold record_at; lia).
      rewrite (get_record ds E a e c Hd) in H. injection H as <-. econstructor; eauto.
Qed.

Lemma in_record_ids ds : forall b i, In i (record_ids b ds) <->
  exists a e c, ds = a ++ e :: c /\ i = record_at (b + total_nodes a) e.
Proof.
  induction ds as [|e ds IH]; intros b i; cbn [record_ids In].
  - split; [tauto|]. intros (a & e & c & E & _). destruct a; discriminate.
  - rewrite IH. split.
    + intros [<-|(a & e' & c & -> & ->)].
      * exists [], e, ds. unfold total_nodes. simpl. now rewrite Nat.add_0_r.
      * exists (e :: a), e', c. split; auto. rewrite total_cons.
        now rewrite Nat.add_assoc.
    + intros (a & e' & c & E & ->). destruct a as [|x a]; injection E as <- ->.
      * left. unfold total_nodes. simpl. now rewrite Nat.add_0_r.
      * right. exists a, e', c. split; auto. rewrite total_cons.
        now rewrite Nat.add_assoc.
Qed.

(** Two positions in the list of definitions. *)
Lemma order_cases (ds : list entity_definition) a e c a' e' c' :
  ds = a ++ e :: c -> ds = a' ++ e' :: c' ->
  (a = a' /\ e = e' /\ c = c') \/ base a + node_count e <= base a' \/ base a' + node_count e' <= base a.
Proof.
  intros -> E. apply app_eq_app in E as (l & [[-> E]|[-> E]]).
  - destruct l as [|x l]; injection E as -> E.
    + subst. rewrite app_nil_r. auto.
    + right. right. unfold base. rewrite total_app, total_cons. lia.
  - destruct l as [|x l]; injection E as -> E.
    + subst. rewrite app_nil_r. auto.
    + right. left. unfold base. rewrite total_app, total_cons. lia.
Qed.

Lemma record_ids_bound b ds i : In i (record_ids b ds) -> b < i.
Proof. intros H. apply in_record_ids in H as (a & e & c & _ & ->). unfold record_at. lia. Qed.
Lemma nodup_record_ids b ds : NoDup (record_ids b ds).
Proof.
  revert b. induction ds as [|e ds IH]; intros b; constructor; auto.
  intros H. apply record_ids_bound in H. unfold record_at, node_count in H. lia.
Qed.

Lemma parent_cases ds E p c : parent (doc_of ds E) p c ->
  (p = 0 /\ exists a e r, ds = a ++ e :: r /\ c = record_at (base a) e) \/
  (exists a e r, ds = a ++ e :: r /\ p = record_at (base a) e /\ base a <= c < record_at (base a) e).
Proof.
  intros (n & Hn & Hc). apply nodes_cases in Hn. destruct Hn as [|a e r Hd|a e r k f Hd Hk|a e r Hd].
  - left. split; auto. cbn [n_children body_node] in Hc. now apply in_record_ids in Hc.
  - destruct Hc.
  - destruct Hc.
  - right. exists a, e, r. repeat split; auto; cbn [n_children record_node] in Hc; apply in_seq in Hc;
      unfold record_at; lia.
Qed.

Theorem mir_tree ds E : is_tree (doc_of ds E).
Proof.
  split.
  - eexists; split; [apply get_body|reflexivity].
  - intros p c H. rewrite doc_of_length.
    assert (forall a e r, ds = a ++ e :: r -> base a + node_count e <= 1 + total_nodes ds) as K.
    { intros a e r ->. unfold base. rewrite total_app, total_cons. lia. }
    apply parent_cases in H as [(-> & a & e & r & Hd & ->)|(a & e & r & Hd & -> & Hc)];
      specialize (K _ _ _ Hd); unfold record_at, node_count, base in *; lia.
  - intros c Hc. rewrite doc_of_length in Hc.
    destruct (get_node (doc_of ds E) c) as [n|] eqn:Hn.
    2:{ apply nth_error_None in Hn. rewrite doc_of_length in Hn. lia. }
    apply nodes_cases in Hn. revert Hc.
    destruct Hn as [|a e r Hd|a e r k f Hd Hk|a e r Hd]; intros Hc.
    + lia.
    + exists (record_at (base a) e), (record_node (base a) e). split; [eapply get_record; eauto|].
      cbn [n_children record_node]. apply in_seq. lia.
    + exists (record_at (base a) e), (record_node (base a) e). split; [eapply get_record; eauto|].
      cbn [n_children record_node]. apply in_seq.
      assert (k < length (ent_fields e)) by (apply nth_error_Some; congruence). lia.
    + exists 0, (body_node (record_ids 1 ds)). split; [apply get_body|].
      cbn [n_children body_node]. apply in_record_ids. eauto.
  - intros p q c Hp Hq.
    apply parent_cases in Hp as [(-> & a & e & r & Hd & Hc)|(a & e & r & Hd & -> & Hc)];
    apply parent_cases in Hq as [(-> & a' & e' & r' & Hd' & Hc')|(a' & e' & r' & Hd' & -> & Hc')]; auto;
    destruct (order_cases ds a e r a' e' r' Hd Hd') as [(-> & -> & ->)|[H|H]];
      unfold record_at, node_count in *; lia.
  - intros p n Hn. apply nodes_cases in Hn as [| | |]; try (cbn; constructor; fail).
    + apply nodup_record_ids.
    + apply seq_NoDup.
  - intros i n Hn. apply nodes_cases in Hn as [| | |]; auto; discriminate.
  - intros i n s Hn. apply nodes_cases in Hn as [| | |a e r Hd]; try discriminate. intros _.
    exists (body_node (record_ids 1 ds)). split; [apply get_body|].
    cbn [n_children body_node]. apply in_record_ids. eauto.
  - intros i n s Hn. apply nodes_cases in Hn as [|a e r Hd|a e r k f Hd Hk|]; try discriminate; intros _.
    + split; auto. exists (record_at (base a) e), (record_node (base a) e), table_shape.
      repeat split; [eapply get_record; eauto|].
      cbn [n_children record_node]. apply in_seq. lia.
    + split; auto. exists (record_at (base a) e), (record_node (base a) e), table_shape.
      repeat split; [eapply get_record; eauto|].
      cbn [n_children record_node]. apply in_seq.
      assert (k < length (ent_fields e)) by (apply nth_error_Some; congruence). lia.
Qed.

(** ** Tables and rows *)
Lemma doc_header ds E a e c : ds = a ++ e :: c -> shows_header (doc_of ds E) (base a) (ent_name e).
Proof.
  intros H. exists (header_node e), (header_shape (ent_name e)).
  repeat split. eapply get_header; eauto.
Qed.
Lemma doc_column ds E a e c k f : ds = a ++ e :: c -> nth_error (ent_fields e) k = Some f ->
  shows_field (doc_of ds E) (base a + 1 + k) f.
Proof.
  intros H Hk. exists (column_node f), (column_shape f).
  repeat split; [eapply get_column; eauto|]. cbn. now destruct (f_key f).
Qed.
Lemma Forall2_seq {A} (P : nat -> A -> Prop) l : forall b,
  (forall k x, nth_error l k = Some x -> P (b + k) x) -> Forall2 P (seq b (length l)) l.
Proof.
  induction l as [|x l IH]; intros b H; constructor.
  - specialize (H 0 x eq_refl). now rewrite Nat.add_0_r in H.
  - apply IH. intros k y Hk. specialize (H (S k) y Hk). now rewrite Nat.add_succ_r in H.
Qed.
Lemma doc_table ds E a e c : ds = a ++ e :: c -> shows_table (doc_of ds E) (record_at (base a) e) e.
Proof.
  intros H. exists (record_node (base a) e), table_shape, (base a), (seq (S (base a)) (length (ent_fields e))).
  repeat split.
  - eapply get_record; eauto.
  - eapply doc_header; eauto.
  - apply Forall2_seq. intros k f Hk. replace (S (base a) + k) with (base a + 1 + k) by lia.
    eapply doc_column; eauto.
Qed.
Theorem mir_tables ds E : Forall2 (shows_table (doc_of ds E)) (body_children (doc_of ds E)) ds.
Proof.
  change (body_children (doc_of ds E)) with (record_ids (1 + total_nodes []) ds).
  assert (forall a c, ds = a ++ c -> Forall2 (shows_table (doc_of ds E)) (record_ids (1 + total_nodes a) c) c) as K.
  2:{ now apply K. }
  intros a c. revert a. induction c as [|e c IH]; intros a H; constructor.
  - eapply doc_table; eauto.
  - specialize (IH (a ++ [e])). rewrite total_app in IH. cbn [total_nodes map] in IH.
    replace (1 + total_nodes a + node_count e) with (1 + (total_nodes a + list_sum [node_count e]))
      by (simpl; lia). apply IH. now rewrite <- app_assoc.
Qed.

(** ** Edges *)
Lemma edges_of_unique pre es l : edges_of pre es l -> forall l', edges_of pre es l' -> l = l'.
Proof.
  induction 1 as [pre|pre e es l H IH|pre r es l s t Hs Ht H IH|pre r es l D H IH]; intros l' H'.
  - now inversion H'.
  - inversion H'; subst. auto.
  - inversion H' as [| |? ? ? l2 s' t' Hs' Ht' H2|? ? ? ? D H2]; subst.
    + f_equal; auto. f_equal; eapply resolves_unique; eauto.
    + exfalso. destruct D as [D|D]; apply D; apply resolves_declared; eauto.
  - inversion H' as [| |? ? ? l2 s' t' Hs' Ht' H2|? ? ? ? D' H2]; subst; auto.
    exfalso. destruct D as [D|D]; apply D; apply resolves_declared; eauto.
Qed.

Lemma edges_of_exist es : forall pre, exists l, edges_of pre es l.
Proof.
  intros pre. destruct (add_entries_eq es pre []) as (l & H & _). eauto.
Qed.

Lemma resolves_more pre post p i : resolves pre p i -> i < nodes_before (pre ++ post).
Proof.
  intros H. apply resolves_bound in H. rewrite !nodes_before_eq, definitions_app, total_app in *. lia.
Qed.
Lemma edges_in_range pre es l : edges_of pre es l ->
  Forall (fun e => e_source e < nodes_before (pre ++ es) /\ e_target e < nodes_before (pre ++ es)) l.
Proof.
  induction 1 as [pre|pre e es l H IH|pre r es l s t Hs Ht H IH|pre r es l D H IH]; auto;
    rewrite <- app_assoc in IH; cbn [app] in IH; auto.
  constructor; auto. cbn [e_source e_target]. split; eapply resolves_more; eauto.
Qed.

Theorem into_mir_returns m : exists d, into_mir m = Ret d /\ Forall (edge_in d) (d_edges d).
Proof.
  destruct (into_mir_eq m) as (l & Hl & ->). eexists; split; eauto.
  apply edges_in_range in Hl. unfold edge_in. rewrite doc_of_length. exact Hl.
Qed.

Theorem into_mir_tables m d : into_mir m = Ret d ->
  Forall2 (shows_table d) (body_children d) (definitions (m_entries m)).
Proof. destruct (into_mir_eq m) as (l & _ & ->). intros [= <-]. apply mir_tables. Qed.
Theorem into_mir_tree m d : into_mir m = Ret d -> is_tree d.
Proof. destruct (into_mir_eq m) as (l & _ & ->). intros [= <-]. apply mir_tree. Qed.
Theorem into_mir_edges m d : into_mir m = Ret d ->
  forall l, edges_of [] (m_entries m) l <-> d_edges d = l.
Proof.
  destruct (into_mir_eq m) as (l & Hl & ->). intros [= <-] l'. cbn [d_edges doc_of]. split.
  - intros H. eapply edges_of_unique; eauto.
  - intros <-. auto.
Qed.

(** Where a path leads. *)
Lemma resolves_shows pre post E p i :
  resolves pre p i -> shows_path (doc_of (definitions (pre ++ post)) E) p i.
Proof.
  intros [es e post' N|es e post' name k N ((f & Ek & <-) & L)];
    rewrite <- app_assoc; cbn [app]; rewrite definitions_app; cbn [definitions];
    rewrite nodes_before_eq; change (1 + total_nodes (definitions es)) with (base (definitions es)).
  - apply shows_entity.
    + change (body_children (doc_of ?x ?y)) with (record_ids 1 x). apply in_record_ids. eauto 6.
    + eapply doc_table; eauto.
  - eapply shows_row with (r := record_at (base (definitions es)) e) (k := k).
    + change (body_children (doc_of ?x ?y)) with (record_ids 1 x). apply in_record_ids. eauto 6.
    + eapply doc_table; eauto.
    + eapply get_record; eauto.
    + reflexivity.
    + assert (k < length (ent_fields e)) by (apply nth_error_Some; congruence).
      rewrite nth_error_nth' with (d := 0) by (now rewrite seq_length). rewrite seq_nth by auto.
      f_equal. lia.
    + auto.
Qed.

Lemma edges_show E pre es l : edges_of pre es l ->
  Forall (fun x => exists r, In (ERel r) es /\
    shows_path (doc_of (definitions (pre ++ es)) E) (rel_start r) (e_source x) /\
    shows_path (doc_of (definitions (pre ++ es)) E) (rel_end r) (e_target x)) l.
Proof.
  induction 1 as [pre|pre e es l H IH|pre r es l s t Hs Ht H IH|pre r es l D H IH]; auto;
    rewrite <- app_assoc in IH; cbn [app] in IH.
  - eapply Forall_impl; [|exact IH]. cbv beta. intros x (r & Hr & H1 & H2). exists r. simpl; auto.
  - constructor.
    + exists r. split; [now left|]. split; apply resolves_shows; auto.
    + eapply Forall_impl; [|exact IH]. cbv beta. intros x (r' & Hr & H1 & H2). exists r'. simpl; auto.
  - eapply Forall_impl; [|exact IH]. cbv beta. intros x (r' & Hr & H1 & H2). exists r'. simpl; auto.
Qed.

(** ** Forward references *)
Lemma edges_insert pre r es : (~ declared pre (rel_start r) \/ ~ declared pre (rel_end r)) ->
  forall mid l, edges_of (pre ++ mid) es l <-> edges_of (pre ++ ERel r :: mid) es l.
Proof.
  intros D.
  assert (forall mid p i, resolves (pre ++ mid) p i <-> resolves (pre ++ ERel r :: mid) p i) as Kr.
  { intros mid p i. rewrite <- !paths_some. unfold paths_of. rewrite !definitions_app. reflexivity. }
  assert (forall mid p, declared (pre ++ mid) p <-> declared (pre ++ ERel r :: mid) p) as Kd.
  { intros mid p. unfold declared. rewrite !definitions_app. reflexivity. }
  induction es as [|[e|r'] es IH]; intros mid l.
  - split; intros H; inversion H; constructor.
  - split; intros H; inversion H; subst; constructor.
    + rewrite <- app_assoc in *. cbn [app]. now apply (IH (mid ++ [EDef e])).
    + rewrite <- app_assoc in *. cbn [app] in *. now apply (IH (mid ++ [EDef e])).
  - split; intros H; inversion H; subst; rewrite <- app_assoc in *; cbn [app] in *.
    + apply edges_rel; try (now apply (Kr mid)). rewrite <- app_assoc. cbn [app]. now apply (IH (mid ++ [ERel r'])).
    + apply edges_drop; [now rewrite <- !(Kd mid)|]. rewrite <- app_assoc. cbn [app]. now apply (IH (mid ++ [ERel r'])).
    + apply edges_rel; try (now apply (Kr mid)). rewrite <- app_assoc. now apply (IH (mid ++ [ERel r'])).
    + apply edges_drop; [now rewrite !(Kd mid)|]. rewrite <- app_assoc. now apply (IH (mid ++ [ERel r'])).
Qed.

Lemma edges_split a b : forall pre l, edges_of pre (a ++ b) l <->
  exists l1 l2, l = l1 ++ l2 /\ edges_of pre a l1 /\ edges_of (pre ++ a) b l2.
Proof.
  induction a as [|[e|r] a IH]; intros pre l; cbn [app].
  - rewrite app_nil_r. split.
    + intros H. exists [], l. repeat split; auto. constructor.
    + intros (l1 & l2 & -> & H1 & H2). inversion H1; subst. auto.
  - split.
    + intros H. inversion H as [|? ? ? ? H0| |]; subst. apply IH in H0 as (l1 & l2 & -> & H1 & H2).
      rewrite <- app_assoc in H2. exists l1, l2. repeat split; auto. now constructor.
    + intros (l1 & l2 & -> & H1 & H2). inversion H1; subst. constructor. apply IH.
      exists l1, l2. rewrite <- app_assoc. auto.
  - split.
    + intros H. inversion H as [| |? ? ? l0 s t Hs Ht H0|? ? ? ? D H0]; subst;
        apply IH in H0 as (l1 & l2 & -> & H1 & H2); rewrite <- app_assoc in H2.
      * exists (mkEdge s t None :: l1), l2. repeat split; auto. now constructor.
      * exists l1, l2. repeat split; auto. now apply edges_drop.
    + intros (l1 & l2 & -> & H1 & H2). inversion H1 as [| |? ? ? l0 s t Hs Ht H0|? ? ? ? D H0]; subst.
      * cbn [app]. constructor; auto. apply IH. exists l0, l2. rewrite <- app_assoc. auto.
      * apply edges_drop; auto. apply IH. exists l1, l2. rewrite <- app_assoc. auto.
Qed.

Theorem forward_reference_lost name pre r post :
  (~ declared pre (rel_start r) \/ ~ declared pre (rel_end r)) ->
  into_mir (mkModule name (pre ++ ERel r :: post)) = into_mir (mkModule name (pre ++ post)).
Proof.
  intros D.
  destruct (into_mir_eq (mkModule name (pre ++ ERel r :: post))) as (l & Hl & ->).
  destruct (into_mir_eq (mkModule name (pre ++ post))) as (l' & Hl' & ->).
  cbn [m_entries] in *. do 2 f_equal.
  - rewrite !definitions_app. reflexivity.
  - apply edges_split in Hl as (l1 & l2 & -> & H1 & H2). apply edges_split in Hl' as (m1 & m2 & -> & H3 & H4).
    cbn [app] in *. f_equal; [eapply edges_of_unique; eauto|].
    inversion H2 as [| |? ? ? l0 s t Hs Ht H0|? ? ? ? D' H0]; subst.
    + exfalso. destruct D as [D|D]; apply D; apply resolves_declared; eauto.
    + rewrite <- (app_nil_r pre) in H4. apply (edges_insert pre r post D []) in H4.
      eapply edges_of_unique; eauto.
Qed.

(** ** Definitions first, distinct names *)
Inductive placed_path (ds : list entity_definition) : entity_path -> nat -> Prop :=
| placed_entity a e c : ds = a ++ e :: c -> placed_path ds (PEntity (ent_name e)) (record_at (base a) e)
| placed_field a e c k f : ds = a ++ e :: c -> nth_error (ent_fields e) k = Some f ->
    placed_path ds (PField (ent_name e) (f_name f)) (base a + 1 + k).

Lemma skipn_S {A} k (l : list A) : skipn (S k) l = tl (skipn k l).
Proof. revert l. induction k; destruct l; auto. apply IHk. Qed.

Lemma shown_record ds E i e : In i (body_children (doc_of ds E)) -> shows_table (doc_of ds E) i e ->
  exists a e' c, ds = a ++ e' :: c /\ i = record_at (base a) e' /\ ent_name e = ent_name e' /\
    map f_name (ent_fields e) = map f_name (ent_fields e').
Proof.
  intros Hi (n & s & h & rows & Hn & _ & Hc & Hh & Hr).
  change (body_children (doc_of ds E)) with (record_ids 1 ds) in Hi.
  apply in_record_ids in Hi as (a & e' & c & Hd & ->). change (1 + total_nodes a) with (base a) in *.
  exists a, e', c. repeat split; auto.
  - rewrite (get_record ds E a e' c Hd) in Hn. injection Hn as <-. cbn [n_children record_node seq] in Hc.
    injection Hc as <- _. destruct Hh as (n & s' & Hn & Hk & _ & Ht & _).
    rewrite (get_header ds E a e' c Hd) in Hn. injection Hn as <-. injection Hk as <-. symmetry. exact Ht.
  - rewrite (get_record ds E a e' c Hd) in Hn. injection Hn as <-. cbn [n_children record_node seq] in Hc.
    injection Hc as _ <-. clear -Hr Hd.
    assert (forall k l l', l' = skipn k (ent_fields e') ->
              Forall2 (shows_field (doc_of ds E)) (seq (S (base a) + k) (length l')) l ->
              map f_name l = map f_name l') as K.
    { intros k l l'. revert k l. induction l' as [|f' l' IH]; intros k l El H; cbn [length seq] in H.
      - now inversion H.
      - inversion H as [|? f ? l0 Hf H0 E1 E2]. subst l. cbn [map]. f_equal.
        + assert (nth_error (ent_fields e') k = Some f') as Ek.
          { rewrite <- (firstn_skipn k (ent_fields e')), <- El.
            assert (k < length (ent_fields e')) as L.
            { destruct (lt_dec k (length (ent_fields e'))); auto.
              rewrite skipn_all2 in El by lia. discriminate. }
            rewrite nth_error_app2 by (rewrite firstn_length; lia).
            rewrite firstn_length, Nat.min_l, Nat.sub_diag by lia. auto. }
          destruct Hf as (n & s' & Hn & Hk & _ & Ht & _).
          pose proof (get_column ds E a e' c k f' Hd Ek) as Hg.
          replace (base a + 1 + k) with (S (base a) + k) in Hg by lia.
          pose proof (eq_trans (eq_sym Hg) Hn) as Hn'. injection Hn' as <-. injection Hk as <-.
          symmetry. exact Ht.
        + apply (IH (S k)).
          * rewrite skipn_S, <- El. reflexivity.
          * now rewrite Nat.add_succ_r. }
    apply (K 0); auto. now rewrite Nat.add_0_r.
Qed.

Lemma shows_placed ds E p i : shows_path (doc_of ds E) p i -> placed_path ds p i.
Proof.
  intros [i' e Hi Ht|r e n h rows k i' f Hr Ht Hn Hc Hk Hf].
  - apply shown_record in Ht as (a & e' & c & Hd & -> & -> & _); auto. econstructor; eauto.
  - apply shown_record in Ht as (a & e' & c & Hd & -> & -> & Hfs); auto.
    rewrite (get_record ds E a e' c Hd) in Hn. injection Hn as <-. cbn [n_children record_node seq] in Hc.
    injection Hc as <- <-.
    assert (nth_error (map f_name (ent_fields e')) k = Some (f_name f)) as Kf.
    { rewrite <- Hfs. now apply map_nth_error. }
    rewrite nth_error_map in Kf. destruct (nth_error (ent_fields e') k) as [f'|] eqn:Ef'; [|discriminate].
    injection Kf as <-.
    assert (k < length (ent_fields e')) as L by (apply nth_error_Some; congruence).
    rewrite nth_error_nth' with (d := 0) in Hk by (now rewrite seq_length).
    rewrite seq_nth in Hk by auto. injection Hk as <-.
    change (placed_path ds (PField (ent_name e') (f_name f')) (S (base a) + k)).
    replace (S (base a) + k) with (base a + 1 + k) by lia. econstructor; eauto.
Qed.

Lemma nodup_position {A B} (f : A -> B) l a x c a' x' c' :
  NoDup (map f l) -> l = a ++ x :: c -> l = a' ++ x' :: c' -> f x = f x' -> a = a' /\ x = x' /\ c = c'.
Proof.
  intros N -> E Ef. revert a' E N. induction a as [|y a IH]; intros [|y' a'] E N; cbn [app map] in *; injection E as E1 E2; subst.
  - auto.
  - exfalso. inversion N as [|? ? Hn]; subst. apply Hn. rewrite map_app, Ef. apply in_or_app. right. now left.
  - exfalso. inversion N as [|? ? Hn]; subst. apply Hn. rewrite map_app, <- Ef. apply in_or_app. right. now left.
  - inversion N; subst. destruct (IH a' E2) as (-> & -> & ->); auto.
Qed.

Lemma placed_unique ds p i j : distinct_names ds -> placed_path ds p i -> placed_path ds p j -> i = j.
Proof.
  intros [N1 N2] Hi. revert j. destruct Hi as [a e c Hd|a e c k f Hd Hk]; intros j Hj.
  - inversion Hj as [a' e' c' Hd' En|]; subst.
    destruct (nodup_position ent_name _ a e c a' e' c' N1 eq_refl Hd') as (-> & -> & _); auto.
  - inversion Hj as [|a' e' c' k' f' Hd' Hk' En]; subst.
    destruct (nodup_position ent_name _ a e c a' e' c' N1 eq_refl Hd') as (-> & -> & _); auto.
    f_equal. apply Forall_app in N2 as [_ N2]. inversion N2 as [|? ? Nf]; subst.
    rewrite NoDup_nth_error in Nf. apply Nf.
    + rewrite map_length. apply nth_error_Some. congruence.
    + rewrite !nth_error_map, Hk, Hk'. cbn. congruence.
Qed.

Lemma definitions_defs ds : definitions (map EDef ds) = ds.
Proof. induction ds; simpl; congruence. Qed.
Lemma definitions_rels rs : definitions (map ERel rs) = [].
Proof. induction rs; simpl; auto. Qed.

Lemma edges_defs ds pre l : edges_of pre (map EDef ds) l -> l = [].
Proof.
  revert pre l. induction ds as [|e ds IH]; intros pre l H; inversion H; subst; eauto.
Qed.

Theorem distinct_relations name ds rs d :
  distinct_names ds ->
  into_mir (mkModule name (map EDef ds ++ map ERel rs)) = Ret d ->
  exists ls, d_edges d = concat ls /\ Forall2 (relation_edges d (map EDef ds)) rs ls.
Proof.
  intros N. destruct (into_mir_eq (mkModule name (map EDef ds ++ map ERel rs))) as (l & Hl & ->).
  cbn [m_entries] in *. intros [= <-]. cbn [d_edges doc_of].
  apply edges_split in Hl as (l1 & l2 & -> & H1 & H2). apply edges_defs in H1 as ->. cbn [app] in *.
  assert (definitions (map EDef ds ++ map ERel rs) = ds) as Ed.
  { now rewrite definitions_app, definitions_defs, definitions_rels, app_nil_r. }
  rewrite Ed.
  assert (forall p i, resolves (map EDef ds) p i -> forall j, shows_path (doc_of ds l2) p j <-> j = i) as K.
  { intros p i Hr. apply (resolves_shows _ (map ERel rs) l2) in Hr. rewrite Ed in Hr.
    intros j. split; [|now intros ->]. intros Hj. apply shows_placed in Hr, Hj. eapply placed_unique; eauto. }
  assert (forall pre rs' l, (forall p i, resolves pre p i <-> resolves (map EDef ds) p i) ->
            edges_of pre (map ERel rs') l ->
            exists ls, l = concat ls /\ Forall2 (relation_edges (doc_of ds l2) (map EDef ds)) rs' ls) as Q.
  { intros pre rs'. revert pre. induction rs' as [|r rs' IH]; intros pre l Hp He.
    - inversion He; subst. exists []. split; auto.
    - assert (forall p i, resolves (pre ++ [ERel r]) p i <-> resolves (map EDef ds) p i) as Hp'.
      { intros p i. rewrite <- Hp, <- !paths_some. unfold paths_of. rewrite definitions_app. cbn [definitions].
        now rewrite app_nil_r. }
      assert (forall p, declared pre p <-> declared (map EDef ds) p) as Hd.
      { intros p. rewrite !resolves_declared. split; intros (i & Hi); exists i; now apply Hp. }
      cbn [map] in He. inversion He as [| |? ? ? l0 s t Hs Ht H0|? ? ? ? D H0]; subst;
        destruct (IH _ _ Hp' H0) as (ls & -> & HF).
      + exists ([mkEdge s t None] :: ls). split; auto. constructor; auto. left.
        apply Hp in Hs, Ht. repeat split.
        * apply resolves_declared; eauto.
        * apply resolves_declared; eauto.
        * exists (mkEdge s t None). split; auto. split; auto.
      + exists ([] :: ls). split; auto. constructor; auto. right. split; auto.
        rewrite <- !Hd. tauto. }
  apply (Q (map EDef ds)); auto. reflexivity.
Qed.

Theorem into_mir_edges_show m d : into_mir m = Ret d ->
  Forall (fun x => exists r, In (ERel r) (m_entries m) /\
            shows_path d (rel_start r) (e_source x) /\ shows_path d (rel_end r) (e_target x))
         (d_edges d).
Proof.
  destruct (into_mir_eq m) as (l & Hl & ->). intros [= <-]. apply (edges_show l [] _ _ Hl).
Qed.

Lemma order_matters :
  exists e r, let m1 := mkModule None [EDef e; ERel r] in let m2 := mkModule None [ERel r; EDef e] in
  exists d1 d2, into_mir m1 = Ret d1 /\ into_mir m2 = Ret d2 /\
    length (d_edges d1) = 1 /\ length (d_edges d2) = 0 /\ d_nodes d1 = d_nodes d2.
Proof.
  exists (mkEntity (lit "a") [mkField (lit "x") TInt None; mkField (lit "y") TInt None]),
    (mkRelation (PField (lit "a") (lit "x")) (PField (lit "a") (lit "y"))).
  vm_compute. do 2 eexists. repeat split.
Qed.

(** ** Styles *)
Lemma header_styled e : styled_header (header_shape (ent_name e)).
Proof. repeat split; cbn; intros; discriminate. Qed.
Lemma column_styled f : styled_column (column_shape f).
Proof.
  split; [|split; reflexivity]. split; [reflexivity|]. split.
  - intros t E. cbn in E. injection E as <-. cbn [t_color t_text]. eexists. split; [reflexivity|].
    destruct (f_type f); cbn; auto.
  - intros b E. cbn in E. destruct (f_key f) as [[]|]; try discriminate; injection E as <-;
      do 2 eexists; (split; [reflexivity|]); (split; [reflexivity|]); cbn; auto.
Qed.
Theorem into_mir_styles m d : into_mir m = Ret d -> Forall (styled_table d) (body_children d).
Proof.
  destruct (into_mir_eq m) as (l & _ & ->). intros [= <-]. set (ds := definitions (m_entries m)).
  apply Forall_forall. intros i I. change (body_children (doc_of ?x ?y)) with (record_ids 1 x) in I.
  apply in_record_ids in I as (a & e & c & H & ->). change (1 + total_nodes a) with (base a).
  exists (record_node (base a) e), table_shape, (base a), (seq (S (base a)) (length (ent_fields e))).
  split; [eapply get_record; eauto|]. repeat (split; [reflexivity|]). split.
  - exists (header_node e), (header_shape (ent_name e)). split; [eapply get_header; eauto|].
    split; [reflexivity|apply header_styled].
  - apply Forall_forall. intros j J. apply in_seq in J.
    destruct (nth_error (ent_fields e) (j - S (base a))) as [f|] eqn:F.
    + exists (column_node f), (column_shape f). replace j with (base a + 1 + (j - S (base a))) by lia.
      split; [eapply get_column; eauto|]. split; [reflexivity|apply column_styled].
    + apply nth_error_None in F. lia.
Qed.
