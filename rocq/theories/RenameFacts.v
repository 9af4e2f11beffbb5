(** Consistent renaming changes nothing but the texts. *)
From Coq Require Import String List Arith NArith ZArith Bool Lia.
From Verif Require Import Base F32 Geometry Mir Erd Route Layout Svg Render Cli SpecMir SpecRender SpecRename
  MirFacts RenderFacts SvgFacts PictureFacts.
Import ListNotations.

(** ** The layout does not look at texts *)

Lemma update_map {A B} (h : A -> B) (k : A -> A) (k' : B -> B) i l :
  (forall x, h (k x) = k' (h x)) -> map h (update i k l) = update i k' (map h l).
Proof.
  intros H. revert i. induction l as [|x l IH]; intros [|i]; cbn [update map]; try reflexivity.
  - now rewrite H.
  - now rewrite IH.
Qed.
Lemma blank_update d i k : (forall n, blank_node (k n) = k (blank_node n)) ->
  update_node (blank d) i k = blank (update_node d i k).
Proof. intros H. unfold update_node, blank. cbn [d_nodes d_edges]. now rewrite (update_map _ k k). Qed.

Lemma blank_kind n : match n_kind (blank_node n) with KRecord _ => true | _ => false end =
                     match n_kind n with KRecord _ => true | _ => false end.
Proof. cbn. now destruct (n_kind n). Qed.

Lemma fold_blank {B} (h : document -> B -> document) l :
  (forall d b, h (blank d) b = blank (h d b)) -> forall d, fold_left h l (blank d) = blank (fold_left h l d).
Proof. intros H. induction l as [|b l IH]; intros d; cbn [fold_left]; [reflexivity|]. now rewrite H, IH. Qed.

Lemma place_field_blank x y d ic : place_field x y (blank d) ic = blank (place_field x y d ic).
Proof.
  destruct ic as [k i]. unfold place_field. rewrite blank_get.
  destruct (get_node d i) as [n|]; [|reflexivity]. cbn [option_map blank_node n_kind].
  destruct (n_kind n); try reflexivity. now apply blank_update.
Qed.

Definition blank_state (st : place_state) : place_state := let '(d, a, b) := st in (blank d, a, b).

Lemma place_record_blank st ic : place_record (blank_state st) ic = blank_state (place_record st ic).
Proof.
  destruct st as [[d a] b], ic as [k i]. unfold place_record. cbn [blank_state].
  match goal with |- context[if ?c then (?x, ?y) else ?z] => destruct (if c then (x, y) else z) as [a' b'] end. rewrite blank_get.
  destruct (get_node d i) as [n|]; [|reflexivity]. cbn [option_map blank_node n_kind n_children].
  destruct (n_kind n); try reflexivity. cbn [blank_state]. f_equal. f_equal.
  rewrite blank_update by reflexivity. apply fold_blank. intros. apply place_field_blank.
Qed.

Lemma place_nodes_blank d : place_nodes (blank d) = (blank (fst (place_nodes d)), snd (place_nodes d)).
Proof.
  unfold place_nodes. rewrite blank_body.
  assert (H : forall l st, fold_left place_record l (blank_state st) = blank_state (fold_left place_record l st)).
  { induction l as [|x l IH]; intros st; cbn [fold_left]; [reflexivity|]. now rewrite place_record_blank, IH. }
  specialize (H (enum (body_children d)) (d, py ORIGIN, F_MIN)). cbn [blank_state] in H. rewrite H.
  destruct (fold_left place_record (enum (body_children d)) (d, py ORIGIN, F_MIN)) as [[d' a] b]. reflexivity.
Qed.

Lemma add_ports_blank i ps n : blank_node (add_ports i ps n) = add_ports i ps (blank_node n).
Proof.
  unfold add_ports. revert n. induction ps as [|[[x y] o] ps IH]; intros n; cbn [fold_left]; [reflexivity|].
  now rewrite IH.
Qed.

Lemma port_field_blank c d ic : port_field c (blank d) ic = blank (port_field c d ic).
Proof.
  destruct ic as [k i]. unfold port_field. rewrite blank_get. destruct (get_node d i) as [n|]; [|reflexivity].
  cbn [option_map]. change (node_rect (blank_node n)) with (node_rect n).
  destruct (node_rect n); [|reflexivity]. apply blank_update. intros. apply add_ports_blank.
Qed.

Lemma place_ports_blank d : place_terminal_ports (blank d) = blank (place_terminal_ports d).
Proof.
  unfold place_terminal_ports. rewrite blank_body. apply fold_blank. clear. intros d i.
  unfold port_record. rewrite blank_get. destruct (get_node d i) as [n|]; [|reflexivity]. cbn [option_map].
  change (node_rect (blank_node n)) with (node_rect n). change (n_children (blank_node n)) with (n_children n).
  destruct (node_rect n); [|reflexivity]. rewrite blank_update by (intros; apply add_ports_blank).
  apply fold_blank. intros. apply port_field_blank.
Qed.

Lemma shape_rects_blank d : shape_rects (blank d) = shape_rects d.
Proof.
  unfold shape_rects. rewrite blank_body. induction (body_children d) as [|i l IH]; cbn [filter_map]; [reflexivity|].
  rewrite blank_get. rewrite IH. now destruct (get_node d i).
Qed.
Lemma end_ports_blank d e : edge_end_ports (blank d) e = edge_end_ports d e.
Proof. unfold edge_end_ports. rewrite !blank_get. now destruct (get_node d (e_source e)), (get_node d (e_target e)). Qed.
Lemma port_junctions_blank d p l : junctions_from_port (blank d) p l = junctions_from_port d p l.
Proof. unfold junctions_from_port. now rewrite shape_rects_blank. Qed.
Lemma edge_junctions_blank d : edge_junctions (blank d) = edge_junctions d.
Proof.
  unfold edge_junctions, remove_overlapped, junctions_around_shapes. rewrite shape_rects_blank. f_equal. f_equal.
  apply flat_map_ext. intros e. rewrite end_ports_blank. apply flat_map_ext. intros p. apply port_junctions_blank.
Qed.
Lemma build_blank g d : build_routes g (blank d) = build_routes g d.
Proof.
  unfold build_routes. rewrite edge_junctions_blank. change (d_edges (blank d)) with (d_edges d).
  rewrite (flat_map_ext _ (edge_end_ports d) (end_ports_blank d)).
  destruct (foldM rg_add_node _ _); [|reflexivity]. cbn [bind].
  destruct (foldM rg_add_port _ _); [|reflexivity]. cbn [bind].
  unfold connect_neighbors, neighbor_edges. now rewrite shape_rects_blank.
Qed.
Lemma find_blank g d l : find_paths g (blank d) l = find_paths g d l.
Proof.
  induction l as [|e l IH]; cbn [find_paths]; [reflexivity|]. rewrite IH.
  replace (find_edge_path g (blank d) e) with (find_edge_path g d e); [reflexivity|].
  unfold find_edge_path. rewrite !blank_get. now destruct (get_node d (e_source e)), (get_node d (e_target e)).
Qed.

Lemma draw_blank g d : draw_edge_path g (blank d) =
  match draw_edge_path g d with Ret (g', d') => Ret (g', blank d') | Panic p => Panic p end.
Proof.
  unfold draw_edge_path. rewrite build_blank. destruct (build_routes g d) as [g'|]; [|reflexivity]. cbn [bind].
  rewrite find_blank. change (d_edges (blank d)) with (d_edges d).
  destruct (find_paths g' d (d_edges d)); [|reflexivity]. cbn [bind].
  now destruct (assign_paths _ _).
Qed.

(** The layout of a document, as in [layout_module]. *)
Definition lay_out (d : document) : res (rect * route_graph * document) :=
  let '(d1, vb) := place_nodes d in
  do gd <- draw_edge_path rg_new (place_terminal_ports d1);
  let '(g, d3) := gd in Ret (vb, g, d3).

Lemma lay_out_blank d : lay_out (blank d) =
  match lay_out d with Ret (vb, g, d') => Ret (vb, g, blank d') | Panic p => Panic p end.
Proof.
  unfold lay_out. rewrite place_nodes_blank. destruct (place_nodes d) as [d1 vb]. cbn [fst snd].
  rewrite place_ports_blank, draw_blank. now destruct (draw_edge_path _ _) as [[g d']|].
Qed.

Lemma render_same d d' : blank d = blank d' ->
  map_outcome without_text (match lay_out d with Panic p => Abort p | Ret (vb, _, d) => render (Some vb) None d end) =
  map_outcome without_text (match lay_out d' with Panic p => Abort p | Ret (vb, _, d) => render (Some vb) None d end).
Proof.
  intros E. pose proof (lay_out_blank d) as A. pose proof (lay_out_blank d') as B. rewrite <- E in B. rewrite A in B.
  destruct (lay_out d) as [[[vb g] x]|], (lay_out d') as [[[vb' g'] x']|]; try congruence.
  injection B as <- <- B1 B2. apply render_texts_only. split; assumption.
Qed.

(** ** Renaming *)

Lemma blank_nodes d d' : blank d = blank d' -> length (d_nodes d) = length (d_nodes d').
Proof. intros E. apply (f_equal (fun x => length (d_nodes x))) in E. cbn in E. now rewrite !map_length in E. Qed.
Lemma blank_add d d' n n' : blank d = blank d' -> blank_node n = blank_node n' ->
  blank (fst (add_node d n)) = blank (fst (add_node d' n')) /\ snd (add_node d n) = snd (add_node d' n').
Proof.
  intros E N. split; [|exact (blank_nodes d d' E)]. unfold blank, add_node in *. cbn [fst d_nodes d_edges] in *.
  injection E as E1 E2. rewrite !map_app, E1, E2. cbn [map]. now rewrite N.
Qed.

Section Rename.
Variables (f : str -> str) (g : str -> str -> str) (m : module).
Hypothesis K : keeps_apart f g m.
Local Notation rp := (rename_path f g).

Definition used (p : entity_path) : Prop :=
  match p with PEntity e => occurs_entity m e | PField e x => occurs_entity m e /\ occurs_field m e x end.

Lemma rename_inj p q : used p -> used q -> rp p = rp q -> p = q.
Proof.
  destruct K as [K1 K2]. destruct p as [a|a x], q as [b|b y]; cbn [used rename_path]; intros A B E; try discriminate.
  - injection E as E. f_equal. auto.
  - destruct A as [A1 A2], B as [B1 B2]. injection E as E1 E2. apply K1 in E1; auto. subst b. f_equal. eauto.
Qed.

Definition rename_map (ps : path_map) : path_map := map (fun x => (rp (fst x), snd x)) ps.

Lemma assoc_rename p ps : used p -> Forall (fun x => used (fst x)) ps ->
  assoc entity_path_eqb (rp p) (rename_map ps) = assoc entity_path_eqb p ps.
Proof.
  intros U F. induction ps as [|[q i] ps IH]; cbn [rename_map map assoc fst snd]; [reflexivity|].
  inversion F as [|? ? Q F']; subst.
  destruct (entity_path_eqb p q) eqn:E.
  - apply entity_path_eqb_spec in E as ->. now rewrite (proj2 (entity_path_eqb_spec (rp q) (rp q)) eq_refl).
  - destruct (entity_path_eqb (rp p) (rp q)) eqn:E'; [|now apply IH].
    apply entity_path_eqb_spec, rename_inj in E' as ->; auto.
    rewrite (proj2 (entity_path_eqb_spec q q) eq_refl) in E. discriminate.
Qed.

Lemma columns_rename e : occurs_entity m e -> forall fs d d' ps, blank d = blank d' ->
  Forall (fun x => used (fst x)) ps -> (forall x, In x fs -> occurs_field m e (f_name x)) ->
  match add_columns e fs d ps, add_columns (f e) (map (rename_field g e) fs) d' (rename_map ps) with
  | (d1, ps1, ids), (d2, ps2, ids') =>
      blank d1 = blank d2 /\ ps2 = rename_map ps1 /\ ids = ids' /\ Forall (fun x => used (fst x)) ps1
  end.
Proof.
  intros O. induction fs as [|x fs IH]; intros d d' ps E F H; cbn [add_columns map]; [auto|].
  unfold create_field.
  destruct (blank_add d d' (node_new (KField (column_shape x))) (node_new (KField (column_shape (rename_field g e x)))) E eq_refl) as [E1 E2].
  destruct (add_node d _) as [d1 i], (add_node d' _) as [d1' i']. cbn [fst snd] in E1, E2. subst i'.
  specialize (IH d1 d1' ((PField e (f_name x), i) :: ps) E1).
  cbn [rename_map map fst snd rename_path] in IH. cbn [rename_field f_name].
  destruct (add_columns e fs d1 _) as [[d2 ps2] ids], (add_columns (f e) _ d1' _) as [[d2' ps2'] ids'].
  destruct IH as (A & B & C & D).
  - constructor; [|exact F]. cbn. split; [exact O|]. apply H. now left.
  - intros y Y. apply H. now right.
  - subst. auto.
Qed.

Lemma definition_rename e d d' ps : blank d = blank d' -> Forall (fun x => used (fst x)) ps -> In (EDef e) (m_entries m) ->
  match add_definition e d ps, add_definition (rename_entity f g e) d' (rename_map ps) with
  | (d1, ps1), (d2, ps2) => blank d1 = blank d2 /\ ps2 = rename_map ps1 /\ Forall (fun x => used (fst x)) ps1
  end.
Proof.
  intros E F I. unfold add_definition. cbn [rename_entity ent_name ent_fields]. unfold create_field at 1 2.
  assert (O : occurs_entity m (ent_name e)) by (left; eauto).
  destruct (blank_add d d' (node_new (KField (header_shape (ent_name e)))) (node_new (KField (header_shape (f (ent_name e))))) E eq_refl) as [E1 E2].
  destruct (add_node d _) as [d1 i], (add_node d' _) as [d1' i']. cbn [fst snd] in E1, E2. subst i'.
  assert (H : forall x, In x (ent_fields e) -> occurs_field m (ent_name e) (f_name x)) by (intros x X; left; eauto 9).
  pose proof (columns_rename (ent_name e) O (ent_fields e) d1 d1' ps E1 F H) as C.
  destruct (add_columns _ (ent_fields e) d1 ps) as [[d2 ps2] ids], (add_columns _ _ d1' _) as [[d2' ps2'] ids'].
  destruct C as (A & -> & <- & B). unfold create_record.
  destruct (blank_add d2 d2' (node_new (KRecord table_shape)) (node_new (KRecord table_shape)) A eq_refl) as [A1 A2].
  destruct (add_node d2 _) as [d3 j], (add_node d2' _) as [d3' j']. cbn [fst snd] in A1, A2. subst j'.
  split; [|split; [reflexivity|constructor; [exact O|exact B]]].
  assert (Ck : forall l n, blank_node (fold_left append_child l n) = fold_left append_child l (blank_node n)).
  { induction l as [|c l IH]; intros n; cbn [fold_left]; [reflexivity|]. now rewrite IH. }
  rewrite <- (blank_update (update_node d3 j _)), <- (blank_update (update_node d3' j _)) by reflexivity.
  rewrite <- (blank_update d3), <- (blank_update d3') by (intros; apply Ck). now rewrite A1.
Qed.

Lemma relation_rename r d d' ps : blank d = blank d' -> Forall (fun x => used (fst x)) ps -> In (ERel r) (m_entries m) ->
  match add_relation r d ps, add_relation (mkRelation (rp (rel_start r)) (rp (rel_end r))) d' (rename_map ps) with
  | Ret d1, Ret d2 => blank d1 = blank d2
  | Panic p, Panic q => p = q
  | _, _ => False
  end.
Proof.
  intros E F I. unfold add_relation. cbn [rel_start rel_end].
  assert (U : used (rel_start r) /\ used (rel_end r)).
  { split; [destruct (rel_start r) eqn:X|destruct (rel_end r) eqn:X]; cbn [used];
      try split; right; exists r; split; auto; rewrite X; auto. }
  destruct U as [U1 U2]. rewrite !assoc_rename by assumption.
  destruct (assoc _ (rel_start r) ps) as [s|]; [|assumption]. destruct (assoc _ (rel_end r) ps) as [t|]; [|assumption].
  unfold add_edge. cbn [e_source e_target]. rewrite (blank_nodes d d' E).
  destruct (_ && _); [|reflexivity]. unfold blank in *. cbn [d_nodes d_edges] in *. injection E as E1 E2. now rewrite E1, E2.
Qed.

Lemma entries_rename es : (forall x, In x es -> In x (m_entries m)) -> forall d d' ps, blank d = blank d' ->
  Forall (fun x => used (fst x)) ps ->
  match add_entries es d ps, add_entries (map (rename_entry f g) es) d' (rename_map ps) with
  | Ret d1, Ret d2 => blank d1 = blank d2
  | Panic p, Panic q => p = q
  | _, _ => False
  end.
Proof.
  induction es as [|[e|r] es IH]; intros H d d' ps E F; cbn [add_entries map rename_entry]; [exact E| |].
  - pose proof (definition_rename e d d' ps E F (H _ (or_introl eq_refl))) as C.
    destruct (add_definition e d ps) as [d1 ps1], (add_definition _ d' _) as [d2 ps2]. destruct C as (A & -> & B).
    apply IH; auto. intros x X. apply H. now right.
  - pose proof (relation_rename r d d' ps E F (H _ (or_introl eq_refl))) as C.
    destruct (add_relation r d ps) as [d1|], (add_relation _ d' _) as [d2|]; cbn [bind]; try contradiction; [|exact C].
    apply IH; auto. intros x X. apply H. now right.
Qed.

Theorem renaming_keeps_the_picture name' :
  map_outcome without_text (render_module (mkModule name' (map (rename_entry f g) (m_entries m)))) =
  map_outcome without_text (render_module m).
Proof.
  pose proof (entries_rename (m_entries m) (fun x X => X) doc_new doc_new [] eq_refl (Forall_nil _)) as C.
  unfold render_module, layout_module, into_mir. cbn [m_entries]. cbn [rename_map map] in C.
  destruct (add_entries (m_entries m) doc_new []) as [d|p], (add_entries (map _ _) doc_new []) as [d'|p'];
    cbn [bind]; try contradiction; [|now subst].
  exact (eq_sym (render_same d d' C)).
Qed.
End Rename.

(** Renaming [a], [b] to [orders], [users] and every field to a name of its own
    keeps the names apart; merging the names draws something else. *)
Definition pair_module : module :=
  mkModule None
    [EDef (mkEntity (lit "a") [mkField (lit "x") TInt None]);
     EDef (mkEntity (lit "b") [mkField (lit "x") TInt (Some ForeignKey); mkField (lit "y") TText None]);
     ERel (mkRelation (PField (lit "a") (lit "x")) (PField (lit "b") (lit "x")))].
Definition longer (e : str) : str := e ++ lit "_table".
Definition with_table (e x : str) : str := e ++ lit "_" ++ x.

Lemma pair_apart : keeps_apart longer with_table pair_module.
Proof.
  split.
  - intros a b _ _ E. unfold longer in E. now apply app_inv_tail in E.
  - intros n a b _ _ E. unfold with_table in E. apply app_inv_head in E. now apply app_inv_head in E.
Qed.

Definition drawn_texts (m : module) : option (list str) :=
  match render_module m with Okay svg => Some (texts svg) | _ => None end.
Lemma drawn_texts_some m ts : drawn_texts m = Some ts -> exists svg, render_module m = Okay svg /\ texts svg = ts.
Proof. unfold drawn_texts. destruct (render_module m) as [svg| |]; [|discriminate|discriminate]. intros [= <-]. eauto. Qed.
Definition aborts (m : module) : bool := match render_module m with Abort _ => true | _ => false end.
Lemma aborts_abort m : aborts m = true -> exists p, render_module m = Abort p.
Proof. unfold aborts. destruct (render_module m); try discriminate. eauto. Qed.

Lemma pair_drawn : exists svg svg', render_module pair_module = Okay svg /\
  render_module (mkModule (Some (lit "shop")) (map (rename_entry longer with_table) (m_entries pair_module))) = Okay svg' /\
  texts svg' = [lit "a_table"; lit "a_x"; lit "int"; lit "b_table"; lit "b_x"; lit "int"; lit "FK"; lit "b_y"; lit "text"].
Proof.
  destruct (drawn_texts_some pair_module
    [lit "a"; lit "x"; lit "int"; lit "b"; lit "x"; lit "int"; lit "FK"; lit "y"; lit "text"]) as (svg & R & _);
    [vm_compute; reflexivity|].
  destruct (drawn_texts_some (mkModule (Some (lit "shop")) (map (rename_entry longer with_table) (m_entries pair_module)))
    [lit "a_table"; lit "a_x"; lit "int"; lit "b_table"; lit "b_x"; lit "int"; lit "FK"; lit "b_y"; lit "text"]) as (svg' & R' & T);
    [vm_compute; reflexivity|].
  exists svg, svg'. auto.
Qed.

Lemma merging_crashes : exists f g m svg p, render_module m = Okay svg /\
  render_module (mkModule (m_name m) (map (rename_entry f g) (m_entries m))) = Abort p.
Proof.
  exists (fun _ => lit "a"), (fun _ _ => lit "x"), pair_module.
  destruct pair_drawn as (svg & _ & R & _).
  destruct (aborts_abort (mkModule (m_name pair_module) (map (rename_entry (fun _ => lit "a") (fun _ _ => lit "x")) (m_entries pair_module))))
    as (p & A); [vm_compute; reflexivity|].
  exists svg, p. auto.
Qed.
