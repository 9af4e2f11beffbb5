(** What is added at the end of a module leaves the earlier tables alone. *)
From Coq Require Import String List Arith NArith ZArith Bool Lia.
From Verif Require Import Base F32 Geometry Mir Erd Heap Route Layout Svg Render Cli SpecMir SpecRender
  SpecStable MirFacts PlaceFacts RenderFacts SvgFacts PipelineFacts TableFacts.
Import ListNotations.

Lemma grid_ys_app ds more : forall i y m, exists ys,
  grid_ys i y m (ds ++ more) = grid_ys i y m ds ++ ys.
Proof.
  induction ds as [|e ds IH]; intros i y m; [exists (grid_ys i y m more); reflexivity|].
  cbn [app grid_ys]. destruct (advance i y m) as [y1 m1].
  destruct (IH (S i) y1 (fmax (table_h (rows e)) m1)) as (ys & ->). exists ys. reflexivity.
Qed.

Lemma y_of_app ds more a e c : ds = a ++ e :: c -> y_of (ds ++ more) (length a) = y_of ds (length a).
Proof.
  intros Hd. unfold y_of. destruct (grid_ys_app ds more 0 (py ORIGIN) F_MIN) as (ys & ->).
  apply app_nth1. rewrite grid_ys_length, Hd, app_length. cbn. lia.
Qed.

Lemma nodes_stable ds more E E' i : 0 < i < 1 + total_nodes ds ->
  get_node (ported (ds ++ more) E') i = get_node (ported ds E) i.
Proof.
  intros H. destruct (locate ds (i - 1)) as (a & e & c & k & Hd & Ei & Hk); [lia|].
  replace i with (base a + k) in * by (unfold base; lia). clear Ei.
  assert (Hd' : ds ++ more = a ++ e :: (c ++ more)) by (rewrite Hd, <- app_assoc; reflexivity).
  destruct (Nat.eq_dec k (rows e)) as [->|N].
  - replace (base a + rows e) with (record_at (base a) e) by (unfold record_at, rows; lia).
    rewrite (ported_record ds E a e c Hd), (ported_record (ds ++ more) E' a e (c ++ more) Hd').
    now rewrite (y_of_app ds more a e c Hd).
  - assert (Lk : k < rows e) by (unfold rows, node_count in *; lia).
    destruct (nth_error (block (base a) e) k) as [n|] eqn:En.
    2:{ apply nth_error_None in En. rewrite block_length in En. lia. }
    rewrite (ported_row ds E a e c k n Hd Lk), (ported_row (ds ++ more) E' a e (c ++ more) k n Hd' Lk).
    + now rewrite (y_of_app ds more a e c Hd).
    + rewrite (get_block (ds ++ more) E' a e (c ++ more) k Hd' Hk). exact En.
    + rewrite (get_block ds E a e c k Hd Hk). exact En.
Qed.

Lemma record_ids_app ds more : forall b, record_ids b (ds ++ more) = record_ids b ds ++ record_ids (b + total_nodes ds) more.
Proof.
  induction ds as [|e ds IH]; intros b; cbn [app record_ids]; [now rewrite Nat.add_0_r|].
  rewrite IH, total_cons. now rewrite Nat.add_assoc.
Qed.

Lemma enum_ext {A B} (f g : nat * A -> list B) (l : list A) : forall i,
  (forall j x, In x l -> f (j, x) = g (j, x)) -> flat_map f (enum_from i l) = flat_map g (enum_from i l).
Proof.
  induction l as [|x l IH]; intros i H; [reflexivity|]. cbn [enum_from flat_map].
  rewrite H by (now left). f_equal. apply IH. intros j y Hy. apply H. now right.
Qed.

Section Stable.
Variables (ds more : list entity_definition) (E E' : list edge_data) (d d' : document).
Hypotheses (N : d_nodes d = d_nodes (ported ds E)) (N' : d_nodes d' = d_nodes (ported (ds ++ more) E')).

Lemma get_stable i : 0 < i < 1 + total_nodes ds -> get_node d' i = get_node d i.
Proof.
  intros H. unfold get_node. rewrite N, N'. exact (nodes_stable ds more E E' i H).
Qed.

Lemma body_first : body_children d = record_ids 1 ds.
Proof. unfold body_children. rewrite (get_same ds E d N 0), ported_body. reflexivity. Qed.
Lemma body_second : body_children d' = record_ids 1 ds ++ record_ids (1 + total_nodes ds) more.
Proof.
  unfold body_children. rewrite (get_same (ds ++ more) E' d' N' 0), ported_body, get_body.
  cbn [n_children body_node]. apply record_ids_app.
Qed.

Lemma id_range i : In i (record_ids 1 ds) -> exists a e c, ds = a ++ e :: c /\ i = record_at (base a) e /\ 0 < i < 1 + total_nodes ds.
Proof.
  intros H. apply in_record_ids in H as (a & e & c & Hd & ->). exists a, e, c. split; [exact Hd|].
  split; [reflexivity|]. rewrite Hd, total_app, total_cons. unfold record_at, node_count. lia.
Qed.

Lemma clips_stable : flat_map (clip_elem d') (enum (record_ids 1 ds)) = flat_map (clip_elem d) (enum (record_ids 1 ds)).
Proof.
  apply enum_ext. intros j i H. apply id_range in H as (a & e & c & Hd & _ & R).
  unfold clip_elem. cbn [fst snd]. now rewrite get_stable.
Qed.

Lemma records_stable : flat_map (record_elems d') (enum (record_ids 1 ds)) = flat_map (record_elems d) (enum (record_ids 1 ds)).
Proof.
  apply enum_ext. intros j i H. apply id_range in H as (a & e & c & Hd & Ei & R).
  unfold record_elems. cbn [fst snd]. rewrite get_stable by exact R.
  rewrite Ei, (get_same ds E d N), (ported_record ds E a e c Hd). cbn [n_kind n_origin n_size n_children]. f_equal.
  apply enum_ext. intros k r Hr. unfold field_elems. cbn [fst snd]. rewrite get_stable; [reflexivity|].
  apply in_seq in Hr. unfold base, rows, record_at in *. rewrite Hd, total_app, total_cons. unfold node_count. lia.
Qed.

Lemma clips_count : length (flat_map (clip_elem d) (enum (record_ids 1 ds))) = length ds.
Proof.
  assert (L : forall l i, (forall j x, In x l -> length (clip_elem d (j, x)) = 1) ->
            length (flat_map (clip_elem d) (enum_from i l)) = length l).
  { induction l as [|x l IH]; intros i H; [reflexivity|]. cbn [enum_from flat_map].
    rewrite app_length, H by (now left). cbn [length Nat.add]. f_equal. apply IH. intros j y Hy. apply H. now right. }
  unfold enum. rewrite L.
  - clear. generalize 1 as b. induction ds as [|e l IH]; intros b; cbn [record_ids length]; [reflexivity|now rewrite IH].
  - intros j i H. apply id_range in H as (a & e & c & Hd & Ei & R).
    unfold clip_elem. cbn [fst snd]. now rewrite Ei, (get_same ds E d N), (ported_record ds E a e c Hd).
Qed.
End Stable.

Lemma record_ids_length ds : forall b, length (record_ids b ds) = length ds.
Proof. induction ds as [|e l IH]; intros b; cbn [record_ids length]; [reflexivity|now rewrite IH]. Qed.

Lemma lines_drawn es : draws_relations (flat_map edge_elems es).
Proof.
  induction es as [|e es IH]; [constructor|]. cbn [flat_map]. unfold edge_elems at 1.
  destruct (draw_edge_cases e) as [(P & Q)|(ps & P & [(L & Q)|[(i & L & R & F & Q)|(cs & p & L & N & D & Hd & Q)]])];
    rewrite Q; try exact IH.
  cbn [app]. constructor; auto.
Qed.

Lemma name_set k v x : svg_name (set k v x) = svg_name x.
Proof. now destruct x. Qed.
Lemma name_setc k c x : svg_name (setc k c x) = svg_name x.
Proof. now destruct x. Qed.
Lemma name_setf k c x : svg_name (setf k c x) = svg_name x.
Proof. now destruct x. Qed.
Lemma name_append y x : svg_name (append y x) = svg_name x.
Proof. now destruct x. Qed.
Lemma name_opt {A} (f : A -> svg_node -> svg_node) o x : (forall a x, svg_name (f a x) = svg_name x) ->
  svg_name (set_opt f o x) = svg_name x.
Proof. intros H. destruct o; [apply H|reflexivity]. Qed.

Lemma name_text t o a : svg_name (draw_text t o a) = lit "text".
Proof. unfold draw_text. rewrite !name_opt by (intros; apply name_set || apply name_setc). reflexivity. Qed.

Lemma not_path x k : svg_name x = lit k -> str_eqb (lit k) (lit "path") = false -> svg_name x <> lit "path".
Proof. intros -> H E. rewrite E in H. discriminate. Qed.

Lemma tables_pathless d l : Forall (fun x => svg_name x <> lit "path") (flat_map (record_elems d) l).
Proof.
  apply Forall_forall. intros x H. apply in_flat_map in H as (ic & _ & H). unfold record_elems in H.
  destruct (get_node d (snd ic)) as [n|]; [|destruct H].
  destruct (n_kind n) as [|rs|f]; [destruct H| |destruct H].
  destruct (n_origin n) as [o|]; [|destruct H]. destruct (n_size n) as [s|]; [|destruct H].
  destruct H as [<-|H].
  - apply (not_path _ "rect"); [|reflexivity]. unfold record_background.
    rewrite !name_opt by (intros; apply name_setc). reflexivity.
  - apply in_flat_map in H as (jc & _ & H). unfold field_elems in H.
    destruct (get_node d (snd jc)) as [n'|]; [|destruct H].
    destruct (n_kind n') as [|rs'|f]; [destruct H|destruct H|].
    destruct (node_rect n') as [r|]; [|destruct H].
    unfold field_elements in H. rewrite !in_app_iff in H. destruct H as [H|[H|[H|H]]].
    + unfold field_background in H. destruct (fs_bg f); [|destruct H]. destruct H as [<-|[]].
      apply (not_path _ "rect"); reflexivity.
    + unfold field_border in H. destruct (Nat.ltb 0 (fst jc)); [|destruct H]. destruct H as [<-|[]].
      apply (not_path _ "line"); [|reflexivity]. rewrite name_opt; [reflexivity|].
      intros a y. now rewrite name_set, name_setc.
    + unfold field_texts in H. destruct H as [<-|H].
      * apply (not_path _ "text"); [apply name_text|reflexivity].
      * destruct (fs_subtitle f); [|destruct H]. destruct H as [<-|[]].
        apply (not_path _ "text"); [apply name_text|reflexivity].
    + unfold field_badge in H. destruct (fs_badge f) as [b|]; [|destruct H]. apply in_app_or in H as [H|[<-|[]]].
      * destruct (b_bg b); [|destruct H]. destruct H as [<-|[]]. apply (not_path _ "circle"); reflexivity.
      * apply (not_path _ "text"); [apply name_text|reflexivity].
Qed.

Theorem tables_stable m m' svg svg' : grows m m' ->
  render_module m = Okay svg -> render_module m' = Okay svg' ->
  keeps_tables (length (definitions (m_entries m))) (module_texts m) svg svg'.
Proof.
  intros (more & G) R R'. pose proof (module_texts_rendered m svg R) as T.
  unfold render_module in R, R'.
  destruct (layout_module m) as [[[vb g] d]|] eqn:L; [|discriminate].
  destruct (layout_module m') as [[[vb' g'] d']|] eqn:L'; [|discriminate].
  destruct (layout_ported m vb g d L) as (E & N & _). destruct (layout_ported m' vb' g' d' L') as (E' & N' & _).
  rewrite G in N'. apply render_okay in R as [_ ->]. apply render_okay in R' as [_ ->].
  set (ds := definitions (m_entries m)) in *.
  pose proof (body_first ds E d N) as B. pose proof (body_second ds more E' d' N') as B'.
  assert (EN : enum (body_children d') = enum (record_ids 1 ds) ++ enum_from (length ds) (record_ids (1 + total_nodes ds) more)).
  { rewrite B'. unfold enum. rewrite enum_from_app. now rewrite record_ids_length. }
  exists background_rect, (flat_map (clip_elem d) (enum (record_ids 1 ds))),
    (flat_map (clip_elem d') (enum_from (length ds) (record_ids (1 + total_nodes ds) more))),
    (flat_map (record_elems d) (enum (record_ids 1 ds))),
    (flat_map (record_elems d') (enum_from (length ds) (record_ids (1 + total_nodes ds) more))),
    (flat_map edge_elems (d_edges d)), (flat_map edge_elems (d_edges d')).
  split; [unfold picture; cbn [svg_children debug_part]; now rewrite B, app_nil_r|].
  split.
  { unfold picture. cbn [svg_children debug_part]. rewrite EN, !flat_map_app, app_nil_r.
    rewrite (clips_stable ds more E E' d d' N N'), (records_stable ds more E E' d d' N N'). reflexivity. }
  split; [exact (clips_count ds E d N)|]. split.
  { rewrite <- T. unfold picture. cbn [texts flat_map debug_part]. rewrite B, app_nil_r, flat_map_app.
    rewrite !flat_map_flat_map.
    rewrite (flat_map_nil (fun x => flat_map texts (edge_elems x))) by apply texts_edge.
    rewrite (flat_map_nil (fun x => flat_map texts (clip_elem d x))) by apply texts_clip.
    rewrite app_nil_r. cbn [app].
    replace (texts background_rect) with (@nil str); [reflexivity|].
    unfold background_rect, setc. now rewrite !texts_set. }
  split; [apply Forall_app; split; apply tables_pathless|].
  split; apply lines_drawn.
Qed.

(** A module, the same with a table and a relation more, and the same with a
    relation more that changes the line of the first relation. *)
Definition field_of (n : str) : entity_field := mkField n TInt None.
Definition three_tables : list module_entry :=
  [EDef (mkEntity (lit "a") [field_of (lit "x")]);
   EDef (mkEntity (lit "b") [field_of (lit "x"); field_of (lit "y"); field_of (lit "z")]);
   EDef (mkEntity (lit "c") [field_of (lit "x")]);
   ERel (mkRelation (PField (lit "a") (lit "x")) (PField (lit "c") (lit "x")))].
Definition small_module : module := mkModule None three_tables.
Definition grown_module : module :=
  mkModule None (three_tables ++ [EDef (mkEntity (lit "d") [field_of (lit "x")]);
                                  ERel (mkRelation (PField (lit "d") (lit "x")) (PField (lit "b") (lit "y")))]).

Definition drawn (m : module) : bool := match render_module m with Okay _ => true | _ => false end.
Lemma drawn_okay m : drawn m = true -> exists svg, render_module m = Okay svg.
Proof. unfold drawn. destruct (render_module m); [eauto|discriminate|discriminate]. Qed.

Lemma grown_sample : grows small_module grown_module /\
  (exists svg, render_module small_module = Okay svg) /\ (exists svg, render_module grown_module = Okay svg).
Proof.
  split; [exists [mkEntity (lit "d") [field_of (lit "x")]]; reflexivity|].
  split; apply drawn_okay; vm_compute; reflexivity.
Qed.

Definition first_path (m : module) : option (node_id * node_id * list point) :=
  match layout_module m with
  | Ret (_, _, d) =>
      match d_edges d with
      | e :: _ => match e_path e with Some ps => Some (e_source e, e_target e, ps) | None => None end
      | [] => None
      end
  | Panic _ => None
  end.
Lemma first_path_some m a b ps : first_path m = Some (a, b, ps) -> exists vb g d e,
  layout_module m = Ret (vb, g, d) /\ hd_error (d_edges d) = Some e /\ e_source e = a /\ e_target e = b /\ e_path e = Some ps.
Proof.
  unfold first_path. destruct (layout_module m) as [[[vb g] d]|]; [|discriminate].
  destruct (d_edges d) as [|e es] eqn:D; [discriminate|]. destruct (e_path e) as [qs|] eqn:P; [|discriminate].
  intros [= <- <- <-]. exists vb, g, d, e. rewrite D. auto.
Qed.

Definition heights (r : option (node_id * node_id * list point)) : option (node_id * node_id * list f32) :=
  match r with Some (a, b, ps) => Some (a, b, map py ps) | None => None end.
Lemma heights_some m a b ys : heights (first_path m) = Some (a, b, ys) -> exists ps, first_path m = Some (a, b, ps) /\ map py ps = ys.
Proof. destruct (first_path m) as [[[a' b'] ps]|]; [|discriminate]. intros [= <- <- <-]. eauto. Qed.

Lemma line_moves : exists n es r vb g d vb' g' d',
  layout_module (mkModule n es) = Ret (vb, g, d) /\
  layout_module (mkModule n (es ++ [ERel r])) = Ret (vb', g', d') /\ reroutes d d'.
Proof.
  exists None, three_tables, (mkRelation (PField (lit "b") (lit "x")) (PField (lit "a") (lit "x"))).
  set (r := [ERel _]). pose (y := fdiv (f32_of_Z 205) (f32_of_Z 2)).
  assert (A : heights (first_path (mkModule None three_tables)) = Some (2, 10, [y; y; y; y])) by (vm_compute; reflexivity).
  assert (B : exists ys, heights (first_path (mkModule None (three_tables ++ r))) = Some (2, 10, ys) /\
              nth_error ys 0 = Some y /\ nth_error ys 2 = Some (f32_of_Z 160)).
  { eexists. split; [vm_compute; reflexivity|]. split; reflexivity. }
  destruct B as (ys & B & Y0 & Y2).
  apply heights_some in A as (ps & A & Py). apply heights_some in B as (ps' & B & Py').
  apply first_path_some in A as (vb & g & d & e & L & H & S1 & T1 & P).
  apply first_path_some in B as (vb' & g' & d' & e' & L' & H' & S1' & T1' & P').
  exists vb, g, d, vb', g', d'. split; [exact L|]. split; [exact L'|].
  exists e, e', ps, ps'. split; [exact H|]. split; [exact H'|]. split; [congruence|]. split; [congruence|].
  split; [exact P|]. split; [exact P'|]. split.
  - exists y. intros p I. apply (in_map py) in I. rewrite Py in I. cbn [In] in I. intuition congruence.
  - intros (z & H0).
    assert (K : forall i v, nth_error ys i = Some v -> v = z).
    { intros i v Hv. rewrite <- Py', nth_error_map in Hv. destruct (nth_error ps' i) as [p|] eqn:Hp; [|discriminate].
      injection Hv as <-. apply H0. now apply nth_error_In in Hp. }
    rewrite <- (K 0 _ Y0) in K. specialize (K 2 _ Y2). vm_compute in K. discriminate.
Qed.
