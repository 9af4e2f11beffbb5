(** The properties of the renderer: C53-C59, C61. *)
From Coq Require Import String List Arith NArith ZArith Bool.
From Verif Require Import Base F32 Color Geometry Mir Erd Route Layout Svg Render Cli SpecGeom SpecMir
  SpecRender RenderFacts SvgFacts PictureFacts PipelineFacts SpecOverlay OverlayFacts.
Import ListNotations.

(** C53 *)
Theorem C53_colour_digits :
  forall r g b, channel r -> channel g -> channel b ->
  exists r1 r0 g1 g0 b1 b0, show_color (RGB (mkRGB r g b)) = lit "#" ++ [r1; r0; g1; g0; b1; b0] /\
    hex_pair r1 r0 r /\ hex_pair g1 g0 g /\ hex_pair b1 b0 b.
Proof. exact color_digits. Qed.
Print Assumptions C53_colour_digits.

Theorem C53_colours_print_differently :
  forall c c', valid_color c -> valid_color c' -> show_color c = show_color c' -> c = c'.
Proof. exact color_injective. Qed.
Print Assumptions C53_colours_print_differently.

Example C53_example :
  show_color (RGB (mkRGB 10 255 0)) = lit "#0AFF00" /\ channel 255 /\ hex_pair 70%N 70%N 255.
Proof. split; [reflexivity|]. split; [reflexivity|]. exists 15, 15. repeat split. Qed.

(** Documents for the examples: two tables and a relation, laid out; the same
    before routing; the same before placement. *)
Definition shop : module :=
  mkModule None
    [EDef (mkEntity (lit "a<b") [mkField (lit "x") TInt (Some PrimaryKey)]);
     EDef (mkEntity (lit "c") [mkField (lit "y") TUuid (Some ForeignKey)]);
     ERel (mkRelation (PField (lit "a<b") (lit "x")) (PField (lit "c") (lit "y")))].
Definition shop_raw : document := match into_mir shop with Ret d => d | _ => doc_new end.
Definition shop_placed : document := place_terminal_ports (fst (place_nodes shop_raw)).
Definition shop_laid_out : document :=
  match layout_module shop with Ret (_, _, d) => d | _ => doc_new end.

(** C54 *)
Theorem C54_render_fails_exactly_on_missing_layout :
  forall vb g d x, render vb g d = Fail x <->
  exists id, x = InvalidLayout id /\
  (first_of (bad_record d) (body_children d) id \/
   (none_of (bad_record d) (body_children d) /\ first_of (bad_field d) (rows_of d) id) \/
   (none_of (bad_record d) (body_children d) /\ none_of (bad_field d) (rows_of d) /\
    exists e, first_of bad_edge (d_edges d) e /\ e_path e = None /\ e_source e = id)).
Proof. exact render_fail_iff. Qed.
Print Assumptions C54_render_fails_exactly_on_missing_layout.

Theorem C54_render_aborts_exactly_on_bad_paths :
  forall vb g d p, render vb g d = Abort p <->
  none_of (bad_record d) (body_children d) /\ none_of (bad_field d) (rows_of d) /\
  exists e ps, first_of bad_edge (d_edges d) e /\ e_path e = Some ps /\
    ((length ps < 2 /\ p = PShortPath) \/
     (2 <= length ps /\ exists i, reverses_at ps i /\ (forall j, j < i -> ~ reverses_at ps j) /\ p = PTurnaround i)).
Proof. exact render_abort_iff. Qed.
Print Assumptions C54_render_aborts_exactly_on_bad_paths.

Theorem C54_nothing_written_before_success :
  forall fmt write vb g d w,
  (forall svg, render vb g d = Okay svg ->
     fst (render_to fmt write vb g d w) = fst (write w (show_svg fmt svg)) /\
     snd (render_to fmt write vb g d w) = (if snd (write w (show_svg fmt svg)) then Okay tt else Fail IoFailure)) /\
  (forall e, render vb g d = Fail e -> render_to fmt write vb g d w = (w, Fail e)) /\
  (forall p, render vb g d = Abort p -> render_to fmt write vb g d w = (w, Abort p)).
Proof. exact render_to_writer. Qed.
Print Assumptions C54_nothing_written_before_success.

(** The document of a module never lacks its geometry. *)
Theorem C54_modules_never_fail : forall m e, render_module m <> Fail e.
Proof. exact modules_never_lack_geometry. Qed.
Print Assumptions C54_modules_never_fail.

(** Unplaced: the first table (node 3) is reported; placed but not routed: the
    source of the relation (node 2). *)
Example C54_example :
  render None None shop_raw = Fail (InvalidLayout 3) /\ render None None shop_placed = Fail (InvalidLayout 2) /\
  exists svg, render None None shop_laid_out = Okay svg.
Proof. split; [vm_compute; reflexivity|]. split; [vm_compute; reflexivity|]. vm_compute. eexists. reflexivity. Qed.

(** C55 *)
Theorem C55_structure :
  forall vb g d svg, byte_colors d -> render vb g d = Okay svg ->
  exists bg defs rest ids,
    svg_name svg = lit "svg" /\ svg_children svg = bg :: defs :: rest /\
    (svg_name bg = lit "rect" /\ svg_children bg = [] /\ has_attr bg "width" (lit "100%") /\
     has_attr bg "height" (lit "100%") /\ has_attr bg "fill" (lit "#1C1C1C")) /\
    (forall e, In e (subtree svg) -> In (lit "width", lit "100%") (svg_attrs e) -> e = bg) /\
    svg_name defs = lit "defs" /\ elements "defs" svg = [defs] /\
    elements "clipPath" svg = svg_children defs /\
    Forall2 (clips_record d) (filter (is_record d) (body_children d)) (svg_children defs) /\
    Forall2 (fun c id => has_attr c "id" id) (svg_children defs) ids /\ NoDup ids /\
    (forall e v, In e (subtree svg) -> In (lit "clip-path", v) (svg_attrs e) ->
       exists id, In id ids /\ v = lit "url(#" ++ id ++ lit ")").
Proof. exact picture_structure. Qed.
Print Assumptions C55_structure.

(** The colours of a module's document are bytes. *)
Theorem C55_module_colours : forall m vb g d, layout_module m = Ret (vb, g, d) -> byte_colors d.
Proof. exact layout_colors. Qed.
Print Assumptions C55_module_colours.

Example C55_example :
  byte_colors shop_laid_out /\ length (filter (is_record shop_laid_out) (body_children shop_laid_out)) = 2.
Proof.
  split; [|vm_compute; reflexivity]. unfold shop_laid_out.
  destruct (layout_module shop) as [[[vb g] d]|] eqn:E; [exact (layout_colors _ _ _ _ E)|]. repeat constructor.
Qed.

(** C56 *)
Theorem C56_document_texts :
  forall vb d svg, render vb None d = Okay svg -> texts svg = doc_texts d.
Proof. exact rendered_texts. Qed.
Print Assumptions C56_document_texts.

Theorem C56_module_texts :
  forall m svg, render_module m = Okay svg -> texts svg = module_texts m.
Proof. exact module_texts_rendered. Qed.
Print Assumptions C56_module_texts.

Example C56_example :
  (exists svg, render_module shop = Okay svg) /\
  module_texts shop = [lit "a<b"; lit "x"; lit "int"; lit "PK"; lit "c"; lit "y"; lit "uuid"; lit "FK"].
Proof. split; [vm_compute; eexists; reflexivity|reflexivity]. Qed.

(** C57 *)
Theorem C57_edges_are_drawn :
  forall vb g d svg, render vb g d = Okay svg ->
  exists pre parts post,
    svg_children svg = pre ++ concat parts ++ post /\ Forall2 edge_drawing (d_edges d) parts /\
    flat_map (elements "path") pre = [] /\ flat_map (elements "path") post = [] /\
    (g = None -> post = []) /\ length (elements "path" svg) = length (d_edges d).
Proof. exact picture_edges. Qed.
Print Assumptions C57_edges_are_drawn.

Example C57_example :
  exists e ps, d_edges shop_laid_out = [e] /\ e_path e = Some ps /\ length ps = 3 /\
  exists svg, render None None shop_laid_out = Okay svg.
Proof. vm_compute. do 2 eexists. repeat split. eexists. reflexivity. Qed.

(** C58 *)
Theorem C58_drawing_an_edge_aborts_iff :
  forall e ps p, e_path e = Some ps ->
  (draw_edge e = Abort p <->
   (length ps < 2 /\ p = PShortPath) \/
   (2 <= length ps /\ exists i, reverses_at ps i /\ (forall j, j < i -> ~ reverses_at ps j) /\ p = PTurnaround i)).
Proof. exact draw_edge_abort_iff. Qed.
Print Assumptions C58_drawing_an_edge_aborts_iff.

Definition at_ (x y : Z) : point := mkPoint (f32_of_Z x) (f32_of_Z y).
Example C58_example :
  draw_edge (mkEdge 0 0 (Some [at_ 0 0; at_ 9 0; at_ 9 5; at_ 9 1; at_ 9 3])) = Abort (PTurnaround 2) /\
  draw_edge (mkEdge 0 0 (Some [at_ 0 0])) = Abort PShortPath.
Proof. vm_compute. auto. Qed.

(** C59 *)
Theorem C59_attributes_need_no_escaping :
  forall vb g d svg, byte_colors d -> render vb g d = Okay svg ->
  forall e k v, In e (subtree svg) -> In (k, v) (svg_attrs e) -> safe_value v.
Proof. exact picture_safe. Qed.
Print Assumptions C59_attributes_need_no_escaping.

Theorem C59_module_attributes :
  forall m svg, render_module m = Okay svg ->
  forall e k v, In e (subtree svg) -> In (k, v) (svg_attrs e) -> safe_value v.
Proof. exact module_safe. Qed.
Print Assumptions C59_module_attributes.

(** Texts influence nothing but text nodes. *)
Theorem C59_texts_reach_text_nodes_only :
  forall vb g d d', same_but_texts d d' ->
  map_outcome without_text (render vb g d) = map_outcome without_text (render vb g d').
Proof. exact render_texts_only. Qed.
Print Assumptions C59_texts_reach_text_nodes_only.

Definition renamed : module :=
  mkModule None
    [EDef (mkEntity (lit "p") [mkField (lit "&") TInt (Some PrimaryKey)]);
     EDef (mkEntity (lit "c") [mkField (lit "y") TUuid (Some ForeignKey)]);
     ERel (mkRelation (PField (lit "p") (lit "&")) (PField (lit "c") (lit "y")))].
Example C59_example :
  exists d, into_mir renamed = Ret d /\ same_but_texts shop_raw d /\ shop_raw <> d.
Proof. eexists. split; [reflexivity|]. split; [split; reflexivity|]. intros E. discriminate. Qed.

(** C61 *)
Theorem C61_debug_overlay_only_adds :
  forall vb g d,
  (forall svg, render vb None d = Okay svg -> exists overlay,
     render vb (Some g) d = Okay (Elem (svg_name svg) (svg_attrs svg) (svg_children svg ++ overlay)) /\
     shows_overlay g d overlay) /\
  (forall e, render vb None d = Fail e -> render vb (Some g) d = Fail e) /\
  (forall p, render vb None d = Abort p -> render vb (Some g) d = Abort p).
Proof. exact render_overlay. Qed.
Print Assumptions C61_debug_overlay_only_adds.

(** The overlay of the example adds 75 elements to the 21 of the picture. *)
Definition sizes (m : module) : option (nat * nat) :=
  match layout_module m with
  | Ret (vb, g, d) =>
      match render (Some vb) None d, render (Some vb) (Some g) d with
      | Okay s, Okay t => Some (length (svg_children s), length (svg_children t))
      | _, _ => None
      end
  | Panic _ => None
  end.
Example C61_example : sizes shop = Some (21, 96).
Proof. vm_compute. reflexivity. Qed.
