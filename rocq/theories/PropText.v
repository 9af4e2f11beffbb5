(** The elements of texts: C85. *)
From Coq Require Import String List NArith ZArith.
From Verif Require Import Base F32 Color Geometry Mir Svg Render SpecRender SpecText TextFacts.
Import ListNotations.

(** C85: the element of a text has the attributes of its position and of the
    styles the text has, each once, and no others. *)
Theorem C85_text_element :
  forall t o a,
  svg_name (draw_text t o a) = lit "text" /\ svg_children (draw_text t o a) = [TextNode (t_text t)] /\
  NoDup (map fst (svg_attrs (draw_text t o a))) /\
  (forall k v, In (k, v) (svg_attrs (draw_text t o a)) <->
    (k = lit "x" /\ v = show_f32 (px o)) \/ (k = lit "y" /\ v = show_f32 (py o)) \/ (k = lit "dominant-baseline" /\ v = lit "middle") \/
    (k = lit "text-anchor" /\ exists b, a = Some b /\ v = text_anchor b) \/
    (k = lit "fill" /\ exists c, t_color t = Some c /\ v = show_color c) \/
    (k = lit "font-family" /\ exists f, t_family t = Some f /\ v = show_font_family f) \/
    (k = lit "font-weight" /\ exists w, t_weight t = Some w /\ v = show_font_weight w) \/
    (k = lit "font-size" /\ exists s, t_size t = Some s /\ v = show_font_size s)).
Proof. exact text_element. Qed.
Print Assumptions C85_text_element.

(** The values are the words of CSS and SVG for the styles; a font family is a list
    of names that ends in a generic family. *)
Theorem C85_style_words :
  (forall w s, In (w, s) css_weights -> show_font_weight w = lit s) /\ (forall w, exists s, In (w, s) css_weights) /\
  map show_font_size sizes = map lit css_sizes /\ (forall s, In s sizes) /\
  (forall a s, In (a, s) svg_anchors -> text_anchor a = lit s) /\ (forall a, exists s, In (a, s) svg_anchors) /\
  (forall c s, In (c, s) css_colors -> show_color (Named c) = lit s) /\ (forall c, exists s, In (c, s) css_colors) /\
  (forall f, family_list (show_font_family f) (generic f)).
Proof. exact style_words. Qed.
Print Assumptions C85_style_words.

(** So the element tells the text and all its styles. *)
Theorem C85_text_read_back :
  forall t o a t' o' a', opt_valid (t_color t) -> opt_valid (t_color t') ->
  draw_text t o a = draw_text t' o' a' -> t = t' /\ a = a'.
Proof. exact text_read_back. Qed.
Print Assumptions C85_text_read_back.

Example C85_example :
  opt_valid (Some (RGB (mkRGB 1 2 3))) /\
  draw_text (mkText (lit "t") (Some (RGB (mkRGB 1 2 3))) None (Some FWBolder) None) (mkPoint (f32_of_Z 1%Z) (f32_of_Z 2%Z)) None =
  Elem (lit "text") [(lit "dominant-baseline", lit "middle"); (lit "fill", lit "#010203"); (lit "font-weight", lit "bolder");
    (lit "x", lit "1"); (lit "y", lit "2")] [TextNode (lit "t")].
Proof. split; [intros c E; injection E as <-; repeat split|vm_compute; reflexivity]. Qed.
