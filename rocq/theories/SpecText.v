(** The style attributes of texts as SVG and CSS name them, without the functions
    that print them. *)
From Coq Require Import String List NArith.
From Verif Require Import Base Color Mir Render.
Import ListNotations.

(** CSS Fonts Module Level 4, sections 2.2, 2.5 and 2.1.1. *)
Definition css_weights : list (font_weight * string) :=
  [(FWNormal, "normal"); (FWBold, "bold"); (FWLighter, "lighter"); (FWBolder, "bolder")]%string.
(** From small to large, like the sizes themselves. *)
Definition css_sizes : list string :=
  ["xx-small"; "x-small"; "small"; "medium"; "large"; "x-large"; "xx-large"; "xxx-large"]%string.
Definition sizes : list font_size :=
  [FSXXSmall; FSXSmall; FSSmall; FSMedium; FSLarge; FSXLarge; FSXXLarge; FSXXXLarge].
(** CSS Color Module Level 4, section 6.1. *)
Definition css_colors : list (named_color * string) := [(White, "white"); (Black, "black")]%string.
(** SVG 1.1, section 10.9.1. *)
Definition svg_anchors : list (anchor * string) := [(AStart, "start"); (AMiddle, "middle"); (AEnd, "end")]%string.

(** Family names and, after the last comma, a generic family. *)
Definition generic (f : font_family) : string :=
  match f with
  | SansSerif1 | SansSerif2 | SansSerif3 => "sans-serif"%string
  | Monospace1 | Monospace2 => "monospace"%string
  end.
Definition comma : char := 44%N.
(** Letters and blanks between commas: an unquoted CSS family name has no other
    characters here. *)
Definition family_char (c : char) : Prop :=
  (65 <= c <= 90)%N \/ (97 <= c <= 122)%N \/ c = 32%N.
Definition family_list (s : str) (g : string) : Prop :=
  exists names, names <> [] /\ Forall (fun n => n <> [] /\ Forall family_char n) names /\
    s = flat_map (fun n => n ++ [comma]) names ++ lit g.
