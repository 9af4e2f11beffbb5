(** The tables in the picture: C68. *)
From Coq Require Import String List Arith NArith ZArith.
From Verif Require Import Base F32 Erd Svg Render Cli SpecMir SpecLayout SpecRender SpecPicture TableFacts PropLayout PropRender.
Import ListNotations.

(** C68: every element of every table, its place, its colours and its fonts.
    Coordinates in halves. *)
Theorem C68_tables_in_place :
  forall m svg, fits (table_rows m) -> render_module m = Okay svg ->
  tables_at (fun i => 2 * table_left i)%Z (fun i => 2 * table_top (table_rows m) i)%Z (definitions (m_entries m)) svg.
Proof. exact module_tables. Qed.
Print Assumptions C68_tables_in_place.

Theorem C68_view_box :
  forall m svg, fits (table_rows m) -> table_rows m <> [] -> render_module m = Okay svg ->
  views svg 1160 (total_height (table_rows m)).
Proof. exact module_view. Qed.
Print Assumptions C68_view_box.

Definition shop_picture : svg_node := match render_module shop with Okay svg => svg | _ => elem "none" end.
Example C68_example :
  fits (table_rows shop) /\ table_rows shop <> [] /\ render_module shop = Okay shop_picture.
Proof.
  split; [unfold fits; vm_compute; discriminate|]. split; [discriminate|]. vm_compute. reflexivity.
Qed.
(** Names, anchors and places of the texts of that picture. *)
Definition places (n : svg_node) : list (str * str) :=
  filter (fun kv => str_eqb (fst kv) (lit "x") || str_eqb (fst kv) (lit "y"))%bool (svg_attrs n).
Example C68_example_texts :
  map (fun n => (texts n, map snd (places n))) (elements "text" shop_picture) =
  [([lit "a<b"], [lit "62"; lit "67.5"]); ([lit "x"], [lit "62"; lit "102.5"]);
   ([lit "int"], [lit "290"; lit "102.5"]); ([lit "PK"], [lit "326.5"; lit "102.5"]);
   ([lit "c"], [lit "442"; lit "67.5"]); ([lit "y"], [lit "442"; lit "102.5"]);
   ([lit "uuid"], [lit "670"; lit "102.5"]); ([lit "FK"], [lit "706.5"; lit "102.5"])].
Proof. vm_compute. reflexivity. Qed.
