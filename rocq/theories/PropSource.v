(** What the drawing depends on: C72-C74. *)
From Coq Require Import String List Arith NArith.
From Verif Require Import Base Mir Erd Chumsky Parser Route Layout Svg Render Cli SpecLex SpecGrammar SpecMir SpecRender
  SpecRename SpecStable SourceFacts RenameFacts StableFacts.
Import ListNotations.

(** C72 *)
Theorem C72_layout_of_the_text_is_irrelevant :
  forall src src' toks toks' rest rest',
  reads 0 src toks rest -> barren rest -> reads 0 src' toks' rest' -> barren rest' ->
  respaced (map fst toks) (map fst toks') ->
  forall fmt, main fmt src' = main fmt src.
Proof. exact layout_irrelevant. Qed.
Print Assumptions C72_layout_of_the_text_is_irrelevant.

Example C72_example : exists toks toks' rest rest',
  reads 0 tidy_text toks rest /\ barren rest /\ reads 0 loose_text toks' rest' /\ barren rest' /\
  respaced (map fst toks) (map fst toks') /\ tidy_text <> loose_text.
Proof. exact loose_reads. Qed.

Theorem C72_gaps_are_irrelevant :
  forall x y w ts1 ts2 rest,
  reads 0 (x ++ y) ts1 y -> reads (length x) y ts2 rest -> barren rest -> skips (w ++ y) y ->
  forall fmt, main fmt (x ++ w ++ y) = main fmt (x ++ y).
Proof. exact gap_irrelevant. Qed.
Print Assumptions C72_gaps_are_irrelevant.

Example C72_gap_example : exists ts1 ts2 rest,
  reads 0 (lit "erd" ++ lit "{}") ts1 (lit "{}") /\
  reads (length (lit "erd")) (lit "{}") ts2 rest /\ barren rest /\
  skips ([32; 9; 32]%N ++ lit "{}") (lit "{}").
Proof. exact gap_sample. Qed.

(** C73 *)
Theorem C73_renaming_changes_only_texts :
  forall f g m, keeps_apart f g m -> forall name',
  map_outcome without_text (render_module (mkModule name' (map (rename_entry f g) (m_entries m)))) =
  map_outcome without_text (render_module m).
Proof. exact renaming_keeps_the_picture. Qed.
Print Assumptions C73_renaming_changes_only_texts.

Example C73_example : keeps_apart longer with_table pair_module.
Proof. exact pair_apart. Qed.
Example C73_example_drawn : exists svg svg', render_module pair_module = Okay svg /\
  render_module (mkModule (Some (lit "shop")) (map (rename_entry longer with_table) (m_entries pair_module))) = Okay svg' /\
  texts svg' = [lit "a_table"; lit "a_x"; lit "int"; lit "b_table"; lit "b_x"; lit "int"; lit "FK"; lit "b_y"; lit "text"].
Proof. exact pair_drawn. Qed.

(** Merging names can make the program abort. *)
Theorem C73_merging_names_refuted :
  exists f g m svg p, render_module m = Okay svg /\
  render_module (mkModule (m_name m) (map (rename_entry f g) (m_entries m))) = Abort p.
Proof. exact merging_crashes. Qed.
Print Assumptions C73_merging_names_refuted.

(** C74 *)
Theorem C74_tables_stay :
  forall m m' svg svg', grows m m' -> render_module m = Okay svg -> render_module m' = Okay svg' ->
  keeps_tables (length (definitions (m_entries m))) (module_texts m) svg svg'.
Proof. exact tables_stable. Qed.
Print Assumptions C74_tables_stay.

Example C74_example : grows small_module grown_module /\
  (exists svg, render_module small_module = Okay svg) /\ (exists svg, render_module grown_module = Okay svg).
Proof. exact grown_sample. Qed.

(** Lines do not stay: one more relation can turn the straight line of an
    earlier one into a detour. *)
Theorem C74_lines_stay_refuted :
  exists n es r vb g d vb' g' d',
  layout_module (mkModule n es) = Ret (vb, g, d) /\
  layout_module (mkModule n (es ++ [ERel r])) = Ret (vb', g', d') /\ reroutes d d'.
Proof. exact line_moves. Qed.
Print Assumptions C74_lines_stay_refuted.
