(** The debug overlay shows the route graph, the paths and the numbers. *)
From Coq Require Import String Ascii List Arith NArith ZArith Lia.
From Verif Require Import Base F32 Geometry Mir Erd Route Layout Svg Render Cli SpecGeom SpecDecimal SpecRender SpecOverlay
  DecimalFacts RenderFacts SvgFacts PictureFacts.
Import ListNotations.

Lemma numbers_show n : numbers (show_nat n) n.
Proof.
  destruct (show_N_ok (N.of_nat n)) as (A & B & C & D). unfold show_nat. repeat split; auto.
  intros E. now apply D.
Qed.

Ltac names_tac := unfold setf, setc; rewrite ?name_set, ?children_set; reflexivity.

Lemma line_drawn a b :
  draws_line (set "stroke-width" (lit "1") (set "stroke" (lit "red")
    (setf "y2" (py b) (setf "x2" (px b) (setf "y1" (py a) (setf "x1" (px a) (elem "line"))))))) a b.
Proof.
  unfold draws_line. split; [names_tac|]. do 6 (split; [has_tac|]). names_tac.
Qed.

Lemma disc_drawn k p : draws_disc (debug_circle k p) k p.
Proof.
  unfold draws_disc, debug_circle. split; [names_tac|].
  assert (E : lit "4" = show_f32 circle_radius) by (vm_compute; reflexivity). rewrite E.
  do 6 (split; [has_tac|]). names_tac.
Qed.

Lemma has_append k v c e : is_elem e -> has_attr e k v -> has_attr (append c e) k v.
Proof. intros (n & a & cs & ->). exact (fun H => H). Qed.

Lemma number_drawn x y n : draws_number (debug_label x y (show_nat n)) (mkPoint x y) n.
Proof.
  unfold draws_number, debug_label. split; [reflexivity|].
  do 6 (split; [apply has_append; has_tac|]).
  exists (show_nat n). split; [reflexivity|]. apply numbers_show.
Qed.

Lemma head_drawn a b :
  draws_head (set "points" (join sp (arrow_points a b)) (set "fill" (lit "red") (elem "polygon"))) a b.
Proof.
  unfold draws_head. split; [names_tac|]. split; [has_tac|]. split; [names_tac|].
  exists (orthogonal_direction a b). split; [now apply heading_eq|].
  cbn zeta.
  replace (corner_list _) with (join sp (arrow_points a b)); [has_tac|].
  unfold arrow_points, corner_list. f_equal. destruct (orthogonal_direction a b); reflexivity.
Qed.

Lemma edges_shown g l :
  shows_edges g l (flat_map (fun e =>
    match nth_error (rg_nodes g) (fst e), nth_error (rg_nodes g) (snd e) with
    | Some s, Some t =>
        let a := rn_loc s in
        let b := rn_loc t in
        [ set "stroke-width" (lit "1") (set "stroke" (lit "red")
            (setf "y2" (py b) (setf "x2" (px b) (setf "y1" (py a) (setf "x1" (px a) (elem "line"))))));
          set "points" (join sp (arrow_points a b)) (set "fill" (lit "red") (elem "polygon")) ]
    | _, _ => []
    end) l).
Proof.
  induction l as [|[i j] l IH]; cbn [flat_map fst snd]; [constructor|].
  destruct (nth_error (rg_nodes g) i) as [a|] eqn:A, (nth_error (rg_nodes g) j) as [b|] eqn:B; cbn zeta; cbn [app].
  - eapply an_edge; eauto using line_drawn, head_drawn.
  - apply a_lost_edge; auto.
  - apply a_lost_edge; auto.
  - apply a_lost_edge; auto.
Qed.

Lemma nodes_shown l : forall n,
  shows_nodes n l (flat_map (fun ni => let p := rn_loc (snd ni) in
      [ debug_circle "red" p;
        debug_label (fadd (fadd (px p) circle_radius) two) (fadd (py p) four) (show_nat (fst ni)) ])
    (enum_from n l)).
Proof.
  induction l as [|a l IH]; intros n; [constructor|].
  cbn [enum_from flat_map fst snd app]. cbn zeta. constructor; [apply disc_drawn| |apply IH].
  exact (number_drawn _ _ n).
Qed.

Lemma paths_shown l :
  shows_paths l (flat_map (fun e => match e_path e with
                                    | Some ps => map (debug_circle "orange") ps
                                    | None => []
                                    end) l).
Proof.
  unfold shows_paths. induction l as [|e l IH]; cbn [flat_map map concat]; [constructor|].
  apply Forall2_app; [|exact IH]. destruct (e_path e) as [ps|]; [|constructor].
  clear. induction ps; constructor; auto using disc_drawn.
Qed.

Lemma ids_shown d l :
  shows_ids d l (flat_map (fun id => match get_node d id with
                      | Some n => match node_rect n with
                                  | Some r => [debug_label (fadd (max_x r) two) (fadd (max_y r) four) (show_nat id)]
                                  | None => []
                                  end
                      | None => []
                      end) l).
Proof.
  induction l as [|i l IH]; cbn [flat_map]; [constructor|].
  destruct (get_node d i) as [n|] eqn:N; [destruct (node_rect n) as [r|] eqn:Rc|]; cbn [app].
  - eapply an_id; eauto. exact (number_drawn _ _ i).
  - apply an_unplaced_id; [|exact IH]. congruence.
  - apply an_unplaced_id; [|exact IH]. congruence.
Qed.

Lemma overlay_shown g d : shows_overlay g d (debug_info g d).
Proof.
  unfold shows_overlay, debug_info. do 4 eexists. split; [reflexivity|].
  split; [apply edges_shown|]. split; [|split; [apply paths_shown|apply ids_shown]].
  unfold debug_nodes, enum. apply nodes_shown.
Qed.

Theorem render_overlay vb g d :
  (forall svg, render vb None d = Okay svg -> exists overlay,
     render vb (Some g) d = Okay (Elem (svg_name svg) (svg_attrs svg) (svg_children svg ++ overlay)) /\
     shows_overlay g d overlay) /\
  (forall e, render vb None d = Fail e -> render vb (Some g) d = Fail e) /\
  (forall p, render vb None d = Abort p -> render vb (Some g) d = Abort p).
Proof.
  assert (H : render vb (Some g) d =
              match render vb None d with
              | Okay svg => Okay (append_all (debug_info g d) svg) | Fail e => Fail e | Abort p => Abort p
              end).
  { unfold render. destruct (ofold (clip_step d) _ _); try reflexivity. cbn [obind].
    destruct (ofold (record_step d) _ _); try reflexivity. cbn [obind].
    now destruct (ofold edge_step _ _). }
  split; [|split].
  - intros svg E. exists (debug_info g d). rewrite H, E. split; [|apply overlay_shown].
    apply render_okay in E as [_ ->]. f_equal. unfold picture at 1. now rewrite append_all_elem.
  - intros e E. now rewrite H, E.
  - intros e E. now rewrite H, E.
Qed.
