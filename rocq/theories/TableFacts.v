(** The elements of the tables of a module and their coordinates. *)
From Coq Require Import String List Arith NArith ZArith Reals Bool Lia.
From Verif Require Import Base F32 Color Geometry Mir Erd Route Layout Svg Render Cli SpecF32 SpecGeom SpecMir SpecLayout
  SpecRender SpecDecimal SpecPicture F32Facts ShowFacts MirFacts PlaceFacts GridFacts LayoutFacts RenderFacts SvgFacts
  PictureFacts PipelineFacts.
Import ListNotations.
Local Open Scope Z_scope.

(** ** Attributes *)
Lemma is_elem_append c e : is_elem e -> is_elem (append c e).
Proof. intros (n & a & k & ->). repeat eexists. Qed.
Lemma has_not_append k c e : has_not k e -> has_not k (append c e).
Proof. now destruct e. Qed.
Lemma has_attr_append c e k v : has_attr e k v -> has_attr (append c e) k v.
Proof. now destruct e. Qed.
Lemma name_append c e : svg_name (append c e) = svg_name e.
Proof. now destruct e. Qed.
Lemma children_append c e : is_elem e -> svg_children (append c e) = svg_children e ++ [c].
Proof. intros (n & a & k & ->). reflexivity. Qed.

Ltac attr_tac :=
  unfold setf, setc;
  repeat match goal with
  | |- is_elem (elem _) => apply is_elem_new
  | |- is_elem (set _ _ _) => apply is_elem_set
  | |- is_elem (append _ _) => apply is_elem_append
  | |- has_not _ (elem _) => apply has_not_new
  | |- has_not _ (set _ _ _) => apply has_not_set; [reflexivity|]
  | |- has_not _ (append _ _) => apply has_not_append
  | |- has_attr (set ?k _ _) ?k _ => apply has_set'
  | |- has_attr (set _ _ _) _ _ => apply has_keep; [reflexivity|]
  | |- has_attr (append _ _) _ _ => apply has_attr_append
  end.

Lemma half_attr_set k x z e : is_elem e -> has_not k e -> hv x z -> (Z.abs z <= M24)%Z -> half_attr (set k (show_f32 x) e) k z.
Proof. intros A B H L. exists (show_f32 x). split; [now apply has_set'|now apply half_printed]. Qed.
Lemma half_attr_keep k k' v' z e : str_eqb (lit k) (lit k') = false -> half_attr e k z -> half_attr (set k' v' e) k z.
Proof. intros N (v & H & D). exists v. split; [now apply has_keep|exact D]. Qed.
Lemma half_attr_append c e k z : half_attr e k z -> half_attr (append c e) k z.
Proof. intros (v & H & D). exists v. split; [now apply has_attr_append|exact D]. Qed.

Ltac half_tac :=
  unfold setf, setc;
  repeat match goal with
  | |- half_attr (set ?k (show_f32 _) _) ?k _ => apply half_attr_set; [solve [attr_tac]|solve [attr_tac]| |]
  | |- half_attr (set _ _ _) _ _ => apply half_attr_keep; [reflexivity|]
  | |- half_attr (append _ _) _ _ => apply half_attr_append
  end.

Lemma has_attr_eq n k v v' : v = v' -> has_attr n k v -> has_attr n k v'.
Proof. now intros ->. Qed.

Ltac in_cases I := repeat (destruct I as [I|I]; [injection I as <- <-|]); try contradiction.

(** ** One row *)
Definition r300 (o : point) : rect := mkRect o (mkSize RECORD_WIDTH LINE_HEIGHT).

Lemma label_at t s x y X Y a side l :
  hv x X -> hv y Y -> Z.abs X <= M24 -> Z.abs Y <= M24 -> t_text t = s -> text_anchor a = lit side ->
  (forall k v, In (k, v) l ->
     (k = "fill"%string /\ option_map show_color (t_color t) = Some v) \/
     (k = "font-family"%string /\ option_map show_font_family (t_family t) = Some v) \/
     (k = "font-weight"%string /\ option_map show_font_weight (t_weight t) = Some v) \/
     (k = "font-size"%string /\ option_map show_font_size (t_size t) = Some v)) ->
  label (draw_text t (mkPoint x y) (Some a)) s X Y side l.
Proof.
  intros Hx Hy Bx By <- Ea L. unfold draw_text. destruct t as [txt col fam wt sz]. cbn [t_text t_color t_family t_weight t_size] in *.
  cbn [set_opt px py]. split; [|split; [|split]].
  - destruct col, fam, wt, sz; cbn [set_opt]; unfold setc, setf; now rewrite ?name_set, ?name_append, ?name_set.
  - destruct col, fam, wt, sz; cbn [set_opt]; unfold setc, setf; rewrite ?children_set, ?children_append, ?children_set; solve [reflexivity|attr_tac].
  - intros k z I. in_cases I.
    all: destruct col, fam, wt, sz; cbn [set_opt]; half_tac; assumption.
  - intros k v I. cbn [app] in I. destruct I as [I|[I|I]]; [injection I as <- <-|injection I as <- <-|].
    + rewrite <- Ea. destruct col, fam, wt, sz; cbn [set_opt]; attr_tac.
    + destruct col, fam, wt, sz; cbn [set_opt]; attr_tac.
    + destruct (L k v I) as [(-> & E)|[(-> & E)|[(-> & E)|(-> & E)]]].
      all: destruct col, fam, wt, sz; cbn [option_map] in E; try discriminate E; injection E as <-; cbn [set_opt]; attr_tac.
Qed.

Section Row.
  Variables (o : point) (X Y : Z).
  Hypothesis HX : hv (px o) X.
  Hypothesis HY : hv (py o) Y.
  Hypothesis BX : 0 <= X <= 4000.
  Hypothesis BY : 0 <= Y <= M24 - 70.

  Lemma mid_y_at : hv (mid_y (r300 o)) (Y + 35).
  Proof.
    unfold mid_y, r300. cbn [origin rsize height]. apply hv_add; [exact HY| |unfold M24 in *; lia].
    apply hv_div2; [apply hv_35|unfold M24; lia].
  Qed.
  Lemma max_x_at : hv (max_x (r300 o)) (X + 600).
  Proof. unfold max_x, r300. cbn [origin rsize width]. apply hv_add; [exact HX|apply hv_300|unfold M24 in *; lia]. Qed.
  Lemma title_x : hv (fadd (min_x (r300 o)) text_px) (X + 24).
  Proof. apply hv_add; [exact HX|apply (hv_of_Z 12); lia|unfold M24; lia]. Qed.
  Lemma type_x : hv (fadd (min_x (r300 o)) (fmul (fdiv (width (rsize (r300 o))) (f32_of_Z 5)) (f32_of_Z 4))) (X + 480).
  Proof.
    apply hv_add; [exact HX| |unfold M24; lia].
    replace (fmul _ _) with (f32_of_Z 240) by (vm_compute; reflexivity). apply (hv_of_Z 240). lia.
  Qed.
  Lemma radius_at : hv (fsub (fdiv (height (rsize (r300 o))) (f32_of_Z 2)) (f32_of_Z 6)) 23.
  Proof.
    apply (hv_sub _ _ 35 12); [|apply (hv_of_Z 6); lia|unfold M24; lia].
    apply hv_div2; [apply hv_35|unfold M24; lia].
  Qed.
  Lemma badge_x : hv (fsub (fsub (max_x (r300 o)) text_px) (fsub (fdiv (height (rsize (r300 o))) (f32_of_Z 2)) (f32_of_Z 6))) (X + 553).
  Proof.
    replace (X + 553) with (X + 600 - 24 - 23) by lia.
    apply hv_sub; [|apply radius_at|unfold M24; lia].
    apply hv_sub; [apply max_x_at|apply (hv_of_Z 12); lia|unfold M24; lia].
  Qed.

  Lemma bounds : Z.abs X <= M24 /\ Z.abs Y <= M24 /\ Z.abs (X + 600) <= M24 /\ Z.abs (X + 24) <= M24 /\
    Z.abs (X + 480) <= M24 /\ Z.abs (X + 553) <= M24 /\ Z.abs (Y + 35) <= M24 /\ Z.abs 23 <= M24.
  Proof. unfold M24 in *. lia. Qed.

  Lemma badge_drawn (k : option field_key) f : fs_badge f = option_map key_badge k -> badge_at X Y k (field_badge f (r300 o)).
  Proof.
    intros E. unfold field_badge. rewrite E. destruct k as [k|]; [|reflexivity]. cbn [option_map].
    pose proof bounds as B. destruct B as (B1 & B2 & B3 & B4 & B5 & B6 & B7 & B8).
    unfold badge_at. destruct (key_word k) as [[word color] ground] eqn:W.
    cbn [key_badge b_bg]. cbn [app]. eexists. eexists. split; [reflexivity|]. split.
    - unfold shape. split; [unfold setf, setc; now rewrite !name_set|]. split; [unfold setf, setc; now rewrite !children_set|]. split.
      + intros n z I. in_cases I.
        * half_tac; [apply badge_x|assumption].
        * half_tac; [apply mid_y_at|assumption].
        * half_tac; [apply radius_at|assumption].
      + intros n v I. in_cases I. apply (has_attr_eq _ _ (show_color (badge_bg_color k))); [|attr_tac].
        destruct k; cbn in W; injection W as <- <- <-; reflexivity.
    - apply label_at; try assumption; [apply badge_x|apply mid_y_at| |reflexivity|].
      + destruct k; cbn in W; injection W as <- <- <-; reflexivity.
      + intros n v I. destruct k; cbn in W; injection W as <- <- <-; in_cases I; cbn; tauto.
  Qed.

  Lemma row_drawn i f clip : row_at X Y f (field_elements (S i) (column_shape f) (r300 o) clip).
  Proof.
    pose proof bounds as B. destruct B as (B1 & B2 & B3 & B4 & B5 & B6 & B7 & B8).
    unfold row_at, field_elements. destruct (type_word (f_type f)) as [type color] eqn:W.
    unfold field_background, field_border, field_texts. cbn [column_shape fs_bg fs_border fs_title fs_subtitle set_opt].
    change (0 <? S i)%nat with true. cbn [app].
    do 4 eexists. split; [reflexivity|]. split; [|split; [|split]].
    - unfold shape. split; [unfold setf, setc; now rewrite !name_set|]. split; [unfold setf, setc; now rewrite !children_set|]. split.
      + intros n z I. in_cases I.
        * half_tac; assumption.
        * half_tac; assumption.
        * half_tac; [apply max_x_at|assumption].
        * half_tac; assumption.
      + intros n v I. in_cases I.
        * apply (has_attr_eq _ _ (show_color table_border_color)); [reflexivity|attr_tac].
        * attr_tac.
    - apply label_at; try assumption; [apply title_x|apply mid_y_at|reflexivity|reflexivity|].
      intros n v I. in_cases I; cbn; tauto.
    - apply label_at; try assumption; [apply type_x|apply mid_y_at| |reflexivity|].
      + cbn [t_text]. destruct (f_type f); cbn in W; injection W as <- <-; reflexivity.
      + intros n v I. destruct (f_type f); cbn in W; injection W as <- <-; in_cases I; cbn; tauto.
    - apply badge_drawn. reflexivity.
  Qed.

  Lemma header_drawn name clip : exists ground title,
    field_elements 0 (header_shape name) (r300 o) clip = [ground; title] /\
    shape ground "rect" [("x", X); ("y", Y); ("width", 600); ("height", 70)]%string
          [("fill", lit "#494949"); ("clip-path", (lit "url(#" ++ clip ++ lit ")")%list)]%string /\
    label title name (X + 24) (Y + 35) "start" header_font.
  Proof.
    pose proof bounds as B. destruct B as (B1 & B2 & B3 & B4 & B5 & B6 & B7 & B8).
    do 2 eexists. split; [reflexivity|]. split.
    - unfold shape. split; [unfold setf, setc; now rewrite !name_set|]. split; [unfold setf, setc; now rewrite !children_set|]. split.
      + intros n z I. in_cases I; half_tac; try assumption; try apply hv_300; try apply hv_35; unfold M24; lia.
      + intros n v I. in_cases I.
        * apply (has_attr_eq _ _ (show_color light_gray)); [reflexivity|attr_tac].
        * attr_tac.
    - apply label_at; try assumption; [apply title_x|apply mid_y_at|reflexivity|reflexivity|].
      intros n v I. in_cases I; cbn; tauto.
  Qed.
End Row.

Lemma round_shape o s X Y H : hv (px o) X -> hv (py o) Y -> width s = RECORD_WIDTH -> hv (height s) H ->
  Z.abs X <= M24 -> Z.abs Y <= M24 -> Z.abs H <= M24 ->
  rounded (round_rect o s) X Y 600 H [] /\
  rounded (record_background table_shape o s) X Y 600 H [("fill", lit "#212121"); ("stroke", lit "#494949")]%string.
Proof.
  intros HX HY HW HH BX BY BH.
  assert (W : hv (width s) 600) by (rewrite HW; apply hv_300).
  assert (R : hv border_radius 12) by (apply (hv_of_Z 6); lia).
  assert (B6 : Z.abs 600 <= M24) by (unfold M24; lia). assert (B1 : Z.abs 12 <= M24) by (unfold M24; lia).
  unfold rounded, shape, record_background, round_rect. cbn [table_shape rs_bg rs_border set_opt]. split.
  - split; [unfold setf, setc; now rewrite !name_set|]. split; [unfold setf, setc; now rewrite !children_set|]. split.
    + intros n z I. in_cases I; half_tac; assumption.
    + intros n v [].
  - split; [unfold setf, setc; now rewrite !name_set|]. split; [unfold setf, setc; now rewrite !children_set|]. split.
    + intros n z I. in_cases I; half_tac; assumption.
    + intros n v I. in_cases I.
      * apply (has_attr_eq _ _ (show_color table_bg_color)); [reflexivity|attr_tac].
      * apply (has_attr_eq _ _ (show_color table_border_color)); [reflexivity|attr_tac].
Qed.

(** ** One table *)
Lemma nth_enum {A} (l : list A) : forall i k x, nth_error l k = Some x -> nth_error (enum_from i l) k = Some ((i + k)%nat, x).
Proof.
  induction l as [|y l IH]; intros i [|k] x E; cbn [enum_from nth_error] in *; try discriminate.
  - injection E as ->. now rewrite Nat.add_0_r.
  - rewrite (IH (S i) k x E). do 2 f_equal. lia.
Qed.
Lemma enum_length {A} (l : list A) : forall i, length (enum_from i l) = length l.
Proof. induction l as [|y l IH]; intros i; cbn [enum_from length]; [reflexivity|now rewrite IH]. Qed.

Lemma nth_seq b n k : (k < n)%nat -> nth_error (seq b n) k = Some (b + k)%nat.
Proof. intros H. rewrite nth_error_nth' with (d := 0%nat) by now rewrite seq_length. now rewrite seq_nth. Qed.

Section Table.
  Variables (ds : list entity_definition) (E : list edge_data) (a : list entity_definition) (e : entity_definition)
            (c : list entity_definition) (d : document).
  Hypothesis Hd : ds = a ++ e :: c.
  Hypothesis F : fits (hs_of ds).
  Hypothesis N : d_nodes d = d_nodes (ported ds E).
  Let i := length a.
  Let X := 2 * table_left i.
  Let Y := 2 * table_top (hs_of ds) i.

  Lemma get_same id : get_node d id = get_node (ported ds E) id.
  Proof. unfold get_node. now rewrite N. Qed.

  Lemma table_room : 0 <= X <= 4000 /\ 0 <= Y /\ Y + 70 * Z.of_nat (rows e) <= M24.
  Proof.
    assert (L : (length a < length (hs_of ds))%nat) by (rewrite hs_length, Hd, app_length; cbn; lia).
    pose proof (row_bottom (hs_of ds) (length a) L) as RB.
    pose proof (nth_tallest (hs_of ds) (length a)) as NT. rewrite (nth_hs ds a e c Hd) in NT.
    pose proof (row_top_ge (hs_of ds) (length a / 3)) as RG. unfold fits in F.
    pose proof (Nat.mod_upper_bound (length a) 3 ltac:(lia)).
    subst X Y. unfold table_left, table_top, i, M24. lia.
  Qed.

  Lemma row_is k n : (k < rows e)%nat -> get_node (doc_of ds E) (base a + k)%nat = Some n ->
    exists n', get_node d (base a + k)%nat = Some n' /\ n_kind n' = n_kind n /\
      node_rect n' = Some (r300 (mkPoint (table_x i) (row_y (y_of ds i) k))).
  Proof.
    intros Hk En. rewrite get_same. eexists. split; [exact (ported_row ds E a e c k n Hd Hk En)|].
    split; reflexivity.
  Qed.

  Lemma row_point k : (k < rows e)%nat ->
    hv (px (mkPoint (table_x i) (row_y (y_of ds i) k))) X /\
    hv (py (mkPoint (table_x i) (row_y (y_of ds i) k))) (Y + 70 * Z.of_nat k) /\
    0 <= X <= 4000 /\ 0 <= Y + 70 * Z.of_nat k <= M24 - 70.
  Proof.
    intros Hk. pose proof (row_exact ds a e c k F Hd Hk) as ((X1 & Y1) & _).
    cbn [geo_rect row_geo fst snd origin px py] in X1, Y1. cbn [px py]. fold i in X1, Y1. pose proof table_room as R.
    split; [exact X1|]. split.
    - replace (Y + 70 * Z.of_nat k) with (2 * (table_top (hs_of ds) i + 35 * Z.of_nat k)) by (subst Y; lia). exact Y1.
    - lia.
  Qed.

  Lemma table_drawn clip j : clip = clip_id j ->
    exists l, record_elems d (j, record_at (base a) e) = l /\ table_at X Y clip e l.
  Proof.
    intros ->. eexists. split; [reflexivity|]. unfold record_elems. cbn [fst snd].
    rewrite get_same, (ported_record ds E a e c Hd). cbn [n_kind n_origin n_size n_children].
    pose proof table_room as (BX & BY & BH).
    pose proof (table_exact ds a e c F Hd) as ((X1 & Y1) & _ & H1).
    unfold table_height in H1. rewrite (nth_hs ds a e c Hd) in H1.
    cbn [geo_rect table_geo fst snd origin px py rsize height] in X1, Y1, H1. cbn [table_geo fst snd].
    unfold rows at 2. cbn [seq enum enum_from flat_map]. unfold field_elems at 1. cbn [fst snd].
    destruct (row_is 0 (header_node e)) as (n0 & G0 & K0 & R0).
    { unfold rows. lia. }
    { rewrite Nat.add_0_r. exact (get_header ds E a e c Hd). }
    rewrite Nat.add_0_r in G0. rewrite G0, K0, R0. cbn [header_node node_new n_kind].
    destruct (row_point 0) as (PX & PY & QX & QY); [unfold rows; lia|]. rewrite Z.add_0_r in PY, QY.
    destruct (header_drawn _ X Y PX PY QX QY (ent_name e) (clip_id j)) as (ground & title & -> & D1 & D2).
    cbn [app]. rewrite flat_map_concat_map.
    do 4 eexists. split; [reflexivity|]. split; [|split; [exact D1|split; [exact D2|]]].
    - apply (round_shape (mkPoint (table_x (length a)) (y_of ds (length a))) (mkSize RECORD_WIDTH (table_h (rows e)))); auto.
      + unfold M24 in *. lia.
      + unfold M24 in *. lia.
      + unfold rows in BH. lia.
    - split; [now rewrite map_length, enum_length, seq_length|].
      intros k f l Ef El. assert (Lk : (k < length (ent_fields e))%nat) by (apply nth_error_Some; congruence).
      rewrite nth_error_map, (nth_enum _ _ _ (S (base a) + k)%nat) in El by now apply nth_seq.
      cbn [option_map] in El. injection El as <-. unfold field_elems. cbn [fst snd].
      destruct (row_is (S k) (column_node f)) as (n1 & G1 & K1 & R1).
      { unfold rows. lia. }
      { replace (base a + S k)%nat with (base a + 1 + k)%nat by lia. exact (get_column ds E a e c k f Hd Ef). }
      replace (base a + S k)%nat with (S (base a) + k)%nat in G1 by lia. change (S (base a) + k)%nat with (S (S (total_nodes a + k))) in G1 |- *. cbn [Nat.add]. rewrite G1, K1, R1.
      cbn [column_node node_new n_kind].
      destruct (row_point (S k)) as (P1 & P2 & Q1 & Q2); [unfold rows; lia|].
      replace (Y + 70 + 70 * Z.of_nat k) with (Y + 70 * Z.of_nat (S k)) by lia.
      now apply row_drawn.
  Qed.

  Lemma clip_drawn j : exists x, clip_elem d (j, record_at (base a) e) = [x] /\ clip_at X Y (clip_id j) e x.
  Proof.
    unfold clip_elem. cbn [fst snd]. rewrite get_same, (ported_record ds E a e c Hd). cbn [n_kind n_origin n_size].
    pose proof table_room as (BX & BY & BH).
    pose proof (table_exact ds a e c F Hd) as ((X1 & Y1) & _ & H1).
    unfold table_height in H1. rewrite (nth_hs ds a e c Hd) in H1.
    cbn [geo_rect table_geo fst snd origin px py rsize height] in X1, Y1, H1. cbn [table_geo fst snd].
    eexists. split; [reflexivity|]. split; [reflexivity|]. split.
    - attr_tac.
    - eexists. split; [reflexivity|].
      apply (round_shape (mkPoint (table_x (length a)) (y_of ds (length a))) (mkSize RECORD_WIDTH (table_h (rows e)))); auto.
      + unfold M24 in *. lia.
      + unfold M24 in *. lia.
      + unfold rows in BH. lia.
  Qed.
End Table.

(** ** The module *)
Lemma layout_ported m vb g d : layout_module m = Ret (vb, g, d) ->
  exists E, d_nodes d = d_nodes (ported (definitions (m_entries m)) E) /\ vb = view_of (definitions (m_entries m)).
Proof.
  unfold layout_module. intros H. apply bind_ret in H as (d0 & M & H).
  destruct (place_nodes d0) as [d1 vb1] eqn:P. apply bind_ret in H as ([g' d3] & D & H). injection H as <- <- <-.
  destruct (ported_result m d0 M) as (E & E0 & Q). destruct (placed_result m d0 d1 vb1 M P) as (E' & _ & _ & V & _).
  exists E. rewrite P in Q. cbn [fst] in Q. rewrite (draw_nodes _ _ _ _ D), Q. auto.
Qed.

Lemma ids_table ds k e : nth_error ds k = Some e ->
  exists a c, ds = a ++ e :: c /\ length a = k /\ nth_error (record_ids 1 ds) k = Some (record_at (base a) e).
Proof.
  intros H. apply nth_error_split in H as (a & c & Hd & L). exists a, c. split; [exact Hd|]. split; [exact L|].
  apply record_ids_nth. exists a, e, c. auto.
Qed.

Lemma nth_flat_single {A B} (f : A -> list B) (l : list A) (P : A -> B -> Prop) :
  (forall k x, nth_error l k = Some x -> exists y, f x = [y] /\ P x y) ->
  length (flat_map f l) = length l /\
  forall k x y, nth_error l k = Some x -> nth_error (flat_map f l) k = Some y -> P x y.
Proof.
  induction l as [|x l IH]; intros H; [split; [reflexivity|intros [|k] x y; discriminate]|].
  destruct (H 0%nat x eq_refl) as (y & E & Q). destruct IH as [L K]; [intros k; exact (H (S k))|].
  cbn [flat_map]. rewrite E. cbn [app length]. split; [now rewrite L|].
  intros [|k] x' y'; cbn [nth_error].
  - intros [= <-] [= <-]. exact Q.
  - apply K.
Qed.

Lemma tables_drawn ds E vb g d : fits (hs_of ds) -> d_nodes d = d_nodes (ported ds E) ->
  tables_at (fun i => 2 * table_left i) (fun i => 2 * table_top (hs_of ds) i) ds (picture vb g d).
Proof.
  intros F N.
  assert (B : body_children d = record_ids 1 ds).
  { unfold body_children. rewrite (get_same ds E d N 0%nat), ported_body. reflexivity. }
  assert (LB : length (record_ids 1 ds) = length ds).
  { clear. generalize 1%nat as b. induction ds as [|e ds IH]; intros b; cbn [record_ids length]; [reflexivity|now rewrite IH]. }
  set (ids := enum (record_ids 1 ds)).
  assert (Lids : length ids = length ds) by (unfold ids, enum; now rewrite enum_length).
  assert (NT : forall k e, nth_error ds k = Some e -> exists a c, ds = a ++ e :: c /\ length a = k /\
             nth_error ids k = Some (k, record_at (base a) e)).
  { intros k e H. destruct (ids_table ds k e H) as (a & c & Hd & L & I). exists a, c.
    split; [exact Hd|]. split; [exact L|]. unfold ids, enum. now rewrite (nth_enum _ _ _ _ I). }
  exists background_rect, (Elem (lit "defs") [] (flat_map (clip_elem d) ids)), (map (record_elems d) ids).
  exists (flat_map edge_elems (d_edges d) ++ debug_part g d), (map (fun k => clip_id k) (seq 0 (length ds))).
  assert (CL : length (flat_map (clip_elem d) ids) = length ids /\
    forall k x y, nth_error ids k = Some x -> nth_error (flat_map (clip_elem d) ids) k = Some y -> clip_elem d x = [y]).
  { apply (nth_flat_single (clip_elem d) ids (fun x y => clip_elem d x = [y])). intros k x Ix.
    assert (Lk : (k < length ds)%nat) by (rewrite <- Lids; apply nth_error_Some; congruence).
    destruct (nth_error ds k) as [e|] eqn:Ek; [|apply nth_error_None in Ek; lia].
    destruct (NT k e Ek) as (a & c & Hd & L & I). rewrite Ix in I. injection I as ->.
    destruct (clip_drawn ds E a e c d Hd F N k) as (y & Hy & _). eauto. }
  destruct CL as [CL CN].
  split; [|split; [|split; [|split; [|split; [|split; [|split]]]]]].
  - unfold picture. cbn [svg_children]. rewrite B. fold ids. rewrite flat_map_concat_map with (f := record_elems d). reflexivity.
  - destruct background_spec as (B1 & B2 & B3 & B4 & B5). split; [exact B1|]. split; [exact B2|].
    split; [intros k z []|]. intros k v I. in_cases I; assumption.
  - reflexivity.
  - cbn [svg_children]. congruence.
  - now rewrite map_length.
  - now rewrite map_length, seq_length.
  - apply FinFun.Injective_map_NoDup; [|apply seq_NoDup]. intros x y. apply clip_id_inj.
  - intros k e clip x t Ek Ec Ex Et. destruct (NT k e Ek) as (a & c & Hd & L & I).
    assert (Lk : (k < length ds)%nat) by (apply nth_error_Some; congruence).
    rewrite nth_error_map, nth_seq in Ec by exact Lk. injection Ec as <-. cbn [Nat.add].
    rewrite nth_error_map, I in Et. injection Et as <-. cbn [svg_children] in Ex.
    pose proof (CN k _ _ I Ex) as Cx. rewrite <- L at 1 2 4 5.
    destruct (clip_drawn ds E a e c d Hd F N k) as (y & Hy & Q). rewrite Cx in Hy. injection Hy as ->.
    split; [exact Q|].
    destruct (table_drawn ds E a e c d Hd F N (clip_id k) k eq_refl) as (l & <- & T). exact T.
Qed.

Theorem module_tables m svg : fits (table_rows m) -> render_module m = Okay svg ->
  tables_at (fun i => 2 * table_left i) (fun i => 2 * table_top (table_rows m) i) (definitions (m_entries m)) svg.
Proof.
  intros F R. unfold render_module in R. destruct (layout_module m) as [[[vb g] d]|] eqn:L; [|discriminate].
  destruct (layout_ported m vb g d L) as (E & N & _). apply render_okay in R as [_ ->].
  rewrite hs_module. apply (tables_drawn _ E); auto.
Qed.

Lemma view_attr r w h : exact_rect r 0 0 w h -> Z.abs (2 * w) <= M24 -> Z.abs (2 * h) <= M24 ->
  exists a b c d, view_box_attr r = a ++ lit ", " ++ b ++ lit ", " ++ c ++ lit ", " ++ d /\
    denotes a 0 /\ denotes b 0 /\ denotes c (IZR w) /\ denotes d (IZR h).
Proof.
  intros ((X & Y) & W & H) BW BH.
  assert (D : forall x z, hv x (2 * z) -> Z.abs (2 * z) <= M24 -> denotes (show_f32 x) (IZR z)).
  { intros x z Hx Bz. pose proof (half_printed x (2 * z) Hx Bz) as P.
    replace (IZR (2 * z) / 2)%R with (IZR z) in P; [exact P|]. rewrite mult_IZR. field. }
  do 4 eexists. split; [reflexivity|].
  split; [apply (D _ 0 X); unfold M24; lia|]. split; [apply (D _ 0 Y); unfold M24; lia|]. auto.
Qed.

Theorem module_view m svg : fits (table_rows m) -> table_rows m <> [] -> render_module m = Okay svg ->
  views svg 1160 (total_height (table_rows m)).
Proof.
  intros F N R. unfold render_module in R. destruct (layout_module m) as [[[vb g] d]|] eqn:L; [|discriminate].
  destruct (layout_ported m vb g d L) as (E & _ & V). apply render_okay in R as [_ ->].
  assert (X : exact_rect vb 0 0 1160 (total_height (table_rows m))).
  { pose proof L as L'. unfold layout_module in L'. apply bind_ret in L' as (d0 & M & _).
    destruct (place_nodes d0) as [d1 vb1] eqn:P. destruct (view_box m d0 d1 vb1 M P F N) as (X & _).
    destruct (placed_result m d0 d1 vb1 M P) as (E' & _ & _ & V' & _). subst vb vb1. exact X. }
  assert (T : 0 <= total_height (table_rows m)).
  { unfold total_height. cbn zeta. pose proof (row_top_ge (table_rows m) ((length (table_rows m) - 1) / 3)). lia. }
  unfold fits in F.
  destruct (view_attr vb 1160 (total_height (table_rows m)) X) as (a & b & c & d' & E1 & D); [unfold M24; lia|unfold M24; lia|].
  exists (view_box_attr vb), a, b, c, d'. split; [|auto].
  unfold picture. cbn [set_opt]. split.
  - cbn [svg_attrs root_attrs set_opt svg_document]. unfold root_attrs. cbn [set_opt]. apply attr_set_has.
  - intros v I. cbn [svg_attrs] in I. unfold root_attrs in I. cbn in I.
    repeat destruct I as [I|I]; try contradiction; try (injection I as <-; reflexivity); discriminate.
Qed.
