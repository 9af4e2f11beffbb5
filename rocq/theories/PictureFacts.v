(** Facts about the whole picture. *)
From Coq Require Import String List Arith NArith ZArith Bool Lia FinFun.
From Verif Require Import Base F32 Color Geometry Mir Erd Route Layout Svg Render Cli Parser SpecGeom SpecMir SpecRender
  SpecDecimal DecimalFacts RenderFacts SvgFacts MirFacts PlaceFacts SpecLayout LayoutFacts.
Import ListNotations.

(** ** Attributes by name *)

Lemma attr_set_has k v m : In (k, v) (attr_set k v m).
Proof.
  induction m as [|[a b] m IH]; simpl; [auto|]. destruct (str_eqb k a); [now left|].
  destruct (str_leb k a); [now left|]. now right.
Qed.
Lemma attr_set_keep k v m k' v' : k' <> k -> In (k', v') m -> In (k', v') (attr_set k v m).
Proof.
  intros N. induction m as [|[a b] m IH]; simpl; [tauto|]. intros [E|I].
  - injection E as -> ->. destruct (str_eqb k k') eqn:S0; [apply str_eqb_iff in S0; congruence|].
    destruct (str_leb k k'); simpl; auto.
  - destruct (str_eqb k a); [now right|]. destruct (str_leb k a); [now right; right|]. right. auto.
Qed.

Definition has_not (k : string) (e : svg_node) : Prop := forall v, ~ In (lit k, v) (svg_attrs e).
Lemma has_not_new k n : has_not k (elem n).
Proof. intros v []. Qed.
Lemma has_not_set k k' v e : str_eqb (lit k) (lit k') = false -> has_not k e -> has_not k (set k' v e).
Proof.
  destruct e as [n a c|s]; [|auto]. intros N H w I. cbn [set svg_attrs] in I.
  apply attr_set_in in I as [[E _]|I]; [|exact (H w I)]. apply str_eqb_iff in E. congruence.
Qed.
Lemma has_set k v n a c : has_not k (Elem n a c) -> has_attr (set k v (Elem n a c)) k v.
Proof.
  intros H. split; [apply attr_set_has|]. intros v' I. cbn [set svg_attrs] in I.
  apply attr_set_in in I as [[_ E]|I]; [exact E|]. destruct (H v' I).
Qed.
Lemma has_keep k v k' v' e : str_eqb (lit k) (lit k') = false -> has_attr e k v -> has_attr (set k' v' e) k v.
Proof.
  destruct e as [n a c|s]; [|auto]. intros N [H1 H2].
  assert (N' : lit k <> lit k') by (intros E; apply str_eqb_iff in E; congruence).
  split; cbn [set svg_attrs] in *; [now apply attr_set_keep|].
  intros w I. apply attr_set_in in I as [[E _]|I]; [congruence|auto].
Qed.

Lemma elem_form (e : svg_node) : (exists s, e = TextNode s) \/ exists n a c, e = Elem n a c.
Proof. destruct e; eauto. Qed.

(** Is the node an element?  Setting attributes keeps it one. *)
Definition is_elem (e : svg_node) : Prop := exists n a c, e = Elem n a c.
Lemma is_elem_new k : is_elem (elem k).
Proof. repeat eexists. Qed.
Lemma is_elem_set k v e : is_elem e -> is_elem (set k v e).
Proof. intros (n & a & c & ->). repeat eexists. Qed.
Lemma has_set' k v e : is_elem e -> has_not k e -> has_attr (set k v e) k v.
Proof. intros (n & a & c & ->). apply has_set. Qed.
Lemma name_set k v e : svg_name (set k v e) = svg_name e.
Proof. now destruct e. Qed.
Lemma children_set k v e : svg_children (set k v e) = svg_children e.
Proof. now destruct e. Qed.

Ltac has_tac :=
  unfold setf, setc;
  repeat match goal with
  | |- is_elem (elem _) => apply is_elem_new
  | |- is_elem (set _ _ _) => apply is_elem_set
  | |- has_not _ (elem _) => apply has_not_new
  | |- has_not _ (set _ _ _) => apply has_not_set; [reflexivity|]
  | |- has_attr (set ?k _ _) ?k _ => apply has_set'
  | |- has_attr (set _ _ _) _ _ => apply has_keep; [reflexivity|]
  end.

(** ** Edges *)

Lemma last_nth {A} (l : list A) d : l <> [] -> nth_error l (length l - 1) = Some (last l d).
Proof.
  intros N. destruct (exists_last N) as (l' & x & ->). rewrite last_last, app_length. simpl.
  rewrite nth_error_app2 by lia. now replace (_ - _) with 0 by lia.
Qed.

Lemma circle_spec p : svg_name (end_circle p) = lit "circle" /\
  has_attr (end_circle p) "cx" (show_f32 (px p)) /\ has_attr (end_circle p) "cy" (show_f32 (py p)) /\
  has_attr (end_circle p) "r" (lit "4") /\ svg_children (end_circle p) = [].
Proof.
  unfold end_circle.
  replace (show_f32 circle_radius) with (lit "4") by (vm_compute; reflexivity).
  split; [unfold setf, setc; now rewrite !name_set|].
  split; [has_tac|]. split; [has_tac|].
  split; [|unfold setf, setc; now rewrite !children_set].
  assert (E : lit "4" = show_f32 circle_radius) by (vm_compute; reflexivity). rewrite E. has_tac.
Qed.

Lemma edge_good_drawing e : ~ bad_edge e -> edge_drawing e (edge_elems e).
Proof.
  intros B. unfold edge_elems.
  destruct (draw_edge_cases e) as [(P & E)|(ps & P & [(L & E)|[(i & L & Rv & F & E)|(cs & p & L & N & D & Hd & E)]])].
  - destruct B. now left.
  - destruct B. right. eauto.
  - destruct B. right. exists ps. split; [assumption|]. right; eauto.
  - rewrite E. destruct ps as [|p0 ps]; [discriminate|]. injection Hd as ->.
    exists (p :: ps), p, (last (p :: ps) p), cs.
    do 3 eexists. split; [assumption|]. split; [reflexivity|].
    split; [apply last_nth; discriminate|]. split; [assumption|]. split; [reflexivity|].
    split; [unfold setf, setc; now rewrite !name_set|].
    split; [has_tac|]. split; [unfold setf, setc; now rewrite !children_set|].
    intros c x [H|[H|[]]]; injection H as <- <-; apply circle_spec.
Qed.

Lemma edge_paths e : ~ bad_edge e -> exists x, flat_map (elements "path") (edge_elems e) = [x] /\
  nth_error (edge_elems e) 0 = Some x.
Proof.
  intros B. unfold edge_elems.
  destruct (draw_edge_cases e) as [(P & E)|(ps & P & [(L & E)|[(i & L & Rv & F & E)|(cs & p & L & N & D & Hd & E)]])].
  - destruct B. now left.
  - destruct B. right. eauto.
  - destruct B. right. exists ps. split; [assumption|]. right; eauto.
  - rewrite E. eexists. split; [|reflexivity]. cbn [flat_map].
    assert (C : forall q, elements "path" (end_circle q) = []).
    { intros q. apply (elements_none "path" shape_names); [|reflexivity]. unfold end_circle. names_tac. }
    rewrite !C, !app_nil_r. reflexivity.
Qed.

Theorem picture_edges vb g d svg : render vb g d = Okay svg ->
  exists pre parts post,
    svg_children svg = pre ++ concat parts ++ post /\ Forall2 edge_drawing (d_edges d) parts /\
    flat_map (elements "path") pre = [] /\ flat_map (elements "path") post = [] /\
    (g = None -> post = []) /\ length (elements "path" svg) = length (d_edges d).
Proof.
  intros R. apply render_okay in R as [(N & F & B) ->].
  exists (background_rect :: Elem (lit "defs") [] (flat_map (clip_elem d) (enum (body_children d))) ::
          flat_map (record_elems d) (enum (body_children d))), (map edge_elems (d_edges d)), (debug_part g d).
  assert (P1 : flat_map (elements "path") (background_rect :: Elem (lit "defs") [] (flat_map (clip_elem d) (enum (body_children d))) ::
          flat_map (record_elems d) (enum (body_children d))) = []).
  { apply (elements_none_all "path" (lit "defs" :: lit "clipPath" :: shape_names)); [|reflexivity].
    apply Forall_cons; [unfold background_rect; names_tac|]. apply Forall_cons.
    - apply all_names_elem. split; [now left|]. apply Forall_flat_map, Forall_forall. intros ic _.
      unfold clip_elem. destruct (get_node _ _) as [n|]; [|constructor].
      destruct (n_kind n); try constructor. destruct (n_origin n) as [o|]; [|constructor].
      destruct (n_size n) as [s|]; [|constructor]. unfold round_rect. names_tac.
    - apply Forall_flat_map, Forall_forall. intros ic _. eapply Forall_impl; [|apply names_record].
      intros a H e I. right; right. exact (H e I). }
  assert (P2 : flat_map (elements "path") (debug_part g d) = []).
  { destruct g as [g|]; [|reflexivity]. apply (elements_none_all "path" shape_names); [apply names_debug|reflexivity]. }
  repeat split; auto.
  - unfold picture. cbn [svg_children]. rewrite flat_map_concat_map with (l := d_edges d). reflexivity.
  - clear -B. unfold none_of in B. induction (d_edges d) as [|e l IH]; [apply Forall2_nil|].
    inversion B; subst. cbn [map]. apply Forall2_cons; [now apply edge_good_drawing|auto].
  - intros ->. reflexivity.
  - unfold picture. rewrite elements_elem. cbn [str_eqb]. change (str_eqb (lit "svg") (lit "path")) with false.
    cbn [app].
    change (?x :: ?y :: ?z ++ ?u ++ ?w) with ((x :: y :: z) ++ u ++ w). rewrite !flat_map_app, P1, P2, app_nil_r.
    cbn [app]. clear -B. unfold none_of in B. induction (d_edges d) as [|e l IH]; [reflexivity|].
    inversion B; subst. cbn [flat_map]. rewrite flat_map_app, app_length, IH by assumption.
    destruct (edge_paths e H1) as (x & -> & _). reflexivity.
Qed.

(** ** Structure *)

Lemma filter_map_enum {A} (p : nat * A -> bool) (q : A -> bool) l : (forall i x, p (i, x) = q x) ->
  forall i, map snd (filter p (enum_from i l)) = filter q l.
Proof.
  intros H. induction l as [|x l IH]; intros i; [reflexivity|]. cbn [enum_from filter]. rewrite H.
  destruct (q x); cbn [map snd]; now rewrite IH.
Qed.

Definition rec_at (d : document) (ic : nat * node_id) : bool := is_record d (snd ic).

Lemma clip_one d ic : ~ bad_record d (snd ic) ->
  if rec_at d ic then exists c, clip_elem d ic = [c] /\ clips_record d (snd ic) c /\ has_attr c "id" (clip_id (fst ic)) /\
                               elements "clipPath" c = [c] /\ elements "defs" c = []
  else clip_elem d ic = [].
Proof.
  intros B. unfold rec_at, is_record, clip_elem.
  destruct (get_node d (snd ic)) as [n|] eqn:G; [|reflexivity].
  destruct (n_kind n) as [|rs|f] eqn:K; try reflexivity.
  destruct (lacks_dec n) as [L|(o & s & O & Z)].
  - destruct B. exists n, rs. auto.
  - rewrite O, Z. eexists. split; [reflexivity|]. split; [|split; [|split]].
    + exists n, o, s, (round_rect o s). repeat (split; [assumption|]).
      split; [reflexivity|]. split; [reflexivity|]. unfold round_rect.
      split; [unfold setf; now rewrite !name_set|]. split; [unfold setf; now rewrite !children_set|].
      split; [has_tac|]. split; [has_tac|]. split; [has_tac|]. has_tac.
    + cbn [append set elem]. split; [now left|]. intros v [E|[]]. now injection E.
    + reflexivity.
    + reflexivity.
Qed.

Lemma clip_id_inj i j : clip_id i = clip_id j -> i = j.
Proof. intros E. unfold clip_id in E. apply app_inv_head in E. now apply show_nat_inj. Qed.

Lemma enum_fst_nodup {A} (l : list A) : forall i, NoDup (map fst (enum_from i l)) /\
  Forall (fun j => i <= j) (map fst (enum_from i l)).
Proof.
  induction l as [|x l IH]; intros i; cbn [enum_from map fst]; [split; constructor|].
  destruct (IH (S i)) as [N F]. split; constructor; auto.
  - intros H. rewrite Forall_forall in F. specialize (F i H). lia.
  - eapply Forall_impl; [|exact F]. simpl; intros; lia.
Qed.
Lemma NoDup_map_filter {A B} (f : A -> B) p l : NoDup (map f l) -> NoDup (map f (filter p l)).
Proof.
  induction l as [|x l IH]; [auto|]. cbn [map filter]. intros N. inversion N; subst.
  destruct (p x); cbn [map]; [|auto]. constructor; [|auto].
  intros H. apply H1. apply in_map_iff in H as (y & E & I). apply filter_In in I as [I _].
  apply in_map_iff. eauto.
Qed.

Lemma clips_all d l : (forall ic, In ic l -> ~ bad_record d (snd ic)) ->
  let recs := filter (rec_at d) l in
  Forall2 (clips_record d) (map snd recs) (flat_map (clip_elem d) l) /\
  Forall2 (fun c id => has_attr c "id" id) (flat_map (clip_elem d) l) (map (fun ic => clip_id (fst ic)) recs) /\
  flat_map (elements "clipPath") (flat_map (clip_elem d) l) = flat_map (clip_elem d) l /\
  flat_map (elements "defs") (flat_map (clip_elem d) l) = [].
Proof.
  induction l as [|ic l IH]; intros B; cbn zeta; [repeat split; constructor|].
  destruct IH as (H1 & H2 & H3 & H4); [intros; apply B; now right|].
  pose proof (clip_one d ic (B ic (or_introl eq_refl))) as C. cbn [filter flat_map].
  destruct (rec_at d ic).
  - destruct C as (c & -> & C1 & C2 & C3 & C4). cbn [app map flat_map]. rewrite C3, C4, H3, H4.
    repeat split; auto; apply Forall2_cons; auto.
  - rewrite C. cbn [app]. auto.
Qed.

Lemma background_spec :
  svg_name background_rect = lit "rect" /\ svg_children background_rect = [] /\
  has_attr background_rect "width" (lit "100%") /\ has_attr background_rect "height" (lit "100%") /\
  has_attr background_rect "fill" (lit "#1C1C1C").
Proof.
  unfold background_rect.
  split; [reflexivity|]. split; [reflexivity|]. split; [has_tac|]. split; [has_tac|].
  replace (lit "#1C1C1C") with (show_color background_color) by reflexivity. has_tac.
Qed.

Definition clip_ids (d : document) : list str :=
  map (fun ic => clip_id (fst ic)) (filter (rec_at d) (enum (body_children d))).

Lemma record_elems_nil d ic : rec_at d ic = false -> record_elems d ic = [].
Proof.
  unfold rec_at, is_record, record_elems. destruct (get_node d (snd ic)) as [n|]; [|reflexivity].
  now destruct (n_kind n).
Qed.

(** All attributes but those of the background. *)
Lemma picture_attrs vb g d : byte_colors d ->
  forall e, In e (subtree (picture vb g d)) -> e = background_rect \/
  forall k v, In (k, v) (svg_attrs e) ->
    attr_ok (fun r => exists id, In id (clip_ids d) /\ r = lit "url(#" ++ id ++ lit ")") k v.
Proof.
  intros B e I.
  assert (A : forall l, Forall (all_attrs (attr_ok (fun r => exists id, In id (clip_ids d) /\ r = lit "url(#" ++ id ++ lit ")"))) l ->
    In e (flat_map subtree l) -> forall k v, In (k, v) (svg_attrs e) ->
    attr_ok (fun r => exists id, In id (clip_ids d) /\ r = lit "url(#" ++ id ++ lit ")") k v).
  { intros l F J. apply in_flat_map in J as (x & Hx & J). rewrite Forall_forall in F. exact (F x Hx e J). }
  unfold picture in I. rewrite subtree_elem in I. destruct I as [<-|I].
  - right. cbn [svg_attrs]. intros k v J. unfold root_attrs in J.
    assert (V : forall r, attr_ok (fun r => exists id, In id (clip_ids d) /\ r = lit "url(#" ++ id ++ lit ")")
              (lit "viewBox") (view_box_attr r)).
    { intros r. apply ok_plain; [reflexivity|]. unfold view_box_attr. repeat apply plain_app; plain_tac. }
    destruct vb as [r|].
    + cbn [set_opt svg_document set elem svg_attrs] in J. apply attr_set_in in J as [[-> ->]|[J|[]]]; [apply V|].
      injection J as <- <-. apply ok_plain; [reflexivity|]. now apply plain_by.
    + destruct J as [J|[]]. injection J as <- <-. apply ok_plain; [reflexivity|]. now apply plain_by.
  - cbn [flat_map] in I. apply in_app_iff in I as [I|I].
    { left. destruct I as [<-|[]]. reflexivity. }
    right. revert I. change (subtree ?x ++ flat_map subtree ?l) with (flat_map subtree (x :: l)). apply A.
    apply Forall_cons.
    + apply all_attrs_elem. split; [intros ? ? []|]. apply Forall_flat_map, Forall_forall. intros ic _. apply ok_clip.
    + apply Forall_app. split; [|apply Forall_app; split].
      * apply Forall_flat_map, Forall_forall. intros ic J.
        destruct (rec_at d ic) eqn:E; [|rewrite record_elems_nil by assumption; apply Forall_nil].
        apply ok_record; [assumption|]. exists (clip_id (fst ic)). split; [|reflexivity].
        unfold clip_ids. apply in_map_iff. exists ic. split; [reflexivity|]. apply filter_In. auto.
      * apply Forall_flat_map, Forall_forall. intros x _. apply ok_edge.
      * destruct g; [apply ok_debug|apply Forall_nil].
Qed.

Theorem picture_structure vb g d svg : byte_colors d -> render vb g d = Okay svg ->
  exists bg defs rest ids,
    svg_name svg = lit "svg" /\ svg_children svg = bg :: defs :: rest /\
    (svg_name bg = lit "rect" /\ svg_children bg = [] /\ has_attr bg "width" (lit "100%") /\
     has_attr bg "height" (lit "100%") /\ has_attr bg "fill" (lit "#1C1C1C")) /\
    (forall e, In e (subtree svg) -> In (lit "width", lit "100%") (svg_attrs e) -> e = bg) /\
    svg_name defs = lit "defs" /\ elements "defs" svg = [defs] /\
    elements "clipPath" svg = svg_children defs /\
    Forall2 (clips_record d) (filter (is_record d) (body_children d)) (svg_children defs) /\
    Forall2 (fun c id => has_attr c "id" id) (svg_children defs) ids /\ NoDup ids /\
    (forall e v, In e (subtree svg) -> In (lit "clip-path", v) (svg_attrs e) ->
       exists id, In id ids /\ v = lit "url(#" ++ id ++ lit ")").
Proof.
  intros BC R. apply render_okay in R as [(N & F & B) ->].
  set (clips := flat_map (clip_elem d) (enum (body_children d))).
  set (rest := flat_map (record_elems d) (enum (body_children d)) ++ flat_map edge_elems (d_edges d) ++ debug_part g d).
  exists background_rect, (Elem (lit "defs") [] clips), rest, (clip_ids d).
  destruct (clips_all d (enum (body_children d))) as (C1 & C2 & C3 & C4).
  { intros [i id] I. unfold none_of in N. rewrite Forall_forall in N. apply N.
    apply in_enum in I as [_ I]. eapply nth_error_In; exact I. }
  fold clips in C1, C2, C3, C4.
  assert (RN : Forall (all_names (lit "path" :: shape_names)) rest).
  { unfold rest. apply Forall_app. split; [|apply Forall_app; split].
    - apply Forall_flat_map, Forall_forall. intros ic _. eapply Forall_impl; [|apply names_record].
      intros a H e I. right. exact (H e I).
    - apply Forall_flat_map, Forall_forall. intros e _. apply names_edge.
    - destruct g; [|apply Forall_nil]. eapply Forall_impl; [|apply names_debug].
      intros a H e I. right. exact (H e I). }
  split; [reflexivity|]. split; [reflexivity|]. split; [apply background_spec|].
  split.
  { intros e I W. destruct (picture_attrs vb g d BC e I) as [E|A]; [exact E|].
    destruct (A _ _ W) as (_ & _ & K). destruct (K eq_refl). now right; right; right; left. }
  split; [reflexivity|].
  split; [|split; [|split; [|split; [|split]]]].
  - unfold picture. fold clips. fold rest. rewrite elements_elem. cbn [flat_map].
    rewrite elements_elem, C4, (elements_none_all "defs" _ rest RN) by reflexivity. reflexivity.
  - unfold picture. fold clips. fold rest. rewrite elements_elem. cbn [flat_map].
    rewrite elements_elem, C3, (elements_none_all "clipPath" _ rest RN) by reflexivity.
    change (str_eqb (lit "svg") (lit "clipPath")) with false.
    change (str_eqb (lit "defs") (lit "clipPath")) with false.
    change (elements "clipPath" background_rect) with (@nil svg_node).
    cbn [app svg_children]. apply app_nil_r.
  - cbn [svg_children]. replace (filter (is_record d) (body_children d))
      with (map snd (filter (rec_at d) (enum (body_children d)))); [exact C1|].
    now apply filter_map_enum.
  - exact C2.
  - unfold clip_ids. rewrite <- (map_map fst clip_id). apply Injective_map_NoDup; [intros i j; apply clip_id_inj|].
    apply NoDup_map_filter. apply enum_fst_nodup.
  - intros e v I W. destruct (picture_attrs vb g d BC e I) as [->|A].
    + destruct W as [W|[W|[W|[]]]]; injection W; discriminate.
    + destruct (A _ _ W) as (_ & K & _). now apply K.
Qed.

Lemma safe_by v : forallb (fun c => negb (existsb (N.eqb c) unsafe_chars)) v = true -> safe_value v.
Proof.
  rewrite forallb_forall. intros H c I U. specialize (H c I). rewrite negb_true_iff in H.
  assert (existsb (N.eqb c) unsafe_chars = true); [|congruence].
  apply existsb_exists. exists c. split; [exact U|apply N.eqb_refl].
Qed.

Theorem picture_safe vb g d svg : byte_colors d -> render vb g d = Okay svg ->
  forall e k v, In e (subtree svg) -> In (k, v) (svg_attrs e) -> safe_value v.
Proof.
  intros BC R e k v I W. apply render_okay in R as [_ ->].
  destruct (picture_attrs vb g d BC e I) as [->|A]; [|now destruct (A _ _ W)].
  destruct W as [W|[W|[W|[]]]]; injection W as <- <-; now apply safe_by.
Qed.

(** ** Texts do not influence anything else *)

Definition blank (d : document) : document := mkDoc (map blank_node (d_nodes d)) (d_edges d).

Lemma blank_get d i : get_node (blank d) i = option_map blank_node (get_node d i).
Proof. unfold get_node, blank. cbn [d_nodes]. apply nth_error_map. Qed.
Lemma blank_body d : body_children (blank d) = body_children d.
Proof. unfold body_children. rewrite blank_get. now destruct (get_node d 0). Qed.
Lemma blank_bad_record d id : bad_record (blank d) id <-> bad_record d id.
Proof.
  unfold bad_record. rewrite blank_get. split.
  - intros (n & rs & G & K & L). destruct (get_node d id) as [m|]; [|discriminate]. injection G as <-.
    exists m, rs. cbn in K. split; [reflexivity|]. split; [|exact L]. now destruct (n_kind m).
  - intros (n & rs & -> & K & L). exists (blank_node n), rs. split; [reflexivity|]. cbn. rewrite K. auto.
Qed.
Lemma blank_bad_field d id : bad_field (blank d) id <-> bad_field d id.
Proof.
  unfold bad_field. rewrite blank_get. split.
  - intros (n & f & G & K & L). destruct (get_node d id) as [m|]; [|discriminate]. injection G as <-.
    cbn in K. destruct (n_kind m) as [| |f'] eqn:K'; try discriminate. exists m, f'. auto.
  - intros (n & f & -> & K & L). exists (blank_node n), (blank_field f). split; [reflexivity|]. cbn. rewrite K. auto.
Qed.
Lemma blank_is_record d id : is_record (blank d) id = is_record d id.
Proof.
  unfold is_record. rewrite blank_get. destruct (get_node d id) as [n|]; [|reflexivity]. cbn. now destruct (n_kind n).
Qed.
Lemma blank_rows d : rows_of (blank d) = rows_of d.
Proof.
  unfold rows_of. rewrite blank_body, (filter_ext _ _ (blank_is_record d)).
  apply flat_map_ext. intros id. rewrite blank_get. now destruct (get_node d id).
Qed.

Lemma first_of_iff {A} (P Q : A -> Prop) l x : (forall y, P y <-> Q y) -> first_of P l x -> first_of Q l x.
Proof.
  intros H (l1 & l2 & E & Px & N). exists l1, l2. split; [exact E|]. split; [now apply H|].
  eapply Forall_impl; [|exact N]. simpl. intros a Ha Qa. apply Ha, H, Qa.
Qed.
Lemma none_of_iff {A} (P Q : A -> Prop) l : (forall y, P y <-> Q y) -> none_of P l -> none_of Q l.
Proof. intros H N. eapply Forall_impl; [|exact N]. simpl. intros a Ha Qa. apply Ha, H, Qa. Qed.

Lemma edge_problem_unique {A B} e (r : outcome A) (s : outcome B) : edge_problem e r -> edge_problem e s ->
  (exists x, r = Fail x /\ s = Fail x) \/ (exists x, r = Abort x /\ s = Abort x).
Proof.
  unfold edge_problem. destruct (e_path e) as [ps|]; [|intros -> ->; eauto].
  intros [[L ->]|(i & L & R & F & ->)] [[L' ->]|(j & L' & R' & F' & ->)]; try lia; eauto.
  right. exists (PTurnaround i). split; [reflexivity|]. do 2 f_equal.
  destruct (Nat.lt_trichotomy i j) as [H|[H|H]]; [destruct (F' i H R)|congruence|destruct (F j H R')].
Qed.

Lemma wt_set k v e : without_text (set k v e) = set k v (without_text e).
Proof. now destruct e. Qed.
Lemma wt_append x e : without_text (append x e) = append (without_text x) (without_text e).
Proof. destruct e; [|reflexivity]. cbn [append without_text]. now rewrite map_app. Qed.
Lemma wt_opt {A} (f : A -> svg_node -> svg_node) o e :
  (forall x e, without_text (f x e) = f x (without_text e)) ->
  without_text (set_opt f o e) = set_opt f o (without_text e).
Proof. intros H. destruct o; simpl; auto. Qed.

Lemma wt_text t o a : without_text (draw_text (blank_span t) o a) = without_text (draw_text t o a).
Proof.
  unfold draw_text, blank_span. cbn [t_color t_family t_weight t_size t_text].
  repeat (rewrite wt_opt; [|intros; unfold setc; apply wt_set]). reflexivity.
Qed.
Lemma wt_field i f r cl :
  map without_text (field_elements i (blank_field f) r cl) = map without_text (field_elements i f r cl).
Proof.
  unfold field_elements. rewrite !map_app. f_equal. f_equal. f_equal.
  - unfold field_texts. cbn [map blank_field fs_title fs_subtitle]. rewrite wt_text. f_equal.
    destruct (fs_subtitle f); cbn [option_map map]; now rewrite ?wt_text.
  - unfold field_badge. cbn [blank_field fs_badge]. destruct (fs_badge f) as [b|]; [|reflexivity].
    cbn [option_map b_bg]. rewrite !map_app. f_equal. cbn [map]. f_equal.
    exact (wt_text (badge_text_span b) _ _).
Qed.
Lemma wt_record d ic : map without_text (record_elems (blank d) ic) = map without_text (record_elems d ic).
Proof.
  unfold record_elems. rewrite blank_get. destruct (get_node d (snd ic)) as [n|]; [|reflexivity].
  cbn [option_map blank_node n_kind n_origin n_size n_children].
  destruct (n_kind n) as [|rs|f]; try reflexivity.
  destruct (n_origin n); [|reflexivity]. destruct (n_size n); [|reflexivity]. cbn [map]. f_equal.
  rewrite !flat_map_concat_map, !concat_map, !map_map. f_equal. apply map_ext. intros [j id].
  unfold field_elems. cbn [fst snd]. rewrite blank_get. destruct (get_node d id) as [m|]; [|reflexivity].
  cbn [option_map]. unfold node_rect. cbn [blank_node n_kind n_origin n_size].
  destruct (n_kind m) as [| |f]; try reflexivity. destruct (n_origin m); [|reflexivity].
  destruct (n_size m); [|reflexivity]. apply wt_field.
Qed.
Lemma clip_blank d ic : clip_elem (blank d) ic = clip_elem d ic.
Proof.
  unfold clip_elem. rewrite blank_get. destruct (get_node d (snd ic)) as [n|]; [|reflexivity].
  cbn [option_map blank_node n_kind n_origin n_size]. now destruct (n_kind n).
Qed.
Lemma debug_blank g d : debug_info g (blank d) = debug_info g d.
Proof.
  unfold debug_info. f_equal. f_equal. f_equal. unfold debug_ids. rewrite blank_body.
  apply flat_map_ext. intros id. rewrite blank_get. now destruct (get_node d id).
Qed.
Lemma picture_blank vb g d : without_text (picture vb g (blank d)) = without_text (picture vb g d).
Proof.
  unfold picture. cbn [without_text map]. rewrite blank_body. f_equal. f_equal. f_equal.
  - f_equal. f_equal. apply flat_map_ext. apply clip_blank.
  - rewrite !map_app. f_equal; [|f_equal].
    + rewrite !flat_map_concat_map, !concat_map, !map_map. f_equal. apply map_ext. apply wt_record.
    + destruct g; [|reflexivity]. cbn [debug_part]. now rewrite debug_blank.
Qed.

Lemma render_blank vb g d :
  map_outcome without_text (render vb g (blank d)) = map_outcome without_text (render vb g d).
Proof.
  destruct (first_or_none (bad_record d) (body_children d) (bad_record_dec d)) as [N|(x & F)].
  2:{ rewrite (render_record vb g d x F), (render_record vb g (blank d) x); [reflexivity|].
      rewrite blank_body. eapply first_of_iff; [|exact F]. intros y. symmetry. apply blank_bad_record. }
  assert (N' : none_of (bad_record (blank d)) (body_children (blank d))).
  { rewrite blank_body. eapply none_of_iff; [|exact N]. intros y. symmetry. apply blank_bad_record. }
  destruct (first_or_none (bad_field d) (rows_of d) (bad_field_dec d)) as [N2|(x & F)].
  2:{ rewrite (render_field vb g d x N F), (render_field vb g (blank d) x N'); [reflexivity|].
      rewrite blank_rows. eapply first_of_iff; [|exact F]. intros y. symmetry. apply blank_bad_field. }
  assert (N2' : none_of (bad_field (blank d)) (rows_of (blank d))).
  { rewrite blank_rows. eapply none_of_iff; [|exact N2]. intros y. symmetry. apply blank_bad_field. }
  destruct (first_or_none bad_edge (d_edges d) bad_edge_dec) as [N3|(x & F)].
  - rewrite (render_good vb g d N N2 N3), (render_good vb g (blank d) N' N2' N3). cbn [map_outcome].
    f_equal. apply picture_blank.
  - destruct (edge_problem_unique x _ _ (render_edge vb g d x N N2 F) (render_edge vb g (blank d) x N' N2' F))
      as [(y & -> & ->)|(y & -> & ->)]; reflexivity.
Qed.

Theorem render_texts_only vb g d d' : same_but_texts d d' ->
  map_outcome without_text (render vb g d) = map_outcome without_text (render vb g d').
Proof.
  intros [E1 E2]. rewrite <- (render_blank vb g d), <- (render_blank vb g d'). unfold blank. now rewrite E1, E2.
Qed.

(** ** Colours *)

Theorem color_digits r g b : channel r -> channel g -> channel b ->
  exists r1 r0 g1 g0 b1 b0, show_color (RGB (mkRGB r g b)) = lit "#" ++ [r1; r0; g1; g0; b1; b0] /\
    hex_pair r1 r0 r /\ hex_pair g1 g0 g /\ hex_pair b1 b0 b.
Proof.
  intros R G B. destruct (hex2_pair r R) as (r1 & r0 & E1 & H1).
  destruct (hex2_pair g G) as (g1 & g0 & E2 & H2). destruct (hex2_pair b B) as (b1 & b0 & E3 & H3).
  exists r1, r0, g1, g0, b1, b0. split; [|auto]. unfold show_color, show_rgb. cbn [red green blue].
  now rewrite E1, E2, E3.
Qed.

Lemma hex_index i j a : nth_error hex_digits i = Some a -> nth_error hex_digits j = Some a -> i = j.
Proof.
  intros A B. assert (N : NoDup hex_digits).
  { unfold hex_digits. repeat (apply NoDup_cons; [cbv; intuition discriminate|]). apply NoDup_nil. }
  rewrite NoDup_nth_error in N. apply N; [|congruence]. apply nth_error_Some. congruence.
Qed.
Lemma hex_pair_unique a b n m : hex_pair a b n -> hex_pair a b m -> n = m.
Proof.
  intros (i & j & A & B & ->) (i' & j' & A' & B' & ->).
  now rewrite (hex_index _ _ _ A A'), (hex_index _ _ _ B B').
Qed.

Theorem color_injective c c' : valid_color c -> valid_color c' -> show_color c = show_color c' -> c = c'.
Proof.
  destruct c as [[r g b]|n], c' as [[r' g' b']|n']; intros V V' E.
  - destruct V as (R & G & B), V' as (R' & G' & B'). cbn [red green blue] in *.
    destruct (color_digits r g b R G B) as (r1 & r0 & g1 & g0 & b1 & b0 & E1 & H1 & H2 & H3).
    destruct (color_digits r' g' b' R' G' B') as (r1' & r0' & g1' & g0' & b1' & b0' & E1' & H1' & H2' & H3').
    rewrite E1, E1' in E. injection E as -> -> -> -> -> ->.
    now rewrite (hex_pair_unique _ _ _ _ H1 H1'), (hex_pair_unique _ _ _ _ H2 H2'), (hex_pair_unique _ _ _ _ H3 H3').
  - destruct n'; discriminate.
  - destruct n; discriminate.
  - destruct n, n'; auto; discriminate.
Qed.

Theorem rendered_texts vb d svg : render vb None d = Okay svg -> texts svg = doc_texts d.
Proof. intros R. apply render_okay in R as [D ->]. now apply picture_texts. Qed.
