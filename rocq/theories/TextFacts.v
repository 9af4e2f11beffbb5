(** Texts: what their elements say. *)
From Coq Require Import String List NArith Lia.
From Verif Require Import Base F32 Color Geometry Mir Svg Render SpecRender SpecText RenderFacts SvgFacts PictureFacts.
Import ListNotations.

Ltac show_text := cbv -[show_f32 show_color show_font_family show_font_weight show_font_size text_anchor lit app In].

Theorem weight_names w s : In (w, s) css_weights -> show_font_weight w = lit s.
Proof. cbn. intros [E|[E|[E|[E|[]]]]]; injection E as <- <-; reflexivity. Qed.
Theorem weights_all w : exists s, In (w, s) css_weights.
Proof. destruct w; eexists; cbn; eauto 6. Qed.
Theorem size_names : map show_font_size sizes = map lit css_sizes.
Proof. reflexivity. Qed.
Theorem sizes_all s : In s sizes.
Proof. destruct s; cbn; auto 10. Qed.
Theorem color_names c s : In (c, s) css_colors -> show_color (Named c) = lit s.
Proof. cbn. intros [E|[E|[]]]; injection E as <- <-; reflexivity. Qed.
Theorem anchor_names a s : In (a, s) svg_anchors -> text_anchor a = lit s.
Proof. cbn. intros [E|[E|[E|[]]]]; injection E as <- <-; reflexivity. Qed.

Lemma family_chars s : forallb (fun c => (((65 <=? c) && (c <=? 90)) || ((97 <=? c) && (c <=? 122)) || (c =? 32))%N%bool) s = true -> Forall family_char s.
Proof.
  intros H. rewrite forallb_forall in H. apply Forall_forall. intros c I. apply H in I. unfold family_char.
  apply Bool.orb_prop in I. destruct I as [I|I]; [|apply N.eqb_eq in I; auto].
  apply Bool.orb_prop in I. destruct I as [I|I]; apply andb_prop in I; destruct I as [I I']; apply N.leb_le in I, I'; auto.
Qed.
Ltac family_tac :=
  split; [discriminate|]; split; [|reflexivity];
  repeat (constructor; [split; [discriminate|apply family_chars; reflexivity]|]); constructor.

Theorem family_names f : family_list (show_font_family f) (generic f).
Proof.
  destruct f.
  - exists [lit "Arial"]. family_tac.
  - exists [lit "Verdana"]. family_tac.
  - exists [lit "Trebuchet MS"]. family_tac.
  - exists [lit "Monaco"; lit "Lucida Console"]. family_tac.
  - exists [lit "Courier New"]. family_tac.
Qed.

Lemma family_inj f f' : show_font_family f = show_font_family f' -> f = f'.
Proof. destruct f, f'; vm_compute; congruence. Qed.
Lemma weight_inj f f' : show_font_weight f = show_font_weight f' -> f = f'.
Proof. destruct f, f'; vm_compute; congruence. Qed.
Lemma size_inj f f' : show_font_size f = show_font_size f' -> f = f'.
Proof. destruct f, f'; vm_compute; congruence. Qed.
Lemma anchor_inj f f' : text_anchor f = text_anchor f' -> f = f'.
Proof. destruct f, f'; vm_compute; congruence. Qed.

(** The value an optional style is printed with. *)
Lemma text_attrs t o a : svg_attrs (draw_text t o a) =
  [(lit "dominant-baseline", lit "middle")] ++
  match t_color t with Some c => [(lit "fill", show_color c)] | None => [] end ++
  match t_family t with Some f => [(lit "font-family", show_font_family f)] | None => [] end ++
  match t_size t with Some s => [(lit "font-size", show_font_size s)] | None => [] end ++
  match t_weight t with Some w => [(lit "font-weight", show_font_weight w)] | None => [] end ++
  match a with Some a => [(lit "text-anchor", text_anchor a)] | None => [] end ++
  [(lit "x", show_f32 (px o)); (lit "y", show_f32 (py o))].
Proof.
  destruct t as [txt col fam wt sz]. cbn [t_color t_family t_size t_weight].
  unfold draw_text, setf. cbn [t_text t_color t_family t_size t_weight].
  generalize (show_f32 (px o)) (show_f32 (py o)). intros x y.
  destruct col, fam, wt, sz, a; reflexivity.
Qed.

Theorem text_attributes t o a k v :
  In (k, v) (svg_attrs (draw_text t o a)) <->
  (k = lit "x" /\ v = show_f32 (px o)) \/ (k = lit "y" /\ v = show_f32 (py o)) \/ (k = lit "dominant-baseline" /\ v = lit "middle") \/
  (k = lit "text-anchor" /\ exists b, a = Some b /\ v = text_anchor b) \/
  (k = lit "fill" /\ exists c, t_color t = Some c /\ v = show_color c) \/
  (k = lit "font-family" /\ exists f, t_family t = Some f /\ v = show_font_family f) \/
  (k = lit "font-weight" /\ exists w, t_weight t = Some w /\ v = show_font_weight w) \/
  (k = lit "font-size" /\ exists s, t_size t = Some s /\ v = show_font_size s).
Proof.
  rewrite text_attrs, !in_app_iff. cbn [In].
  assert (P : forall A (x : option A) n (f : A -> str), In (k, v) (match x with Some y => [(lit n, f y)] | None => [] end) <-> k = lit n /\ exists y, x = Some y /\ v = f y).
  { intros A x n f. destruct x as [y|]; cbn [In]; split.
    - intros [E|[]]. injection E as <- <-. eauto.
    - intros (-> & z & E & ->). injection E as <-. auto.
    - intros [].
    - intros (_ & z & E & _). discriminate. }
  rewrite !P. assert (Q : forall a b (c d : str), (a, b) = (c, d) <-> c = a /\ d = b).
  { intros. split; [intros E; injection E as <- <-; auto|intros [-> ->]; reflexivity]. }
  rewrite !Q. tauto.
Qed.

Theorem text_names_once t o a : NoDup (map fst (svg_attrs (draw_text t o a))).
Proof.
  rewrite text_attrs. destruct t as [txt [c|] [f|] [w|] [s|]], a as [b|]; cbn [t_color t_family t_size t_weight map fst app];
    repeat constructor; cbn [In]; intros H; repeat (destruct H as [H|H]; [vm_compute in H; discriminate H|]); exact H.
Qed.

Lemma text_parts t o a : svg_name (draw_text t o a) = lit "text" /\ svg_children (draw_text t o a) = [TextNode (t_text t)].
Proof. unfold draw_text. destruct t as [txt [c|] [f|] [w|] [s|]], a as [b|]; split; reflexivity. Qed.

Ltac pick_attr :=
  split; [intros H; tauto|];
  intros H; repeat (destruct H as [H|H]; [solve [destruct H as [H _]; vm_compute in H; discriminate H | destruct H as [_ H]; exact H]|]);
  destruct H as [H H']; solve [vm_compute in H; discriminate H | exact H'].

Theorem text_read_back t o a t' o' a' : opt_valid (t_color t) -> opt_valid (t_color t') ->
  draw_text t o a = draw_text t' o' a' -> t = t' /\ a = a'.
Proof.
  intros V V' E.
  assert (K : forall k v, In (k, v) (svg_attrs (draw_text t o a)) <-> In (k, v) (svg_attrs (draw_text t' o' a'))) by (rewrite E; tauto).
  assert (Tx : t_text t = t_text t').
  { pose proof (proj2 (text_parts t o a)) as P. rewrite E, (proj2 (text_parts t' o' a')) in P. congruence. }
  assert (R : forall A (x x' : option A) n (f : A -> str),
     (forall y y', x = Some y -> x' = Some y' -> f y = f y' -> y = y') ->
     (forall v, (exists y, x = Some y /\ v = f y) <-> In (lit n, v) (svg_attrs (draw_text t o a))) ->
     (forall v, (exists y, x' = Some y /\ v = f y) <-> In (lit n, v) (svg_attrs (draw_text t' o' a'))) -> x = x').
  { intros A x x' n f J H H'. assert (HH : forall v, (exists y, x = Some y /\ v = f y) <-> (exists y, x' = Some y /\ v = f y)).
    { intros v. rewrite H, H', K. tauto. }
    destruct x as [y|], x' as [y'|]; [| | |reflexivity].
    - destruct (proj1 (HH (f y))) as (z & Ez & Ev); [eauto|]. injection Ez as <-. f_equal. now apply J.
    - destruct (proj1 (HH (f y))) as (z & Ez & Ev); [eauto|]. discriminate Ez.
    - destruct (proj2 (HH (f y'))) as (z & Ez & Ev); [eauto|]. discriminate Ez. }
  assert (Ec : t_color t = t_color t').
  { apply (R _ _ _ "fill"%string show_color); [intros; apply color_injective; auto|intros v; rewrite text_attributes; pick_attr..]. }
  assert (Ef : t_family t = t_family t').
  { apply (R _ _ _ "font-family"%string show_font_family); [intros; apply family_inj; auto|intros v; rewrite text_attributes; pick_attr..]. }
  assert (Ew : t_weight t = t_weight t').
  { apply (R _ _ _ "font-weight"%string show_font_weight); [intros; apply weight_inj; auto|intros v; rewrite text_attributes; pick_attr..]. }
  assert (Es : t_size t = t_size t').
  { apply (R _ _ _ "font-size"%string show_font_size); [intros; apply size_inj; auto|intros v; rewrite text_attributes; pick_attr..]. }
  split.
  - destruct t, t'. cbn in *. congruence.
  - apply (R _ _ _ "text-anchor"%string text_anchor); [intros; apply anchor_inj; auto|intros v; rewrite text_attributes; pick_attr..].
Qed.

Theorem style_words :
  (forall w s, In (w, s) css_weights -> show_font_weight w = lit s) /\ (forall w, exists s, In (w, s) css_weights) /\
  map show_font_size sizes = map lit css_sizes /\ (forall s, In s sizes) /\
  (forall a s, In (a, s) svg_anchors -> text_anchor a = lit s) /\ (forall a, exists s, In (a, s) svg_anchors) /\
  (forall c s, In (c, s) css_colors -> show_color (Named c) = lit s) /\ (forall c, exists s, In (c, s) css_colors) /\
  (forall f, family_list (show_font_family f) (generic f)).
Proof.
  repeat apply conj; [exact weight_names|exact weights_all|exact size_names|exact sizes_all|exact anchor_names| |exact color_names| |exact family_names].
  - destruct a; eexists; cbn; eauto 6.
  - destruct c; eexists; cbn; eauto 6.
Qed.

Theorem text_element t o a :
  svg_name (draw_text t o a) = lit "text" /\ svg_children (draw_text t o a) = [TextNode (t_text t)] /\
  NoDup (map fst (svg_attrs (draw_text t o a))) /\
  (forall k v, In (k, v) (svg_attrs (draw_text t o a)) <->
    (k = lit "x" /\ v = show_f32 (px o)) \/ (k = lit "y" /\ v = show_f32 (py o)) \/ (k = lit "dominant-baseline" /\ v = lit "middle") \/
    (k = lit "text-anchor" /\ exists b, a = Some b /\ v = text_anchor b) \/
    (k = lit "fill" /\ exists c, t_color t = Some c /\ v = show_color c) \/
    (k = lit "font-family" /\ exists f, t_family t = Some f /\ v = show_font_family f) \/
    (k = lit "font-weight" /\ exists w, t_weight t = Some w /\ v = show_font_weight w) \/
    (k = lit "font-size" /\ exists s, t_size t = Some s /\ v = show_font_size s)).
Proof.
  destruct (text_parts t o a) as [P Q]. repeat apply conj; [exact P|exact Q|apply text_names_once|intros; apply text_attributes].
Qed.
