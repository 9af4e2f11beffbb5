(** Facts about the elements the renderer emits. *)
From Coq Require Import String List Arith NArith ZArith Bool Lia FinFun.
From Verif Require Import Base F32 Color Geometry Mir Erd Route Svg Render SpecGeom SpecMir SpecRender
  SpecDecimal DecimalFacts RenderFacts.
Import ListNotations.

(** ** Strings *)

Lemma str_eqb_iff a : forall b, str_eqb a b = true <-> a = b.
Proof.
  induction a as [|x a IH]; intros [|y b]; simpl; try (split; congruence).
  rewrite andb_true_iff, N.eqb_eq, IH. split; [intros [-> ->]; reflexivity|intros E; now injection E].
Qed.

(** ** Attributes *)

Lemma attr_set_in k v m : forall k' v', In (k', v') (attr_set k v m) -> (k' = k /\ v' = v) \/ In (k', v') m.
Proof.
  induction m as [|[a b] m IH]; intros k' v' H.
  - destruct H as [E|[]]. injection E as <- <-. auto.
  - cbn [attr_set] in H. destruct (str_eqb k a); [|destruct (str_leb k a)].
    + destruct H as [E|H]; [injection E as <- <-; auto|right; now right].
    + destruct H as [E|H]; [injection E as <- <-; auto|now right].
    + destruct H as [E|H]; [right; now left|]. apply IH in H as [H|H]; [auto|right; now right].
Qed.

(** All attributes in a tree. *)
Definition all_attrs (P : str -> str -> Prop) (n : svg_node) : Prop :=
  forall e, In e (subtree n) -> forall k v, In (k, v) (svg_attrs e) -> P k v.

Lemma subtree_elem k a c : subtree (Elem k a c) = Elem k a c :: flat_map subtree c.
Proof. reflexivity. Qed.

Lemma all_attrs_elem P k a c :
  all_attrs P (Elem k a c) <-> (forall x v, In (x, v) a -> P x v) /\ Forall (all_attrs P) c.
Proof.
  unfold all_attrs. split.
  - intros H. split.
    + intros x v I. apply (H (Elem k a c)); [now left|exact I].
    + apply Forall_forall. intros x Hx e He. apply H. rewrite subtree_elem. right.
      apply in_flat_map. eauto.
  - intros [H1 H2] e He. rewrite subtree_elem in He. destruct He as [<-|He]; [exact H1|].
    apply in_flat_map in He as (x & Hx & He). rewrite Forall_forall in H2. exact (H2 x Hx e He).
Qed.

Lemma all_attrs_new P k : all_attrs P (elem k).
Proof. apply all_attrs_elem. split; [intros ? ? []|constructor]. Qed.
Lemma all_attrs_text P s : all_attrs P (TextNode s).
Proof. intros e [<-|[]] k v []. Qed.
Lemma all_attrs_set (P : str -> str -> Prop) k v e : P (lit k) v -> all_attrs P e -> all_attrs P (set k v e).
Proof.
  destruct e as [n a c|s]; [|auto]. intros H1 H2. apply all_attrs_elem in H2 as [H2 H3].
  apply all_attrs_elem. split; [|assumption].
  intros x w I. apply attr_set_in in I as [[-> ->]|I]; auto.
Qed.
Lemma all_attrs_append P x e : all_attrs P x -> all_attrs P e -> all_attrs P (append x e).
Proof.
  destruct e as [n a c|s]; [|auto]. intros H1 H2. apply all_attrs_elem in H2 as [H2 H3].
  apply all_attrs_elem. split; [assumption|]. apply Forall_app. auto.
Qed.
Lemma all_attrs_opt {A} P (f : A -> svg_node -> svg_node) o e :
  (forall x e, o = Some x -> all_attrs P e -> all_attrs P (f x e)) -> all_attrs P e -> all_attrs P (set_opt f o e).
Proof. destruct o; simpl; auto. Qed.

(** ** The characters of numbers *)

Lemma digits_in s c : Forall digit s -> In c s -> digit c.
Proof. intros F I. rewrite Forall_forall in F. auto. Qed.

Definition number_char (c : char) : Prop := digit c \/ In c (lit "-.NaNinf").

Lemma positional_chars d k c : In c (positional d k) -> number_char c.
Proof.
  unfold positional. destruct (show_N_ok (Z.to_N d)) as (_ & D & _).
  assert (N0 : number_char 48%N) by (left; split; now compute).
  assert (N1 : number_char 46%N) by (right; right; now left).
  destruct (0 <=? k)%Z; [|destruct (Nat.ltb _ _)]; rewrite ?in_app_iff.
  - intros [H|H]; [left; eapply digits_in; eauto|]. apply repeat_spec in H. now subst.
  - intros [H|[<-|H]]; [|assumption|]; left; (eapply digits_in; [exact D|]).
    + rewrite <- (firstn_skipn (List.length (show_N (Z.to_N d)) - Z.to_nat (- k)) (show_N (Z.to_N d))).
      apply in_app_iff. now left.
    + rewrite <- (firstn_skipn (List.length (show_N (Z.to_N d)) - Z.to_nat (- k)) (show_N (Z.to_N d))).
      apply in_app_iff. now right.
  - intros [<-|[<-|H]]; [assumption|assumption|]. apply in_app_iff in H as [H|H].
    + apply repeat_spec in H. now subst.
    + left. eapply digits_in; eauto.
Qed.

Lemma show_f32_chars x c : In c (show_f32 x) -> number_char c.
Proof.
  destruct x as [b|b| |s m e].
  - assert (E : In c (lit "-0") -> number_char c).
    { intros [<-|[<-|[]]]; [right; now left|left; split; now compute]. }
    intros H. apply E. destruct b; [exact H|]. destruct H as [<-|[]]. right; now left.
  - assert (E : In c (lit "-inf") -> number_char c).
    { intros H. right. revert H. cbn. intuition. }
    intros H. apply E. destruct b; [exact H|]. now right.
  - intros H. right. revert H. change (show_f32 SpecFloat.S754_nan) with (lit "NaN"). cbn. intuition.
  - unfold show_f32. destruct (shortest 110 (Z.pos m) e 39) as [d k]. intros H. apply in_app_iff in H as [H|H].
    + destruct s; [|destruct H]. destruct H as [<-|[]]. right. now left.
    + eapply positional_chars; eauto.
Qed.

Lemma number_safe s : (forall c, In c s -> number_char c) -> safe_value s.
Proof.
  intros H c I U. specialize (H c I). unfold unsafe_chars in U. cbn in U.
  destruct H as [[L1 L2]|H].
  - unfold char in *. decompose [or] U; try lia; auto.
  - cbn in H. unfold char in *. decompose [or] U; subst; decompose [or] H; try discriminate; auto.
Qed.

(** ** Plain values: no character that needs escaping, no percent sign *)

Definition plain (v : str) : Prop := safe_value v /\ ~ In 37%N v.

Lemma plain_by v : forallb (fun c => negb (existsb (N.eqb c) (37%N :: unsafe_chars))) v = true -> plain v.
Proof.
  rewrite forallb_forall. intros H.
  assert (E : forall c, In c v -> ~ In c (37%N :: unsafe_chars)).
  { intros c I U. specialize (H c I). rewrite negb_true_iff in H.
    assert (existsb (N.eqb c) (37%N :: unsafe_chars) = true); [|congruence].
    apply existsb_exists. exists c. split; [exact U|apply N.eqb_refl]. }
  split; [intros c I U; apply (E c I); now right|]. intros I. apply (E _ I). now left.
Qed.
Lemma plain_app u v : plain u -> plain v -> plain (u ++ v).
Proof.
  intros [A B] [C D]. split.
  - intros c I. apply in_app_iff in I as [I|I]; auto.
  - rewrite in_app_iff. tauto.
Qed.
Lemma plain_number s : (forall c, In c s -> number_char c) -> plain s.
Proof.
  intros H. split; [now apply number_safe|]. intros I. destruct (H _ I) as [[L1 L2]|C]; [now compute in L1|].
  cbn in C. decompose [or] C; try discriminate; auto.
Qed.
Lemma plain_f32 x : plain (show_f32 x).
Proof. apply plain_number, show_f32_chars. Qed.
Lemma plain_digits s : Forall digit s -> plain s.
Proof. intros F. apply plain_number. intros c I. left. eapply digits_in; eauto. Qed.
Lemma plain_nat n : plain (show_nat n).
Proof. apply plain_digits, show_N_ok. Qed.

Lemma hex_nth m : (m < 16)%N -> nth_error hex_digits (N.to_nat m) = Some (hex_digit m).
Proof.
  intros L. assert (E : exists k, (k < 16)%nat /\ m = N.of_nat k) by (exists (N.to_nat m); lia).
  destruct E as (k & Lk & ->). rewrite Nat2N.id. clear L.
  do 16 (destruct k as [|k]; [reflexivity|]). lia.
Qed.
Lemma hex2_pair n : (n < 256)%N -> exists a b, hex2 n = [a; b] /\ hex_pair a b n.
Proof.
  intros L. exists (hex_digit (n / 16)), (hex_digit (n mod 16)). split; [reflexivity|].
  exists (N.to_nat (n / 16)), (N.to_nat (n mod 16)).
  assert (n / 16 < 16)%N by (apply N.div_lt_upper_bound; lia).
  pose proof (N.mod_lt n 16 ltac:(lia)).
  repeat split; [now apply hex_nth|now apply hex_nth|].
  rewrite !N2Nat.id. apply N.div_mod'.
Qed.
Lemma plain_hex2 n : (n < 256)%N -> plain (hex2 n).
Proof.
  intros L. destruct (hex2_pair n L) as (a & b & -> & i & j & A & B & _).
  assert (D : forallb (fun c => negb (existsb (N.eqb c) (37%N :: unsafe_chars))) hex_digits = true) by reflexivity.
  apply plain_by. cbn [forallb]. rewrite forallb_forall in D.
  rewrite (D a), (D b); [reflexivity| |]; eapply nth_error_In; eauto.
Qed.
Lemma plain_color c : valid_color c -> plain (show_color c).
Proof.
  destruct c as [[r g b]|[|]]; [|intros; now apply plain_by|intros; now apply plain_by].
  intros (R & G & B). cbn in R, G, B. unfold show_color, show_rgb. cbn [red green blue].
  apply plain_app; [now apply plain_by|]. repeat apply plain_app; now apply plain_hex2.
Qed.

Lemma plain_join s l : plain s -> Forall plain l -> plain (join s l).
Proof.
  intros S0 F. induction F as [|x l H F IH]; [now apply plain_by|].
  destruct l as [|y l]; [exact H|]. change (plain (x ++ s ++ join s (y :: l))).
  repeat apply plain_app; auto.
Qed.

(** What every attribute outside the background satisfies; [R] says which
    references to clip paths are valid. *)
Definition attr_ok (R : str -> Prop) (k v : str) : Prop :=
  safe_value v /\ (k = lit "clip-path" -> R v) /\ (k = lit "width" -> ~ In 37%N v).

Lemma ok_plain R k v : str_eqb k (lit "clip-path") = false -> plain v -> attr_ok R k v.
Proof.
  intros N [S0 P]. split; [exact S0|]. split; [|auto]. intros ->. now rewrite (proj2 (str_eqb_iff _ _) eq_refl) in N.
Qed.

Lemma byte_colors_get d i n : byte_colors d -> get_node d i = Some n -> colors_ok (n_kind n).
Proof. intros B G. unfold byte_colors in B. rewrite Forall_forall in B. apply B. eapply nth_error_In; eauto. Qed.

Lemma plain_stroke : plain (show_color stroke_color).
Proof. apply plain_color. now compute. Qed.
Lemma plain_background : plain (show_color background_color).
Proof. apply plain_color. now compute. Qed.

Ltac plain_tac :=
  lazymatch goal with
  | |- plain (show_f32 _) => apply plain_f32
  | |- plain (show_nat _) => apply plain_nat
  | |- plain (show_color stroke_color) => exact plain_stroke
  | |- plain (show_color background_color) => exact plain_background
  | |- plain (show_color _) => apply plain_color; auto; fail
  | |- plain (join _ _) => assumption
  | |- plain (lit _) => apply plain_by; reflexivity
  | |- plain sp => apply plain_by; reflexivity
  end.
Ltac attrs_tac :=
  repeat first
    [ match goal with
      | |- all_attrs _ (elem _) => apply all_attrs_new
      | |- all_attrs _ (TextNode _) => apply all_attrs_text
      | |- all_attrs _ ?x => is_var x; assumption
      | |- all_attrs _ (append _ _) => apply all_attrs_append
      | |- all_attrs _ (setf _ _ _) => apply all_attrs_set
      | |- all_attrs _ (setc _ _ _) => apply all_attrs_set
      | |- all_attrs _ (set _ _ _) => apply all_attrs_set
      | |- all_attrs _ (set_opt _ _ _) => apply all_attrs_opt; [intros|]
      end
    | match goal with |- attr_ok _ _ _ => apply ok_plain; [reflexivity|]; plain_tac; fail end ].

Section Attrs.
  Variable R : str -> Prop.
  Notation ok := (all_attrs (attr_ok R)).

  Lemma ok_round_rect o s : ok (round_rect o s).
  Proof. unfold round_rect. attrs_tac. Qed.
  Lemma ok_clip d ic : Forall ok (clip_elem d ic).
  Proof.
    unfold clip_elem. destruct (get_node _ _) as [n|]; [|constructor].
    destruct (n_kind n); try constructor. destruct (n_origin n) as [o|]; [|constructor].
    destruct (n_size n) as [s|]; [|constructor]. constructor; [|constructor].
    attrs_tac; [apply ok_round_rect|]. apply ok_plain; [reflexivity|].
    apply plain_app; [now apply plain_by|apply plain_nat].
  Qed.
  Lemma ok_text t o a : opt_valid (t_color t) -> ok (draw_text t o a).
  Proof.
    intros V. unfold draw_text. attrs_tac.
    - apply ok_plain; [reflexivity|]. destruct x; now apply plain_by.
    - apply ok_plain; [reflexivity|]. destruct x; now apply plain_by.
    - apply ok_plain; [reflexivity|]. destruct x; now apply plain_by.
    - apply ok_plain; [reflexivity|]. destruct x; now apply plain_by.
  Qed.
  Lemma ok_field f r i cl : colors_ok (KField f) -> R (lit "url(#" ++ cl ++ lit ")") ->
    safe_value (lit "url(#" ++ cl ++ lit ")") -> Forall ok (field_elements i f r cl).
  Proof.
    intros (V1 & V2 & V3 & V4 & V5) HR HS. unfold field_elements. apply Forall_app; split; [|apply Forall_app; split; [|apply Forall_app; split]].
    - unfold field_background. destruct (fs_bg f) as [c|] eqn:E; [|constructor].
      constructor; [|constructor]. attrs_tac. split; [exact HS|]. split; [auto|].
      intros E'. apply str_eqb_iff in E'. discriminate.
    - unfold field_border. destruct (Nat.ltb 0 i); [|constructor]. constructor; [|constructor]. attrs_tac.
    - unfold field_texts. constructor; [now apply ok_text|].
      destruct (fs_subtitle f) as [t|]; [|constructor]. constructor; [|constructor]. apply ok_text. auto.
    - unfold field_badge. destruct (fs_badge f) as [b|]; [|constructor].
      destruct (V5 b eq_refl) as [V6 V7]. apply Forall_app. split.
      + destruct (b_bg b) as [c|] eqn:E; [|constructor]. constructor; [|constructor]. attrs_tac.
      + constructor; [|constructor]. apply ok_text. exact V6.
  Qed.
  Lemma ok_record d ic : byte_colors d ->
    R (lit "url(#" ++ clip_id (fst ic) ++ lit ")") -> Forall ok (record_elems d ic).
  Proof.
    intros B HR. unfold record_elems. destruct (get_node d (snd ic)) as [n|] eqn:G; [|constructor].
    destruct (n_kind n) as [|rs|] eqn:K; try constructor.
    destruct (n_origin n) as [o|]; [|constructor]. destruct (n_size n) as [s|]; [|constructor].
    pose proof (byte_colors_get _ _ _ B G) as C. rewrite K in C. destruct C as [C1 C2].
    constructor.
    - unfold record_background. attrs_tac. apply ok_round_rect.
    - apply Forall_flat_map. apply Forall_forall. intros [j id] _. unfold field_elems; cbn [fst snd].
      destruct (get_node d id) as [m|] eqn:G'; [|constructor].
      destruct (n_kind m) as [| |f] eqn:K'; try constructor. destruct (node_rect m); [|constructor].
      apply ok_field; [|exact HR|].
      + pose proof (byte_colors_get _ _ _ B G') as C. now rewrite K' in C.
      + apply (plain_app (lit "url(#")); [now apply plain_by|]. apply plain_app; [|now apply plain_by].
        apply plain_app; [now apply plain_by|apply plain_nat].
  Qed.
  Lemma plain_line p : plain (svg_line p).
  Proof. unfold svg_line, coordinates. repeat apply plain_app; plain_tac. Qed.
  Lemma plain_curve c p : plain (svg_curve c p).
  Proof. unfold svg_curve, coordinates. repeat apply plain_app; plain_tac. Qed.
  Lemma plain_draws_rest a ps l : draws_rest a ps l -> Forall plain l.
  Proof.
    induction 1 as [a b|a b c ps l l' P D IH]; [constructor; [apply plain_line|constructor]|].
    apply Forall_app. split; [|exact IH].
    destruct P; repeat constructor; auto using plain_line, plain_curve;
      try apply plain_line; try apply plain_curve.
  Qed.
  Lemma ok_end_circle p : ok (end_circle p).
  Proof. unfold end_circle. attrs_tac. Qed.
  Lemma ok_edge e : Forall ok (edge_elems e).
  Proof.
    unfold edge_elems.
    destruct (draw_edge_cases e) as [(P & E)|(ps & P & [(L & E)|[(i & L & Rv & F & E)|(cs & p & L & N & D & Hd & E)]])];
      rewrite E; try apply Forall_nil.
    assert (J : plain (join sp cs)).
    { apply plain_join; [now apply plain_by|].
      destruct D as (p0 & ps' & l' & -> & D & ->). apply Forall_cons; [|now apply plain_draws_rest in D].
      unfold svg_move, coordinates. repeat apply plain_app; plain_tac. }
    apply Forall_cons; [attrs_tac|apply Forall_cons; [apply ok_end_circle|apply Forall_cons; [apply ok_end_circle|apply Forall_nil]]].
  Qed.
  Lemma ok_debug g d : Forall ok (debug_info g d).
  Proof.
    unfold debug_info. apply Forall_app; split; [|apply Forall_app; split; [|apply Forall_app; split]].
    - apply Forall_flat_map, Forall_forall. intros e _.
      destruct (nth_error _ _); [|constructor]. destruct (nth_error _ _); [|constructor].
      assert (J : plain (join sp (arrow_points (rn_loc r) (rn_loc r0)))).
      { apply plain_join; [now apply plain_by|].
        unfold arrow_points, pt_str. destruct (orthogonal_direction _ _); repeat apply Forall_cons; try apply Forall_nil;
          repeat apply plain_app; plain_tac. }
      apply Forall_cons; [attrs_tac|]. apply Forall_cons; [attrs_tac|apply Forall_nil].
    - apply Forall_flat_map, Forall_forall. intros e _. unfold debug_circle, debug_label.
      apply Forall_cons; [attrs_tac|apply Forall_cons; [attrs_tac|apply Forall_nil]].
    - apply Forall_flat_map, Forall_forall. intros e _. destruct (e_path e) as [ps|]; [|constructor].
      apply Forall_map, Forall_forall. intros x _. unfold debug_circle. attrs_tac.
    - apply Forall_flat_map, Forall_forall. intros id _. destruct (get_node d id) as [n|]; [|constructor].
      destruct (node_rect n); [|constructor]. constructor; [|constructor]. unfold debug_label. attrs_tac.
  Qed.
End Attrs.

(** ** Element names *)

Definition all_names (A : list str) (n : svg_node) : Prop := forall e, In e (subtree n) -> In (svg_name e) A.

Lemma all_names_elem A k a c : all_names A (Elem k a c) <-> In k A /\ Forall (all_names A) c.
Proof.
  unfold all_names. split.
  - intros H. split; [apply (H (Elem k a c)); now left|].
    apply Forall_forall. intros x Hx e He. apply H. rewrite subtree_elem. right. apply in_flat_map. eauto.
  - intros [H1 H2] e He. rewrite subtree_elem in He. destruct He as [<-|He]; [exact H1|].
    apply in_flat_map in He as (x & Hx & He). rewrite Forall_forall in H2. exact (H2 x Hx e He).
Qed.
Lemma all_names_new A k : In (lit k) A -> all_names A (elem k).
Proof. intros I. apply all_names_elem. auto. Qed.
Lemma all_names_text A s : In [] A -> all_names A (TextNode s).
Proof. intros I e [<-|[]]. exact I. Qed.
Lemma all_names_set A k v e : all_names A e -> all_names A (set k v e).
Proof. destruct e; [|auto]. cbn [set]. rewrite !all_names_elem. auto. Qed.
Lemma all_names_append A x e : all_names A x -> all_names A e -> all_names A (append x e).
Proof.
  destruct e; [|auto]. cbn [append]. rewrite !all_names_elem. intros H [H1 H2]. split; [auto|].
  apply Forall_app. auto.
Qed.
Lemma all_names_opt {A} N (f : A -> svg_node -> svg_node) o e :
  (forall x e, all_names N e -> all_names N (f x e)) -> all_names N e -> all_names N (set_opt f o e).
Proof. destruct o; simpl; auto. Qed.

Ltac names_tac :=
  repeat match goal with
      | |- all_names _ (elem _) => apply all_names_new; cbv; tauto
      | |- all_names _ (TextNode _) => apply all_names_text; cbv; tauto
      | |- all_names _ ?x => is_var x; assumption
      | |- all_names _ (append _ _) => apply all_names_append
      | |- all_names _ (setf _ _ _) => apply all_names_set
      | |- all_names _ (setc _ _ _) => apply all_names_set
      | |- all_names _ (set _ _ _) => apply all_names_set
      | |- all_names _ (set_opt _ _ _) => apply all_names_opt; [intros|]
      | |- Forall _ [] => apply Forall_nil
      | |- Forall _ (_ :: _) => apply Forall_cons
      | |- Forall _ (_ ++ _) => apply Forall_app; split
      end.

(** Names of the parts: plain shapes, and one path for each edge. *)
Definition shape_names : list str := [lit "rect"; lit "line"; lit "text"; lit "circle"; lit "polygon"; []].

Lemma names_field i f r cl : Forall (all_names shape_names) (field_elements i f r cl).
Proof.
  unfold field_elements, field_background, field_border, field_texts, field_badge, draw_text.
  destruct (fs_bg f), (Nat.ltb 0 i), (fs_subtitle f), (fs_badge f) as [b|];
    try destruct (b_bg b); names_tac.
Qed.
Lemma names_record d ic : Forall (all_names shape_names) (record_elems d ic).
Proof.
  unfold record_elems. destruct (get_node d (snd ic)) as [n|]; [|constructor].
  destruct (n_kind n) as [|rs|]; try constructor.
  destruct (n_origin n) as [o|]; [|constructor]. destruct (n_size n) as [s|]; [|constructor].
  apply Forall_cons.
  - unfold record_background, round_rect. names_tac.
  - apply Forall_flat_map, Forall_forall. intros [j id] _. unfold field_elems; cbn [fst snd].
    destruct (get_node d id) as [m|]; [|constructor].
    destruct (n_kind m) as [| |f]; try constructor. destruct (node_rect m); [|constructor].
    apply names_field.
Qed.
Lemma names_debug g d : Forall (all_names shape_names) (debug_info g d).
Proof.
  unfold debug_info, debug_edges, debug_nodes, debug_paths, debug_ids, debug_label, debug_circle. names_tac.
  - apply Forall_flat_map, Forall_forall. intros e _.
    destruct (nth_error _ _); [|constructor]. destruct (nth_error _ _); [|constructor]. names_tac.
  - apply Forall_flat_map, Forall_forall. intros e _. names_tac.
  - apply Forall_flat_map, Forall_forall. intros e _. destruct (e_path e) as [ps|]; [|constructor].
    apply Forall_map, Forall_forall. intros x _. names_tac.
  - apply Forall_flat_map, Forall_forall. intros id _. destruct (get_node d id) as [n|]; [|constructor].
    destruct (node_rect n); [|constructor]. names_tac.
Qed.
Lemma names_edge e : Forall (all_names (lit "path" :: shape_names)) (edge_elems e).
Proof.
  unfold edge_elems.
  destruct (draw_edge_cases e) as [(P & E)|(ps & P & [(L & E)|[(i & L & Rv & F & E)|(cs & p & L & N & D & Hd & E)]])];
    rewrite E; try apply Forall_nil.
  unfold end_circle. names_tac.
Qed.

Lemma elements_none k A n : all_names A n -> existsb (str_eqb (lit k)) A = false -> elements k n = [].
Proof.
  intros H N. unfold elements. unfold all_names in H. induction (subtree n) as [|e l IH]; [reflexivity|].
  simpl. destruct (is_element k e) eqn:E.
  - unfold is_element in E. apply str_eqb_iff in E. exfalso.
    specialize (H e (or_introl eq_refl)). rewrite E in H.
    assert (existsb (str_eqb (lit k)) A = true); [|congruence].
    apply existsb_exists. exists (lit k). split; [exact H|now apply str_eqb_iff].
  - apply IH. intros x Hx. apply H. now right.
Qed.
Lemma elements_none_all k A l : Forall (all_names A) l -> existsb (str_eqb (lit k)) A = false ->
  flat_map (elements k) l = [].
Proof.
  intros F N. induction F as [|x l H F IH]; [reflexivity|]. simpl. now rewrite (elements_none k A x), IH.
Qed.

Lemma filter_flat_map {A B} (p : B -> bool) (f : A -> list B) l :
  filter p (flat_map f l) = flat_map (fun x => filter p (f x)) l.
Proof. induction l; simpl; [reflexivity|]. now rewrite filter_app, IHl. Qed.
Lemma elements_elem k n a c :
  elements k (Elem n a c) = (if str_eqb n (lit k) then [Elem n a c] else []) ++ flat_map (elements k) c.
Proof.
  unfold elements. rewrite subtree_elem. cbn [filter]. unfold is_element at 1. cbn [svg_name].
  rewrite filter_flat_map. now destruct (str_eqb n (lit k)).
Qed.

(** ** Texts *)

Lemma texts_set k v e : texts (set k v e) = texts e.
Proof. now destruct e. Qed.
Lemma texts_append k a c x : texts (append x (Elem k a c)) = texts (Elem k a c) ++ texts x.
Proof. cbn [append texts]. rewrite flat_map_app. simpl. now rewrite app_nil_r. Qed.
Lemma texts_opt {A} (f : A -> svg_node -> svg_node) o e :
  (forall x, texts (f x e) = texts e) -> texts (set_opt f o e) = texts e.
Proof. intros H. destruct o; simpl; auto. Qed.

Lemma texts_draw t o a : texts (draw_text t o a) = [t_text t].
Proof.
  unfold draw_text.
  repeat (rewrite texts_opt; [|intros; unfold setc; apply texts_set]). reflexivity.
Qed.
Lemma texts_field i f r cl : flat_map texts (field_elements i f r cl) = row_texts f.
Proof.
  unfold field_elements. rewrite !flat_map_app.
  assert (E1 : flat_map texts (field_background f r cl) = []).
  { unfold field_background. destruct (fs_bg f); [|reflexivity]. cbn [flat_map].
    unfold setc, setf. now rewrite !texts_set. }
  assert (E2 : flat_map texts (field_border i f r) = []).
  { unfold field_border. destruct (Nat.ltb 0 i); [|reflexivity]. cbn [flat_map].
    rewrite texts_opt; [unfold setf; now rewrite !texts_set|]. intros. unfold setc. now rewrite !texts_set. }
  assert (E3 : flat_map texts (field_texts f r) =
               t_text (fs_title f) :: match fs_subtitle f with Some t => [t_text t] | None => [] end).
  { unfold field_texts. cbn [flat_map]. rewrite texts_draw.
    destruct (fs_subtitle f); [|reflexivity]. cbn [flat_map]. now rewrite texts_draw. }
  assert (E4 : flat_map texts (field_badge f r) = match fs_badge f with Some b => [b_text b] | None => [] end).
  { unfold field_badge. destruct (fs_badge f) as [b|]; [|reflexivity]. rewrite flat_map_app.
    cbn [flat_map]. rewrite texts_draw. destruct (b_bg b); [|reflexivity]. cbn [flat_map].
    unfold setc, setf. now rewrite !texts_set. }
  rewrite E1, E2, E3, E4. reflexivity.
Qed.

Definition texts_at (d : document) (id : node_id) : list str :=
  match get_node d id with
  | Some n => match n_kind n with KField f => row_texts f | _ => [] end
  | None => []
  end.
Lemma texts_rows d cl l : forall i, none_of (bad_field d) l ->
  flat_map texts (flat_map (field_elems d cl) (enum_from i l)) = flat_map (texts_at d) l.
Proof.
  induction l as [|id l IH]; intros i N; [reflexivity|]. inversion N; subst.
  cbn [enum_from flat_map]. rewrite flat_map_app, IH by assumption. f_equal.
  unfold field_elems, texts_at. cbn [snd fst].
  destruct (get_node d id) as [n|] eqn:G; [|reflexivity].
  destruct (n_kind n) as [| |f] eqn:K; try reflexivity.
  destruct (lacks_dec n) as [L|(o & s & O & Z)].
  - destruct H1. exists n, f. auto.
  - unfold node_rect. rewrite O, Z. apply texts_field.
Qed.
Lemma texts_records d l : forall i, none_of (bad_record d) l -> none_of (bad_field d) (rows_in d l) ->
  flat_map texts (flat_map (record_elems d) (enum_from i l)) = flat_map (texts_at d) (rows_in d l).
Proof.
  induction l as [|id l IH]; intros i N F; [reflexivity|]. inversion N; subst.
  rewrite rows_in_cons in *. apply Forall_app in F as [F1 F2].
  cbn [enum_from flat_map]. rewrite !flat_map_app, IH by assumption. f_equal.
  unfold record_elems, is_record, kids in *. cbn [snd fst].
  destruct (get_node d id) as [n|] eqn:G; [|reflexivity].
  destruct (n_kind n) as [|rs|f] eqn:K; try reflexivity.
  destruct (lacks_dec n) as [L|(o & s & O & Z)].
  - destruct H1. exists n, rs. auto.
  - rewrite O, Z. cbn [flat_map]. unfold enum. rewrite texts_rows by assumption.
    unfold record_background, round_rect.
    rewrite !texts_opt; [unfold setf; now rewrite !texts_set|intros; unfold setc; apply texts_set
                        |intros; unfold setc; apply texts_set].
Qed.

Lemma texts_edge e : flat_map texts (edge_elems e) = [].
Proof.
  unfold edge_elems.
  destruct (draw_edge_cases e) as [(P & E)|(ps & P & [(L & E)|[(i & L & Rv & F & E)|(cs & p & L & N & D & Hd & E)]])];
    rewrite E; try reflexivity.
Qed.
Lemma texts_clip d ic : flat_map texts (clip_elem d ic) = [].
Proof.
  unfold clip_elem. destruct (get_node _ _) as [n|]; [|reflexivity].
  destruct (n_kind n); try reflexivity. destruct (n_origin n) as [o|]; [|reflexivity].
  destruct (n_size n) as [s|]; [|reflexivity]. cbn [flat_map]. rewrite app_nil_r.
  unfold set at 1, elem at 1. rewrite texts_append. unfold round_rect, setf. now rewrite !texts_set.
Qed.
Lemma flat_map_nil {A B} (f : A -> list B) l : (forall x, f x = []) -> flat_map f l = [].
Proof. intros H. induction l; simpl; [reflexivity|]. now rewrite H. Qed.
Lemma flat_map_flat_map {A B C} (f : B -> list C) (g : A -> list B) l :
  flat_map f (flat_map g l) = flat_map (fun x => flat_map f (g x)) l.
Proof. induction l; simpl; [reflexivity|]. now rewrite flat_map_app, IHl. Qed.

Lemma picture_texts vb d : drawable d -> texts (picture vb None d) = doc_texts d.
Proof.
  intros (N & F & E). unfold picture. cbn [texts flat_map debug_part].
  rewrite app_nil_r, flat_map_app. unfold enum. rewrite texts_records by assumption.
  rewrite !flat_map_flat_map.
  rewrite (flat_map_nil (fun x => flat_map texts (edge_elems x))) by apply texts_edge.
  rewrite (flat_map_nil (fun x => flat_map texts (clip_elem d x))) by apply texts_clip.
  rewrite app_nil_r. cbn [app].
  replace (texts background_rect) with (@nil str); [reflexivity|].
  unfold background_rect, setc. now rewrite !texts_set.
Qed.
