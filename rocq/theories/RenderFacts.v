(** Facts about the renderer. *)
From Coq Require Import String List Arith NArith ZArith Bool Lia.
From Verif Require Import Base F32 Color Geometry Mir Erd Route Svg Render SpecGeom SpecMir SpecRender.
Import ListNotations.

(** ** Outcomes *)

Lemma ofold_app {A B} (f : B -> A -> outcome B) l1 : forall l2 s,
  ofold f (l1 ++ l2) s = let! s' := ofold f l1 s in ofold f l2 s'.
Proof.
  induction l1 as [|x l1 IH]; intros; [reflexivity|]. simpl. destruct (f s x); simpl; auto.
Qed.

(** ** First pass *)

Definition clip_elem (d : document) (ic : nat * node_id) : list svg_node :=
  match get_node d (snd ic) with
  | Some n => match n_kind n, n_origin n, n_size n with
              | KRecord _, Some o, Some s =>
                  [append (round_rect o s) (set "id" (clip_id (fst ic)) (elem "clipPath"))]
              | _, _, _ => []
              end
  | None => []
  end.

Definition field_elems (d : document) (clip : str) (ic : nat * node_id) : list svg_node :=
  match get_node d (snd ic) with
  | Some n => match n_kind n, node_rect n with
              | KField f, Some r => field_elements (fst ic) f r clip
              | _, _ => []
              end
  | None => []
  end.

Definition record_elems (d : document) (ic : nat * node_id) : list svg_node :=
  match get_node d (snd ic) with
  | Some n => match n_kind n, n_origin n, n_size n with
              | KRecord rs, Some o, Some s =>
                  record_background rs o s :: flat_map (field_elems d (clip_id (fst ic))) (enum (n_children n))
              | _, _, _ => []
              end
  | None => []
  end.

Lemma lacks_dec n : lacks_geometry n \/ exists o s, n_origin n = Some o /\ n_size n = Some s.
Proof.
  unfold lacks_geometry. destruct (n_origin n); [|now left; left]. destruct (n_size n); [|now left; right].
  right; eauto.
Qed.

Lemma clip_bad d i id k a c : bad_record d id ->
  clip_step d (Elem k a c) (i, id) = Fail (InvalidLayout id).
Proof.
  intros (n & rs & G & K & L). unfold clip_step. rewrite G, K.
  destruct L as [L|L]; rewrite L; [reflexivity|]. now destruct (n_origin n).
Qed.
Lemma clip_good d i id k a c : ~ bad_record d id ->
  clip_step d (Elem k a c) (i, id) = Okay (Elem k a (c ++ clip_elem d (i, id))).
Proof.
  intros B. unfold clip_step, clip_elem; cbn [fst snd].
  destruct (get_node d id) as [n|] eqn:G; [|now rewrite app_nil_r].
  destruct (n_kind n) as [|rs|f] eqn:K; try now rewrite app_nil_r.
  destruct (lacks_dec n) as [L|(o & s & O & Z)].
  - destruct B. exists n, rs. auto.
  - now rewrite O, Z.
Qed.

Lemma enum_from_app {A} (l1 l2 : list A) : forall i,
  enum_from i (l1 ++ l2) = enum_from i l1 ++ enum_from (i + length l1) l2.
Proof.
  induction l1 as [|x l1 IH]; intros; simpl; [now rewrite Nat.add_0_r|].
  rewrite IH. now rewrite Nat.add_succ_r.
Qed.
Lemma map_snd_enum {A} (l : list A) : forall i, map snd (enum_from i l) = l.
Proof. induction l; intros; simpl; f_equal; auto. Qed.
Lemma in_enum {A} (l : list A) : forall i j x, In (j, x) (enum_from i l) <-> i <= j /\ nth_error l (j - i) = Some x.
Proof.
  induction l as [|y l IH]; intros; simpl.
  - split; [tauto|]. intros [_ H]. destruct (j - i); discriminate.
  - rewrite IH. split.
    + intros [E|[L N]].
      * injection E as -> ->. rewrite Nat.sub_diag. auto.
      * split; [lia|]. replace (j - i) with (S (j - S i)) by lia. exact N.
    + intros [L N]. destruct (Nat.eq_dec i j) as [->|D].
      * rewrite Nat.sub_diag in N. injection N as ->. auto.
      * right. split; [lia|]. replace (j - i) with (S (j - S i)) in N by lia. exact N.
Qed.

Lemma clips_good d k a l : forall i c, none_of (bad_record d) l ->
  ofold (clip_step d) (enum_from i l) (Elem k a c) =
  Okay (Elem k a (c ++ flat_map (clip_elem d) (enum_from i l))).
Proof.
  induction l as [|x l IH]; intros i c N.
  - simpl. now rewrite app_nil_r.
  - inversion N; subst. cbn [enum_from ofold]. rewrite clip_good by assumption. cbn [obind].
    rewrite IH by assumption. cbn [flat_map]. now rewrite app_assoc.
Qed.
Lemma clips_bad d k a l id : forall c, first_of (bad_record d) l id ->
  ofold (clip_step d) (enum l) (Elem k a c) = Fail (InvalidLayout id).
Proof.
  intros c (l1 & l2 & -> & B & N). unfold enum. rewrite enum_from_app, ofold_app, clips_good by assumption.
  cbn [obind enum_from ofold]. now rewrite clip_bad.
Qed.

(** ** Second pass *)

Lemma append_all_elem es : forall k a c, append_all es (Elem k a c) = Elem k a (c ++ es).
Proof.
  unfold append_all. induction es as [|e es IH]; intros; simpl; [now rewrite app_nil_r|].
  rewrite IH, <- app_assoc. reflexivity.
Qed.

Lemma rect_lacks n : lacks_geometry n -> node_rect n = None.
Proof. intros [L|L]; unfold node_rect; rewrite L; [reflexivity|]. now destruct (n_origin n). Qed.

Lemma field_bad d cl i id k a c : bad_field d id ->
  field_step d cl (Elem k a c) (i, id) = Fail (InvalidLayout id).
Proof.
  intros (n & f & G & K & L). unfold field_step. now rewrite G, K, rect_lacks.
Qed.
Lemma field_good d cl i id k a c : ~ bad_field d id ->
  field_step d cl (Elem k a c) (i, id) = Okay (Elem k a (c ++ field_elems d cl (i, id))).
Proof.
  intros B. unfold field_step, field_elems; cbn [fst snd].
  destruct (get_node d id) as [n|] eqn:G; [|now rewrite app_nil_r].
  destruct (n_kind n) as [|rs|f] eqn:K; try now rewrite app_nil_r.
  destruct (lacks_dec n) as [L|(o & s & O & Z)].
  - destruct B. exists n, f. auto.
  - unfold node_rect. rewrite O, Z. now rewrite append_all_elem.
Qed.
Lemma fields_good d cl k a l : forall i c, none_of (bad_field d) l ->
  ofold (field_step d cl) (enum_from i l) (Elem k a c) =
  Okay (Elem k a (c ++ flat_map (field_elems d cl) (enum_from i l))).
Proof.
  induction l as [|x l IH]; intros i c N.
  - simpl. now rewrite app_nil_r.
  - inversion N; subst. cbn [enum_from ofold]. rewrite field_good by assumption. cbn [obind].
    rewrite IH by assumption. cbn [flat_map]. now rewrite app_assoc.
Qed.
Lemma fields_bad d cl k a l id : forall c, first_of (bad_field d) l id ->
  ofold (field_step d cl) (enum l) (Elem k a c) = Fail (InvalidLayout id).
Proof.
  intros c (l1 & l2 & -> & B & N). unfold enum. rewrite enum_from_app, ofold_app, fields_good by assumption.
  cbn [obind enum_from ofold]. now rewrite field_bad.
Qed.

Definition kids (d : document) (id : node_id) : list node_id :=
  match get_node d id with Some n => n_children n | None => [] end.
Definition rows_in (d : document) (l : list node_id) : list node_id :=
  flat_map (kids d) (filter (is_record d) l).

Lemma rows_in_cons d x l : rows_in d (x :: l) = (if is_record d x then kids d x else []) ++ rows_in d l.
Proof. unfold rows_in. simpl. now destruct (is_record d x). Qed.
Lemma rows_in_app d l1 l2 : rows_in d (l1 ++ l2) = rows_in d l1 ++ rows_in d l2.
Proof. unfold rows_in. now rewrite filter_app, flat_map_app. Qed.

Lemma set_opt_elem {A} (f : A -> svg_node -> svg_node) o e :
  (forall x k a c, exists a', f x (Elem k a c) = Elem k a' c) ->
  forall k a c, e = Elem k a c -> exists a', set_opt f o e = Elem k a' c.
Proof. intros H k a c ->. destruct o; simpl; eauto. Qed.

Lemma record_good d i id k a c : ~ bad_record d id ->
  none_of (bad_field d) (rows_in d [id]) ->
  record_step d (Elem k a c) (i, id) = Okay (Elem k a (c ++ record_elems d (i, id))).
Proof.
  intros B F. rewrite rows_in_cons in F. unfold rows_in in F; simpl in F. rewrite app_nil_r in F.
  unfold record_step, record_elems; cbn [fst snd].
  unfold is_record, kids in F.
  destruct (get_node d id) as [n|] eqn:G; [|now rewrite app_nil_r].
  destruct (n_kind n) as [|rs|f] eqn:K; try now rewrite app_nil_r.
  destruct (lacks_dec n) as [L|(o & s & O & Z)].
  - destruct B. exists n, rs. auto.
  - rewrite O, Z. cbn [append]. unfold enum. rewrite fields_good by exact F. now rewrite <- app_assoc.
Qed.
Lemma record_bad d i id x k a c : ~ bad_record d id -> first_of (bad_field d) (rows_in d [id]) x ->
  record_step d (Elem k a c) (i, id) = Fail (InvalidLayout x).
Proof.
  intros B F. rewrite rows_in_cons in F. unfold rows_in in F; simpl in F. rewrite app_nil_r in F.
  unfold is_record, kids in F. unfold record_step.
  assert (E : ~ first_of (bad_field d) [] x) by (intros (l1 & l2 & E & _); now destruct l1).
  destruct (get_node d id) as [n|] eqn:G; [|tauto].
  destruct (n_kind n) as [|rs|f] eqn:K; try tauto.
  destruct (lacks_dec n) as [L|(o & s & O & Z)].
  - destruct B. exists n, rs. auto.
  - rewrite O, Z. cbn [append]. now apply fields_bad.
Qed.

Lemma records_good d k a l : forall i c, none_of (bad_record d) l -> none_of (bad_field d) (rows_in d l) ->
  ofold (record_step d) (enum_from i l) (Elem k a c) =
  Okay (Elem k a (c ++ flat_map (record_elems d) (enum_from i l))).
Proof.
  induction l as [|x l IH]; intros i c N F.
  - simpl. now rewrite app_nil_r.
  - inversion N; subst. change (x :: l) with ([x] ++ l) in F. rewrite rows_in_app in F.
    apply Forall_app in F as [F1 F2].
    cbn [enum_from ofold]. rewrite record_good by assumption. cbn [obind].
    rewrite IH by assumption. cbn [flat_map]. now rewrite app_assoc.
Qed.

Lemma first_of_app {A} (P : A -> Prop) l1 l2 x :
  first_of P (l1 ++ l2) x -> first_of P l1 x \/ none_of P l1 /\ first_of P l2 x.
Proof.
  revert l2. induction l1 as [|y l1 IH]; intros l2 (a & b & E & Px & N).
  - right. split; [constructor|]. exists a, b. auto.
  - destruct a as [|z a]; simpl in E; injection E as -> E.
    + left. exists [], l1. repeat split; auto.
    + inversion N; subst. destruct (IH l2) as [(a' & b' & -> & P' & N')|[N' F']].
      * exists a, b. auto.
      * left. exists (z :: a'), b'. repeat split; auto.
      * right. split; [now constructor|assumption].
Qed.

Lemma records_bad d k a l x : forall i c, none_of (bad_record d) l -> first_of (bad_field d) (rows_in d l) x ->
  ofold (record_step d) (enum_from i l) (Elem k a c) = Fail (InvalidLayout x).
Proof.
  induction l as [|y l IH]; intros i c N F.
  - destruct F as (l1 & l2 & E & _). now destruct l1.
  - inversion N; subst. change (y :: l) with ([y] ++ l) in F. rewrite rows_in_app in F.
    cbn [enum_from ofold]. apply first_of_app in F as [F|[F1 F2]].
    + now rewrite (record_bad _ _ _ x).
    + rewrite record_good by assumption. cbn [obind]. now apply IH.
Qed.

(** ** Edges *)

Lemma heading_eq p q o : heading p q o <-> orthogonal_direction p q = o.
Proof.
  unfold orthogonal_direction, fgt. split.
  - intros []; repeat match goal with H : flt _ _ = _ |- _ => rewrite H; clear H end; reflexivity.
  - intros <-. destruct (flt (px q) (px p)) eqn:A; [now constructor|].
    destruct (flt (px p) (px q)) eqn:B; [now constructor|].
    destruct (flt (py q) (py p)) eqn:C; now constructor.
Qed.

Lemma cmd_q_eq c p : cmd_q (px c) (py c) (px p) (py p) = svg_curve c p.
Proof.
  unfold cmd_q, svg_curve, coordinates, sp. rewrite <- !app_assoc. reflexivity.
Qed.

Lemma corner_pass a b c o o' l : heading a b o -> heading b c o' -> o' <> o -> o' <> opposite o ->
  l = [cmd_l (px (moved (opposite o) path_radius b)) (py (moved (opposite o) path_radius b));
       cmd_q (px b) (py b) (px (moved o' path_radius b)) (py (moved o' path_radius b))] ->
  passes a b c l.
Proof. intros A B N1 N2 ->. rewrite cmd_q_eq. now apply (pass_corner a b c o o'). Qed.

Lemma corner_cases i a b c :
  (exists o, heading a b o /\ heading b c (opposite o) /\ corner i a b c = Panic (PTurnaround i)) \/
  (exists l, corner i a b c = Ret l /\ passes a b c l /\ forall o, heading a b o -> ~ heading b c (opposite o)).
Proof.
  unfold corner.
  destruct (orthogonal_direction a b) eqn:A, (orthogonal_direction b c) eqn:B;
    apply heading_eq in A; apply heading_eq in B;
    first [ left; eexists; split; [exact A|split; [exact B|reflexivity]]
          | right; eexists; split; [reflexivity|]; split;
            [ first [ exact (pass_straight a b c _ A B)
                    | apply (corner_pass a b c _ _ _ A B); [discriminate|discriminate|reflexivity] ]
            | intros o A'; apply heading_eq in A'; apply heading_eq in A; rewrite A in A'; subst o;
              intros B'; cbn [opposite] in B'; apply heading_eq in B'; apply heading_eq in B; congruence ] ].
Qed.

Lemma path_rest_cases ps : forall i a, ps <> [] ->
  (exists l, path_rest i a ps = Ret l /\ draws_rest a ps l /\ forall j, ~ reverses_at (a :: ps) j) \/
  (exists j, path_rest i a ps = Panic (PTurnaround (i + j)) /\ reverses_at (a :: ps) (S j) /\
             forall j', j' < S j -> ~ reverses_at (a :: ps) j').
Proof.
  induction ps as [|b ps IH]; intros i a NE; [congruence|].
  destruct ps as [|c ps].
  - left. eexists. split; [reflexivity|]. split; [constructor|].
    intros j (k & x & y & z & o & -> & _ & _ & N & _). simpl in N. now destruct k as [|[|k]].
  - change (path_rest i a (b :: c :: ps)) with
      (do l0 <- corner i a b c; do r <- path_rest (S i) b (c :: ps); Ret (l0 ++ r)).
    destruct (corner_cases i a b c) as [(o & H1 & H2 & E)|(l & E & P & NR)].
    + right. exists 0. rewrite E. cbn [bind]. rewrite Nat.add_0_r. split; [reflexivity|].
      split; [exists 0, a, b, c, o; repeat split; auto|].
      intros j' L (k & x & y & z & o1 & R & _). lia.
    + rewrite E. cbn [bind].
      destruct (IH (S i) b ltac:(discriminate)) as [(l' & E' & D' & NR')|(j & E' & R' & F')].
      * left. rewrite E'. cbn [bind]. eexists. split; [reflexivity|]. split; [now constructor|].
        intros j (k & x & y & z & o & -> & N1 & N2 & N3 & H1 & H2).
        destruct k as [|k].
        -- simpl in N1, N2, N3. injection N1 as <-. injection N2 as <-. injection N3 as <-.
           exact (NR _ H1 H2).
        -- apply (NR' (S k)). exists k, x, y, z, o. repeat split; auto.
      * right. exists (S j). rewrite E'. cbn [bind]. split; [f_equal; f_equal; lia|].
        destruct R' as (k & x & y & z & o & R1 & N1 & N2 & N3 & H1 & H2). injection R1 as ->.
        split; [exists (S k), x, y, z, o; repeat split; auto|].
        intros j' L (k' & x' & y' & z' & o' & -> & N1' & N2' & N3' & H1' & H2').
        destruct k' as [|k'].
        -- simpl in N1', N2', N3'. injection N1' as <-. injection N2' as <-. injection N3' as <-.
           exact (NR _ H1' H2').
        -- apply (F' (S k')); [lia|]. exists k', x', y', z', o'. repeat split; auto.
Qed.

Lemma draw_edge_cases e :
  (e_path e = None /\ draw_edge e = Fail (InvalidLayout (e_source e))) \/
  exists ps, e_path e = Some ps /\
    ((length ps < 2 /\ draw_edge e = Abort PShortPath) \/
     (exists i, 2 <= length ps /\ reverses_at ps i /\ (forall j, j < i -> ~ reverses_at ps j) /\
                draw_edge e = Abort (PTurnaround i)) \/
     (exists cs p, 2 <= length ps /\ (forall i, ~ reverses_at ps i) /\ draws ps cs /\ hd_error ps = Some p /\
        draw_edge e =
          Okay [ set "d" (join sp cs) (set "fill" (lit "transparent")
                   (setf "stroke-width" stroke_width (setc "stroke" stroke_color (elem "path"))));
                 end_circle p; end_circle (last ps p) ])).
Proof.
  unfold draw_edge. destruct (e_path e) as [ps|]; [right|left; auto].
  exists ps. split; [reflexivity|]. destruct ps as [|p [|q ps]]; [left; simpl; auto|left; simpl; auto|right].
  cbn [path_commands].
  destruct (path_rest_cases (q :: ps) 1 p ltac:(discriminate)) as [(l & E & D & N)|(j & E & R & F)].
  - right. rewrite E. cbn [bind]. exists (svg_move p :: l), p. split; [simpl; lia|]. split; [exact N|].
    split; [exists p, (q :: ps), l; auto|]. auto.
  - left. rewrite E. cbn [bind]. exists (S j). split; [simpl; lia|]. auto.
Qed.

Lemma bad_edge_iff e : bad_edge e <-> forall l, draw_edge e <> Okay l.
Proof.
  unfold bad_edge.
  destruct (draw_edge_cases e) as [(P & E)|(ps & P & [(L & E)|[(i & L & R & F & E)|(cs & p & L & N & D & Hd & E)]])];
    rewrite P, E; split; intros; try discriminate; auto.
  - right. exists ps. auto.
  - right. exists ps. split; [reflexivity|]. right. eauto.
  - destruct H as [H|(ps' & H & B)]; [discriminate|]. injection H as <-.
    destruct B as [B|[i B]]; [lia|]. destruct (N i B).
  - now destruct (H _ eq_refl).
Qed.

Definition edge_elems (e : edge_data) : list svg_node :=
  match draw_edge e with Okay l => l | _ => [] end.
Lemma edge_good k a c e : ~ bad_edge e -> edge_step (Elem k a c) e = Okay (Elem k a (c ++ edge_elems e)).
Proof.
  intros B. unfold edge_step, edge_elems. destruct (draw_edge e) eqn:E; cbn [obind].
  - now rewrite append_all_elem.
  - destruct B. apply bad_edge_iff. intros; congruence.
  - destruct B. apply bad_edge_iff. intros; congruence.
Qed.
Lemma edges_good k a l : forall c, none_of bad_edge l ->
  ofold edge_step l (Elem k a c) = Okay (Elem k a (c ++ flat_map edge_elems l)).
Proof.
  induction l as [|e l IH]; intros c N; simpl; [now rewrite app_nil_r|].
  inversion N; subst. rewrite edge_good by assumption. cbn [obind]. rewrite IH by assumption.
  now rewrite app_assoc.
Qed.

(** What drawing an edge without a drawing gives. *)
Definition edge_problem {A} (e : edge_data) (r : outcome A) : Prop :=
  match e_path e with
  | None => r = Fail (InvalidLayout (e_source e))
  | Some ps => (length ps < 2 /\ r = Abort PShortPath) \/
               exists i, 2 <= length ps /\ reverses_at ps i /\ (forall j, j < i -> ~ reverses_at ps j) /\
                         r = Abort (PTurnaround i)
  end.
Lemma edge_bad e : bad_edge e -> edge_problem e (draw_edge e).
Proof.
  intros B. unfold edge_problem.
  destruct (draw_edge_cases e) as [(P & E)|(ps & P & [(L & E)|[(i & L & R & F & E)|(cs & p & L & N & D & Hd & E)]])];
    rewrite P, ?E; eauto 10.
  exfalso. exact (proj1 (bad_edge_iff e) B _ E).
Qed.
Lemma edges_bad k a l e c : first_of bad_edge l e -> edge_problem e (ofold edge_step l (Elem k a c)).
Proof.
  intros (l1 & l2 & -> & B & N). rewrite ofold_app, edges_good by assumption. cbn [obind ofold].
  pose proof (edge_bad e B) as P. unfold edge_problem in *. unfold edge_step.
  destruct (e_path e); [destruct P as [[L ->]|(i & L & R & F & ->)]|rewrite P]; cbn [obind]; eauto 10.
Qed.

(** ** The document *)

Definition root_attrs (vb : option rect) : attrs :=
  svg_attrs (set_opt (fun r => set "viewBox" (view_box_attr r)) vb svg_document).
Definition debug_part (g : option route_graph) (d : document) : list svg_node :=
  match g with Some g => debug_info g d | None => [] end.
Definition picture (vb : option rect) (g : option route_graph) (d : document) : svg_node :=
  Elem (lit "svg") (root_attrs vb)
    (background_rect :: Elem (lit "defs") [] (flat_map (clip_elem d) (enum (body_children d))) ::
     flat_map (record_elems d) (enum (body_children d)) ++ flat_map edge_elems (d_edges d) ++
     debug_part g d).

Lemma rows_in_of d : rows_of d = rows_in d (body_children d).
Proof. reflexivity. Qed.

Lemma render_record vb g d id : first_of (bad_record d) (body_children d) id ->
  render vb g d = Fail (InvalidLayout id).
Proof. intros F. unfold render, elem. cbn [append]. now rewrite (clips_bad d _ _ _ id). Qed.

Lemma root_elem vb : set_opt (fun r => set "viewBox" (view_box_attr r)) vb svg_document =
  Elem (lit "svg") (root_attrs vb) [].
Proof. now destruct vb. Qed.

Lemma render_field vb g d id : none_of (bad_record d) (body_children d) ->
  first_of (bad_field d) (rows_of d) id -> render vb g d = Fail (InvalidLayout id).
Proof.
  intros N F. unfold render, elem. rewrite root_elem. cbn [append].
  unfold enum. rewrite clips_good by assumption. cbn [obind append].
  now rewrite (records_bad d _ _ _ id).
Qed.

Lemma render_edge vb g d e : none_of (bad_record d) (body_children d) ->
  none_of (bad_field d) (rows_of d) -> first_of bad_edge (d_edges d) e -> edge_problem e (render vb g d).
Proof.
  intros N F B. unfold render, elem. rewrite root_elem. cbn [append].
  unfold enum. rewrite clips_good by assumption. cbn [obind append].
  rewrite records_good by assumption. cbn [obind].
  match goal with |- edge_problem e (obind (ofold edge_step _ (Elem ?k ?a ?c)) _) =>
    pose proof (edges_bad k a _ e c B) as P end.
  unfold edge_problem in *.
  destruct (e_path e); [destruct P as [[L ->]|(i & L & R & Fi & ->)]|rewrite P]; cbn [obind]; eauto 10.
Qed.

Lemma render_good vb g d : none_of (bad_record d) (body_children d) ->
  none_of (bad_field d) (rows_of d) -> none_of bad_edge (d_edges d) ->
  render vb g d = Okay (picture vb g d).
Proof.
  intros N F B. unfold render, elem. rewrite root_elem. cbn [append].
  unfold enum. rewrite clips_good by assumption. cbn [obind append].
  rewrite records_good by assumption. cbn [obind].
  rewrite edges_good by assumption. cbn [obind]. unfold picture, enum, debug_part.
  destruct g; [rewrite append_all_elem|]; simpl; rewrite ?app_nil_r, <- ?app_assoc; reflexivity.
Qed.

(** ** All cases *)

Lemma first_or_none {A} (P : A -> Prop) l : (forall x, P x \/ ~ P x) ->
  none_of P l \/ exists x, first_of P l x.
Proof.
  intros D. induction l as [|x l IH]; [left; constructor|].
  destruct (D x) as [Px|Nx]; [right; exists x, [], l; repeat split; auto|].
  destruct IH as [N|(y & l1 & l2 & -> & Py & N)]; [left; now constructor|].
  right. exists y, (x :: l1), l2. repeat split; auto.
Qed.
Lemma bad_record_dec d x : bad_record d x \/ ~ bad_record d x.
Proof.
  unfold bad_record. destruct (get_node d x) as [n|]; [|right; intros (? & ? & E & _); discriminate].
  destruct (n_kind n) as [|rs|f] eqn:K;
    try (right; intros (? & ? & E & K' & _); injection E as <-; congruence).
  destruct (lacks_dec n) as [L|(o & s & O & Z)]; [left; eauto|].
  right. intros (? & ? & E & K' & [L|L]); injection E as <-; congruence.
Qed.
Lemma bad_field_dec d x : bad_field d x \/ ~ bad_field d x.
Proof.
  unfold bad_field. destruct (get_node d x) as [n|]; [|right; intros (? & ? & E & _); discriminate].
  destruct (n_kind n) as [|rs|f] eqn:K;
    try (right; intros (? & ? & E & K' & _); injection E as <-; congruence).
  destruct (lacks_dec n) as [L|(o & s & O & Z)]; [left; eauto|].
  right. intros (? & ? & E & K' & [L|L]); injection E as <-; congruence.
Qed.
Lemma bad_edge_dec e : bad_edge e \/ ~ bad_edge e.
Proof.
  destruct (draw_edge e) eqn:E; [right|left|left]; rewrite bad_edge_iff; [|congruence|congruence].
  intros H. now apply (H a).
Qed.

Definition drawable (d : document) : Prop :=
  none_of (bad_record d) (body_children d) /\ none_of (bad_field d) (rows_of d) /\ none_of bad_edge (d_edges d).

Lemma render_cases vb g d :
  drawable d /\ render vb g d = Okay (picture vb g d) \/
  ~ drawable d /\ forall x, render vb g d <> Okay x.
Proof.
  destruct (first_or_none (bad_record d) (body_children d) (bad_record_dec d)) as [N|(x & F)].
  2:{ right. split.
      - intros (N & _). destruct F as (l1 & l2 & E & B & _). unfold none_of in N. rewrite E, Forall_forall in N.
        apply (N x); [apply in_elt|assumption].
      - intros. rewrite (render_record _ _ _ _ F). discriminate. }
  destruct (first_or_none (bad_field d) (rows_of d) (bad_field_dec d)) as [N2|(x & F)].
  2:{ right. split.
      - intros (_ & N' & _). destruct F as (l1 & l2 & E & B & _). unfold none_of in N'. rewrite E, Forall_forall in N'.
        apply (N' x); [apply in_elt|assumption].
      - intros. rewrite (render_field _ _ _ _ N F). discriminate. }
  destruct (first_or_none bad_edge (d_edges d) bad_edge_dec) as [N3|(x & F)].
  2:{ right. split.
      - intros (_ & _ & N'). destruct F as (l1 & l2 & E & B & _). unfold none_of in N'. rewrite E, Forall_forall in N'.
        apply (N' x); [apply in_elt|assumption].
      - intros y. pose proof (render_edge vb g d x N N2 F) as P. unfold edge_problem in P.
        destruct (e_path x); [destruct P as [[L ->]|(i & L & R & Fi & ->)]|rewrite P]; discriminate. }
  left. split; [repeat split; auto|]. now apply render_good.
Qed.

Lemma render_okay vb g d svg : render vb g d = Okay svg -> drawable d /\ svg = picture vb g d.
Proof.
  intros E. destruct (render_cases vb g d) as [[D E']|[_ N]].
  - split; [assumption|congruence].
  - now destruct (N svg).
Qed.

Lemma first_of_none {A} (P : A -> Prop) l x : none_of P l -> ~ first_of P l x.
Proof.
  intros N (l1 & l2 & -> & Px & _). unfold none_of in N. rewrite Forall_forall in N.
  exact (N x (in_elt x l1 l2) Px).
Qed.
Lemma first_of_unique {A} (P : A -> Prop) l x y : first_of P l x -> first_of P l y -> x = y.
Proof.
  intros (l1 & l2 & -> & Px & N). revert N. induction l1 as [|a l1 IH]; intros N (m1 & m2 & E & Py & M).
  - destruct m1 as [|b m1]; [now injection E|]. injection E as <- ->. inversion M; contradiction.
  - destruct m1 as [|b m1].
    + injection E as <- <-. inversion N; contradiction.
    + injection E as <- E. inversion N; subst. inversion M; subst. apply IH; [assumption|]. exists m1, m2. auto.
Qed.

Theorem render_fail_iff vb g d x : render vb g d = Fail x <->
  exists id, x = InvalidLayout id /\
  (first_of (bad_record d) (body_children d) id \/
   (none_of (bad_record d) (body_children d) /\ first_of (bad_field d) (rows_of d) id) \/
   (none_of (bad_record d) (body_children d) /\ none_of (bad_field d) (rows_of d) /\
    exists e, first_of bad_edge (d_edges d) e /\ e_path e = None /\ e_source e = id)).
Proof.
  split.
  - intros R.
    destruct (first_or_none (bad_record d) (body_children d) (bad_record_dec d)) as [N|(y & F)].
    2:{ rewrite (render_record _ _ _ _ F) in R. injection R as <-. eauto. }
    destruct (first_or_none (bad_field d) (rows_of d) (bad_field_dec d)) as [N2|(y & F)].
    2:{ rewrite (render_field _ _ _ _ N F) in R. injection R as <-. eauto 6. }
    destruct (first_or_none bad_edge (d_edges d) bad_edge_dec) as [N3|(e & F)].
    + rewrite (render_good _ _ _ N N2 N3) in R. discriminate.
    + pose proof (render_edge vb g d e N N2 F) as E. unfold edge_problem in E. rewrite R in E.
      destruct (e_path e) eqn:P; [destruct E as [[_ E]|(i & _ & _ & _ & E)]; discriminate|].
      injection E as ->. eexists. split; [reflexivity|]. right. right. eauto 6.
  - intros (id & -> & [F|[(N & F)|(N & N2 & e & F & P & <-)]]).
    + now apply render_record.
    + now apply render_field.
    + pose proof (render_edge vb g d e N N2 F) as E. unfold edge_problem in E. now rewrite P in E.
Qed.

Theorem render_abort_iff vb g d p : render vb g d = Abort p <->
  none_of (bad_record d) (body_children d) /\ none_of (bad_field d) (rows_of d) /\
  exists e ps, first_of bad_edge (d_edges d) e /\ e_path e = Some ps /\
    ((length ps < 2 /\ p = PShortPath) \/
     (2 <= length ps /\ exists i, reverses_at ps i /\ (forall j, j < i -> ~ reverses_at ps j) /\ p = PTurnaround i)).
Proof.
  split.
  - intros R.
    destruct (first_or_none (bad_record d) (body_children d) (bad_record_dec d)) as [N|(y & F)].
    2:{ rewrite (render_record _ _ _ _ F) in R. discriminate. }
    destruct (first_or_none (bad_field d) (rows_of d) (bad_field_dec d)) as [N2|(y & F)].
    2:{ rewrite (render_field _ _ _ _ N F) in R. discriminate. }
    destruct (first_or_none bad_edge (d_edges d) bad_edge_dec) as [N3|(e & F)].
    + rewrite (render_good _ _ _ N N2 N3) in R. discriminate.
    + split; [exact N|]. split; [exact N2|].
      pose proof (render_edge vb g d e N N2 F) as E. unfold edge_problem in E. rewrite R in E.
      destruct (e_path e) as [ps|] eqn:P; [|discriminate]. exists e, ps. split; [exact F|]. split; [exact P|].
      destruct E as [[L E]|(i & L & V & M & E)]; injection E as ->; eauto 8.
  - intros (N & N2 & e & ps & F & P & H). pose proof (render_edge vb g d e N N2 F) as E.
    unfold edge_problem in E. rewrite P in E.
    destruct E as [[L ->]|(i & L & V & M & ->)], H as [(L' & ->)|(L' & j & V' & M' & ->)]; try lia; auto.
    do 2 f_equal. destruct (Nat.lt_trichotomy i j) as [H|[H|H]]; [destruct (M' i H V)|assumption|destruct (M j H V')].
Qed.

Theorem draw_edge_abort_iff e ps p : e_path e = Some ps ->
  (draw_edge e = Abort p <->
   (length ps < 2 /\ p = PShortPath) \/
   (2 <= length ps /\ exists i, reverses_at ps i /\ (forall j, j < i -> ~ reverses_at ps j) /\ p = PTurnaround i)).
Proof.
  intros P.
  destruct (draw_edge_cases e) as [(P' & E)|(qs & P' & [(L & E)|[(i & L & R & F & E)|(cs & q & L & N & D & Hd & E)]])];
    rewrite P in P'; try discriminate; injection P' as <-; rewrite E.
  - split; [intros [= <-]; auto|]. intros [(_ & ->)|(L' & _)]; [reflexivity|lia].
  - split; [intros [= <-]; eauto 8|]. intros [(L' & _)|(_ & j & V & M & ->)]; [lia|].
    do 2 f_equal. destruct (Nat.lt_trichotomy i j) as [H|[H|H]]; [destruct (M i H R)|assumption|destruct (F j H V)].
  - split; [discriminate|]. intros [(L' & _)|(_ & j & V & _)]; [lia|destruct (N j V)].
Qed.
