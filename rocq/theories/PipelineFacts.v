(** The whole pipeline: from a module to the rendered document, and the program. *)
From Coq Require Import String List Arith NArith ZArith Bool Lia.
From Verif Require Import Base F32 Color Geometry Mir Erd Chumsky Parser Route Layout Svg Render Cli SpecGeom SpecMir
  SpecLayout SpecRender MirFacts ParseFacts LayoutFacts RenderFacts SvgFacts PictureFacts.
Import ListNotations.

(** ** Kinds and children are kept *)

Definition same_content (d d' : document) : Prop :=
  Forall2 (fun n n' => n_kind n' = n_kind n /\ n_children n' = n_children n) (d_nodes d) (d_nodes d').

Lemma forall2_impl {A B} (P Q : A -> B -> Prop) l l' :
  (forall a b, P a b -> Q a b) -> Forall2 P l l' -> Forall2 Q l l'.
Proof. induction 2; auto. Qed.
Lemma forall2_trans {A B C} (P : A -> B -> Prop) (Q : B -> C -> Prop) (R : A -> C -> Prop) l1 :
  (forall a b c, P a b -> Q b c -> R a c) -> forall l2 l3, Forall2 P l1 l2 -> Forall2 Q l2 l3 -> Forall2 R l1 l3.
Proof.
  intros H. induction l1 as [|a l1 IH]; intros l2 l3 F G; inversion F; subst; inversion G; subst; auto.
  constructor; eauto.
Qed.

Lemma bind_ret {A B} (x : res A) (f : A -> res B) b : (do a <- x; f a) = Ret b -> exists a, x = Ret a /\ f a = Ret b.
Proof. destruct x; [eauto|discriminate]. Qed.

Lemma draw_nodes g d g' d' : draw_edge_path g d = Ret (g', d') -> d_nodes d' = d_nodes d.
Proof.
  unfold draw_edge_path. intros H. apply bind_ret in H as (a & _ & H). apply bind_ret in H as (b & _ & H).
  apply bind_ret in H as (c & _ & H). now injection H as <- <-.
Qed.

Lemma layout_content m vb g d : layout_module m = Ret (vb, g, d) ->
  exists d0, into_mir m = Ret d0 /\ same_content d0 d.
Proof.
  unfold layout_module. intros H. apply bind_ret in H as (d0 & M & H). exists d0. split; [exact M|].
  destruct (place_nodes d0) as [d1 vb1] eqn:P. apply bind_ret in H as ([g' d3] & D & H). injection H as <- <- <-.
  destruct (places_all m d0 d1 vb1 M P) as [[_ F1] _]. destruct (ports_frame d1) as [_ F2].
  unfold same_content. rewrite (draw_nodes _ _ _ _ D).
  refine (forall2_trans _ _ _ _ _ _ _ F1 F2). simpl. intros a b c (A1 & A2 & _) (B1 & B2 & _). split; congruence.
Qed.

Lemma content_get d d' i : same_content d d' ->
  match get_node d i, get_node d' i with
  | Some n, Some n' => n_kind n' = n_kind n /\ n_children n' = n_children n
  | None, None => True
  | _, _ => False
  end.
Proof.
  unfold same_content, get_node. intros H. revert i.
  induction H as [|n n' l l' [A B] F IH]; intros [|i]; cbn [nth_error]; auto. apply IH.
Qed.
Lemma content_body d d' : same_content d d' -> body_children d' = body_children d.
Proof.
  intros H. unfold body_children. pose proof (content_get d d' 0 H) as G.
  destruct (get_node d 0), (get_node d' 0); now destruct G.
Qed.
Lemma content_is_record d d' i : same_content d d' -> is_record d' i = is_record d i.
Proof.
  intros H. unfold is_record. pose proof (content_get d d' i H) as G.
  destruct (get_node d i), (get_node d' i); destruct G; auto. now rewrite H0.
Qed.
Lemma content_rows d d' : same_content d d' -> rows_of d' = rows_of d.
Proof.
  intros H. unfold rows_of. rewrite (content_body d d' H), (filter_ext _ _ (fun i => content_is_record d d' i H)).
  apply flat_map_ext. intros i. pose proof (content_get d d' i H) as G.
  destruct (get_node d i), (get_node d' i); destruct G; auto.
Qed.
Lemma content_texts d d' : same_content d d' -> doc_texts d' = doc_texts d.
Proof.
  intros H. unfold doc_texts. rewrite (content_rows d d' H). apply flat_map_ext. intros i.
  pose proof (content_get d d' i H) as G. destruct (get_node d i), (get_node d' i); destruct G; auto. now rewrite H0.
Qed.
Lemma content_colors d d' : same_content d d' -> byte_colors d -> byte_colors d'.
Proof.
  unfold same_content, byte_colors. intros H. induction H as [|n n' l l' [A B] F IH]; intros C; [constructor|].
  inversion C; subst. constructor; [now rewrite A|auto].
Qed.

(** ** Texts of modules *)

Lemma doc_module_texts m d : into_mir m = Ret d -> doc_texts d = module_texts m.
Proof.
  intros M. pose proof (into_mir_tables m d M) as T. unfold doc_texts, module_texts, rows_of.
  rewrite flat_map_flat_map. induction T as [|i e is es S T IH]; [reflexivity|].
  destruct S as (n & s & h & rows & G & K & C & Hh & Hr). cbn [filter].
  replace (is_record d i) with true by (unfold is_record; now rewrite G, K).
  cbn [flat_map]. rewrite IH. f_equal. rewrite G, C. cbn [flat_map].
  destruct Hh as (hn & hs & G' & K' & _ & N & N2 & N3). rewrite G', K'. unfold row_texts at 1.
  rewrite N, N2, N3. cbn [app]. f_equal. clear -Hr.
  induction Hr as [|r f rs fs R Hr IH]; [reflexivity|]. cbn [flat_map]. rewrite IH. f_equal.
  destruct R as (n & s & G & K & _ & T1 & T2 & T3). rewrite G, K. unfold row_texts, field_words. rewrite T1.
  destruct (fs_subtitle s); [|discriminate]. injection T2 as ->.
  destruct (fs_badge s) as [b|], (f_key f) as [[]|]; try discriminate; cbn in *; try injection T3 as ->; reflexivity.
Qed.

Theorem module_texts_rendered m svg : render_module m = Okay svg -> texts svg = module_texts m.
Proof.
  unfold render_module. destruct (layout_module m) as [[[vb g] d]|] eqn:L; [|discriminate]. intros R.
  destruct (layout_content m vb g d L) as (d0 & M & C). apply render_okay in R as [D ->].
  rewrite picture_texts by exact D. rewrite (content_texts d0 d C). now apply doc_module_texts.
Qed.

(** ** Colours of modules *)

Lemma valid_some c : valid_color c -> opt_valid (Some c).
Proof. intros V c' E. now injection E as <-. Qed.
Lemma valid_none : opt_valid None.
Proof. intros c E. discriminate. Qed.

Lemma module_colors m d : into_mir m = Ret d -> byte_colors d.
Proof.
  intros M. apply mir_doc in M as (E & ->). unfold byte_colors. apply Forall_forall. intros n I.
  apply In_nth_error in I as (i & G). apply (nodes_cases _ E i n) in G.
  destruct G as [|a e c Hd|a e c k f Hd Hk|a e c Hd]; cbn.
  - exact I.
  - repeat split; try (intros; discriminate); apply valid_some || apply valid_none; cbn; try exact I;
      repeat split; reflexivity.
  - repeat split; try (intros; discriminate).
    + apply valid_some. repeat split; reflexivity.
    + apply valid_some. exact I.
    + intros t T. injection T as <-. apply valid_some. destruct (f_type f); repeat split; reflexivity.
    + destruct (f_key f) as [[]|]; try discriminate; injection H as <-; apply valid_some; repeat split; reflexivity.
    + destruct (f_key f) as [[]|]; try discriminate; injection H as <-; apply valid_some; repeat split; reflexivity.
  - split; apply valid_some; repeat split; reflexivity.
Qed.

Theorem layout_colors m vb g d : layout_module m = Ret (vb, g, d) -> byte_colors d.
Proof.
  intros L. destruct (layout_content m vb g d L) as (d0 & M & C).
  exact (content_colors d0 d C (module_colors m d0 M)).
Qed.

Theorem module_safe m svg : render_module m = Okay svg ->
  forall e k v, In e (subtree svg) -> In (k, v) (svg_attrs e) -> safe_value v.
Proof.
  unfold render_module. destruct (layout_module m) as [[[vb g] d]|] eqn:L; [|discriminate]. intros R.
  exact (picture_safe _ _ _ _ (layout_colors m vb g d L) R).
Qed.

(** ** A module's document always has its geometry *)

Lemma assign_some es : forall ps r, assign_paths es ps = Ret r -> Forall (fun e => exists p, e_path e = Some p) r.
Proof.
  induction es as [|e es IH]; intros ps r H; [injection H as <-; constructor|].
  destruct ps as [|p ps]; [discriminate|]. cbn [assign_paths] in H.
  apply bind_ret in H as (r' & R & H). injection H as <-. constructor; [cbn; eauto|eauto].
Qed.

Lemma layout_complete m vb g d : layout_module m = Ret (vb, g, d) ->
  (forall i n, get_node d i = Some n -> lacks_geometry n -> n_kind n = KBody) /\
  Forall (fun e => exists p, e_path e = Some p) (d_edges d).
Proof.
  unfold layout_module. intros H. apply bind_ret in H as (d0 & M & H).
  destruct (place_nodes d0) as [d1 vb1] eqn:P. apply bind_ret in H as ([g' d3] & D & H). injection H as <- <- <-.
  destruct (places_all m d0 d1 vb1 M P) as ([_ F1] & A & (n0 & G0 & _) & _).
  destruct (ports_frame d1) as [_ F2]. pose proof (draw_nodes _ _ _ _ D) as N. split.
  - intros i n G L. unfold get_node in G. rewrite N in G.
    assert (Q : forall l l' i n, Forall2 (fun n n' => n_kind n' = n_kind n /\ n_children n' = n_children n /\
              n_origin n' = n_origin n /\ n_size n' = n_size n) l l' -> nth_error l' i = Some n ->
              exists m0, nth_error l i = Some m0 /\ n_kind n = n_kind m0 /\ n_origin n = n_origin m0 /\ n_size n = n_size m0).
    { clear. intros l l' i n F. revert i. induction F as [|a b l l' X F IH]; intros [|i] G; try discriminate.
      - injection G as <-. exists a. cbn. intuition.
      - now apply IH. }
    destruct (Q _ _ _ _ F2 G) as (n1 & G1 & K & O & S). destruct (Nat.eq_dec i 0) as [->|I].
    + destruct (into_mir_tree m d0 M) as [(b & B & KB) _ _ _ _ _ _ _].
      rewrite K. assert (X : n_kind n1 = n_kind b); [|congruence].
      unfold get_node in B. clear -F1 G1 B. revert n1 b B G1. generalize (d_nodes d0), (d_nodes d1), F1.
      intros l l' F. destruct F as [|x y l l' Y F]; intros; [discriminate|]. cbn in *. intuition congruence.
    + destruct (A i n1 G1 I) as (r & R). exfalso. unfold node_rect in R. destruct L as [L|L].
      * rewrite O in L. now rewrite L in R.
      * rewrite S in L. rewrite L in R. now destruct (n_origin n1).
  - unfold draw_edge_path in D. apply bind_ret in D as (a & _ & D). apply bind_ret in D as (b & _ & D).
    apply bind_ret in D as (c & AS & D). injection D as <- <-. cbn [d_edges]. exact (assign_some _ _ _ AS).
Qed.

Theorem modules_never_lack_geometry m e : render_module m <> Fail e.
Proof.
  unfold render_module. destruct (layout_module m) as [[[vb g] d]|] eqn:L; [|discriminate].
  destruct (layout_complete m vb g d L) as [A B].
  assert (N1 : none_of (bad_record d) (body_children d)).
  { apply Forall_forall. intros i _ (n & rs & G & K & LG). rewrite (A i n G LG) in K. discriminate. }
  assert (N2 : none_of (bad_field d) (rows_of d)).
  { apply Forall_forall. intros i _ (n & rs & G & K & LG). rewrite (A i n G LG) in K. discriminate. }
  destruct (first_or_none bad_edge (d_edges d) bad_edge_dec) as [N3|(x & F)].
  - rewrite (render_good _ _ _ N1 N2 N3). discriminate.
  - pose proof (render_edge (Some vb) None d x N1 N2 F) as E. unfold edge_problem in E.
    destruct (e_path x) as [ps|] eqn:Ex.
    + destruct E as [[_ ->]|(i & _ & _ & _ & ->)]; discriminate.
    + destruct F as (l1 & l2 & El & _). rewrite Forall_forall in B.
      destruct (B x) as (p & Px); [rewrite El; apply in_elt|congruence].
Qed.

(** ** The program *)

Theorem main_without_module fmt src r : parse src = Ret r -> pr_ast r = None ->
  main fmt src = mkRun [] (length (pr_lex_errs r) + length (pr_parse_errs r)) (Ret tt).
Proof. intros P A. unfold main. now rewrite P, A. Qed.

Theorem main_with_module fmt src r m : parse src = Ret r -> pr_ast r = Some m ->
  reports (main fmt src) = length (pr_lex_errs r) + length (pr_parse_errs r) /\
  (forall svg, render_module m = Okay svg -> stdout (main fmt src) = show_svg fmt svg /\ ending (main fmt src) = Ret tt) /\
  (forall p, render_module m = Abort p -> stdout (main fmt src) = [] /\ ending (main fmt src) = Panic p).
Proof.
  intros P A. unfold main. rewrite P, A. destruct (render_module m) as [svg|e|p] eqn:R; cbn.
  - split; [reflexivity|]. split; [|discriminate]. intros s E. injection E as <-. auto.
  - destruct (modules_never_lack_geometry m e R).
  - split; [reflexivity|]. split; [discriminate|]. intros s E. injection E as <-. auto.
Qed.

Theorem draw_erd_outcome fmt d vb :
  (forall svg, render vb None d = Okay svg -> draw_erd fmt d vb = Ret (show_svg fmt svg)) /\
  ((forall svg, render vb None d <> Okay svg) -> exists p, draw_erd fmt d vb = Panic p).
Proof.
  unfold draw_erd. split.
  - intros svg ->. reflexivity.
  - intros H. destruct (render vb None d) as [svg|e|p]; [destruct (H svg eq_refl)|eauto|eauto].
Qed.

(** ** Writers *)
Theorem render_to_writer fmt write vb g d w :
  (forall svg, render vb g d = Okay svg ->
     fst (render_to fmt write vb g d w) = fst (write w (show_svg fmt svg)) /\
     snd (render_to fmt write vb g d w) = (if snd (write w (show_svg fmt svg)) then Okay tt else Fail IoFailure)) /\
  (forall e, render vb g d = Fail e -> render_to fmt write vb g d w = (w, Fail e)) /\
  (forall p, render vb g d = Abort p -> render_to fmt write vb g d w = (w, Abort p)).
Proof.
  unfold render_to. split; [|split].
  - intros svg ->. destruct (write w _) as [w' ok]. auto.
  - now intros e ->.
  - now intros e ->.
Qed.

Theorem main_on_errors fmt src r : parse src = Ret r -> pr_ast r = None ->
  stdout (main fmt src) = [] /\
  reports (main fmt src) = length (pr_lex_errs r) + length (pr_parse_errs r) /\
  1 <= reports (main fmt src) /\ ending (main fmt src) = Ret tt.
Proof.
  intros P A. rewrite (main_without_module fmt src r P A). cbn. repeat split.
  destruct (parse_shape src r P) as [(m & E & _)|(_ & ->)]; [congruence|]. cbn. lia.
Qed.

Theorem main_cases fmt src :
  (stdout (main fmt src) = [] /\ exists r, parse src = Ret r /\
     ((pr_ast r = None /\ ending (main fmt src) = Ret tt) \/
      exists m p, pr_ast r = Some m /\ render_module m = Abort p /\ ending (main fmt src) = Panic p)) \/
  (exists r m svg, parse src = Ret r /\ pr_ast r = Some m /\ render_module m = Okay svg /\
     stdout (main fmt src) = show_svg fmt svg /\ ending (main fmt src) = Ret tt).
Proof.
  destruct (parse_returns src) as (r & P). destruct (pr_ast r) as [m|] eqn:A.
  - destruct (main_with_module fmt src r m P A) as (_ & H1 & H2). destruct (render_module m) as [svg|e|p] eqn:R.
    + right. destruct (H1 svg eq_refl). exists r, m, svg. auto.
    + destruct (modules_never_lack_geometry m e R).
    + left. destruct (H2 p eq_refl) as [H3 H4]. split; [exact H3|]. exists r. split; [exact P|]. right. exists m, p. auto.
  - left. rewrite (main_without_module fmt src r P A). cbn. split; [reflexivity|]. exists r. auto.
Qed.

Lemma display_framed svg :
  firstn 34 (evcxr_display svg) = begin_marker ++ nl /\
  firstn (length svg) (skipn 34 (evcxr_display svg)) = svg /\
  skipn (34 + length svg) (evcxr_display svg) = nl ++ end_marker ++ nl.
Proof.
  assert (E : evcxr_display svg = (begin_marker ++ nl) ++ svg ++ nl ++ end_marker ++ nl)
    by (unfold evcxr_display, nl; now rewrite <- app_assoc).
  assert (L : length (begin_marker ++ nl) = 34) by reflexivity. rewrite E. split; [|split].
  - rewrite <- L. now rewrite firstn_app, Nat.sub_diag, firstn_O, app_nil_r, firstn_all.
  - rewrite <- L. rewrite skipn_app, Nat.sub_diag, skipn_all. cbn [app].
    change (skipn 0 ?l) with l. now rewrite firstn_app, Nat.sub_diag, firstn_O, app_nil_r, firstn_all.
  - rewrite <- L, skipn_app. rewrite skipn_all2 by lia. rewrite Nat.add_comm, Nat.add_sub. cbn [app].
    rewrite skipn_app, Nat.sub_diag, skipn_all. reflexivity.
Qed.

(** Every text of an element is printed on a line of its own. *)
Lemma texts_on_lines fmt : forall n s, In s (texts n) ->
  match n with
  | TextNode t => t = s
  | Elem _ _ _ => exists a b, show_svg fmt n = a ++ nl ++ fmt s ++ nl ++ b
  end.
Proof.
  fix IH 1. intros [k a c|t] s I; [|now destruct I as [I|[]]].
  cbn [texts] in I.
  assert (X : exists x y, concat (map (fun x => [10%N] ++ show_svg fmt x) c) ++ [10%N] = x ++ nl ++ fmt s ++ nl ++ y).
  { revert c I. fix IHc 1. intros [|n c] I; [destruct I|]. cbn [flat_map] in I. apply in_app_or in I as [I|I].
    - specialize (IH n s I). destruct n as [k' a' c'|t].
      + destruct IH as (x & y & E). cbn [map concat].
        exists ([10%N] ++ x), (y ++ concat (map (fun x => [10%N] ++ show_svg fmt x) c) ++ [10%N]).
        rewrite E. now rewrite <- !app_assoc.
      + subst t. cbn [map concat show_svg]. rewrite <- !app_assoc. exists [].
        destruct c as [|n' c].
        * exists []. reflexivity.
        * cbn [map concat]. rewrite <- !app_assoc. eexists. reflexivity.
    - destruct (IHc c I) as (x & y & E). cbn [map concat]. rewrite <- !app_assoc, E.
      exists ([10%N] ++ show_svg fmt n ++ x), y. now rewrite <- !app_assoc. }
  destruct X as (x & y & E). cbn [show_svg].
  destruct c as [|n c]; [destruct I|].
  exists (lit "<" ++ k ++ concat (map show_attr a) ++ lit ">" ++ x), (y ++ lit "</" ++ k ++ lit ">").
  set (l := concat _) in E at 1. rewrite <- !app_assoc.
  do 4 f_equal. 
  transitivity ((l ++ [10%N]) ++ lit "</" ++ k ++ lit ">"); [now rewrite <- !app_assoc|].
  rewrite E. now rewrite <- !app_assoc.
Qed.

Theorem frame_closed fmt vb d svg : fmt end_marker = end_marker ->
  render vb None d = Okay svg -> In end_marker (doc_texts d) ->
  exists out a b, draw_erd fmt d vb = Ret out /\ out = a ++ nl ++ end_marker ++ nl ++ b.
Proof.
  intros F R I. rewrite <- (rendered_texts vb d svg R) in I.
  pose proof (texts_on_lines fmt svg end_marker I) as H.
  unfold draw_erd. rewrite R. apply render_okay in R as [_ R]. subst svg. unfold picture in *. cbv beta iota in H.
  destruct H as (x & y & E). eexists. exists x, y. split; [reflexivity|]. rewrite F in E. exact E.
Qed.
