(** What the picture of a document does not depend on. *)
From Coq Require Import String List Bool Lia.
From Verif Require Import Base F32 Color Geometry Mir Erd Route Layout Svg Render SpecLayout SpecLook LayoutFacts.
Import ListNotations.

Lemma ofold_ext {A S} (f g : S -> A -> outcome S) l : (forall s x, f s x = g s x) -> forall s, ofold f l s = ofold g l s.
Proof. intros E. induction l as [|x l IH]; intros s; simpl; [reflexivity|]. rewrite E. destruct (g s x); simpl; auto. Qed.

Section Look.
Variables d d' : document.
Hypothesis L : look_alike d d'.

Lemma look_get i : match get_node d i, get_node d' i with
  | Some n, Some m => same_looks n m | None, None => True | _, _ => False end.
Proof.
  destruct L as [N _]. unfold get_node. clear L. revert i. induction N as [|n m l l' H N IH]; intros [|i]; simpl; auto.
  apply IH.
Qed.
Lemma look_children : body_children d = body_children d'.
Proof.
  unfold body_children. pose proof (look_get 0) as G.
  destruct (get_node d 0), (get_node d' 0); try contradiction; auto. apply G.
Qed.
Lemma look_rect n m : same_looks n m -> node_rect n = node_rect m.
Proof. intros (O & S & _). unfold node_rect. now rewrite O, S. Qed.
Lemma look_clip s x : clip_step d s x = clip_step d' s x.
Proof.
  destruct x as [i id]. unfold clip_step. pose proof (look_get id) as G.
  destruct (get_node d id) as [n|], (get_node d' id) as [m|]; try contradiction; auto.
  destruct G as (O & S & _ & K). rewrite O, S. now destruct K.
Qed.
Lemma look_field c s x : field_step d c s x = field_step d' c s x.
Proof.
  destruct x as [i id]. unfold field_step. pose proof (look_get id) as G.
  destruct (get_node d id) as [n|], (get_node d' id) as [m|]; try contradiction; auto.
  rewrite (look_rect _ _ G). destruct G as (O & S & _ & K). now destruct K.
Qed.
Lemma look_record s x : record_step d s x = record_step d' s x.
Proof.
  destruct x as [i id]. unfold record_step. pose proof (look_get id) as G.
  destruct (get_node d id) as [n|], (get_node d' id) as [m|]; try contradiction; auto.
  destruct G as (O & S & C & K). rewrite O, S, C. destruct K; auto.
  destruct (n_origin m), (n_size m); auto. apply ofold_ext. intros; apply look_field.
Qed.
Lemma look_edges s : ofold edge_step (d_edges d) s = ofold edge_step (d_edges d') s.
Proof.
  destruct L as [_ E]. clear L. revert s. induction E as [|e f l l' [P H] E IH]; intros s; simpl; [reflexivity|].
  replace (edge_step s e) with (edge_step s f); [destruct (edge_step s f); simpl; auto|].
  unfold edge_step, draw_edge. rewrite H in *. destruct (e_path f); [reflexivity|congruence].
Qed.
Lemma look_debug g : debug_info g d = debug_info g d'.
Proof.
  unfold debug_info. do 3 f_equal.
  - unfold debug_paths. destruct L as [_ E]. clear L. induction E as [|e f l l' [P H] E IH]; simpl; [reflexivity|].
    now rewrite H, IH.
  - unfold debug_ids. rewrite look_children. apply flat_map_ext. intros id. pose proof (look_get id) as G.
    destruct (get_node d id) as [n|], (get_node d' id) as [m|]; try contradiction; auto.
    now rewrite (look_rect _ _ G).
Qed.
Theorem look_render vb g : render vb g d = render vb g d'.
Proof.
  unfold render. rewrite look_children. rewrite (ofold_ext _ _ _ look_clip).
  destruct (ofold (clip_step d') _ _); simpl; auto. rewrite (ofold_ext _ _ _ look_record).
  destruct (ofold (record_step d') _ _); simpl; auto. rewrite look_edges.
  destruct (ofold edge_step _ _); simpl; auto. destruct g; [now rewrite look_debug|reflexivity].
Qed.
End Look.

Lemma shape_refl k : same_shape k k.
Proof. destruct k as [|[]|]; constructor. Qed.
Theorem look_ports vb g d : Forall (fun e => e_path e <> None) (d_edges d) ->
  render vb g (place_terminal_ports d) = render vb g d.
Proof.
  intros P. symmetry. apply look_render. destruct (ports_frame d) as [E N]. split.
  - clear - N. induction N as [|n m l l' (K & C & O & S) N IH]; constructor; auto.
    unfold same_looks. rewrite K, C, O, S. repeat split; auto. apply shape_refl.
  - rewrite E. clear - P. induction P as [|e l H P IH]; constructor; auto. now split.
Qed.
