(** The picture of the relations of a module. *)
From Coq Require Import String List Arith NArith ZArith Reals Bool Lia.
From Verif Require Import Base F32 Color Geometry Mir Erd Route Layout Svg Render Cli Parser SpecF32 SpecGeom SpecMir SpecLayout SpecRoute
  SpecGraph SpecRender SpecDecimal SpecPicture SpecLink SpecCrash F32Facts GeomFacts ShowFacts MirFacts PlaceFacts GridFacts LayoutFacts RenderFacts
  SvgFacts PictureFacts PipelineFacts PathFacts LatticeFacts ConnectFacts DrawFacts CalmFacts TableFacts.
Import ListNotations.
Local Open Scope Z_scope.

(** ** What paths refer to *)

(** The node of a place. *)
Definition node_of (ds : list entity_definition) (p : place) (id : node_id) : Prop :=
  match p with
  | Table i => exists a e c, ds = a ++ e :: c /\ length a = i /\ id = record_at (base a) e
  | Row i k => exists a e c, ds = a ++ e :: c /\ length a = i /\ (k < rows e)%nat /\ id = (base a + k)%nat
  end.

Lemma node_of_app ds more p id : node_of ds p id -> node_of (ds ++ more) p id.
Proof.
  destruct p as [i|i k]; cbn [node_of].
  - intros (a & e & c & -> & L & E). exists a, e, (c ++ more). rewrite <- app_assoc. auto.
  - intros (a & e & c & -> & L & E). exists a, e, (c ++ more). rewrite <- app_assoc. auto.
Qed.

Lemma nth_middle_eq {A} (a : list A) e c : nth_error (a ++ e :: c) (length a) = Some e.
Proof. rewrite nth_error_app2 by lia. now rewrite Nat.sub_diag. Qed.
Lemma nth_after {A} (a : list A) e c j x : (length a < j)%nat -> nth_error (a ++ e :: c) j = Some x -> In x c.
Proof.
  intros L H. rewrite nth_error_app2 in H by lia. destruct (j - length a)%nat as [|k] eqn:E; [lia|].
  cbn [nth_error] in H. now apply nth_error_In in H.
Qed.

Lemma resolves_refers es p id : resolves es p id ->
  exists pl, refers (definitions es) p pl /\ node_of (definitions es) pl id.
Proof.
  intros [es1 e post N|es1 e post name k N K].
  - rewrite definitions_app. cbn [definitions]. exists (Table (length (definitions es1))). split.
    + apply refers_table with e. split; [apply nth_middle_eq|]. split; [reflexivity|].
      intros j e' L H E. apply nth_after in H; [|exact L]. apply N. exists e'. split; [exact H|]. left. congruence.
    + exists (definitions es1), e, (definitions post). split; [reflexivity|]. split; [reflexivity|].
      unfold record_at, base. now rewrite nodes_before_eq.
  - rewrite definitions_app. cbn [definitions]. exists (Row (length (definitions es1)) (S k)).
    destruct K as [(f & F & E) K]. split.
    + apply refers_row with e; [|split; eauto]. split; [apply nth_middle_eq|]. split.
      * split; [reflexivity|]. rewrite <- E. apply in_map. eapply nth_error_In; eauto.
      * intros j e' L H [E1 I]. apply nth_after in H; [|exact L]. apply N. exists e'. split; [exact H|]. right.
        apply in_map_iff in I as (f' & E2 & I). exists f'. split; [exact I|]. congruence.
    + exists (definitions es1), e, (definitions post). split; [reflexivity|]. split; [reflexivity|]. split.
      * assert (k < length (ent_fields e))%nat by (apply nth_error_Some; congruence). unfold rows. lia.
      * unfold base. rewrite nodes_before_eq. lia.
Qed.

Lemma refers_declared es p pl : refers (definitions es) p pl -> declared es p.
Proof.
  intros [name i e (H & E & _)|name field i e k (H & (E & I) & _) _]; apply nth_error_In in H; exists e; (split; [exact H|]).
  - left. congruence.
  - right. apply in_map_iff in I as (f & F & I). exists f. split; [exact I|]. congruence.
Qed.

Lemma latest_unique ds P i e j e' : latest ds P i e -> latest ds P j e' -> i = j /\ e = e'.
Proof.
  intros (H & Pe & N) (H' & Pe' & N'). destruct (Nat.lt_trichotomy i j) as [L|[<- |L]].
  - destruct (N j e' L H' Pe').
  - split; [reflexivity|]. congruence.
  - destruct (N' i e L H Pe).
Qed.
Lemma last_field_unique e f k k' : last_field e f k -> last_field e f k' -> k = k'.
Proof.
  intros [(x & H & E) N] [(x' & H' & E') N']. destruct (Nat.lt_trichotomy k k') as [L|[<- |L]]; [|reflexivity|].
  - destruct (N k' x' L H' E').
  - destruct (N' k x L H E).
Qed.
Lemma refers_unique ds p a b : refers ds p a -> refers ds p b -> a = b.
Proof.
  intros [name i e L|name field i e k L K] R.
  - inversion R as [name' i' e' L' E|]; subst. destruct (latest_unique _ _ _ _ _ _ L L') as [-> _]. reflexivity.
  - inversion R as [|name' field' i' e' k' L' K' E]; subst. destruct (latest_unique _ _ _ _ _ _ L L') as [-> <-].
    now rewrite (last_field_unique _ _ _ _ K K').
Qed.
Lemma links_unique ds es l : links ds es l -> forall l', links ds es l' -> l = l'.
Proof.
  induction 1 as [ds|ds e es l H IH|ds r es l p q P Q H IH|ds r es l D H IH]; intros l' H'; inversion H' as [|? ? ? ? H1|? ? ? l1 p' q' P' Q' H1|? ? ? ? D' H1]; subst; auto.
  - rewrite (refers_unique _ _ _ _ P P'), (refers_unique _ _ _ _ Q Q'). f_equal. auto.
  - destruct D' as [D'|D']; [destruct (D' _ P)|destruct (D' _ Q)].
  - destruct D as [D|D]; [destruct (D _ P')|destruct (D _ Q')].
Qed.

Lemma edges_links pre es l : edges_of pre es l -> exists ls, links (definitions pre) es ls /\
  Forall2 (fun pq e => node_of (definitions (pre ++ es)) (fst pq) (e_source e) /\
                       node_of (definitions (pre ++ es)) (snd pq) (e_target e)) ls l.
Proof.
  induction 1 as [pre|pre e es l H IH|pre r es l s t Hs Ht H IH|pre r es l D H IH].
  - exists []. split; constructor.
  - destruct IH as (ls & L & F). rewrite definitions_app in L. cbn [definitions] in L.
    rewrite <- app_assoc in F. exists ls. split; [now constructor|exact F].
  - destruct IH as (ls & L & F). rewrite definitions_app in L. cbn [definitions] in L. rewrite app_nil_r in L.
    rewrite <- app_assoc in F.
    destruct (resolves_refers _ _ _ Hs) as (p & P & Np). destruct (resolves_refers _ _ _ Ht) as (q & Q & Nq).
    exists ((p, q) :: ls). split; [now constructor|]. constructor; [|exact F]. cbn [fst snd e_source e_target].
    rewrite definitions_app. split; now apply node_of_app.
  - destruct IH as (ls & L & F). rewrite definitions_app in L. cbn [definitions] in L. rewrite app_nil_r in L.
    rewrite <- app_assoc in F. exists ls. split; [|exact F]. apply links_drop; [|exact L].
    destruct D as [D|D]; [left|right]; intros p P; apply D; eapply refers_declared; eauto.
Qed.

(** ** Ports of places *)

Lemma node_ports m d p id : into_mir m = Ret d -> fits (table_rows m) -> node_of (definitions (m_entries m)) p id ->
  exists n, get_node (place_terminal_ports (fst (place_nodes d))) id = Some n /\
    forall t, In t (n_ports n) -> exists z, side_of (table_rows m) p z /\ hpoint (port_location t) (fst z) (snd z).
Proof.
  intros M F H. destruct (mir_doc m d M) as (E & Hd). destruct p as [i|i k]; cbn [node_of] in H.
  - destruct H as (a & e & c & Ha & L & ->).
    assert (T : table_id d i (record_at (base a) e)).
    { rewrite <- L. apply (table_id_at (definitions (m_entries m)) E d a e c); [subst d; apply shape_refl|exact Ha]. }
    destruct (table_ports m d M F i _ T) as (n & G & P). exists n. split; [exact G|]. intros t It.
    destruct (forall2_in_r _ _ _ _ P It) as (o & _ & _ & _ & Hp). eexists. split; [exists o; reflexivity|exact Hp].
  - destruct H as (a & e & c & Ha & L & K & ->).
    assert (T : row_id d i k (base a + k)%nat).
    { exists (record_at (base a) e), (record_node (base a) e). split.
      - rewrite <- L. apply (table_id_at (definitions (m_entries m)) E d a e c); [subst d; apply shape_refl|exact Ha].
      - split; [subst d; exact (get_record _ E a e c Ha)|]. cbn [record_node n_children]. apply nth_seq. exact K. }
    destruct (row_ports m d M F i k _ T) as (n & G & P). exists n. split; [exact G|]. intros t It.
    destruct (forall2_in_r _ _ _ _ P It) as (o & Io & _ & _ & Hp). eexists. split; [exists o; split; [exact Io|reflexivity]|exact Hp].
Qed.

(** ** Path data *)

Definition near (p : point) (z : Z * Z) : Prop :=
  hpoint p (fst z) (snd z) /\ 12 <= fst z <= M24 - 12 /\ 12 <= snd z <= M24 - 12.

Lemma pair_drawn p X Y : hpoint p X Y -> Z.abs X <= M24 -> Z.abs Y <= M24 -> pair_text (X, Y) (coordinates p).
Proof.
  intros [HX HY] BX BY. exists (show_f32 (px p)), (show_f32 (py p)). split; [reflexivity|].
  split; now apply half_printed.
Qed.
Lemma near_pair p z : near p z -> pair_text z (coordinates p).
Proof. destruct z as [X Y]. intros (H & BX & BY). cbn [fst snd] in *. apply pair_drawn; [exact H|lia|lia]. Qed.

Definition vec (o : orientation) : Z * Z :=
  match o with Up => (0, -1) | Down => (0, 1) | Left => (-1, 0) | Right => (1, 0) end.

Lemma heading_vec p q a b o : hpoint p (fst a) (snd a) -> hpoint q (fst b) (snd b) -> SpecLink.step a b -> heading p q o ->
  direction a b = vec o.
Proof.
  destruct a as [X Y], b as [X' Y']. cbn [fst snd]. intros A B [N St] H. unfold direction. cbn [fst snd] in *.
  assert (N' : X <> X' \/ Y <> Y') by (destruct (Z.eq_dec X X'), (Z.eq_dec Y Y'); subst; tauto).
  destruct o; cbn [vec].
  - destruct (heading_up _ _ _ _ _ _ A B H) as [<- L]. f_equal; lia.
  - destruct (heading_down _ _ _ _ _ _ A B H) as [<- L]. f_equal; lia.
  - pose proof (heading_left _ _ _ _ _ _ A B H). f_equal; lia.
  - pose proof (heading_right _ _ _ _ _ _ A B H). f_equal; lia.
Qed.

Lemma moved_near o p z : near p z -> pair_text (ahead z (vec o)) (coordinates (moved o (f32_of_Z 6) p)).
Proof.
  destruct z as [X Y]. intros ([HX HY] & BX & BY). cbn [fst snd] in *.
  assert (H6 : hv (f32_of_Z 6) 12) by (apply (hv_of_Z 6); lia).
  unfold ahead. destruct o; cbn [vec fst snd moved]; apply pair_drawn; try (unfold M24 in *; lia); split; cbn [px py].
  - now replace (X + 12 * 0) with X by lia.
  - replace (Y + 12 * -1) with (Y - 12) by lia. apply hv_sub; auto. unfold M24 in *; lia.
  - now replace (X + 12 * 0) with X by lia.
  - replace (Y + 12 * 1) with (Y + 12) by lia. apply hv_add; auto. unfold M24 in *; lia.
  - replace (X + 12 * -1) with (X - 12) by lia. apply hv_sub; auto. unfold M24 in *; lia.
  - now replace (Y + 12 * 0) with Y by lia.
  - replace (X + 12 * 1) with (X + 12) by lia. apply hv_add; auto. unfold M24 in *; lia.
  - now replace (Y + 12 * 0) with Y by lia.
Qed.
Lemma behind_opposite z o : behind z (vec o) = ahead z (vec (opposite o)).
Proof. destruct z as [X Y]. unfold behind, ahead. destruct o; cbn [vec opposite fst snd]; f_equal; lia. Qed.
Lemma vec_inj o o' : vec o = vec o' -> o = o'.
Proof. destruct o, o'; cbn; congruence. Qed.

Lemma passes_spelt p q r a b c l : near p a -> near q b -> near r c -> SpecLink.step a b -> SpecLink.step b c -> passes p q r l ->
  Forall2 spells (if ((fst (direction a b) =? fst (direction b c)) && (snd (direction a b) =? snd (direction b c)))%bool
           then [LineTo b]
           else [LineTo (behind b (direction a b)); CurveTo b (ahead b (direction b c))]) l.
Proof.
  intros Np Nq Nr S1 S2 P. destruct P as [o H1 H2|o o' H1 H2 D1 D2].
  - rewrite (heading_vec _ _ _ _ _ (proj1 Np) (proj1 Nq) S1 H1), (heading_vec _ _ _ _ _ (proj1 Nq) (proj1 Nr) S2 H2).
    rewrite !Z.eqb_refl. cbn [andb]. constructor; [|constructor]. exists (coordinates q). split; [reflexivity|]. now apply near_pair.
  - rewrite (heading_vec _ _ _ _ _ (proj1 Np) (proj1 Nq) S1 H1), (heading_vec _ _ _ _ _ (proj1 Nq) (proj1 Nr) S2 H2).
    destruct ((_ =? _) && (_ =? _))%bool eqn:E.
    { apply andb_prop in E as [E1 E2]. apply Z.eqb_eq in E1, E2. exfalso. apply D1, vec_inj. destruct (vec o), (vec o'). cbn in *. congruence. }
    constructor; [|constructor; [|constructor]].
    + eexists. split; [reflexivity|]. rewrite behind_opposite. now apply moved_near.
    + do 2 eexists. split; [reflexivity|]. split; [now apply near_pair|now apply moved_near].
Qed.

Lemma rest_spelt : forall zs ps p a l, near p a -> Forall2 near ps zs ->
  (forall l1 x y l2, a :: zs = l1 ++ x :: y :: l2 -> SpecLink.step x y) ->
  draws_rest p ps l -> Forall2 spells (trace_rest a zs) l.
Proof.
  induction zs as [|b zs IH]; intros ps p a l Np F St D; [inversion F; subst; inversion D|].
  inversion F as [|q b' ps' zs' Nq F']; subst. destruct zs as [|c zs].
  - inversion F'; subst. inversion D as [p0 q0|]; subst. constructor; [|constructor].
    eexists. split; [reflexivity|]. now apply near_pair.
  - inversion F' as [|r c' ps'' zs'' Nr F'']; subst. inversion D as [|p0 q0 r0 ps0 l1 l2 P D']; subst.
    cbn [trace_rest]. apply Forall2_app.
    + eapply passes_spelt; eauto; [apply (St [] a b (c :: zs)); reflexivity|apply (St [a] b c zs); reflexivity].
    + eapply IH; eauto. intros l3 x y l4 E. apply (St (a :: l3) x y l4). cbn [app]. now rewrite E.
Qed.

Lemma draws_spelt ps zs l : Forall2 near ps zs -> (forall l1 x y l2, zs = l1 ++ x :: y :: l2 -> SpecLink.step x y) ->
  draws ps l -> Forall2 spells (trace zs) l.
Proof.
  intros F St (p & ps' & l' & -> & D & ->). inversion F as [|p0 a ps0 zs' Np F']; subst. cbn [trace]. constructor.
  - eexists. split; [reflexivity|]. now apply near_pair.
  - eapply rest_spelt; eauto.
Qed.

(** ** One connection *)

Lemma circle_drawn p z : near p z ->
  shape (end_circle p) "circle" [("cx", fst z); ("cy", snd z); ("r", 8); ("stroke-width", 3)]%string
    [("stroke", lit "#888888"); ("fill", lit "#1C1C1C")]%string.
Proof.
  intros ([HX HY] & BX & BY). unfold end_circle, shape.
  split; [unfold setf, setc; now rewrite !name_set|]. split; [unfold setf, setc; now rewrite !children_set|]. split.
  - intros k v I. in_cases I; half_tac; try assumption; try (unfold M24 in *; lia).
    + apply (hv_of_Z 4). lia.
    + unfold stroke_width. apply (hv_div2 _ 3); [apply (hv_of_Z 3); lia|unfold M24; lia].
  - intros k v I. in_cases I.
    + apply (has_attr_eq _ _ (show_color stroke_color)); [reflexivity|attr_tac].
    + apply (has_attr_eq _ _ (show_color background_color)); [reflexivity|attr_tac].
Qed.

Lemma path_shape cs : shape (set "d" (join sp cs) (set "fill" (lit "transparent")
                   (setf "stroke-width" stroke_width (setc "stroke" stroke_color (elem "path"))))) "path" []
  [("d", join (lit " ") cs); ("stroke", lit "#888888"); ("stroke-width", lit "1.5"); ("fill", lit "transparent")]%string.
Proof.
  unfold shape. split; [unfold setf, setc; now rewrite !name_set|]. split; [unfold setf, setc; now rewrite !children_set|].
  split; [intros k z []|]. intros k v I. in_cases I.
  - attr_tac.
  - apply (has_attr_eq _ _ (show_color stroke_color)); [reflexivity|attr_tac].
  - apply (has_attr_eq _ _ (show_f32 stroke_width)); [vm_compute; reflexivity|attr_tac].
  - attr_tac.
Qed.

Lemma forall2_split_r {A B} (P : A -> B -> Prop) : forall l2 l1 b c r, Forall2 P l1 (l2 ++ b :: c :: r) ->
  exists k x y z, l1 = k ++ x :: y :: z /\ P x b /\ P y c /\ length k = length l2.
Proof.
  induction l2 as [|b0 l2 IH]; intros l1 b c r F.
  - inversion F as [|x b' l1' ? Px F1]; subst. inversion F1 as [|y c' l1'' ? Py F2]; subst.
    exists [], x, y, l1''. auto.
  - inversion F as [|x b' l1' ? Px F1]; subst. destruct (IH l1' b c r F1) as (k & u & v & z & -> & Pu & Pv & L).
    exists (x :: k), u, v, z. repeat split; auto. cbn. now rewrite L.
Qed.

Lemma straight_step o p q a b : hpoint p (fst a) (snd a) -> hpoint q (fst b) (snd b) -> straight o p q -> SpecLink.step a b.
Proof.
  destruct a as [X Y], b as [X' Y']. cbn [fst snd]. intros [A C] [B D] H. unfold SpecLink.step. cbn [fst snd].
  destruct o; destruct H as [H1 H2].
  - rewrite (hv_feq _ _ _ _ B A) in H1. rewrite (hv_lt _ _ _ _ D C) in H2. apply Z.eqb_eq in H1. apply Z.ltb_lt in H2.
    split; [intros E; injection E; lia|lia].
  - rewrite (hv_feq _ _ _ _ B A) in H1. rewrite (hv_lt _ _ _ _ C D) in H2. apply Z.eqb_eq in H1. apply Z.ltb_lt in H2.
    split; [intros E; injection E; lia|lia].
  - rewrite (hv_feq _ _ _ _ D C) in H1. rewrite (hv_lt _ _ _ _ B A) in H2. apply Z.eqb_eq in H1. apply Z.ltb_lt in H2.
    split; [intros E; injection E; lia|lia].
  - rewrite (hv_feq _ _ _ _ D C) in H1. rewrite (hv_lt _ _ _ _ A B) in H2. apply Z.eqb_eq in H1. apply Z.ltb_lt in H2.
    split; [intros E; injection E; lia|lia].
Qed.

Lemma straight_heading o p q X Y X' Y' : hpoint p X Y -> hpoint q X' Y' -> straight o p q -> heading p q o.
Proof.
  intros [A C] [B D] H. destruct o; destruct H as [H1 H2].
  - rewrite (hv_feq _ _ _ _ B A) in H1. apply Z.eqb_eq in H1. subst X'. apply SpecRender.heading_up; [| |exact H2].
    + rewrite (hv_lt _ _ _ _ B A). apply Z.ltb_irrefl.
    + rewrite (hv_lt _ _ _ _ A B). apply Z.ltb_irrefl.
  - rewrite (hv_feq _ _ _ _ B A) in H1. apply Z.eqb_eq in H1. subst X'. apply SpecRender.heading_down.
    + rewrite (hv_lt _ _ _ _ B A). apply Z.ltb_irrefl.
    + rewrite (hv_lt _ _ _ _ A B). apply Z.ltb_irrefl.
    + rewrite (hv_lt _ _ _ _ C D) in H2. rewrite (hv_lt _ _ _ _ D C). apply Z.ltb_lt in H2. apply Z.ltb_ge. lia.
  - now apply SpecRender.heading_left.
  - apply SpecRender.heading_right; [|exact H2]. rewrite (hv_lt _ _ _ _ A B) in H2. rewrite (hv_lt _ _ _ _ B A).
    apply Z.ltb_lt in H2. apply Z.ltb_ge. lia.
Qed.

Lemma direction_back a b o : direction a b = vec o -> direction b a = vec (opposite o).
Proof.
  destruct a as [X Y], b as [X' Y']. unfold direction. cbn [fst snd]. intros E.
  destruct o; cbn [vec opposite] in *; injection E as E1 E2; f_equal; lia.
Qed.

Lemma path_orderly ps zs : Forall2 near ps zs -> rectilinear ps -> (forall i, ~ reverses_at ps i) -> orderly zs.
Proof.
  intros F Rl Nr. assert (St : forall l1 p q l2, zs = l1 ++ p :: q :: l2 ->
    exists x y k m o, ps = k ++ x :: y :: m /\ near x p /\ near y q /\ straight o x y /\ length k = length l1).
  { intros l1 p q l2 ->. destruct (forall2_split_r _ _ _ _ _ _ F) as (k & x & y & m & E & Px & Py & L).
    destruct (Rl k x y m E) as (o & S1). exists x, y, k, m, o. auto. }
  split.
  - intros l1 p q l2 E. destruct (St l1 p q l2 E) as (x & y & k & m & o & _ & Px & Py & S1 & _).
    eapply straight_step; [exact (proj1 Px)|exact (proj1 Py)|exact S1].
  - intros l1 p q r l2 E Eq. destruct (St l1 p q (r :: l2) E) as (x & y & k & m & o & E1 & Px & Py & S1 & L1).
    destruct (St (l1 ++ [p]) q r l2) as (x' & y' & k' & m' & o' & E2 & Px' & Py' & S2 & L2); [now rewrite <- app_assoc|].
    assert (K : x' = y /\ nth_error ps (length k) = Some x /\ nth_error ps (S (length k)) = Some y /\ nth_error ps (S (S (length k))) = Some y').
    { rewrite app_length in L2. cbn in L2. assert (Lk : length k' = S (length k)) by lia.
      assert (A1 : nth_error ps (length k) = Some x) by (rewrite E1; apply nth_middle_eq).
      assert (A2 : nth_error ps (S (length k)) = Some y).
      { rewrite E1. rewrite nth_error_app2 by lia. now replace (_ - _)%nat with 1%nat by lia. }
      assert (A3 : nth_error ps (length k') = Some x') by (rewrite E2; apply nth_middle_eq).
      assert (A4 : nth_error ps (S (length k')) = Some y').
      { rewrite E2. rewrite nth_error_app2 by lia. now replace (_ - _)%nat with 1%nat by lia. }
      rewrite Lk in A3, A4. split; [congruence|auto]. }
    destruct K as (-> & K1 & K2 & K3).
    pose proof (straight_heading _ _ _ _ _ _ _ (proj1 Px) (proj1 Py) S1) as H1.
    pose proof (straight_heading _ _ _ _ _ _ _ (proj1 Py) (proj1 Py') S2) as H2.
    pose proof (heading_vec _ _ _ _ _ (proj1 Px) (proj1 Py) (straight_step _ _ _ _ _ (proj1 Px) (proj1 Py) S1) H1) as V1.
    pose proof (heading_vec _ _ _ _ _ (proj1 Py) (proj1 Py') (straight_step _ _ _ _ _ (proj1 Py) (proj1 Py') S2) H2) as V2.
    apply (Nr (S (length k))). exists (length k), x, y, y', o. repeat split; auto.
    rewrite V2, (direction_back _ _ _ V1) in Eq. apply vec_inj in Eq. now subst o'.
Qed.

(** ** The module *)

Lemma near_points (ps : list point) : (forall p, In p ps -> exists z, near p z) -> exists zs, Forall2 near ps zs.
Proof.
  induction ps as [|p ps IH]; intros H; [exists []; constructor|].
  destruct (H p (or_introl eq_refl)) as (z & Hz). destruct IH as (zs & F); [intros; apply H; now right|].
  exists (z :: zs). now constructor.
Qed.
Lemma near_unique p z z' : near p z -> hpoint p (fst z') (snd z') -> z = z'.
Proof.
  destruct z as [X Y], z' as [X' Y']. intros ([A B] & _) [A' B']. cbn [fst snd] in *.
  now rewrite (hv_unique _ _ _ A A'), (hv_unique _ _ _ B B').
Qed.

Lemma walk_last es a b l : walk es a b l -> nth_error l (length l - 1) = Some b.
Proof.
  induction 1 as [a|a b c l J W IH]; [reflexivity|]. destruct l as [|x l]; [inversion W|].
  cbn [length] in *. replace (S (S (length l)) - 1)%nat with (S (length l)) by lia.
  cbn [nth_error]. now replace (S (length l) - 1)%nat with (length l) in IH by lia.
Qed.

Lemma no_paths_in_front d : flat_map (elements "path") (background_rect :: Elem (lit "defs") [] (flat_map (clip_elem d) (enum (body_children d))) ::
          flat_map (record_elems d) (enum (body_children d))) = [].
Proof.
  apply (elements_none_all "path" (lit "defs" :: lit "clipPath" :: shape_names)); [|reflexivity].
  apply Forall_cons; [unfold background_rect; names_tac|]. apply Forall_cons.
  - apply all_names_elem. split; [now left|]. apply Forall_flat_map, Forall_forall. intros ic _.
    unfold clip_elem. destruct (get_node _ _) as [n|]; [|constructor].
    destruct (n_kind n); try constructor. destruct (n_origin n) as [o|]; [|constructor].
    destruct (n_size n) as [s|]; [|constructor]. unfold round_rect. names_tac.
  - apply Forall_flat_map, Forall_forall. intros ic _. eapply Forall_impl; [|apply names_record].
    intros a H e I. right; right. exact (H e I).
Qed.

Lemma edge_connects m vb g d d0 p q e0 e : fits (table_rows m) -> layout_module m = Ret (vb, g, d) -> into_mir m = Ret d0 ->
  node_of (definitions (m_entries m)) p (e_source e0) -> node_of (definitions (m_entries m)) q (e_target e0) ->
  same_ends e0 e -> In e (d_edges d) -> ~ bad_edge e -> exists zs ps l a b,
    connection_along (table_rows m) zs (p, q) (edge_elems e) /\ Forall2 near ps zs /\ places g l ps /\ walk (rg_edges g) a b l /\
    e_path e = Some ps.
Proof.
  intros F L M Np Nq (E1 & E2) I B.
  destruct (layout_routes m vb g d F L) as (d1 & M' & V & D & Rt). rewrite M in M'. injection M' as <-.
  destruct (draw_split _ _ _ _ D) as (_ & N & _).
  destruct (module_cheapest m vb g d F L e I) as (s & t & l & ps & Gs & Gt & Ep & Pl & ((ps1 & qs1 & a & b & Ia & Ib & Sa & Sb & W) & _)).
  destruct (node_ports m d0 p _ M F Np) as (ns & Gp & Hp). destruct (node_ports m d0 q _ M F Nq) as (nq & Gq & Hq).
  unfold get_node in Gs, Gt, Gp, Gq. rewrite N, E1 in Gs. rewrite N, E2 in Gt. rewrite Gs in Gp. rewrite Gt in Gq.
  injection Gp as <-. injection Gq as <-.
  destruct (Hp _ Ia) as (za & Za & Ha). destruct (Hq _ Ib) as (zb & Zb & Hb).
  assert (NP : forall x, In x ps -> exists z, near x z).
  { intros x Ix. destruct (paths_inside m vb g d F L e ps x I Ep Ix) as (X & Y & Hx & BX & BY & _).
    exists (X, Y). unfold near. cbn [fst snd]. unfold fits in F. unfold M24. split; [exact Hx|lia]. }
  destruct (near_points ps NP) as (zs & Fz).
  destruct (module_rectilinear m vb g d L e I) as (_ & _ & ps' & _ & _ & Ep' & _ & Rl & _). rewrite Ep in Ep'. injection Ep' as <-.
  unfold edge_elems. destruct (draw_edge_cases e) as [(P & E)|(ps' & P & C)]; [congruence|]. rewrite Ep in P. injection P as <-.
  destruct C as [(Ln & E)|[(i & Ln & Rv & Fi & E)|(cs & x & Ln & Nr & Dr & Hd & E)]].
  { destruct B. right. eauto. }
  { destruct B. right. eauto. }
  rewrite E. destruct (walk_head _ _ _ _ W) as (l' & El).
  (* the ends *)
  assert (A0 : nth_error zs 0 = Some za).
  { destruct ps as [|x0 ps]; [discriminate|]. injection Hd as ->. inversion Fz as [|x1 z1 ps1' zs1 Nx Fz1]; subst. cbn.
    inversion Pl as [|i0 p0 l0 ps0 (n0 & Hn0 & E0) Pl0]; subst. f_equal.
    destruct Sa as (n1 & Hn1 & Sp & _). rewrite Hn0 in Hn1. injection Hn1 as <-.
    destruct z1 as [X1 Y1]. destruct za as [Xa Ya].
    destruct (same_hpoint _ _ _ _ Sp (proj1 Nx) _ _ Ha) as [E3 E4]. cbn [fst snd] in E3, E4. now subst. }
  assert (Lz : length zs = length ps) by (symmetry; apply (Forall2_length' _ _ _ Fz)).
  assert (A1 : nth_error zs (length zs - 1) = Some zb /\ near (last ps x) zb).
  { assert (Hlast : nth_error ps (length ps - 1) = Some (last ps x)) by (apply last_nth; intros ->; discriminate).
    destruct (forall2_nth_l _ _ _ Fz _ _ Hlast) as (z1 & Hz1 & Nz1). rewrite Lz.
    pose proof (walk_last _ _ _ _ W) as Wl. pose proof (Forall2_length' _ _ _ Pl) as Ll. rewrite Ll in Wl.
    destruct (forall2_nth_l _ _ _ Pl _ _ Wl) as (pb & Hpb & n0 & Hn0 & E0). rewrite Hlast in Hpb. injection Hpb as <-.
    destruct Sb as (n1 & Hn1 & Sp & _). rewrite Hn0 in Hn1. injection Hn1 as <-. rewrite E0 in Sp.
    destruct z1 as [X1 Y1]. destruct zb as [Xb Yb].
    destruct (same_hpoint _ _ _ _ Sp (proj1 Nz1) _ _ Hb) as [E3 E4]. cbn [fst snd] in E3, E4. subst. auto. }
  destruct A1 as [A1 Nb].
  assert (Na : near x za).
  { destruct ps as [|x0 ps]; [discriminate|]. injection Hd as ->. inversion Fz as [|x1 z1 ps1' zs1 Nx Fz1]; subst.
    cbn in A0. injection A0 as ->. exact Nx. }
  pose proof (path_orderly ps zs Fz Rl Nr) as Od.
  exists zs, ps, l, a, b. split; [|auto]. exists za, zb. do 5 eexists. split; [reflexivity|]. split; [exact A0|]. split; [exact A1|]. split; [lia|].
  split; [exact Za|]. split; [exact Zb|]. split; [exact Od|]. split; [apply path_shape|]. split; [reflexivity|].
  split; [exact (draws_spelt ps zs cs Fz (proj1 Od) Dr)|].
  intros c z [Q|[Q|[]]]; injection Q as <- <-; apply circle_drawn; assumption.
Qed.

Lemma forall2_join {A B C D} (P : A -> B -> Prop) (Q : B -> C -> Prop) (T : A -> D -> Prop) (f : C -> D) a b : Forall2 P a b ->
  forall c, Forall2 Q b c -> (forall x y z, In z c -> P x y -> Q y z -> T x (f z)) -> Forall2 T a (map f c).
Proof.
  induction 1 as [|x y a b H F IH]; intros c G K; inversion G as [|y' z b' c' H' G']; subst; cbn [map]; constructor.
  - eapply K; eauto. now left.
  - apply IH; auto. intros. eapply K; eauto. now right.
Qed.

(** [Q] holds of the points of every route. *)
Theorem module_links_by (Q : list (Z * Z) -> Prop) m svg : fits (table_rows m) -> render_module m = Okay svg ->
  (forall vb g d e ps zs l a b, layout_module m = Ret (vb, g, d) -> In e (d_edges d) -> e_path e = Some ps ->
     Forall2 near ps zs -> places g l ps -> walk (rg_edges g) a b l -> orderly zs -> (2 <= length zs)%nat -> Q zs) ->
  exists ls, links [] (m_entries m) ls /\ (forall ls', links [] (m_entries m) ls' -> ls' = ls) /\
    connected_by (fun pq l => exists zs, connection_along (table_rows m) zs pq l /\ Q zs) ls svg.
Proof.
  intros F R HQ. unfold render_module in R. destruct (layout_module m) as [[[vb g] d]|] eqn:L; [|discriminate].
  destruct (layout_routes m vb g d F L) as (d0 & M & V & D & Rt).
  destruct (draw_split _ _ _ _ D) as (_ & N & F2). rewrite (module_edges m d0 M) in F2.
  pose proof (proj2 (into_mir_edges m d0 M (d_edges d0)) eq_refl) as Eo.
  destruct (edges_links [] (m_entries m) _ Eo) as (ls & Ll & Fl). cbn [app definitions] in Ll, Fl.
  exists ls. split; [exact Ll|]. split; [intros ls' H; now apply (links_unique _ _ _ H)|].
  apply render_okay in R as [(_ & _ & B) ->].
  exists (background_rect :: Elem (lit "defs") [] (flat_map (clip_elem d) (enum (body_children d))) ::
          flat_map (record_elems d) (enum (body_children d))), (map edge_elems (d_edges d)).
  split; [|split; [apply no_paths_in_front|]].
  - unfold picture. cbn [svg_children debug_part]. rewrite app_nil_r, (flat_map_concat_map edge_elems). reflexivity.
  - unfold none_of in B. rewrite Forall_forall in B.
    eapply forall2_join; [exact Fl|exact F2|]. intros [p q] e0 e I [Np Nq] [Se _].
    destruct (edge_connects m vb g d d0 p q e0 e F L M Np Nq Se I (B e I)) as (zs & ps & l & a & b & C & Fz & Pl & W & Ep).
    exists zs. split; [exact C|]. destruct C as (? & ? & ? & ? & ? & ? & ? & _ & _ & _ & Lz & _ & _ & Od & _).
    eapply HQ; eauto.
Qed.

Lemma connected_weaken (P Q : place * place -> list svg_node -> Prop) ls svg : (forall pq l, P pq l -> Q pq l) ->
  connected_by P ls svg -> connected_by Q ls svg.
Proof.
  intros H (front & parts & E & N & F). exists front, parts. split; [exact E|]. split; [exact N|].
  eapply forall2_weaken; [exact F|]. auto.
Qed.

Theorem module_links m svg : fits (table_rows m) -> render_module m = Okay svg ->
  exists ls, links [] (m_entries m) ls /\ (forall ls', links [] (m_entries m) ls' -> ls' = ls) /\
    connected (table_rows m) ls svg.
Proof.
  intros F R. destruct (module_links_by (fun _ => True) m svg F R) as (ls & L & U & C); [auto|].
  exists ls. split; [exact L|]. split; [exact U|]. eapply connected_weaken; [|exact C]. intros pq l (zs & H & _). now exists zs.
Qed.

Theorem diagram_drawn fmt src r m : parse src = Ret r -> pr_ast r = Some m ->
  fits (table_rows m) -> (forall x, In (ERel x) (m_entries m) -> fields_joined x) ->
  exists svg ls, stdout (main fmt src) = show_svg fmt svg /\ ending (main fmt src) = Ret tt /\
    tables_at (fun i => 2 * table_left i)%Z (fun i => 2 * table_top (table_rows m) i)%Z (definitions (m_entries m)) svg /\
    links [] (m_entries m) ls /\ connected (table_rows m) ls svg.
Proof.
  intros P A F H. destruct (fields_source fmt src r m P A F H) as (svg & R & O & E).
  destruct (module_links m svg F R) as (ls & L & _ & C). exists svg, ls. split; [exact O|]. split; [exact E|].
  split; [now apply module_tables|]. auto.
Qed.
