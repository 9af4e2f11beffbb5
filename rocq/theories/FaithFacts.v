(** What can be read off the picture of a module. *)
From Coq Require Import String List Arith NArith ZArith Reals Lra Bool Lia Classical_Prop.
From Verif Require Import Base F32 Color Geometry Mir Erd Route Layout Svg Render Cli Parser SpecF32 SpecGeom SpecMir SpecLayout SpecRoute
  SpecGraph SpecRender SpecDecimal SpecPicture SpecLink SpecCrash SpecXml SpecEnds F32Facts GeomFacts ShowFacts MirFacts PlaceFacts GridFacts LayoutFacts RenderFacts
  SvgFacts PictureFacts PipelineFacts PathFacts LatticeFacts ConnectFacts HubFacts OrderFacts DrawFacts RowFacts CalmFacts TableFacts LinkFacts XmlFacts EndFacts.
Import ListNotations.

(** ** Tables *)
Definition badge_of (k : option field_key) (b : list svg_node) : Prop :=
  match k with
  | None => b = []
  | Some k => exists c t, b = [c; t] /\ svg_name c = lit "circle" /\ svg_children t = [TextNode (to_keyword k)]
  end.
Definition row_of (f : entity_field) (l : list svg_node) : Prop :=
  exists line t1 t2 b, l = line :: t1 :: t2 :: b /\ svg_name line = lit "line" /\ svg_children t1 = [TextNode (f_name f)] /\
    svg_children t2 = [TextNode (show_field_type (f_type f))] /\ badge_of (f_key f) b.
Definition table_of (e : entity_definition) (l : list svg_node) : Prop :=
  exists frame ground title rows, l = frame :: ground :: title :: concat rows /\ svg_name frame = lit "rect" /\
    svg_children title = [TextNode (ent_name e)] /\ Forall2 row_of (ent_fields e) rows.
Definition begins_none (ks : list string) (l : list svg_node) : Prop :=
  match l with [] => True | x :: _ => ~ In (svg_name x) (map lit ks) end.

Lemma type_inj t u : show_field_type t = show_field_type u -> t = u.
Proof. destruct t, u; intros H; try reflexivity; discriminate H. Qed.
Lemma keyword_inj k l : to_keyword k = to_keyword l -> k = l.
Proof. destruct k, l; intros H; try reflexivity; discriminate H. Qed.

Lemma rows_begin fs ls rest : Forall2 row_of fs ls -> begins_none ["line"; "circle"]%string rest -> begins_none ["circle"%string] (concat ls ++ rest).
Proof.
  intros F B. destruct F as [|f l fs ls (line & t1 & t2 & b & -> & N & _) F].
  - cbn [concat app]. destruct rest as [|x rest]; [exact I|]. intros [H|[]]. apply B. cbn. auto.
  - cbn. rewrite N. intros [H|[]]. discriminate H.
Qed.

Lemma badge_read k l b c r s : badge_of k b -> badge_of l c -> begins_none ["circle"%string] r -> begins_none ["circle"%string] s ->
  b ++ r = c ++ s -> k = l /\ r = s.
Proof.
  intros Bk Bl Br Bs E. destruct k as [k|], l as [l|]; cbn [badge_of] in Bk, Bl.
  - destruct Bk as (x & t & -> & _ & T), Bl as (y & u & -> & _ & U). injection E as -> -> ->. rewrite T in U. injection U as U.
    split; [f_equal; now apply keyword_inj|reflexivity].
  - destruct Bk as (x & t & -> & N & _). subst c. cbn [app] in E. rewrite <- E in Bs. cbn in Bs. rewrite N in Bs. destruct Bs. now left.
  - destruct Bl as (x & t & -> & N & _). subst b. cbn [app] in E. rewrite E in Br. cbn in Br. rewrite N in Br. destruct Br. now left.
  - subst. auto.
Qed.

Lemma rows_read fs ls : Forall2 row_of fs ls -> forall fs' ls' r s, Forall2 row_of fs' ls' ->
  begins_none ["line"; "circle"]%string r -> begins_none ["line"; "circle"]%string s -> concat ls ++ r = concat ls' ++ s -> fs = fs' /\ r = s.
Proof.
  induction 1 as [|f l fs ls R F IH]; intros fs' ls' r s F' Br Bs E.
  - destruct F' as [|f' l' fs' ls' (line & t1 & t2 & b & -> & N & _) F']; [auto|]. cbn in E. rewrite E in Br. cbn in Br. rewrite N in Br. destruct Br. now left.
  - destruct F' as [|f' l' fs' ls' R' F'].
    { destruct R as (line & t1 & t2 & b & -> & N & _). cbn in E. rewrite <- E in Bs. cbn in Bs. rewrite N in Bs. destruct Bs. now left. }
    destruct R as (line & t1 & t2 & b & -> & N & T1 & T2 & B), R' as (line' & t1' & t2' & b' & -> & N' & T1' & T2' & B').
    cbn [concat app] in E. rewrite <- !app_assoc in E. injection E as <- <- <- E.
    destruct (badge_read _ _ _ _ _ _ B B' (rows_begin _ _ _ F Br) (rows_begin _ _ _ F' Bs) E) as (K & E').
    destruct (IH fs' ls' r s F' Br Bs E') as (-> & ->). split; [|reflexivity].
    rewrite T1 in T1'. rewrite T2 in T2'. injection T1' as T1'. injection T2' as T2'. apply type_inj in T2'.
    destruct f, f'; cbn in *. now subst.
Qed.

Lemma tables_begin ds ls rest : Forall2 table_of ds ls -> begins_none ["rect"; "line"; "circle"]%string rest -> begins_none ["line"; "circle"]%string (concat ls ++ rest).
Proof.
  intros F B. destruct F as [|e l ds ls (fr & gr & ti & rows & -> & N & _) F].
  - cbn [concat app]. destruct rest as [|x rest]; [exact I|]. intros H. apply B. right. exact H.
  - cbn. rewrite N. intros [H|[H|[]]]; discriminate H.
Qed.

Lemma tables_read ds ls : Forall2 table_of ds ls -> forall ds' ls' r s, Forall2 table_of ds' ls' ->
  begins_none ["rect"; "line"; "circle"]%string r -> begins_none ["rect"; "line"; "circle"]%string s -> concat ls ++ r = concat ls' ++ s -> ds = ds' /\ r = s.
Proof.
  induction 1 as [|e l ds ls R F IH]; intros ds' ls' r s F' Br Bs E.
  - destruct F' as [|e' l' ds' ls' (fr & gr & ti & rows & -> & N & _) F']; [auto|]. cbn in E. rewrite E in Br. cbn in Br. rewrite N in Br. destruct Br. now left.
  - destruct F' as [|e' l' ds' ls' R' F'].
    { destruct R as (fr & gr & ti & rows & -> & N & _). cbn in E. rewrite <- E in Bs. cbn in Bs. rewrite N in Bs. destruct Bs. now left. }
    destruct R as (fr & gr & ti & rows & -> & N & T & Rw), R' as (fr' & gr' & ti' & rows' & -> & N' & T' & Rw').
    cbn [concat app] in E. rewrite <- !app_assoc in E. injection E as <- <- <- E.
    destruct (rows_read _ _ Rw _ _ _ _ Rw' (tables_begin _ _ _ F Br) (tables_begin _ _ _ F' Bs) E) as (K & E').
    destruct (IH ds' ls' r s F' Br Bs E') as (-> & ->). split; [|reflexivity].
    rewrite T in T'. injection T' as T'. destruct e, e'; cbn in *. now subst.
Qed.

(** The elements of a table. *)
Lemma text_children t o a : svg_children (draw_text t o a) = [TextNode (t_text t)].
Proof.
  unfold draw_text. destruct t as [txt col fam wt sz]. cbn [t_text t_color t_family t_weight t_size].
  destruct a, col, fam, wt, sz; cbn [set_opt]; unfold setc, setf; rewrite ?children_set, ?children_append, ?children_set; solve [reflexivity|repeat eexists].
Qed.
Lemma row_drawn_of i f r clip : row_of f (field_elements (S i) (column_shape f) r clip).
Proof.
  unfold row_of, field_elements, field_background, field_border, field_texts, field_badge.
  cbn [column_shape fs_bg fs_border fs_title fs_subtitle fs_badge set_opt]. change (0 <? S i)%nat with true. cbn [app].
  do 4 eexists. split; [reflexivity|]. split; [unfold setf, setc; now rewrite !name_set|].
  split; [apply text_children|]. split; [apply text_children|].
  destruct (f_key f) as [k|]; cbn [option_map badge_of]; [|reflexivity]. cbn [key_badge b_bg app].
  do 2 eexists. split; [reflexivity|]. split; [unfold setf, setc; now rewrite !name_set|]. rewrite text_children. reflexivity.
Qed.

Lemma table_drawn_of ds E a e c d j : ds = a ++ e :: c -> d_nodes d = d_nodes (ported ds E) ->
  table_of e (record_elems d (j, record_at (base a) e)).
Proof.
  intros Hd N. assert (G : forall id, get_node d id = get_node (ported ds E) id) by (intros id; unfold get_node; now rewrite N).
  unfold record_elems. cbn [fst snd].
  rewrite G, (ported_record ds E a e c Hd). cbn [n_kind n_origin n_size n_children table_geo fst snd].
  unfold rows at 2. cbn [seq enum enum_from flat_map]. unfold field_elems at 1. cbn [fst snd].
  pose proof (ported_row ds E a e c 0 (header_node e) Hd ltac:(unfold rows; lia) ltac:(rewrite Nat.add_0_r; exact (get_header ds E a e c Hd))) as G0.
  rewrite Nat.add_0_r in G0. rewrite G, G0. cbn [n_kind header_node node_new node_rect n_origin n_size].
  cbn [app]. rewrite flat_map_concat_map. unfold field_elements at 1. cbn [field_background header_shape fs_bg field_border].
  change (0 <? 0)%nat with false. cbn [app field_texts fs_title fs_subtitle field_badge fs_badge].
  do 4 eexists. split; [reflexivity|]. split; [unfold record_background, round_rect; cbn [table_shape rs_bg rs_border set_opt]; unfold setf, setc; now rewrite !name_set|].
  split; [apply text_children|].
  assert (H : forall k f, nth_error (ent_fields e) k = Some f -> row_of f (field_elems d (clip_id j) (S k, S (base a) + k)%nat)).
  { intros k f Ef. assert (Lk : (k < length (ent_fields e))%nat) by (apply nth_error_Some; congruence). unfold field_elems. cbn [fst snd]. rewrite G.
    pose proof (ported_row ds E a e c (S k) (column_node f) Hd ltac:(unfold rows; lia)) as G1.
    replace (base a + S k)%nat with (S (base a) + k)%nat in G1 by lia. rewrite G1.
    - cbn [column_node node_new n_kind node_rect n_origin n_size]. apply row_drawn_of.
    - replace (S (base a) + k)%nat with (base a + 1 + k)%nat by lia. exact (get_column ds E a e c k f Hd Ef). }
  change (forall k f, nth_error (ent_fields e) k = Some f -> row_of f (field_elems d (clip_id j) (1 + k, S (base a) + k)%nat)) in H.
  revert H. generalize (S (base a)) as b. generalize 1%nat as i. generalize (ent_fields e) as fs.
  induction fs as [|f fs IH]; intros i b H; cbn [length seq enum_from map]; constructor.
  - specialize (H 0%nat f eq_refl). now rewrite !Nat.add_0_r in H.
  - apply IH. intros k x Ex. specialize (H (S k) x Ex). now replace (S i + k, S b + k)%nat with (i + S k, b + S k)%nat by (f_equal; lia).
Qed.

Lemma tables_of ds E d : d_nodes d = d_nodes (ported ds E) -> Forall2 table_of ds (map (record_elems d) (enum (body_children d))).
Proof.
  intros N.
  assert (B : body_children d = record_ids 1 ds).
  { unfold body_children, get_node. rewrite N. pose proof (ported_body ds E) as P. unfold get_node in P. rewrite P. reflexivity. }
  rewrite B. assert (H : forall a c, ds = a ++ c -> Forall2 table_of c (map (record_elems d) (enum_from (length a) (record_ids (base a) c)))).
  { intros a c. revert a. induction c as [|e c IH]; intros a Hd; cbn [record_ids enum_from map]; constructor.
    - exact (table_drawn_of ds E a e c d (length a) Hd N).
    - specialize (IH (a ++ [e])). rewrite <- app_assoc in IH. specialize (IH Hd). rewrite app_length, Nat.add_comm in IH. cbn [length Nat.add] in IH.
      replace (base (a ++ [e])) with (base a + node_count e)%nat in IH; [exact IH|].
      unfold base, total_nodes. rewrite map_app, list_sum_app. cbn. lia. }
  exact (H [] ds eq_refl).
Qed.

Lemma edges_begin es : begins_none ["rect"; "line"; "circle"]%string (flat_map edge_elems es).
Proof.
  induction es as [|e es IH]; [exact I|]. cbn [flat_map]. unfold edge_elems at 1. unfold draw_edge.
  destruct (e_path e) as [[|p [|q ps]]|]; try exact IH. destruct (path_commands _); [|exact IH]. cbn [app begins_none].
  unfold setc, setf. rewrite !name_set. intros [H|[H|[H|[]]]]; discriminate H.
Qed.

Theorem tables_read_off m m' svg : render_module m = Okay svg -> render_module m' = Okay svg -> definitions (m_entries m) = definitions (m_entries m').
Proof.
  intros R R'. unfold render_module in R, R'. destruct (layout_module m) as [[[vb g] d]|] eqn:L; [|discriminate]. destruct (layout_module m') as [[[vb' g'] d']|] eqn:L'; [|discriminate].
  destruct (layout_ported m vb g d L) as (E & N & _). destruct (layout_ported m' vb' g' d' L') as (E' & N' & _).
  apply render_okay in R as [_ ->]. apply render_okay in R' as [_ Q]. unfold picture in Q. cbn [debug_part] in Q. rewrite !app_nil_r in Q. injection Q as _ _ Q.
  rewrite !(flat_map_concat_map (record_elems _)) in Q.
  exact (proj1 (tables_read _ _ (tables_of _ _ _ N) _ _ _ _ (tables_of _ _ _ N') (edges_begin _) (edges_begin _) Q)).
Qed.

(** ** Relations *)
Lemma digit_point s f t : Forall digit s -> Forall digit t -> s ++ 46%N :: f <> t.
Proof. intros _ D E. rewrite <- E, Forall_app in D. destruct D as [_ D]. apply Forall_inv in D. unfold digit in D. lia. Qed.
Lemma point_split s t : forall f g, Forall digit s -> Forall digit t -> s ++ 46%N :: f = t ++ 46%N :: g -> s = t /\ f = g.
Proof.
  revert t. induction s as [|c s IH]; intros [|c' t] f g D D' E; cbn [app] in E.
  - injection E as E. auto.
  - injection E as <- _. apply Forall_inv in D'. unfold digit in D'. lia.
  - injection E as -> _. apply Forall_inv in D. unfold digit in D. lia.
  - injection E as <- E2. destruct (IH t f g (Forall_inv_tail D) (Forall_inv_tail D') E2) as [-> ->]. auto.
Qed.
Lemma denotes_pos_one s x y : denotes_pos s x -> denotes_pos s y -> x = y.
Proof.
  intros A B. inversion A as [s1 N1 D1|s1 f1 N1 M1 D1 G1]; subst; inversion B as [s2 N2 D2|s2 f2 N2 M2 D2 G2]; subst.
  - reflexivity.
  - exfalso. eapply digit_point; [exact D2|exact D1|reflexivity].
  - exfalso. eapply digit_point; [exact D1|exact D2|reflexivity].
  - destruct (point_split _ _ _ _ D2 D1 H) as [-> ->]. reflexivity.
Qed.
Lemma denotes_one s x y : denotes s x -> denotes s y -> x = y.
Proof.
  assert (M : forall t z, denotes_pos t z -> match t with 45%N :: _ => False | _ => True end).
  { intros t z P. assert (H : exists c l, t = c :: l /\ digit c).
    { destruct P as [t N D|t f N _ D _]; destruct t as [|c l]; [congruence| |congruence|]; exists c; eexists; (split; [reflexivity|]); now apply Forall_inv in D. }
    destruct H as (c & l & -> & D). unfold digit in D. destruct c as [|c]; [lia|]. do 6 (try destruct c as [c|c|]); try exact I; lia. }
  intros A B. inversion A as [s1 x1 P1|s1 x1 P1]; subst; inversion B as [s2 x2 P2|s2 x2 P2]; subst.
  - exact (denotes_pos_one _ _ _ P1 P2).
  - exfalso. exact (M _ _ P1).
  - exfalso. exact (M _ _ P2).
  - f_equal. exact (denotes_pos_one _ _ _ P1 P2).
Qed.
Lemma half_attr_one n k z w : half_attr n k z -> half_attr n k w -> z = w.
Proof.
  intros (v & (I & U) & D) (v' & (I' & _) & D'). rewrite (U _ I') in D'. pose proof (denotes_one _ _ _ D D') as E. apply eq_IZR. lra.
Qed.

(** The paths of the picture are its connections. *)
Lemma front_equal (f f' : list svg_node) ps ps' : flat_map (elements "path") f = [] -> flat_map (elements "path") f' = [] ->
  match ps with [] => True | x :: _ => svg_name x = lit "path" end -> match ps' with [] => True | x :: _ => svg_name x = lit "path" end ->
  (forall x, svg_name x = lit "path" -> elements "path" x <> []) -> f ++ ps = f' ++ ps' -> f = f' /\ ps = ps'.
Proof.
  intros N N' P P' H. revert f' N'. induction f as [|x f IH]; intros [|y f'] N' E; cbn [app] in E.
  - auto.
  - exfalso. subst ps. cbn [flat_map] in N'. apply app_eq_nil in N' as [N' _]. exact (H _ P N').
  - exfalso. subst ps'. cbn [flat_map] in N. apply app_eq_nil in N as [N _]. exact (H _ P' N).
  - injection E as -> E. cbn [flat_map] in N, N'. apply app_eq_nil in N as [_ N]. apply app_eq_nil in N' as [_ N'].
    destruct (IH N f' N' E) as [-> ->]. auto.
Qed.
Lemma path_element x : svg_name x = lit "path" -> elements "path" x <> [].
Proof.
  destruct x as [n a c|t]; [|intros H; discriminate H]. cbn [svg_name]. intros ->. unfold elements. cbn. discriminate.
Qed.
Lemma parts_begin hs ls parts : Forall2 (connection hs) ls parts -> match concat parts with [] => True | x :: _ => svg_name x = lit "path" end.
Proof.
  destruct 1 as [|pq l ls parts (zs & a & b & path & c1 & c2 & d & cs & -> & _ & _ & _ & _ & _ & _ & (N & _) & _) F]; [exact I|]. exact N.
Qed.

Lemma parts_read hs : (forall i, (i < length hs)%nat -> (1 <= nth i hs 0)%nat) ->
  forall ls parts, Forall2 (connection hs) ls parts -> forall ls' parts', Forall2 (connection hs) ls' parts' ->
  (forall p q, In (p, q) ls -> anchor_ok hs (end_of p) /\ anchor_ok hs (end_of q)) ->
  (forall p q, In (p, q) ls' -> anchor_ok hs (end_of p) /\ anchor_ok hs (end_of q)) ->
  concat parts = concat parts' -> Forall2 (fun a b => touching hs (fst a) (fst b) /\ touching hs (snd a) (snd b)) ls ls'.
Proof.
  intros H1. induction 1 as [|[p q] l ls parts C F IH]; intros ls' parts' F' K K' E; destruct F' as [|[p' q'] l' ls' parts' C' F'].
  - constructor.
  - exfalso. destruct C' as (zs & a & b & path & c1 & c2 & d & cs & -> & _). discriminate E.
  - exfalso. destruct C as (zs & a & b & path & c1 & c2 & d & cs & -> & _). discriminate E.
  - destruct C as (zs & a & b & path & c1 & c2 & d & cs & -> & _ & _ & _ & Sa & Sb & _ & _ & _ & _ & Ci).
    destruct C' as (zs' & a' & b' & path' & c1' & c2' & d' & cs' & -> & _ & _ & _ & Sa' & Sb' & _ & _ & _ & _ & Ci').
    cbn [concat app] in E. injection E as <- <- <- E.
    assert (Q : forall c z z', shape c "circle" [("cx", fst z); ("cy", snd z); ("r", 8); ("stroke-width", 3)]%string%Z [("stroke", lit "#888888"); ("fill", lit "#1C1C1C")]%string ->
      shape c "circle" [("cx", fst z'); ("cy", snd z'); ("r", 8); ("stroke-width", 3)]%string%Z [("stroke", lit "#888888"); ("fill", lit "#1C1C1C")]%string -> z = z').
    { intros c [x y] [x' y'] (_ & _ & A & _) (_ & _ & B & _). cbn [fst snd] in *.
      rewrite (half_attr_one c "cx" x x'), (half_attr_one c "cy" y y'); [reflexivity|apply A|apply B|apply A|apply B]; cbn; auto. }
    assert (a' = a) as -> by (symmetry; apply (Q c1); [apply Ci|apply Ci']; cbn; auto).
    assert (b' = b) as -> by (symmetry; apply (Q c2); [apply Ci|apply Ci']; cbn; auto).
    assert (T : forall p p' z, anchor_ok hs (end_of p) -> anchor_ok hs (end_of p') -> side_of hs p z -> side_of hs p' z -> touching hs p p').
    { intros p0 p0' z A A' S S'. apply NNPP. intros NT. apply (apart_iff hs p0 p0' H1 A A') in NT. exact (NT z (conj S S')). }
    destruct (K p q (or_introl eq_refl)) as [Kp Kq]. destruct (K' p' q' (or_introl eq_refl)) as [Kp' Kq']. cbn [fst snd] in *.
    constructor; [cbn [fst snd]; split; eapply T; eassumption|].
    apply (IH ls' parts' F'); [intros; apply K; now right|intros; apply K'; now right|exact E].
Qed.

Lemma rows_positive m i : (i < length (table_rows m))%nat -> (1 <= nth i (table_rows m) 0)%nat.
Proof.
  unfold table_rows. rewrite map_length. intros L. rewrite nth_indep with (d' := S (length (ent_fields (mkEntity [] [])))) by now rewrite map_length.
  rewrite map_nth with (f := fun e => S (length (ent_fields e))). lia.
Qed.

Theorem relations_read_off m m' svg ls ls' : fits (table_rows m) -> render_module m = Okay svg -> render_module m' = Okay svg ->
  links [] (m_entries m) ls -> links [] (m_entries m') ls' ->
  Forall2 (fun a b => touching (table_rows m) (fst a) (fst b) /\ touching (table_rows m) (snd a) (snd b)) ls ls'.
Proof.
  intros F R R' L L'. pose proof (tables_read_off m m' svg R R') as D.
  assert (T : table_rows m' = table_rows m) by (unfold table_rows; now rewrite D).
  destruct (module_links m svg F R) as (ls1 & L1 & _ & front & parts & C & N & P). rewrite (links_unique _ _ _ L1 _ L) in P.
  destruct (module_links m' svg ltac:(now rewrite T) R') as (ls2 & L2 & _ & front' & parts' & C' & N' & P'). rewrite (links_unique _ _ _ L2 _ L'), T in P'.
  rewrite C in C'. destruct (front_equal _ _ _ _ N N' (parts_begin _ _ _ P) (parts_begin _ _ _ P') path_element C') as [_ E].
  refine (parts_read _ (rows_positive m) _ _ P _ _ P' _ _ E).
  - apply (links_ok m _ _ _ L). exists []. now rewrite app_nil_r.
  - rewrite <- T. apply (links_ok m' _ _ _ L'). exists []. now rewrite app_nil_r.
Qed.

(** Between fields, places that touch are the same. *)
Lemma fields_rows ds es ls : links ds es ls -> (forall r, In (ERel r) es -> fields_joined r) ->
  forall p q, In (p, q) ls -> (exists i k, p = Row i k) /\ (exists j l, q = Row j l).
Proof.
  induction 1 as [ds|ds e es l L IH|ds r es l p q P Q L IH|ds r es l Dr L IH]; intros H p' q' I.
  - contradiction.
  - apply IH; [intros r Ir; apply H; now right|exact I].
  - destruct I as [I|I].
    + injection I as <- <-. destruct (H r (or_introl eq_refl)) as (x & y & u & v & E1 & E2 & _). rewrite E1 in P. rewrite E2 in Q.
      inversion P; subst. inversion Q; subst. eauto 6.
    + apply IH; [intros r' Ir; apply H; now right|exact I].
  - apply IH; [intros r' Ir; apply H; now right|exact I].
Qed.
Theorem field_relations_read_off m m' svg ls ls' : fits (table_rows m) -> render_module m = Okay svg -> render_module m' = Okay svg ->
  (forall r, In (ERel r) (m_entries m ++ m_entries m') -> fields_joined r) ->
  links [] (m_entries m) ls -> links [] (m_entries m') ls' -> ls = ls'.
Proof.
  intros F R R' H L L'. pose proof (relations_read_off m m' svg ls ls' F R R' L L') as T.
  pose proof (fields_rows _ _ _ L ltac:(intros r I; apply H, in_app_iff; now left)) as A.
  pose proof (fields_rows _ _ _ L' ltac:(intros r I; apply H, in_app_iff; now right)) as B.
  clear - T A B. induction T as [|[p q] [p' q'] ls ls' [T1 T2] T IH]; [reflexivity|]. f_equal.
  - destruct (A p q (or_introl eq_refl)) as ((i & k & ->) & j & l & ->). destruct (B p' q' (or_introl eq_refl)) as ((i' & k' & ->) & j' & l' & ->).
    cbn in T1, T2. destruct T1 as [-> ->], T2 as [-> ->]. reflexivity.
  - apply IH; intros; [apply A|apply B]; now right.
Qed.

(** ** Texts *)
Scheme shows_ind2 := Minimality for shows Sort Prop
  with shows_all_ind2 := Minimality for shows_all Sort Prop.
Combined Scheme showing_ind from shows_ind2, shows_all_ind2.
Lemma showing_one : (forall x e, shows x e -> forall f, shows x f -> e = f) /\ (forall l c, shows_all l c -> forall k, shows_all l k -> c = k).
Proof.
  apply showing_ind.
  - intros n a f H. inversion H as [| |? ? ? c Nc Sc]; subst; [reflexivity|]. inversion Sc.
  - intros n a s f H. inversion H as [|? ? s' Es|? ? ? c Nc Sc]; subst.
    + match goal with Q : _ = _ |- _ => apply app_inv_tail in Q; now subst end.
    + inversion Sc; subst; congruence.
  - intros n a l c Nc Sc IH f H. inversion H as [|? ? s' Es|? ? ? c' Nc' Sc']; subst.
    + inversion Sc.
    + inversion Sc; subst; congruence.
    + f_equal. now apply IH.
  - intros k H. inversion H; subst. reflexivity.
  - intros x l e c Sx IHx Sl IHl k H. inversion H as [|? ? e' c' Sx' Sl']; subst. f_equal; [now apply IHx|now apply IHl].
Qed.

(** The text formatter escapes or all names need no escaping. *)
Theorem sources_read_off src src' r r' m m' : parse src = Ret r -> pr_ast r = Some m -> parse src' = Ret r' -> pr_ast r' = Some m' ->
  (names_are readable m -> names_are readable m' -> ending (main escaped src) = Ret tt -> ending (main escaped src') = Ret tt ->
   stdout (main escaped src) = stdout (main escaped src') -> exists svg, render_module m = Okay svg /\ render_module m' = Okay svg) /\
  (names_are (fun s => readable s /\ harmless s) m -> names_are (fun s => readable s /\ harmless s) m' ->
   ending (main (fun s => s) src) = Ret tt -> ending (main (fun s => s) src') = Ret tt ->
   stdout (main (fun s => s) src) = stdout (main (fun s => s) src') -> exists svg, render_module m = Okay svg /\ render_module m' = Okay svg).
Proof.
  intros P A P' A'. split; intros N N' E E' O.
  - destruct (proj1 (program_reads_back src r m P A) N E) as (svg & x & R & X & S). destruct (proj1 (program_reads_back src' r' m' P' A') N' E') as (svg' & x' & R' & X' & S').
    rewrite O in X. rewrite (reads_once _ _ _ X X') in S. rewrite (proj1 showing_one _ _ S _ S') in R. eauto.
  - destruct (proj2 (program_reads_back src r m P A) N E) as (svg & x & R & X & S). destruct (proj2 (program_reads_back src' r' m' P' A') N' E') as (svg' & x' & R' & X' & S').
    rewrite O in X. rewrite (reads_once _ _ _ X X') in S. rewrite (proj1 showing_one _ _ S _ S') in R. eauto.
Qed.

(** ** A table and its middle row *)
Definition by_table : str := lit "erd { a { x int; y int }; b { x int }; a. o--o b.x }".
Definition by_row : str := lit "erd { a { x int; y int }; b { x int }; a.x o--o b.x }".
Definition ast_of (s : str) : option module := match parse s with Ret r => match pr_lex_errs r, pr_parse_errs r with [], [] => pr_ast r | _, _ => None end | _ => None end.
Definition two_defs : list module_entry :=
  [EDef (mkEntity (lit "a") [mkField (lit "x") TInt None; mkField (lit "y") TInt None]); EDef (mkEntity (lit "b") [mkField (lit "x") TInt None])].
Definition table_module : module := mkModule None (two_defs ++ [ERel (mkRelation (PEntity (lit "a")) (PField (lit "b") (lit "x")))]).
Definition row_module : module := mkModule None (two_defs ++ [ERel (mkRelation (PField (lit "a") (lit "x")) (PField (lit "b") (lit "x")))]).
Lemma ast_accepted s m : ast_of s = Some m -> accepted s m.
Proof.
  unfold ast_of, accepted. destruct (parse s) as [r|]; [|intros H; discriminate H]. destruct (pr_lex_errs r) eqn:E1; [|intros H; discriminate H].
  destruct (pr_parse_errs r) eqn:E2; [|intros H; discriminate H]. intros H. eauto 6.
Qed.
Lemma refers_field ds n f i e k : latest ds (fun e => ent_name e = n /\ In f (map f_name (ent_fields e))) i e -> last_field e f k -> refers ds (PField n f) (Row i (S k)).
Proof. intros. eapply refers_row; eassumption. Qed.
Theorem middle_rows_alike : exists src src' m m' ls ls', accepted src m /\ accepted src' m' /\
  ending (main escaped src) = Ret tt /\ main escaped src = main escaped src' /\
  links [] (m_entries m) ls /\ links [] (m_entries m') ls' /\ ls <> ls'.
Proof.
  exists by_table, by_row, table_module, row_module, [(Table 0, Row 1 1)], [(Row 0 1, Row 1 1)].
  split; [apply ast_accepted; vm_compute; reflexivity|]. split; [apply ast_accepted; vm_compute; reflexivity|].
  split; [vm_compute; reflexivity|]. split; [vm_compute; reflexivity|].
  assert (B : forall ds, ds = definitions two_defs -> refers ds (PField (lit "b") (lit "x")) (Row 1 1)).
  { intros ds ->. eapply refers_field.
    - split; [reflexivity|]. split; [split; [reflexivity|now left]|]. intros j e' Lj Nj. destruct j as [|[|[|j]]]; try lia; discriminate Nj.
    - split; [eexists; split; reflexivity|]. intros [|[|k]] f L Nk; [inversion L|discriminate Nk|destruct k; discriminate Nk]. }
  split; [|split; [|discriminate]].
  - apply links_def, links_def. cbn [app]. apply links_rel; [|now apply B|constructor]. econstructor. split; [reflexivity|]. split; [reflexivity|].
    intros j e' Lj Nj. destruct j as [|[|[|j]]]; try lia; [|discriminate Nj|discriminate Nj]. injection Nj as <-. intros H. discriminate H.
  - apply links_def, links_def. cbn [app]. apply links_rel; [|now apply B|constructor]. eapply refers_field.
    + split; [reflexivity|]. split; [split; [reflexivity|now left]|]. intros j e' Lj Nj. destruct j as [|[|[|j]]]; try lia; [|discriminate Nj|discriminate Nj]. injection Nj as <-. intros [H _]. discriminate H.
    + split; [eexists; split; reflexivity|]. intros [|[|k]] f L Nk; [inversion L| |destruct k; discriminate Nk]. injection Nk as <-. intros H. discriminate H.
Qed.

Theorem outputs_read_off src src' r r' m m' : parse src = Ret r -> pr_ast r = Some m -> parse src' = Ret r' -> pr_ast r' = Some m' ->
  names_are readable m -> names_are readable m' -> ending (main escaped src) = Ret tt -> ending (main escaped src') = Ret tt ->
  stdout (main escaped src) = stdout (main escaped src') -> definitions (m_entries m) = definitions (m_entries m') /\
  (fits (table_rows m) -> forall ls ls', links [] (m_entries m) ls -> links [] (m_entries m') ls' ->
   Forall2 (fun a b => touching (table_rows m) (fst a) (fst b) /\ touching (table_rows m) (snd a) (snd b)) ls ls').
Proof.
  intros P A P' A' N N' E E' O. destruct (proj1 (sources_read_off src src' r r' m m' P A P' A') N N' E E' O) as (svg & R & R').
  split; [exact (tables_read_off m m' svg R R')|]. intros F ls ls'. exact (relations_read_off m m' svg ls ls' F R R').
Qed.
Theorem plain_outputs_read_off src src' r r' m m' : parse src = Ret r -> pr_ast r = Some m -> parse src' = Ret r' -> pr_ast r' = Some m' ->
  names_are (fun s => readable s /\ harmless s) m -> names_are (fun s => readable s /\ harmless s) m' ->
  ending (main (fun s => s) src) = Ret tt -> ending (main (fun s => s) src') = Ret tt ->
  stdout (main (fun s => s) src) = stdout (main (fun s => s) src') -> definitions (m_entries m) = definitions (m_entries m') /\
  (fits (table_rows m) -> forall ls ls', links [] (m_entries m) ls -> links [] (m_entries m') ls' ->
   Forall2 (fun a b => touching (table_rows m) (fst a) (fst b) /\ touching (table_rows m) (snd a) (snd b)) ls ls').
Proof.
  intros P A P' A' N N' E E' O. destruct (proj2 (sources_read_off src src' r r' m m' P A P' A') N N' E E' O) as (svg & R & R').
  split; [exact (tables_read_off m m' svg R R')|]. intros F ls ls'. exact (relations_read_off m m' svg ls ls' F R R').
Qed.
