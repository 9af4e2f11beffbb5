(** Which relations of a module are drawn without turning around. *)
From Coq Require Import String List Arith NArith ZArith Bool Lia Classical_Prop Classical_Pred_Type.
From Verif Require Import Base F32 Geometry Mir Erd Route Layout Svg Render Parser Cli SpecMir SpecF32 SpecGeom SpecLayout SpecRoute SpecGraph SpecRender SpecCrash SpecLink SpecEnds
  GeomFacts MirFacts PlaceFacts GridFacts LayoutFacts RenderFacts PipelineFacts PathFacts LatticeFacts DrawFacts OrderFacts RowFacts LineFacts MidFacts TurnFacts CalmFacts ColumnFacts TableFacts LinkFacts.
From Verif Require ConnectFacts.
Import ListNotations.
Local Open Scope Z_scope.

Definition end_of (p : place) : anchor := match p with Table i => table_end i | Row i k => row_end i k end.

Lemma node_end m d p id : into_mir m = Ret d -> fits (table_rows m) -> node_of (definitions (m_entries m)) p id ->
  anchor_ok (table_rows m) (end_of p) -> exists n, get_node (place_terminal_ports (fst (place_nodes d))) id = Some n /\ has_ports (table_rows m) (end_of p) (n_ports n).
Proof.
  intros M F H Ok. destruct (mir_doc m d M) as (E & Hd). destruct p as [i|i k]; cbn [node_of end_of] in *.
  - destruct H as (a & e & c & Ha & L & ->). apply table_end_ports; [exact M|exact F| |apply Ok].
    rewrite <- L. apply (table_id_at (definitions (m_entries m)) E d a e c); [subst d; apply shape_refl|exact Ha].
  - destruct H as (a & e & c & Ha & L & K & ->). apply row_end_ports; [exact M|exact F| |apply Ok|apply Ok].
    exists (record_at (base a) e), (record_node (base a) e). split.
    + rewrite <- L. apply (table_id_at (definitions (m_entries m)) E d a e c); [subst d; apply shape_refl|exact Ha].
    + split; [subst d; exact (get_record _ E a e c Ha)|]. cbn [record_node n_children]. apply nth_seq. exact K.
Qed.

Lemma refers_ok m ds more p pl : definitions (m_entries m) = ds ++ more -> refers ds p pl -> anchor_ok (table_rows m) (end_of pl).
Proof.
  intros E H. assert (T : forall i e, nth_error ds i = Some e -> (i < length (table_rows m))%nat /\ nth i (table_rows m) 0%nat = S (length (ent_fields e))).
  { intros i e N. rewrite hs_module, E. assert (N' : nth_error (ds ++ more) i = Some e) by (rewrite nth_error_app1; [exact N|apply nth_error_Some; congruence]).
    apply nth_error_split in N' as (a & c & E' & <-). rewrite E', (nth_hs _ a e c eq_refl), hs_length, app_length. cbn. unfold rows. lia. }
  destruct H as [name i e (N & _)|name field i e k (N & _) ((f & K & _) & _)]; destruct (T i e N) as (L & C); cbn [end_of]; (split; [exact L|]); [exact I|].
  assert (k < length (ent_fields e))%nat by (apply nth_error_Some; congruence). lia.
Qed.
Lemma links_ok m : forall ds es ls, links ds es ls -> (exists more, definitions (m_entries m) = ds ++ definitions es ++ more) ->
  forall p q, In (p, q) ls -> anchor_ok (table_rows m) (end_of p) /\ anchor_ok (table_rows m) (end_of q).
Proof.
  intros ds es ls L. induction L as [ds|ds e es l L IH|ds r es l p q P Q L IH|ds r es l D L IH]; intros (more & E) p' q' I.
  - contradiction.
  - apply IH; [|exact I]. exists more. rewrite E. cbn [definitions]. now rewrite <- app_assoc.
  - cbn [definitions] in E. destruct I as [I|I]; [|apply IH; [exists more; exact E|exact I]]. injection I as <- <-.
    split; eapply refers_ok; eauto.
  - cbn [definitions] in E. apply IH; [exists more; exact E|exact I].
Qed.

Lemma forall2_along {A B C} (P : A -> B -> Prop) (Q : B -> C -> Prop) (S : A -> C -> Prop) l1 l2 l3 : Forall2 P l1 l2 -> Forall2 Q l2 l3 ->
  (forall a b c, In c l3 -> P a b -> Q b c -> S a c) -> Forall2 S l1 l3.
Proof.
  intros H. revert l3. induction H as [|a b l1 l2 Hab H IH]; intros l3 H3 K; inversion H3 as [|? c ? l3' Hbc H3']; subst; constructor.
  - eapply K; [now left|exact Hab|exact Hbc].
  - apply IH; [exact H3'|]. intros. eapply K; [now right| |]; eassumption.
Qed.

Lemma forall2_in_l {A B} (P : A -> B -> Prop) l l' a : Forall2 P l l' -> In a l -> exists b, In b l' /\ P a b.
Proof.
  intros H I. apply In_nth_error in I as (i & I). destruct (forall2_nth_l _ _ _ H i a I) as (b & N & K). exists b. split; [exact (nth_error_In _ _ N)|exact K].
Qed.

(** Edges and the places they join. *)
Lemma links_edges m vb g d ls : fits (table_rows m) -> layout_module m = Ret (vb, g, d) -> links [] (m_entries m) ls ->
  exists d0, into_mir m = Ret d0 /\ let d2 := place_terminal_ports (fst (place_nodes d0)) in
  Forall2 (fun pq e => In e (d_edges d) /\ In pq ls /\ exists s t, get_node d2 (e_source e) = Some s /\ get_node d2 (e_target e) = Some t /\
    has_ports (table_rows m) (end_of (fst pq)) (n_ports s) /\ has_ports (table_rows m) (end_of (snd pq)) (n_ports t)) ls (d_edges d).
Proof.
  intros F L Ll. destruct (layout_routes m vb g d F L) as (d0 & M & V & D & Rt). exists d0. split; [exact M|]. cbn zeta.
  destruct (draw_split _ _ _ _ D) as (_ & N & F2). rewrite (module_edges m d0 M) in F2.
  pose proof (proj2 (into_mir_edges m d0 M (d_edges d0)) eq_refl) as Eo.
  destruct (edges_links [] (m_entries m) _ Eo) as (ls' & Ll' & Fl). cbn [app definitions] in Ll', Fl.
  rewrite (links_unique _ _ _ Ll' _ Ll) in Fl. clear ls' Ll'.
  assert (H : Forall2 (fun pq e => In e (d_edges d) /\ node_of (definitions (m_entries m)) (fst pq) (e_source e) /\
                       node_of (definitions (m_entries m)) (snd pq) (e_target e)) ls (d_edges d)).
  { eapply forall2_along; [exact Fl|exact F2|]. intros pq e0 e I [Np Nq] [[S1 S2] _]. split; [exact I|]. rewrite S1, S2. auto. }
  eapply forall2_weaken; [exact H|]. intros [p q] e I (Ie & Np & Nq). cbn [fst snd] in *.
  destruct (links_ok m _ _ _ Ll ltac:(exists []; cbn; now rewrite app_nil_r) p q I) as [Op Oq].
  destruct (node_end m d0 p _ M F Np Op) as (s & Gs & Ps). destruct (node_end m d0 q _ M F Nq Oq) as (t & Gt & Pt).
  split; [exact Ie|]. split; [exact I|]. eauto 8.
Qed.

Theorem rows_calm m vb g d ls : fits (table_rows m) -> layout_module m = Ret (vb, g, d) -> links [] (m_entries m) ls ->
  Forall2 (fun pq e => forall i k j l, pq = (Row i k, Row j l) -> Row i k <> Row j l -> calm_path e) ls (d_edges d).
Proof.
  intros F L Ll. destruct (links_edges m vb g d ls F L Ll) as (d0 & M & H). cbn zeta in H.
  eapply forall2_weaken; [exact H|]. intros pq e _ (Ie & _ & s & t & Gs & Gt & Ps & Pt) i k j l -> Ne. cbn [fst snd end_of] in *.
  apply (row_calm m vb g d d0 F L M e s t i k j l Ie Gs Gt Ps Pt). congruence.
Qed.

(** ** Ends with a side in common *)

Lemma place_sides hs p z : anchor_ok hs (end_of p) ->
  (side_of hs p z <-> exists o, In o (anchor_sides hs (end_of p)) /\ z = (side_x (tab (end_of p)) o, side_y hs (end_of p) o)).
Proof.
  intros [L K]. destruct p as [i|i k]; cbn [side_of end_of anchor_sides tab] in *.
  - assert (E : forall o, side_midpoint (table_left i) (table_top hs i) 300 (table_height hs i) o = (side_x i o, side_y hs (table_end i) o)).
    { intros o. destruct o; unfold side_midpoint, side_x, side_y, rowY, tab, zl, zt, zb, table_height; f_equal; lia. }
    split; [intros (o & ->); exists o; split; [destruct o; cbn; auto|apply E]|intros (o & _ & ->); exists o; symmetry; apply E].
  - assert (E : forall o, In o (row_sides (nth i hs 0%nat) k) ->
      side_midpoint (table_left i) (table_top hs i + 35 * Z.of_nat k) 300 35 o = (side_x i o, side_y hs (row_end i k) o)).
    { intros o I. apply row_sides_in in I; [|exact K]. destruct I as [-> | [-> | [-> Z]]]; unfold side_midpoint, side_x, side_y, rowY, tab, zl, zt, zb, table_height; f_equal; try (unfold zt; lia); rewrite <- Z; unfold zt; lia. }
    split; intros (o & I & ->); exists o; (split; [exact I|]); [|symmetry]; now apply E.
Qed.

(** Which ends have a side in common. *)
Lemma rows_within hs a : (1 <= nth (tab a) hs 0)%nat -> anchor_ok hs a -> zt hs (tab a) + 35 <= rowY hs a <= zb hs (tab a) - 35.
Proof. intros H [L K]. rewrite (zb_rows hs). destruct a as [t k|t]; cbn [tab rowY] in *; lia. Qed.
Lemma apart_iff hs p q : (forall i, (i < length hs)%nat -> (1 <= nth i hs 0)%nat) -> anchor_ok hs (end_of p) -> anchor_ok hs (end_of q) ->
  (apart hs p q <-> ~ touching hs p q).
Proof.
  intros H1 Kp Kq. split.
  - intros Ap T. assert (X : exists o, In o (anchor_sides hs (end_of p)) /\ In o (anchor_sides hs (end_of q)) /\
      side_x (tab (end_of p)) o = side_x (tab (end_of q)) o /\ side_y hs (end_of p) o = side_y hs (end_of q) o).
    { destruct p as [i|i k], q as [j|j l]; cbn [touching] in T.
      - subst j. exists Up. cbn. auto.
      - destruct T as (-> & [E|E]).
        + exists Down. rewrite !sides_in by assumption. cbn [end_of low tab side_x side_y]. auto 8.
        + exists Right. rewrite !sides_in by assumption. cbn [end_of tab side_x side_y rowY]. rewrite <- E. split; [auto|]. split; [auto|]. split; [reflexivity|lia].
      - destruct T as (-> & [E|E]).
        + exists Down. rewrite !sides_in by assumption. cbn [end_of low tab side_x side_y]. auto 8.
        + exists Right. rewrite !sides_in by assumption. cbn [end_of tab side_x side_y rowY]. rewrite <- E. split; [auto|]. split; [auto|]. split; [reflexivity|lia].
      - destruct T as (-> & ->). exists Right. rewrite !sides_in by assumption. auto. }
    destruct X as (o & Ip & Iq & EX & EY). apply (Ap (side_x (tab (end_of p)) o, side_y hs (end_of p) o)).
    split; apply place_sides; auto; [eauto|]. exists o. split; [exact Iq|congruence].
  - intros T z [S1 S2]. apply T. clear T. apply place_sides in S1; [|exact Kp]. apply place_sides in S2; [|exact Kq].
    destruct S1 as (o & Io & ->), S2 as (o' & Io' & E). injection E as EX EY.
    apply sides_in in Io; [|exact Kp]. apply sides_in in Io'; [|exact Kq].
    pose proof (zl_cases (tab (end_of p))) as Zp. pose proof (zl_cases (tab (end_of q))) as Zq.
    pose proof (H1 _ (proj1 Kp)) as Hp. pose proof (H1 _ (proj1 Kq)) as Hq.
    pose proof (rows_within hs _ Hp Kp) as Wp. pose proof (rows_within hs _ Hq Kq) as Wq.
    assert (Ez : zl (tab (end_of p)) = zl (tab (end_of q))) by (clear - EX Zp Zq; destruct o, o'; unfold side_x in EX; lia).
    assert (Et : tab (end_of p) = tab (end_of q)).
    { destruct (col_apart hs _ _ Ez) as [Et|Q]; [exact Et|exfalso]. clear - EY Q Wp Wq. destruct o, o'; unfold side_y in EY; lia. }
    assert (o' = o) as ->.
    { clear - EX EY Et Ez Wp Wq. rewrite Et in *. destruct o, o'; unfold side_x, side_y in *; try reflexivity; exfalso; rewrite ?Et in *; lia. }
    destruct p as [i|i k], q as [j|j l]; cbn [touching end_of tab low high] in *; subst; auto.
    + split; [reflexivity|]. destruct Io' as [-> | [-> | [[-> E]|[_ []]]]]; cbn [side_y rowY] in EY; [right|right|left; exact E]; lia.
    + split; [reflexivity|]. destruct Io as [-> | [-> | [[-> E]|[_ []]]]]; cbn [side_y rowY] in EY; [right|right|left; exact E]; lia.
    + split; [reflexivity|]. destruct Io as [-> | [-> | [[-> E]|[_ []]]]]; cbn [side_y rowY] in EY; [lia|lia|]. destruct Io' as [Q|[Q|[[_ E']|[_ []]]]]; try discriminate; lia.
Qed.

Section Doc.
Variables (d : document) (hs : list nat).
Hypothesis FD : end_doc d hs.
Let GD := ed_grid d hs FD.
Variable g : route_graph.
Hypothesis R : ConnectFacts.routes d hs g.

Lemma edge_dear a b : joined (rg_edges g) a b -> (0 < rg_cost (rg_nodes g) a b)%N.
Proof.
  intros J. destruct (joined_spots d hs g R a b J) as (X1 & Y1 & X2 & Y2 & o & u & A & B).
  destruct (spot_five d hs FD g R a _ _ _ A) as ((k & E1) & (k1 & E2)). destruct (spot_five d hs FD g R b _ _ _ B) as ((l & E3) & (l1 & E4)).
  destruct (edge_straight d hs g R a b _ _ _ _ _ _ J A B) as [(E & Ne)|Q].
  - rewrite <- E in B. clear E4. pose proof (cost_h d hs FD g R a b _ _ _ _ _ A B) as C. cbv zeta in C. lia.
  - assert (E : X1 = X2) by (clear - Q; lia). rewrite <- E in B. pose proof (cost_v d hs FD g R a b _ _ _ _ _ A B) as C.
    assert (N : k1 <> l1) by (clear - Q E2 E4; lia). rewrite E2, E4 in C.
    pose proof (half_le (Z.abs (5 * k1 - 5 * l1)) ltac:(lia)) as H. clear - C H N. lia.
Qed.

Lemma apart_stop p q : end_at d hs (end_of p) -> end_at d hs (end_of q) ->
  (apart hs p q <-> forall a, stop hs g (end_of p) a -> stop hs g (end_of q) a -> False).
Proof.
  intros Ep Eq. pose proof (end_ok d hs _ Ep) as Kp. pose proof (end_ok d hs _ Eq) as Kq.
  split.
  - intros Ap a (o & Io & A) (o' & Io' & B). destruct (ConnectFacts.spot_place g a _ _ _ _ _ _ A B) as (EX & EY & _).
    apply (Ap (side_x (tab (end_of p)) o, side_y hs (end_of p) o)). split; apply place_sides; auto; [eauto|]. exists o'. split; [exact Io'|congruence].
  - intros N z [S1 S2]. apply place_sides in S1; [|exact Kp]. apply place_sides in S2; [|exact Kq].
    destruct S1 as (o & Io & ->), S2 as (o' & Io' & E). injection E as EX EY.
    assert (o' = o) as ->.
    { pose proof (zl_cases (tab (end_of p))) as Zp. pose proof (zl_cases (tab (end_of q))) as Zq.
      pose proof (row_within d hs FD _ Kp) as Wp. pose proof (row_within d hs FD _ Kq) as Wq. fold GD in Wp, Wq.
      pose proof (table_bounds d hs GD _ (proj1 Kp)) as Bp. pose proof (table_bounds d hs GD _ (proj1 Kq)) as Bq.
      destruct o, o'; unfold side_x, side_y in *; try reflexivity; exfalso; try lia;
        (destruct (col_apart hs (tab (end_of p)) (tab (end_of q)) ltac:(lia)) as [Et|[Q|Q]]; [rewrite Et in *; lia|lia|lia]). }
    destruct (end_port_at d hs _ o Ep Io) as (x & Ix & Ox & Hx).
    destruct (ConnectFacts.rt_port d hs g R x _ _ Ix Hx) as (i & _ & Si). rewrite Ox in Si.
    apply (N i); exists o; (split; [assumption|]); [exact Si|]. now rewrite <- EX, <- EY.
Qed.

(** The cheapest route is a single node when the ends share a side. *)
Lemma best_short s t p q l ps : has_ports hs (end_of p) (n_ports s) -> has_ports hs (end_of q) (n_ports t) ->
  end_at d hs (end_of p) -> end_at d hs (end_of q) -> best_route g s t l -> places g l ps ->
  (length ps = 1%nat <-> ~ apart hs p q) /\ (1 <= length ps)%nat.
Proof.
  intros Hs Ht Es Et ((x0 & y0 & a & b & Ip & Iq & Sp & Sq & W) & Min) Pl.
  pose proof (stands_stop d hs g R _ _ _ _ Hs Ip Sp) as Sa. pose proof (stands_stop d hs g R _ _ _ _ Ht Iq Sq) as Sb.
  rewrite <- (Forall2_length' _ _ _ Pl), (apart_stop p q Es Et).
  destruct (walk_head _ _ _ _ W) as (l' & ->). split; [|cbn; lia]. split.
  - intros E N. destruct l'; [|discriminate]. inversion W as [a' E1 E2 E3|a1 b1 c1 l1 J1 W1 E1 E2 E3].
    + subst b. exact (N a Sa Sb).
    + subst. inversion W1.
  - intros N. apply not_all_ex_not in N as (i & N). assert (Si : stop hs g (end_of p) i /\ stop hs g (end_of q) i) by tauto. destruct Si as [Si Si'].
    destruct (stop_stands hs g _ _ _ Hs Si) as (p' & Ip' & Sp'). destruct (stop_stands hs g _ _ _ Ht Si') as (q' & Iq' & Sq').
    specialize (Min p' q' i i [i] Ip' Iq' Sp' Sq' (walk_here _ _)). cbn [walk_cost] in Min.
    destruct l' as [|b' l']; [reflexivity|exfalso]. inversion W as [|a1 b1 c1 l1 J1 W1 E1 E2 E3]. destruct (walk_head _ _ _ _ W1) as (l2 & E4). injection E4 as -> _.
    pose proof (edge_dear _ _ J1). cbn [walk_cost] in Min. lia.
Qed.
End Doc.

(** ** All relations of a module *)

(** Single points are exactly the paths of ends with a side in common. *)
Theorem short_paths m vb g d ls : fits (table_rows m) -> layout_module m = Ret (vb, g, d) -> links [] (m_entries m) ls ->
  Forall2 (fun pq e => exists ps, e_path e = Some ps /\ (1 <= length ps)%nat /\
    (length ps = 1%nat <-> ~ apart (table_rows m) (fst pq) (snd pq))) ls (d_edges d).
Proof.
  intros F L Ll. destruct (links_edges m vb g d ls F L Ll) as (d0 & M & H). cbn zeta in H.
  destruct (layout_routes m vb g d F L) as (d0' & M' & V & D & R). rewrite M in M'. injection M' as <-.
  destruct (draw_split _ _ _ _ D) as (_ & N & F2).
  eapply forall2_weaken; [exact H|]. intros [p q] e _ (Ie & _ & s & t & Gs & Gt & Ps & Pt). cbn [fst snd] in *.
  destruct (module_cheapest m vb g d F L e Ie) as (s' & t' & l & ps & Gs' & Gt' & Ep & Pl & B).
  destruct (forall2_in_r _ _ _ _ F2 Ie) as (e0 & I0 & (E1 & E2) & _).
  unfold get_node in *. rewrite N, Gs in Gs'. rewrite N, Gt in Gt'. injection Gs' as <-. injection Gt' as <-.
  exists ps. split; [exact Ep|].
  destruct (best_short _ _ (module_ends m d0 M F) g R s t p q l ps Ps Pt) as (Q & Q'); auto.
  - exists e0, (e_source e0), s. unfold get_node. rewrite <- E1. auto.
  - exists e0, (e_target e0), t. unfold get_node. rewrite <- E2. auto.
Qed.

Lemma module_ranked m d : into_mir m = Ret d -> fits (table_rows m) -> ranked (place_terminal_ports (fst (place_nodes d))) (table_rows m).
Proof.
  intros M F. unfold ranked, shape_rects. rewrite (module_body m d M), <- (module_count m d M).
  set (d2 := place_terminal_ports (fst (place_nodes d))).
  assert (T : forall i id, nth_error (body_children d) i = Some id -> exists r, match get_node d2 id with Some n => node_rect n | None => None end = Some r /\
    hrect r (zl i) (zt (table_rows m) i) 600 (zb (table_rows m) i - zt (table_rows m) i)).
  { intros i id I. destruct (module_table m d M F i id I) as (_ & n & r & G & E & X). exists r. fold d2 in G. rewrite G. auto. }
  enough (K : forall l k, (forall i id, nth_error l i = Some id -> exists r, match get_node d2 id with Some n => node_rect n | None => None end = Some r /\
    hrect r (zl (k + i)) (zt (table_rows m) (k + i)) 600 (zb (table_rows m) (k + i) - zt (table_rows m) (k + i))) ->
    Forall2 (fun i r => hrect r (zl i) (zt (table_rows m) i) 600 (zb (table_rows m) i - zt (table_rows m) i)) (seq k (length l))
      (filter_map (fun i => match get_node d2 i with Some n => node_rect n | None => None end) l)) by (apply K; exact T).
  induction l as [|id l IH]; intros k H; [constructor|]. cbn [length seq filter_map].
  destruct (H 0%nat id eq_refl) as (r & -> & X). rewrite Nat.add_0_r in X. constructor; [exact X|]. apply IH. intros i id' I.
  destruct (H (S i) id' I) as (r' & E & X'). exists r'. rewrite <- Nat.add_succ_comm in X'. auto.
Qed.

(** The end a node stands for. *)
Lemma ports_high hs a b ps : has_ports hs a ps -> has_ports hs b ps -> high a -> high b.
Proof.
  intros (Ka & Fa) (Kb & Fb) Ha. assert (I : In Up (anchor_sides hs a)) by (apply sides_in; auto 6).
  apply In_nth_error in I as (j & I). destruct (forall2_nth_l _ _ _ Fa j Up I) as (p & Hp & O & _).
  destruct (forall2_in_r _ _ _ _ Fb (nth_error_In _ _ Hp)) as (o & Io & O' & _). rewrite O in O'. subst o.
  apply sides_in in Io; [|exact Kb]. destruct Io as [Q|[Q|[[Q _]|[_ Q]]]]; try discriminate. exact Q.
Qed.
Lemma ports_low hs a b ps : has_ports hs a ps -> has_ports hs b ps -> low hs a -> low hs b.
Proof.
  intros (Ka & Fa) (Kb & Fb) Ha. assert (I : In Down (anchor_sides hs a)) by (apply sides_in; auto 6).
  apply In_nth_error in I as (j & I). destruct (forall2_nth_l _ _ _ Fa j Down I) as (p & Hp & O & _).
  destruct (forall2_in_r _ _ _ _ Fb (nth_error_In _ _ Hp)) as (o & Io & O' & _). rewrite O in O'. subst o.
  apply sides_in in Io; [|exact Kb]. destruct Io as [Q|[Q|[[_ Q]|[Q _]]]]; try discriminate. exact Q.
Qed.

Lemma ports_column hs a b ps : has_ports hs a ps -> has_ports hs b ps -> zl (tab a) = zl (tab b).
Proof.
  intros (Ka & Fa) (Kb & Fb). assert (I : In Right (anchor_sides hs a)) by (apply sides_in; auto 6).
  apply In_nth_error in I as (j & I). destruct (forall2_nth_l _ _ _ Fa j Right I) as (p & Hp & O & Q).
  destruct (forall2_in_r _ _ _ _ Fb (nth_error_In _ _ Hp)) as (o & Io & O' & Q'). rewrite O in O'. subst o.
  destruct (ConnectFacts.hpoint_unique _ _ _ _ _ Q Q') as [E _]. unfold side_x in E. lia.
Qed.

(** A relation whose ends are apart does not turn if no relation ends in a last row of its column. *)
Theorem column_calm m vb g d ls : fits (table_rows m) -> layout_module m = Ret (vb, g, d) -> links [] (m_entries m) ls ->
  Forall2 (fun pq e => apart (table_rows m) (fst pq) (snd pq) ->
    (forall p q x, In (p, q) ls -> x = p \/ x = q -> zl (tab (end_of x)) = zl (tab (end_of (fst pq))) -> ~ at_bottom (table_rows m) x) -> calm_path e) ls (d_edges d).
Proof.
  intros F L Ll. destruct (links_edges m vb g d ls F L Ll) as (d0 & M & H). cbn zeta in H.
  destruct (layout_routes m vb g d F L) as (d0' & M' & V & D & R). rewrite M in M'. injection M' as <-.
  pose proof (module_ends m d0 M F) as ED. destruct (draw_split _ _ _ _ D) as (_ & N & F2).
  eapply forall2_weaken; [exact H|]. intros [p q] e _ (Ie & _ & s & t & Gs & Gt & Ps & Pt) Ap Hb. cbn [fst snd] in *.
  destruct (forall2_in_r _ _ _ _ F2 Ie) as (e0 & I0 & (E1 & E2) & _).
  assert (Es : end_at (place_terminal_ports (fst (place_nodes d0))) (table_rows m) (end_of p)) by (exists e0, (e_source e0), s; rewrite <- E1; auto).
  assert (Et : end_at (place_terminal_ports (fst (place_nodes d0))) (table_rows m) (end_of q)) by (exists e0, (e_target e0), t; rewrite <- E2; auto).
  pose proof (proj1 (apart_stop _ _ ED g R p q Es Et) Ap) as Ds.
  apply (edge_calm m vb g d d0 F L M e s t _ _ Ie Gs Gt Ps Pt); [|exact Ds].
  assert (St : forall a, end_at (place_terminal_ports (fst (place_nodes d0))) (table_rows m) a -> zl (tab a) = zl (tab (end_of p)) -> low (table_rows m) a -> high a).
  { intros a (e1 & i & n & I1 & Ei & G & Pa) Za La. destruct (forall2_in_l _ _ _ _ F2 I1) as (e' & Ie' & (E1' & E2') & _).
    destruct (forall2_in_r _ _ _ _ H Ie') as ([p' q'] & _ & _ & Ipq & s' & t' & Gs' & Gt' & Ps' & Pt'). cbn [fst snd] in *.
    assert (X : exists x, (x = p' \/ x = q') /\ has_ports (table_rows m) (end_of x) (n_ports n)).
    { destruct Ei as [Ei|Ei]; [exists p'|exists q']; (split; [auto|]); [rewrite Ei, <- E1', Gs' in G|rewrite Ei, <- E2', Gt' in G]; injection G as <-; assumption. }
    destruct X as (x & Xx & Px). pose proof (ports_column _ _ _ _ Px Pa) as Zx. pose proof (Hb p' q' x Ipq Xx ltac:(congruence)) as Bx.
    apply (ports_high _ (end_of x) a (n_ports n) Px Pa).
    pose proof (ports_low _ a (end_of x) (n_ports n) Pa Px La) as Lx. destruct x as [i0|i0 k]; cbn in *; [exact I|contradiction]. }
  apply (fair_settled _ _ ED g R (module_ranked m d0 M F) _ St); auto. intros E.
  assert (X : exists o, In o (anchor_sides (table_rows m) (end_of p))) by (exists Right; apply sides_in; [apply (end_ok _ _ _ Es)|auto]).
  destruct X as (o & Io). apply (Ap (side_x (tab (end_of p)) o, side_y (table_rows m) (end_of p) o)).
  split; apply place_sides; try apply (end_ok _ _ _ Es); try apply (end_ok _ _ _ Et); exists o; [|rewrite <- E]; auto.
Qed.
Theorem inner_calm m vb g d ls : fits (table_rows m) -> layout_module m = Ret (vb, g, d) -> links [] (m_entries m) ls ->
  (forall p q, In (p, q) ls -> ~ at_bottom (table_rows m) p /\ ~ at_bottom (table_rows m) q) ->
  Forall2 (fun pq e => apart (table_rows m) (fst pq) (snd pq) -> calm_path e) ls (d_edges d).
Proof.
  intros F L Ll Hb. eapply forall2_weaken; [exact (column_calm m vb g d ls F L Ll)|]. intros pq e _ Q Ap. apply (Q Ap).
  intros p q x I [-> | ->] _; apply (Hb p q I).
Qed.

(** Whatever is drawn joins ends without a common side. *)
Theorem drawn_apart m ls svg : fits (table_rows m) -> links [] (m_entries m) ls -> render_module m = Okay svg ->
  forall p q, In (p, q) ls -> apart (table_rows m) p q.
Proof.
  intros F Ll E p q I. destruct (layout_returns m F) as (vb & g & d & L & _). pose proof (short_paths m vb g d ls F L Ll) as Sh.
  apply NNPP. intros Na. destruct (forall2_in_l _ _ _ _ Sh I) as (e & Ie & ps & Ep & _ & Q). apply Q in Na.
  unfold render_module in E. rewrite L in E. apply render_okay in E as ((_ & _ & B) & _). unfold none_of in B. rewrite Forall_forall in B. apply (B e Ie). right. exists ps. split; [exact Ep|]. left. lia.
Qed.

(** Without relations to last rows, modules are drawn exactly if no relation joins ends with a side in common. *)
Theorem inner_drawn m ls : fits (table_rows m) -> links [] (m_entries m) ls ->
  (forall p q, In (p, q) ls -> ~ at_bottom (table_rows m) p /\ ~ at_bottom (table_rows m) q) ->
  ((exists svg, render_module m = Okay svg) <-> forall p q, In (p, q) ls -> apart (table_rows m) p q) /\
  (forall x, render_module m = Abort x -> x = PShortPath).
Proof.
  intros F Ll Hb. destruct (layout_returns m F) as (vb & g & d & L & _).
  pose proof (short_paths m vb g d ls F L Ll) as Sh. pose proof (inner_calm m vb g d ls F L Ll Hb) as Ca.
  assert (Ab : forall x, render_module m = Abort x -> x = PShortPath /\ exists p q, In (p, q) ls /\ ~ apart (table_rows m) p q).
  { intros x E. unfold render_module in E. rewrite L in E. apply render_abort_iff in E as (_ & _ & e & ps & (l1 & l2 & El & _) & Ep & Bad).
    assert (Ie : In e (d_edges d)) by (rewrite El; apply in_elt).
    assert (B : forall P Q : place * place -> edge_data -> Prop, Forall2 P ls (d_edges d) -> Forall2 Q ls (d_edges d) -> exists pq, In pq ls /\ P pq e /\ Q pq e).
    { intros P Q FP FQ. clear - FP FQ Ie. revert FQ Ie. induction FP as [|a b l l' H FP IH]; intros FQ Ie; [contradiction|]. inversion FQ as [|? ? ? ? H' FQ']; subst.
      destruct Ie as [-> | Ie]; [exists a; split; [now left|auto]|]. destruct (IH FQ' Ie) as (pq & I & K). exists pq. split; [now right|exact K]. }
    destruct (B _ _ Sh Ca) as ([p q] & I & (ps' & Ep' & Lp & Q) & K). cbn [fst snd] in *. rewrite Ep in Ep'. injection Ep' as <-.
    assert (Na : ~ apart (table_rows m) p q).
    { intros Ap. destruct (K Ap) as (ps' & Ep' & L2 & NR). rewrite Ep in Ep'. injection Ep' as <-. destruct Bad as [[Z _]|(_ & i & Rv & _)]; [lia|exact (NR i Rv)]. }
    split; [|eauto]. pose proof (proj2 Q Na) as L1. destruct Bad as [[_ Z]|(Z & _)]; [exact Z|lia]. }
  split; [|intros x E; apply (Ab x E)]. split.
  - intros (svg & E). exact (drawn_apart m ls svg F Ll E).
  - intros Ap. destruct (render_module m) as [svg|e|x] eqn:E; [eauto|exfalso; exact (modules_never_lack_geometry m e E)|exfalso].
    destruct (Ab x eq_refl) as (_ & p & q & I & N). exact (N (Ap p q I)).
Qed.

(** ** A reversal beside field relations *)

Definition one (n : string) : entity_definition := mkEntity (lit n) [mkField (lit "x") TInt None].
Definition web : module :=
  mkModule None
    [ EDef (mkEntity (lit "a") [mkField (lit "x") TInt None; mkField (lit "y") TInt None; mkField (lit "z") TInt None]);
      EDef (one "b"); EDef (one "c"); EDef (one "d"); EDef (one "e"); EDef (one "f"); EDef (one "g");
      ERel (mkRelation (PField (lit "g") (lit "x")) (PField (lit "f") (lit "x")));
      ERel (mkRelation (PField (lit "d") (lit "x")) (PField (lit "e") (lit "x")));
      ERel (mkRelation (PEntity (lit "a")) (PEntity (lit "g"))) ].
Ltac is_latest := split; [reflexivity|split; [cbn; auto|
  let j := fresh in let L := fresh in let H := fresh in intros j ? L H; do 8 (destruct j as [|j]; [first [exfalso; lia|discriminate|injection H as <-; cbn; intuition discriminate]|]); destruct j; discriminate]].
Ltac is_last_field := split; [eexists; split; reflexivity|
  let j := fresh in let L := fresh in let H := fresh in intros j ? L H; do 4 (destruct j as [|j]; [first [exfalso; lia|discriminate|injection H as <-; cbn; discriminate]|]); destruct j; discriminate].

Lemma web_links : links [] (m_entries web) [(Row 6 1, Row 5 1); (Row 3 1, Row 4 1); (Table 0, Table 6)].
Proof.
  unfold web. cbn [m_entries]. repeat apply links_def. cbn [app].
  apply links_rel; [eapply refers_row; [is_latest|is_last_field]|eapply refers_row; [is_latest|is_last_field]|].
  apply links_rel; [eapply refers_row; [is_latest|is_last_field]|eapply refers_row; [is_latest|is_last_field]|].
  apply links_rel; [eapply refers_table; is_latest|eapply refers_table; is_latest|]. constructor.
Qed.

Lemma web_turns : exists m ls, fits (table_rows m) /\ links [] (m_entries m) ls /\ (forall p q, In (p, q) ls -> apart (table_rows m) p q) /\
  exists n, render_module m = Abort (PTurnaround n).
Proof.
  exists web, [(Row 6 1, Row 5 1); (Row 3 1, Row 4 1); (Table 0, Table 6)]. split; [unfold fits; vm_compute; discriminate|]. split; [exact web_links|]. split.
  - intros p q [E|[E|[E|[]]]]; injection E as <- <-; intros z [S1 S2].
    + destruct S1 as (o & _ & ->), S2 as (u & _ & E). destruct o, u; vm_compute in E; discriminate.
    + destruct S1 as (o & _ & ->), S2 as (u & _ & E). destruct o, u; vm_compute in E; discriminate.
    + destruct S1 as (o & ->), S2 as (u & E). destruct o, u; vm_compute in E; discriminate.
  - exists 2%nat. vm_compute. reflexivity.
Qed.

(** ** Relations that touch only inner rows and tables *)

Theorem ends_touch m ls : links [] (m_entries m) ls -> forall p q, In (p, q) ls ->
  (apart (table_rows m) p q <-> ~ touching (table_rows m) p q).
Proof.
  intros Ll p q I. destruct (links_ok m _ _ _ Ll ltac:(exists []; cbn; now rewrite app_nil_r) p q I) as [Op Oq]. apply apart_iff; auto.
  intros i L. unfold table_rows in *. rewrite map_length in L. destruct (nth_error (definitions (m_entries m)) i) as [e|] eqn:He; [|apply nth_error_None in He; lia].
  pose proof (map_nth_error (fun e => S (length (ent_fields e))) i _ He) as M. apply nth_error_nth with (d := 0%nat) in M. rewrite M. lia.
Qed.

Definition three (n : string) : entity_definition :=
  mkEntity (lit n) [mkField (lit "x") TInt None; mkField (lit "y") TInt None; mkField (lit "z") TInt None].
Definition net : module :=
  mkModule None
    [ EDef (three "a"); EDef (one "b"); EDef (one "c"); EDef (one "d"); EDef (three "e");
      ERel (mkRelation (PEntity (lit "a")) (PEntity (lit "d")));
      ERel (mkRelation (PField (lit "a") (lit "x")) (PField (lit "e") (lit "y")));
      ERel (mkRelation (PEntity (lit "c")) (PField (lit "e") (lit "x"))) ].
Definition own : module :=
  mkModule None
    [ EDef (three "a"); EDef (mkEntity (lit "b") [mkField (lit "x") TInt None; mkField (lit "y") TInt None]);
      ERel (mkRelation (PEntity (lit "a")) (PEntity (lit "b"))); ERel (mkRelation (PEntity (lit "b")) (PField (lit "b") (lit "x"))) ].
Lemma net_links : links [] (m_entries net) [(Table 0, Table 3); (Row 0 1, Row 4 2); (Table 2, Row 4 1)].
Proof.
  unfold net. cbn [m_entries]. repeat apply links_def. cbn [app].
  apply links_rel; [eapply refers_table; is_latest|eapply refers_table; is_latest|].
  apply links_rel; [eapply refers_row; [is_latest|is_last_field]|eapply refers_row; [is_latest|is_last_field]|].
  apply links_rel; [eapply refers_table; is_latest|eapply refers_row; [is_latest|is_last_field]|]. constructor.
Qed.
Lemma own_links : links [] (m_entries own) [(Table 0, Table 1); (Table 1, Row 1 1)].
Proof.
  unfold own. cbn [m_entries]. repeat apply links_def. cbn [app].
  apply links_rel; [eapply refers_table; is_latest|eapply refers_table; is_latest|].
  apply links_rel; [eapply refers_table; is_latest|eapply refers_row; [is_latest|is_last_field]|]. constructor.
Qed.
