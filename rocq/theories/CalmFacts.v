(** Relations between different fields are always drawn. *)
From Coq Require Import List Arith NArith ZArith Bool Lia SpecFloat.
From Verif Require Import Base F32 Geometry Mir Erd Heap Route Layout Svg Render Parser Cli SpecMir SpecF32 SpecGeom SpecLayout SpecRoute SpecGraph
  SpecRender SpecCrash F32Facts GeomFacts SearchFacts MirFacts GridFacts LayoutFacts RenderFacts PipelineFacts GraphFacts PathFacts LatticeFacts
  ConnectFacts HubFacts DrawFacts OrderFacts RowFacts MidFacts TurnFacts.
Import ListNotations.
Local Open Scope Z_scope.

Section Doc.
Variables (d : document) (hs : list nat).
Hypothesis FD : end_doc d hs.
Let GD := ed_grid d hs FD.
Variable g : route_graph.
Hypothesis R : routes d hs g.
Let ns := rg_nodes g.
Let es := rg_edges g.
Let cost := rg_cost ns.
Local Notation steps := (steps g).
Local Notation stop := (stop hs g).

(** ** Walks as lists *)

Lemma walk_steps a b l : walk es a b l -> steps a b (Z.of_N (walk_cost cost l)).
Proof.
  intros W. induction W as [a|a b c l J W IH]; [constructor|].
  destruct l as [|b' l]; [inversion W|]. assert (b' = b) as -> by (inversion W; reflexivity).
  replace (Z.of_N (walk_cost cost (a :: b :: l))) with (Z.of_N (cost a b) + Z.of_N (walk_cost cost (b :: l))) by (cbn [walk_cost]; lia).
  constructor; assumption.
Qed.

Lemma walk_head es' a b l : walk es' a b l -> exists l', l = a :: l'.
Proof. intros W. destruct W; eauto. Qed.

Lemma walk_cut k : forall a b l x y z, walk es a b l ->
  nth_error l k = Some x -> nth_error l (S k) = Some y -> nth_error l (S (S k)) = Some z ->
  exists u v, steps a x u /\ joined es x y /\ joined es y z /\ steps z b v /\
    Z.of_N (walk_cost cost l) = u + Z.of_N (cost x y) + Z.of_N (cost y z) + v.
Proof.
  induction k as [|k IH]; intros a b l x y z W Hx Hy Hz.
  - inversion W as [a'|a1 b1 c1 l1 J1 W1]; subst; cbn in *; [discriminate|]. injection Hx as <-.
    destruct (walk_head _ _ _ _ W1) as (l2 & ->). cbn in Hy. injection Hy as <-.
    inversion W1 as [a'|a2 b2 c2 l3 J2 W2]; subst; cbn in *; [discriminate|].
    destruct (walk_head _ _ _ _ W2) as (l4 & ->). cbn in Hz. injection Hz as <-.
    exists 0, (Z.of_N (walk_cost cost (b2 :: l4))). split; [constructor|]. split; [exact J1|]. split; [exact J2|].
    split; [now apply walk_steps|]. cbn [walk_cost]. lia.
  - inversion W as [a'|a1 b1 c1 l1 J1 W1]; subst; cbn [nth_error] in *; [destruct k; discriminate|].
    destruct (IH b1 b l1 x y z W1 Hx Hy Hz) as (u & v & S1 & Jx & Jy & S2 & E).
    exists (Z.of_N (cost a b1) + u), v. split; [constructor; assumption|]. split; [exact Jx|]. split; [exact Jy|]. split; [exact S2|].
    destruct (walk_head _ _ _ _ W1) as (l2 & ->). cbn [walk_cost] in *. lia.
Qed.

(** ** Reversals in coordinates *)

Lemma heading_left p q X Y X' Y' : hpoint p X Y -> hpoint q X' Y' -> heading p q Left -> X' < X.
Proof.
  intros [A _] [B _] H. inversion H as [L|L|L|L]. rewrite (hv_lt _ _ _ _ B A) in L. now apply Z.ltb_lt.
Qed.
Lemma heading_right p q X Y X' Y' : hpoint p X Y -> hpoint q X' Y' -> heading p q Right -> X < X'.
Proof.
  intros [A _] [B _] H. inversion H as [L|_ L|L|L]. rewrite (hv_lt _ _ _ _ A B) in L. now apply Z.ltb_lt.
Qed.
Lemma heading_up p q X Y X' Y' : hpoint p X Y -> hpoint q X' Y' -> heading p q Up -> X = X' /\ Y' < Y.
Proof.
  intros [A C] [B D] H. inversion H as [|L|L1 L2 L3|L].
  rewrite (hv_lt _ _ _ _ B A) in L1. rewrite (hv_lt _ _ _ _ A B) in L2. rewrite (hv_lt _ _ _ _ D C) in L3.
  apply Z.ltb_ge in L1, L2. apply Z.ltb_lt in L3. lia.
Qed.
Lemma heading_down p q X Y X' Y' : hpoint p X Y -> hpoint q X' Y' -> heading p q Down -> X = X' /\ Y <= Y'.
Proof.
  intros [A C] [B D] H. inversion H as [|L|L|L1 L2 L3].
  rewrite (hv_lt _ _ _ _ B A) in L1. rewrite (hv_lt _ _ _ _ A B) in L2. rewrite (hv_lt _ _ _ _ D C) in L3.
  apply Z.ltb_ge in L1, L2, L3. lia.
Qed.

Lemma reversal_turns a b c X1 Y1 X2 Y2 X3 Y3 o1 o2 o3 na nb nc o :
  spot ns a X1 Y1 o1 -> spot ns b X2 Y2 o2 -> spot ns c X3 Y3 o3 -> joined es a b -> joined es b c ->
  nth_error ns a = Some na -> nth_error ns b = Some nb -> nth_error ns c = Some nc ->
  heading (rn_loc na) (rn_loc nb) o -> heading (rn_loc nb) (rn_loc nc) (opposite o) ->
  turns X1 Y1 X2 Y2 X3 Y3.
Proof.
  intros A B C J1 J2 Na Nb Nc H1 H2.
  assert (S1 : (Y1 = Y2 /\ X1 <> X2) \/ (X1 = X2 /\ Y1 <> Y2)).
  { destruct (edge_straight d hs g R a b _ _ _ _ _ _ J1 A B) as [(E & N)|[(E & L & _)|(E & L & _)]]; [left|right|right]; split; auto; lia. }
  assert (S2 : (Y2 = Y3 /\ X2 <> X3) \/ (X2 = X3 /\ Y2 <> Y3)).
  { destruct (edge_straight d hs g R b c _ _ _ _ _ _ J2 B C) as [(E & N)|[(E & L & _)|(E & L & _)]]; [left|right|right]; split; auto; lia. }
  destruct A as (n1 & A & Pa & _), B as (n2 & B & Pb & _), C as (n3 & C & Pc & _).
  rewrite Na in A. injection A as <-. rewrite Nb in B. injection B as <-. rewrite Nc in C. injection C as <-.
  unfold turns, beyond. destruct o; cbn [opposite] in H2.
  - pose proof (heading_up _ _ _ _ _ _ Pa Pb H1). pose proof (heading_down _ _ _ _ _ _ Pb Pc H2). lia.
  - pose proof (heading_down _ _ _ _ _ _ Pa Pb H1). pose proof (heading_up _ _ _ _ _ _ Pb Pc H2). lia.
  - pose proof (heading_left _ _ _ _ _ _ Pa Pb H1). pose proof (heading_right _ _ _ _ _ _ Pb Pc H2). lia.
  - pose proof (heading_right _ _ _ _ _ _ Pa Pb H1). pose proof (heading_left _ _ _ _ _ _ Pb Pc H2). lia.
Qed.

(** ** Ports of ends *)

Lemma stands_stop p n x a : has_ports hs p (n_ports n) -> In x (n_ports n) -> stands_for g x a -> stop p a.
Proof.
  intros (K & F) I (m & Hm & Sp & O). destruct (forall2_in_r _ _ _ _ F I) as (o & Io & O' & H).
  exists o. split; [exact Io|]. exists m. split; [exact Hm|].
  destruct (nth_spot d hs g R a m Hm) as (X & Y & _ & Hp). destruct (same_hpoint _ _ _ _ Sp Hp _ _ H) as [-> ->].
  split; [exact Hp|]. now rewrite O, O'.
Qed.
Lemma stop_stands p n a : has_ports hs p (n_ports n) -> stop p a -> exists x, In x (n_ports n) /\ stands_for g x a.
Proof.
  intros (K & F) (o & Io & m & Hm & Hp & O). apply In_nth_error in Io as (j & Ij).
  destruct (forall2_nth_l _ _ _ F j o Ij) as (x & Hj & Op & H). exists x. split; [now apply nth_error_In in Hj|].
  exists m. split; [exact Hm|]. split; [exact (hpoint_same _ _ _ _ Hp H)|]. now rewrite O, Op.
Qed.

(** Ends that share a port: on the same line, or with the same lower or upper side. *)
Lemma stop_shared p q a : anchor_ok hs p -> anchor_ok hs q -> stop p a -> stop q a ->
  tab p = tab q /\ (rowY hs p = rowY hs q \/ (low hs p /\ low hs q) \/ (high p /\ high q)).
Proof.
  intros Kp Kq (o & Io & A) (o' & Io' & B). destruct (spot_place g a _ _ _ _ _ _ A B) as (EX & EY & EO).
  injection EO as <-. apply sides_in in Io; [|exact Kp]. apply sides_in in Io'; [|exact Kq].
  pose proof (table_bounds d hs GD _ (proj1 Kp)) as Bp. pose proof (table_bounds d hs GD _ (proj1 Kq)) as Bq.
  pose proof (row_within d hs FD p Kp) as Wp. pose proof (row_within d hs FD q Kq) as Wq.
  assert (Ex : zl (tab p) = zl (tab q)) by (clear - EX; destruct o; unfold side_x in EX; lia).
  assert (Et : tab p = tab q).
  { destruct (col_apart hs _ _ Ex) as [E|Ap]; [exact E|exfalso]. destruct o; unfold side_y in EY; clear - Ap Wp Wq Bp Bq EY; lia. }
  split; [exact Et|]. destruct Io as [-> | [-> | [[-> L]|[-> L]]]]; [left; exact EY|left; exact EY| |].
  - right. left. split; [exact L|]. destruct Io' as [Q|[Q|[[_ Q]|[Q _]]]]; [discriminate|discriminate|exact Q|discriminate].
  - right. right. split; [exact L|]. destruct Io' as [Q|[Q|[[Q _]|[_ Q]]]]; [discriminate|discriminate|discriminate|exact Q].
Qed.
Lemma stop_row p q a : anchor_ok hs p -> anchor_ok hs q -> ~ high p -> ~ high q -> stop p a -> stop q a -> p = q.
Proof.
  intros Kp Kq Np Nq Sp Sq. destruct (stop_shared p q a Kp Kq Sp Sq) as (Et & C).
  destruct p as [t k|t]; [|exfalso; apply Np; exact I]. destruct q as [t' k'|t']; [|exfalso; apply Nq; exact I]. cbn [tab rowY low high] in *. subst t'.
  f_equal. clear - C. lia.
Qed.

(** ** Cheapest routes neither stop at once nor turn around *)

Theorem best_calm s t p q l ps : has_ports hs p (n_ports s) -> has_ports hs q (n_ports t) ->
  end_at d hs p -> end_at d hs q -> fair hs g p q -> (forall a, stop p a -> stop q a -> False) ->
  best_route g s t l -> places g l ps -> (2 <= length ps)%nat /\ forall i, ~ reverses_at ps i.
Proof.
  intros Hs Ht Es Et Fr Ne ((x0 & y0 & a & b & Ip & Iq & Sp & Sq & W) & Min) Pl.
  pose proof (stands_stop _ _ _ _ Hs Ip Sp) as Sa. pose proof (stands_stop _ _ _ _ Ht Iq Sq) as Sb.
  split.
  - rewrite <- (Forall2_length' _ _ _ Pl). inversion W as [a' E1 E2 E3|a1 b1 c1 l1 J1 W1 E1 E2 E3].
    + subst b. exfalso. exact (Ne a Sa Sb).
    + destruct (walk_head _ _ _ _ W1) as (l2 & ->). cbn. lia.
  - intros i (k & p1 & p2 & p3 & o & -> & H1 & H2 & H3 & D1 & D2).
    destruct (forall2_nth_r _ _ _ Pl _ _ H1) as (x & Lx & nx & Nx & <-).
    destruct (forall2_nth_r _ _ _ Pl _ _ H2) as (y & Ly & ny & Ny & <-).
    destruct (forall2_nth_r _ _ _ Pl _ _ H3) as (z & Lz & nz & Nz & <-).
    destruct (walk_cut k a b l x y z W Lx Ly Lz) as (u & v & S1 & J1 & J2 & S2 & E).
    destruct (nth_spot d hs g R x nx Nx) as (X1 & Y1 & A & _). destruct (nth_spot d hs g R y ny Ny) as (X2 & Y2 & B & _).
    destruct (nth_spot d hs g R z nz Nz) as (X3 & Y3 & C & _).
    pose proof (reversal_turns x y z _ _ _ _ _ _ _ _ _ nx ny nz o A B C J1 J2 Nx Ny Nz D1 D2) as T.
    destruct (turn_better d hs FD g R p q a b x y z _ _ _ _ _ _ _ _ _ u v _ Es Et Fr Sa Sb A B C J1 J2 T
      (steps_sym d hs FD g R _ _ _ S1) S2 E) as (s' & t' & w & Ss & St & [(l' & W' & Lw) _] & Lt).
    destruct (stop_stands _ _ _ Hs Ss) as (p' & Ip' & Sp'). destruct (stop_stands _ _ _ Ht St) as (q' & Iq' & Sq').
    specialize (Min p' q' s' t' l' Ip' Iq' Sp' Sq' W'). unfold cost, ns in E, Lw, Lt. lia.
Qed.
End Doc.

(** ** Modules *)

Lemma forall2_weaken {A B} (P Q : A -> B -> Prop) l l' : Forall2 P l l' -> (forall a b, In a l -> P a b -> Q a b) -> Forall2 Q l l'.
Proof. induction 1 as [|x y l l' H F IH]; intros I; constructor; [apply I; [now left|exact H]|]. apply IH. intros. apply I; [now right|assumption]. Qed.

Section Module.
Variables (m : module) (d : document).
Hypothesis Hm : into_mir m = Ret d.
Hypothesis Hf : fits (table_rows m).
Let d2 := place_terminal_ports (fst (place_nodes d)).
Let hs := table_rows m.

Lemma table_end_ports t id : table_id d t id -> (t < length hs)%nat -> exists n,
  get_node d2 id = Some n /\ has_ports hs (table_end t) (n_ports n).
Proof.
  intros T L. destruct (table_ports m d Hm Hf t id T) as (n & G & F). exists n. split; [exact G|]. split; [split; [exact L|exact I]|].
  cbn [anchor_sides tab]. fold hs in F. eapply forall2_weaken; [exact F|]. intros o p _ (_ & O & H). split; [exact O|].
  replace (side_x t o) with (fst (side_midpoint (table_left t) (table_top hs t) 300 (table_height hs t) o)).
  - replace (side_y hs (table_end t) o) with (snd (side_midpoint (table_left t) (table_top hs t) 300 (table_height hs t) o)); [exact H|].
    destruct o; unfold side_midpoint, snd, side_y, rowY, tab, zb, zt, table_height; lia.
  - destruct o; unfold side_midpoint, fst, side_x, zl; lia.
Qed.
Lemma row_end_ports t k id : row_id d t k id -> (t < length hs)%nat -> (1 <= k < nth t hs 0)%nat -> exists n,
  get_node d2 id = Some n /\ has_ports hs (row_end t k) (n_ports n).
Proof.
  intros Rw L K. destruct (row_ports m d Hm Hf t k id Rw) as (n & G & F). exists n. split; [exact G|].
  split; [split; [exact L|exact K]|]. cbn [anchor_sides tab]. fold hs in F. eapply forall2_weaken; [exact F|].
  intros o p I (_ & O & H). split; [exact O|]. apply row_sides_in in I; [|exact K].
  replace (side_x t o) with (fst (side_midpoint (table_left t) (table_top hs t + 35 * Z.of_nat k) 300 35 o)).
  - replace (side_y hs (row_end t k) o) with (snd (side_midpoint (table_left t) (table_top hs t + 35 * Z.of_nat k) 300 35 o)); [exact H|].
    destruct I as [-> | [-> | [-> E]]]; unfold side_midpoint, snd, side_y, rowY, tab, zt, zb, table_height; try fold hs in E; [lia|lia|unfold zt; clear - E; lia].
  - destruct o; unfold side_midpoint, fst, side_x, zl; lia.
Qed.
Lemma shown_end p id : shows_path d p id -> exists a n, get_node d2 id = Some n /\ has_ports hs a (n_ports n).
Proof.
  intros Sh. destruct (shown_place m d Hm Hf _ id Sh) as (t & L & [[_ T]|[_ (k & K & Rw)]]).
  - destruct (table_end_ports t id T L) as (n & G & P). eauto.
  - destruct (row_end_ports t k id Rw L K) as (n & G & P). eauto.
Qed.
Lemma shown_row a b id : shows_path d (PField a b) id -> exists t k n,
  row_id d t k id /\ get_node d2 id = Some n /\ has_ports hs (row_end t k) (n_ports n).
Proof.
  intros Sh. destruct (shown_place m d Hm Hf _ id Sh) as (t & L & [[(x & Q) _]|[_ (k & K & Rw)]]); [discriminate|].
  destruct (row_end_ports t k id Rw L K) as (n & G & P). eauto 6.
Qed.

Lemma module_ends : end_doc d2 hs.
Proof.
  split; [exact (module_grid m d Hm Hf)|]. intros e i n I Ei G. unfold d2 in I. rewrite (module_edges m d Hm) in I.
  pose proof (into_mir_edges_show m d Hm) as Sh. rewrite Forall_forall in Sh. destruct (Sh e I) as (r & _ & S1 & S2).
  destruct Ei as [-> | ->]; [destruct (shown_end _ _ S1) as (a & n' & G' & P)|destruct (shown_end _ _ S2) as (a & n' & G' & P)];
    rewrite G in G'; injection G' as <-; eauto.
Qed.

Lemma row_unique t k id id' : row_id d t k id -> row_id d t k id' -> id = id'.
Proof.
  intros (r & n & T & G & C) (r' & n' & T' & G' & C'). unfold table_id in *. congruence.
Qed.

(** A row shows only one field. *)
Lemma shown_once a b c e id : shows_path d (PField a b) id -> shows_path d (PField c e) id -> (a, b) = (c, e).
Proof.
  intros A B. pose proof (into_mir_tree m d Hm) as Tr.
  inversion A as [|r1 e1 n1 h1 rows1 k1 i1 f1 I1 T1 G1 C1 K1 F1 E1 Ei1]. inversion B as [|r2 e2 n2 h2 rows2 k2 i2 f2 I2 T2 G2 C2 K2 F2 E2 Ei2].
  subst.
  assert (r1 = r2) as <-.
  { apply (tree_unique_parent d Tr r1 r2 id); [exists n1|exists n2]; (split; [assumption|]); [rewrite C1|rewrite C2]; right; eapply nth_error_In; eassumption. }
  rewrite G1 in G2. injection G2 as <-. rewrite C1 in C2. injection C2 as <- <-.
  destruct T1 as (m1 & s1 & h & rows & M1 & _ & Q1 & H1 & Fs1). destruct T2 as (m2 & s2 & h' & rows' & M2 & _ & Q2 & H2 & Fs2).
  rewrite G1 in M1, M2. injection M1 as <-. injection M2 as <-. rewrite C1 in Q1, Q2. injection Q1 as <- <-. injection Q2 as <- <-.
  destruct H1 as (x1 & y1 & X1 & Y1 & _ & Z1 & _), H2 as (x2 & y2 & X2 & Y2 & _ & Z2 & _).
  rewrite X1 in X2. injection X2 as <-. rewrite Y1 in Y2. injection Y2 as <-.
  destruct (forall2_nth_l _ _ _ Fs1 _ _ K1) as (f & Ff & u1 & v1 & U1 & V1 & _ & W1 & _). rewrite F1 in Ff. injection Ff as <-.
  destruct (forall2_nth_l _ _ _ Fs2 _ _ K2) as (f & Ff & u2 & v2 & U2 & V2 & _ & W2 & _). rewrite F2 in Ff. injection Ff as <-.
  rewrite U1 in U2. injection U2 as <-. rewrite V1 in V2. injection V2 as <-. congruence.
Qed.

Hypothesis Hr : forall r, In (ERel r) (m_entries m) -> fields_joined r.

Lemma edge_rows e : In e (d_edges d2) -> exists ts ks tt kt s t,
  get_node d2 (e_source e) = Some s /\ get_node d2 (e_target e) = Some t /\
  has_ports hs (row_end ts ks) (n_ports s) /\ has_ports hs (row_end tt kt) (n_ports t) /\ row_end ts ks <> row_end tt kt.
Proof.
  intros I. unfold d2 in I. rewrite (module_edges m d Hm) in I. pose proof (into_mir_edges_show m d Hm) as Sh. rewrite Forall_forall in Sh.
  destruct (Sh e I) as (r & Ir & S1 & S2). destruct (Hr r Ir) as (a & b & c & f & E1 & E2 & Ne). rewrite E1 in S1. rewrite E2 in S2.
  destruct (shown_row a b _ S1) as (ts & ks & s & R1 & G1 & P1). destruct (shown_row c f _ S2) as (tt & kt & t & R2 & G2 & P2).
  exists ts, ks, tt, kt, s, t. split; [exact G1|]. split; [exact G2|]. split; [exact P1|]. split; [exact P2|].
  intros E. injection E as -> ->. apply Ne. rewrite (row_unique _ _ _ _ R1 R2) in S1. exact (shown_once _ _ _ _ _ S1 S2).
Qed.


Lemma module_rows a : end_at d2 hs a -> ~ high a.
Proof.
  intros (e & i & n & I & Ei & G & P). destruct (edge_rows e I) as (ts & ks & tt & kt & s & t & G1 & G2 & P1 & P2 & _).
  assert (H : exists t k, has_ports hs (row_end t k) (n_ports n)).
  { destruct Ei as [-> | ->]; [rewrite G1 in G|rewrite G2 in G]; injection G as <-; eauto. }
  destruct H as (t0 & k0 & (_ & K) & F). destruct P as (_ & F'). cbn [tab anchor_sides] in *. destruct a as [t1 k1|t1]; [easy|]. exfalso.
  cbn [anchor_sides tab] in F'. destruct (n_ports n) as [|p l]; inversion F' as [|? ? ? ? (O & _) _]; subst.
  inversion F as [|o ? ? ? (O' & _) _ E3]; subst o. assert (I0 : In (port_orientation p) (row_sides (nth t0 hs 0%nat) k0)) by (rewrite <- E3; now left).
  apply row_sides_in in I0; [|exact K]. rewrite O in I0. destruct I0 as [Q|[Q|[Q _]]]; discriminate.
Qed.
End Module.

(** ** All modules *)

(** Edges between ends for which turning is dearer, and that share no port. *)
Theorem edge_calm m vb g d d0 : fits (table_rows m) -> layout_module m = Ret (vb, g, d) -> into_mir m = Ret d0 ->
  let d2 := place_terminal_ports (fst (place_nodes d0)) in let hs := table_rows m in
  forall e s t p q, In e (d_edges d) -> get_node d2 (e_source e) = Some s -> get_node d2 (e_target e) = Some t ->
  has_ports hs p (n_ports s) -> has_ports hs q (n_ports t) -> fair hs g p q -> (forall a, stop hs g p a -> stop hs g q a -> False) ->
  exists ps, e_path e = Some ps /\ (2 <= length ps)%nat /\ forall i, ~ reverses_at ps i.
Proof.
  intros F L M d2 hs e s t p q I G1 G2 P1 P2 Fr Ne. destruct (layout_routes m vb g d F L) as (d0' & M' & V & D & R).
  rewrite M in M'. injection M' as <-.
  destruct (module_cheapest m vb g d F L e I) as (s' & t' & l & ps & Gs & Gt & Ep & Pl & B).
  exists ps. split; [exact Ep|].
  destruct (draw_split _ _ _ _ D) as (_ & N & F2). destruct (forall2_in_r _ _ _ _ F2 I) as (e0 & I0 & (E1 & E2) & _).
  unfold get_node in *. fold d2 in N. rewrite N, G1 in Gs. rewrite N, G2 in Gt. injection Gs as <-. injection Gt as <-.
  eapply (best_calm _ _ (module_ends m d0 M F) g R s t p q l ps P1 P2); auto.
  - exists e0, (e_source e0), s. unfold get_node. rewrite <- E1. auto.
  - exists e0, (e_target e0), t. unfold get_node. rewrite <- E2. auto.
Qed.

(** Edges between different rows. *)
Theorem row_calm m vb g d d0 : fits (table_rows m) -> layout_module m = Ret (vb, g, d) -> into_mir m = Ret d0 ->
  let d2 := place_terminal_ports (fst (place_nodes d0)) in let hs := table_rows m in
  forall e s t ts ks tt kt, In e (d_edges d) -> get_node d2 (e_source e) = Some s -> get_node d2 (e_target e) = Some t ->
  has_ports hs (row_end ts ks) (n_ports s) -> has_ports hs (row_end tt kt) (n_ports t) -> row_end ts ks <> row_end tt kt ->
  exists ps, e_path e = Some ps /\ (2 <= length ps)%nat /\ forall i, ~ reverses_at ps i.
Proof.
  intros F L M d2 hs e s t ts ks tt kt I G1 G2 P1 P2 Ne. destruct (layout_routes m vb g d F L) as (d0' & M' & V & D & R).
  rewrite M in M'. injection M' as <-. pose proof (module_ends m d0 M F) as ED.
  destruct (draw_split _ _ _ _ D) as (_ & N & F2). destruct (forall2_in_r _ _ _ _ F2 I) as (e0 & I0 & (E1 & E2) & _).
  assert (Es : end_at d2 hs (row_end ts ks)) by (exists e0, (e_source e0), s; rewrite <- E1; auto).
  assert (Et : end_at d2 hs (row_end tt kt)) by (exists e0, (e_target e0), t; rewrite <- E2; auto).
  apply (edge_calm m vb g d d0 F L M e s t _ _ I G1 G2 P1 P2).
  - apply (fair_rows d2 hs ED g R); auto; cbn; auto.
  - intros a A B. apply Ne. exact (stop_row d2 hs ED g _ _ a (end_ok _ _ _ Es) (end_ok _ _ _ Et) ltac:(cbn; auto) ltac:(cbn; auto) A B).
Qed.

Theorem module_calm m vb g d : fits (table_rows m) -> (forall r, In (ERel r) (m_entries m) -> fields_joined r) ->
  layout_module m = Ret (vb, g, d) ->
  forall e, In e (d_edges d) -> exists ps, e_path e = Some ps /\ (2 <= length ps)%nat /\ forall i, ~ reverses_at ps i.
Proof.
  intros F Hr L e I. destruct (layout_routes m vb g d F L) as (d0 & M & V & D & R).
  destruct (draw_split _ _ _ _ D) as (_ & N & F2). destruct (forall2_in_r _ _ _ _ F2 I) as (e0 & I0 & (E1 & E2) & _).
  destruct (edge_rows m d0 M F Hr e0 I0) as (ts & ks & tt & kt & s & t & G1 & G2 & P1 & P2 & Ne).
  rewrite <- E1 in G1. rewrite <- E2 in G2. exact (row_calm m vb g d d0 F L M e s t _ _ _ _ I G1 G2 P1 P2 Ne).
Qed.

Theorem fields_drawn m : fits (table_rows m) -> (forall r, In (ERel r) (m_entries m) -> fields_joined r) ->
  exists svg, render_module m = Okay svg.
Proof.
  intros F Hr. destruct (layout_returns m F) as (vb & g & d & L & _).
  destruct (render_module m) as [svg|e|p] eqn:E; [eauto|exfalso; exact (modules_never_lack_geometry m e E)|exfalso].
  unfold render_module in E. rewrite L in E. apply render_abort_iff in E as (_ & _ & e & ps & (l1 & l2 & El & _) & Ep & Bad).
  destruct (module_calm m vb g d F Hr L e) as (ps' & Ep' & Lp & NR); [rewrite El; apply in_elt|].
  rewrite Ep in Ep'. injection Ep' as <-. destruct Bad as [[Sh _]|(_ & i & Rv & _)]; [lia|exact (NR i Rv)].
Qed.

Theorem fields_source fmt src r m : parse src = Ret r -> pr_ast r = Some m ->
  fits (table_rows m) -> (forall x, In (ERel x) (m_entries m) -> fields_joined x) ->
  exists svg, render_module m = Okay svg /\ stdout (main fmt src) = show_svg fmt svg /\ ending (main fmt src) = Ret tt.
Proof.
  intros P A F Hr. destruct (fields_drawn m F Hr) as (svg & E). exists svg. split; [exact E|].
  destruct (main_with_module fmt src r m P A) as (_ & K & _). exact (K svg E).
Qed.
