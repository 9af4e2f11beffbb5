(** Lines from side to side through tables. *)
From Coq Require Import List Arith NArith ZArith Bool Lia Reals SpecFloat Classical_Prop.
From Verif Require Import Base F32 Geometry Mir Erd Heap Route Layout Parser Cli SpecMir SpecF32 SpecGeom SpecLayout SpecRoute SpecGraph SpecThrough
  F32Facts GeomFacts SearchFacts MirFacts GridFacts LayoutFacts RenderFacts PipelineFacts GraphFacts PathFacts LatticeFacts
  ConnectFacts HubFacts DrawFacts OrderFacts RowFacts LineFacts MidFacts FarFacts TurnFacts CalmFacts LinkFacts EndFacts ThroughFacts.
Import ListNotations.
Local Open Scope Z_scope.

Section Doc.
Variables (d : document) (hs : list nat).
Hypothesis FD : end_doc d hs.
Let GD := ed_grid d hs FD.
Variable g : route_graph.
Hypothesis R : routes d hs g.
Let ns := rg_nodes g.
Let es := rg_edges g.
Let cost := rg_cost ns.
Local Notation steps := (steps g).
Local Notation stop := (stop hs g).
Local Notation better := (better hs g).
Local Notation conn := (conn g).

(** Passing over the right column to its far side is dearer than stopping before it. *)
Lemma over_right p q s t a b c Y x y w : end_at d hs q -> stop p s -> stop q t ->
  spot ns a 1540 Y None -> spot ns b 780 Y None -> spot ns c 2300 Y None -> joined es a b -> joined es b c ->
  steps b s x -> steps c t y -> 2 * w = 2 * x + 1520 + 2 * y -> better p q w.
Proof.
  intros Et Ss St A B C J1 J2 W1 W2 E.
  pose proof (cost_h d hs FD g R b a _ _ _ _ _ B A) as Cba. pose proof (cost_h d hs FD g R c b _ _ _ _ _ C B) as Ccb.
  pose proof (edge_conn d hs FD g R b a (joined_sym _ _ _ J1)) as Cab.
  pose proof (steps_next g c b s _ (joined_sym _ _ _ J2) W1) as Wc.
  destruct (run_right d hs FD g R q c t y W2 Y a C A St) as (f & n & a' & Yf & X & v & y' & o & Sf & Sa & Ca & Cf & Jf & Sn & Lx & Wn & Ey).
  assert (Go : forall z, conn a' n z -> 2 * z <= Z.abs (X - 1540) -> better p q w).
  { intros z Cz Lz. apply (better_mid d hs FD g R p q s t b n x y' _ w Ss St W1 Wn (conn_trans g _ _ _ _ _ Cab (conn_trans g _ _ _ _ _ Ca Cz))).
    clear - E Ey Lz Lx Cba. lia. }
  destruct (edge_h d hs GD g R n f X 2300 Yf o None (joined_sym _ _ _ Jf) Sn Sf Lx) as (On & _ & _).
  destruct (classic (ys hs Yf)) as [Yy|Of].
  - destruct (even_spot d hs FD g R n X Yf o Yy Sn) as (-> & Q).
    destruct (line_conn d hs FD g R a' n 1540 X Yf Yy Sa Sn) as (z & Cz & Ez). apply (Go z Cz). clear - Ez. lia.
  - destruct (odd_spot d hs FD g R n X Yf o Of Sn) as [(-> & K)|[(-> & K)|[(-> & K)|K]]].
    + destruct K as [-> | [-> | [-> | ->]]].
      * exfalso. destruct (odd_edge d hs FD g R n f 20 2300 Yf None None Of (joined_sym _ _ _ Jf) Sn Sf Lx) as [M|(Q & _)]; [|discriminate].
        assert (F : forall c0, column c0 -> free hs c0 Yf).
        { intros c0 Cc. apply (misses_free_inv hs 20 2300 Yf c0 M); unfold column in Cc; lia. }
        destruct (odd_2300 d hs FD g R f Yf Of Sf) as [Q|[(Q & _)|(Q & _)]]; apply (rel_not_free d hs FD _ _ Q), F, (rel_column d hs _ _ Q).
      * destruct (odd_edge d hs FD g R n f 780 2300 Yf None None Of (joined_sym _ _ _ Jf) Sn Sf Lx) as [M|(_ & _ & _ & _ & R0 & _ & R1 & F1)].
        -- apply (Go 380); [|lia]. apply conn_sym. change 380 with ((1540 - 780) / 2).
           eapply (hline_over d hs FD g R 760 n a' 780 1540 Yf None None); eauto; try lia; [apply (misses_sub hs 780 2300); [exact M|lia|lia|lia]|].
           intros e Xe w' Se Be. eapply (odd_mid_none d hs FD g R n f e 780 2300 Xe Yf); eauto; try solve [now left]; lia.
        -- pose proof (odd_across d hs FD g R n a' Yf Of Sn Sa R0 R1 F1) as J. pose proof (cost_h d hs FD g R n a' _ _ _ _ _ Sn Sa) as Cn.
           apply (Go _ (conn_sym g _ _ _ (edge_conn d hs FD g R n a' J))). unfold cost, ns in *. clear - Cn. lia.
      * destruct (spot_index d hs g R a' n _ _ _ _ Sa Sn) as [-> _]. apply (Go 0 (conn_refl g n)). lia.
      * exfalso. clear - Lx. lia.
    + destruct On as [Q|Q]; discriminate.
    + destruct (right_port_next d hs FD g R n f _ _ _ _ _ Sn Sf (joined_sym _ _ _ Jf)) as (Q & _).
      assert (X = 2220) as -> by (clear - Q; lia).
      destruct (right_port_end d hs FD g R q n t y' Yf Et St Wn Sn) as [(_ & Ey' & Zt & Er)|(b' & y2 & Sb & Wb' & Ey')].
      * destruct (side_corridor d hs FD g R q 1540 Et ltac:(left; rewrite Zt; reflexivity)) as (i & j & Si & Sj & C1). rewrite Er in Sj.
        destruct (spot_index d hs g R a' j _ _ _ _ Sa Sj) as [-> _].
        apply better_sym. apply (better_start d hs FD g R q p i s b x _ w Si Ss W1 (conn_trans g _ _ _ _ _ C1 (conn_trans g _ _ _ _ _ (conn_sym g _ _ _ Ca) (conn_sym g _ _ _ Cab)))).
        clear - E Ey Ey' Cba. lia.
      * destruct (spot_index d hs g R b' f _ _ _ _ Sb Sf) as [-> _].
        apply (better_mid d hs FD g R p q s t c f _ y2 v w Ss St Wc Wb' Cf). clear - E Ey Ey' Ccb. lia.
    + exfalso. destruct On as [On|On], K as [K|K]; congruence.
Qed.

(** An edge over a table that is not in the middle column is not on a cheapest walk. *)
Lemma over_outer p q s t a b X1 X2 Y o u x y w c : end_at d hs p -> end_at d hs q -> stop p s -> stop q t ->
  joined es a b -> spot ns a X1 Y o -> spot ns b X2 Y u -> X1 < X2 -> column c -> c <> 860 -> ~ free hs c Y -> X1 <= c -> c + 600 <= X2 ->
  steps a s x -> steps b t y -> w = x + Z.of_N (cost a b) + y -> better p q w.
Proof.
  intros Ep Eq Ss St J A B L Cc Nm Nf L1 L2 W1 W2 E.
  destruct (classic (ys hs Y)) as [Yy|O].
  - exfalso. apply Nf. destruct (even_spot d hs FD g R a X1 Y o Yy A) as (_ & Ka). destruct (even_spot d hs FD g R b X2 Y u Yy B) as (_ & Kb).
    destruct Cc as [-> | [-> | ->]]; [|congruence|].
    + destruct Ka as [(-> & Z)|Ka]; [now apply (line_is_free d hs FD)|lia].
    + destruct Kb as [Kb|[Kb|[Kb|[Kb|[Kb|[Kb|(_ & Z)]]]]]]; try lia. now apply (line_is_free d hs FD).
  - destruct (odd_edge d hs FD g R a b X1 X2 Y o u O J A B L) as [M|(-> & Xe & -> & -> & R0 & R2 & R1 & F1)].
    + exfalso. apply Nf. apply (misses_free_inv hs X1 X2 Y c M); lia.
    + assert (X2 = 2300) as -> by (unfold column in Cc; lia).
      destruct (right_corridor d hs FD g R b Y B) as (e & Se).
      pose proof (odd_across d hs FD g R a e Y O A Se R0 R1 F1) as J'. pose proof (cost_h d hs FD g R a b _ _ _ _ _ A B) as Ec.
      apply (over_right p q s t e a b Y x y w); auto; [now apply joined_sym|]. unfold cost, ns in *. clear - E Ec. lia.
Qed.

Lemma walk_pair k : forall a b l x y, walk es a b l -> nth_error l k = Some x -> nth_error l (S k) = Some y ->
  exists u v, steps a x u /\ joined es x y /\ steps y b v /\ Z.of_N (walk_cost cost l) = u + Z.of_N (cost x y) + v.
Proof.
  induction k as [|k IH]; intros a b l x y W Hx Hy.
  - inversion W as [a'|a1 b1 c1 l1 J1 W1]; subst; cbn in *; [discriminate|]. injection Hx as <-.
    destruct (walk_head _ _ _ _ W1) as (l2 & ->). cbn in Hy. injection Hy as <-.
    exists 0, (Z.of_N (walk_cost cost (b1 :: l2))). split; [constructor|]. split; [exact J1|].
    split; [now apply walk_steps|]. cbn [walk_cost]. lia.
  - inversion W as [a'|a1 b1 c1 l1 J1 W1]; subst; cbn [nth_error] in *; [destruct k; discriminate|].
    destruct (IH b1 b l1 x y W1 Hx Hy) as (u & v & S1 & Jx & S2 & E).
    exists (Z.of_N (cost a b1) + u), v. split; [constructor; assumption|]. split; [exact Jx|]. split; [exact S2|].
    destruct (walk_head _ _ _ _ W1) as (l2 & ->). cbn [walk_cost] in *. lia.
Qed.

Theorem best_middle s t p q l k a b X1 X2 Y o u c : has_ports hs p (n_ports s) -> has_ports hs q (n_ports t) ->
  end_at d hs p -> end_at d hs q -> best_route g s t l -> nth_error l k = Some a -> nth_error l (S k) = Some b ->
  spot ns a X1 Y o -> spot ns b X2 Y u -> column c -> ~ free hs c Y -> Z.min X1 X2 <= c -> c + 600 <= Z.max X1 X2 -> c = 860.
Proof.
  intros Hs Ht Es Et ((x0 & y0 & i & j & Ip & Iq & Sp & Sq & W) & Min) Ha Hb A B Cc Nf L1 L2.
  destruct (Z.eq_dec c 860) as [Q|Nm]; [exact Q|exfalso].
  pose proof (stands_stop d hs g R _ _ _ _ Hs Ip Sp) as Sa. pose proof (stands_stop d hs g R _ _ _ _ Ht Iq Sq) as Sb.
  destruct (walk_pair k i j l a b W Ha Hb) as (x & y & W1 & J & W2 & E).
  assert (Bt : better p q (Z.of_N (walk_cost cost l))).
  { destruct (Z.le_gt_cases X1 X2) as [Le|Gt].
    - apply (over_outer p q i j a b X1 X2 Y o u x y _ c); auto; try lia. now apply (steps_sym d hs FD g R).
    - apply better_sym. apply (over_outer q p j i b a X2 X1 Y u o y x _ c); auto; try lia; [now apply joined_sym|now apply (steps_sym d hs FD g R)|].
      unfold cost, ns. rewrite (cost_sym d hs FD g R b a (joined_sym _ _ _ J)). unfold cost, ns in E. lia. }
  destruct Bt as (s' & t' & w & Ss & St & [(l' & W' & Lw) _] & Lt).
  destruct (stop_stands _ _ _ _ _ Hs Ss) as (p' & Ip' & Sp'). destruct (stop_stands _ _ _ _ _ Ht St) as (q' & Iq' & Sq').
  specialize (Min p' q' s' t' l' Ip' Iq' Sp' Sq' W'). unfold cost, ns in E, Lw, Lt. lia.
Qed.
End Doc.

Theorem middle_column m vb g d : fits (table_rows m) -> layout_module m = Ret (vb, g, d) ->
  forall e l1 p q l2 X1 Y1 X2 Y2 r x y w h, In e (d_edges d) -> e_path e = Some (l1 ++ p :: q :: l2) -> hpoint p X1 Y1 -> hpoint q X2 Y2 ->
  table_rect d r -> hrect r x y w h -> enters x y w h X1 Y1 X2 Y2 -> X1 <> X2 -> x = 860.
Proof.
  intros F L e l1 p q l2 X1 Y1 X2 Y2 r x y w h I Ep Hp Hq T Hr En Nx.
  destruct (through_tables m vb g d F L e l1 p q l2 X1 Y1 X2 Y2 r x y w h I Ep Hp Hq T Hr En) as [(Q & _)|(EY & L1 & L2)]; [contradiction|]. subst Y2.
  destruct (module_cheapest m vb g d F L e I) as (s & t & l & ps & Gs & Gt & Ep' & Pl & Br).
  rewrite Ep in Ep'. injection Ep' as <-.
  destruct (layout_routes m vb g d F L) as (d0 & M & V & D & R). pose proof (module_ends m d0 M F) as ED. pose proof (ed_grid _ _ ED) as GD.
  apply Forall2_app_inv_r in Pl as (k1 & k2 & _ & Pl & ->).
  inversion Pl as [|i p0 k3 ps3 (n & Hn & En1) Pl1]; clear Pl. inversion Pl1 as [|j q0 k4 ps4 (n' & Hn' & En2) Pl2]; clear Pl1. subst.
  apply draw_split in D as (_ & N & F2). set (d2 := place_terminal_ports (fst (place_nodes d0))) in *.
  destruct (forall2_in_r _ _ _ _ F2 I) as (e0 & I0 & (E1 & E2) & _).
  assert (Gs' : get_node d2 (e_source e0) = Some s) by (unfold get_node in *; rewrite <- E1, <- N; exact Gs).
  assert (Gt' : get_node d2 (e_target e0) = Some t) by (unfold get_node in *; rewrite <- E2, <- N; exact Gt).
  destruct (ed_end _ _ ED e0 _ s I0 (or_introl eq_refl) Gs') as (a & Ka). destruct (ed_end _ _ ED e0 _ t I0 (or_intror eq_refl) Gt') as (b & Kb).
  assert (T' : table_rect d2 r) by (destruct T as (i' & n1 & Ib & Gi & Ri); exists i', n1; unfold body_children, get_node in *; rewrite N in Ib, Gi; auto).
  destruct (gd_rect _ _ GD r T') as (tb & Lt & Hr'). destruct Hr as ([Hx Hy] & Hw & Hh), Hr' as ([Hx' Hy'] & Hw' & Hh').
  rewrite (hv_unique _ _ _ Hx Hx'), (hv_unique _ _ _ Hy Hy'), (hv_unique _ _ _ Hw Hw'), (hv_unique _ _ _ Hh Hh') in *.
  destruct En as (z & _ & _ & Ez). apply steady in Ez.
  assert (A1 : nth_error (k1 ++ i :: j :: k4) (length k1) = Some i) by (rewrite nth_error_app2, Nat.sub_diag; [reflexivity|lia]).
  assert (A2 : nth_error (k1 ++ i :: j :: k4) (S (length k1)) = Some j) by (rewrite nth_error_app2 by lia; replace (S (length k1) - length k1)%nat with 1%nat by lia; reflexivity).
  apply (best_middle d2 (table_rows m) ED g R s t a b (k1 ++ i :: j :: k4) (length k1) i j X1 X2 Y1 (rn_orient n) (rn_orient n') (zl tb) Ka Kb); auto.
  - exists e0, (e_source e0), s; auto.
  - exists e0, (e_target e0), t; auto.
  - exists n; auto.
  - exists n'; auto.
  - apply zl_column.
  - intros Fr. specialize (Fr tb Lt eq_refl).
    destruct (spot_five d2 (table_rows m) ED g R i X1 Y1 (rn_orient n) ltac:(exists n; auto)) as (_ & k & Ek).
    destruct (zt_ten (table_rows m) tb) as (k' & Ek'). destruct (zb_ten (table_rows m) tb) as (k2 & Ek2). clear - Fr Ez Ek Ek' Ek2. lia.
Qed.
