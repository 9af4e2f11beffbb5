(** Which neighbour is chosen, and the order of the nodes of the routing graph. *)
From Coq Require Import List Arith NArith ZArith Bool Lia SpecFloat Classical_Prop.
From Verif Require Import Base F32 Geometry Mir Erd Heap Route Layout SpecMir SpecF32 SpecGeom SpecLayout SpecRoute SpecGraph
  F32Facts GeomFacts SearchFacts MirFacts GridFacts LayoutFacts RenderFacts PipelineFacts GraphFacts PathFacts LatticeFacts
  ConnectFacts HubFacts.
Import ListNotations.
Local Open Scope Z_scope.

(** ** The chosen neighbour *)

(** No visible candidate comes before the chosen one; a hidden one is the first candidate of the list. *)
Lemma near_first rects n o l b m :
  (forall x y z, In x l -> In y l -> In z l -> before o (rn_loc (snd x)) (rn_loc (snd y)) = true ->
     before o (rn_loc (snd y)) (rn_loc (snd z)) = true -> before o (rn_loc (snd x)) (rn_loc (snd z)) = true) ->
  near_in o (fold_left (nearest_step rects n) l (mkNear None None None None)) = Some (b, m) ->
  let hidden q := existsb (fun r => intersects_line r (rn_loc n) q) rects in
  In (b, m) l /\ candidate o n m = true /\
  (forall x, In x l -> candidate o n (snd x) = true -> hidden (rn_loc (snd x)) = false ->
     before o (rn_loc (snd x)) (rn_loc m) = false) /\
  (hidden (rn_loc m) = false \/ exists l1 l2, l = l1 ++ (b, m) :: l2 /\ forall x, In x l1 -> candidate o n (snd x) = false).
Proof.
  intros Tr. cbn zeta. set (hidden := fun q => existsb (fun r => intersects_line r (rn_loc n) q) rects).
  set (Q := fun l acc => match near_in o acc with
    | None => forall x, In x l -> candidate o n (snd x) = false
    | Some (b, m) => In (b, m) l /\ candidate o n m = true /\
        (forall x, In x l -> candidate o n (snd x) = true -> hidden (rn_loc (snd x)) = false ->
           before o (rn_loc (snd x)) (rn_loc m) = false) /\
        (hidden (rn_loc m) = false \/ exists l1 l2, l = l1 ++ (b, m) :: l2 /\ forall x, In x l1 -> candidate o n (snd x) = false)
    end).
  assert (H : Q l (fold_left (nearest_step rects n) l (mkNear None None None None))).
  2:{ intros E. unfold Q in H. rewrite E in H. exact H. }
  assert (G : forall k r, l = k ++ r -> Q k (fold_left (nearest_step rects n) k (mkNear None None None None))).
  2:{ apply (G l []). now rewrite app_nil_r. }
  intros k. induction k as [|[b' m'] k IH] using rev_ind; intros r E.
  - unfold Q. cbn [fold_left]. destruct o; cbn; intros x [].
  - rewrite fold_left_app. cbn [fold_left].
    rewrite <- app_assoc in E. cbn in E. specialize (IH _ E).
    set (acc := fold_left (nearest_step rects n) k (mkNear None None None None)) in *.
    assert (Ik : incl k l) by (rewrite E; intros y Iy; apply in_app_iff; now left).
    assert (Ib : In (b', m') l) by (rewrite E; apply in_app_iff; right; now left).
    unfold Q in *. rewrite near_step. destruct (candidate o n m') eqn:C.
    + destruct (near_in o acc) as [[b0 m0]|] eqn:A.
      * destruct IH as (I0 & C0 & F0 & H0).
        destruct (before o (rn_loc m') (rn_loc m0)) eqn:Bf; cbn [andb].
        -- fold (hidden (rn_loc m')). destruct (hidden (rn_loc m')) eqn:Hd; cbn [negb].
           ++ split; [apply in_app_iff; now left|]. split; [exact C0|]. split.
              ** intros x Ix Cx Hx. apply in_app_iff in Ix as [Ix|[<-|[]]]; [now apply F0|]. cbn in Hx. congruence.
              ** destruct H0 as [H0|(l1 & l2 & -> & H0)]; [now left|]. right. exists l1, (l2 ++ [(b', m')]).
                 rewrite <- app_assoc. cbn. auto.
           ++ split; [apply in_app_iff; right; now left|]. split; [exact C|]. split; [|now left].
              intros x Ix Cx Hx. apply in_app_iff in Ix as [Ix|[<-|[]]].
              ** specialize (F0 x Ix Cx Hx). destruct (before o (rn_loc (snd x)) (rn_loc m')) eqn:B2; [|reflexivity].
                 rewrite <- F0. symmetry. apply (Tr x (b', m') (b0, m0)); auto.
              ** cbn. destruct o; cbn; apply flt_irrefl.
        -- split; [apply in_app_iff; now left|]. split; [exact C0|]. split.
           ++ intros x Ix Cx Hx. apply in_app_iff in Ix as [Ix|[<-|[]]]; [now apply F0|exact Bf].
           ++ destruct H0 as [H0|(l1 & l2 & -> & H0)]; [now left|]. right. exists l1, (l2 ++ [(b', m')]).
              rewrite <- app_assoc. cbn. auto.
      * split; [apply in_app_iff; right; now left|]. split; [exact C|]. split.
        -- intros x Ix Cx Hx. apply in_app_iff in Ix as [Ix|[<-|[]]]; [rewrite (IH x Ix) in Cx; discriminate|].
           cbn. destruct o; cbn; apply flt_irrefl.
        -- right. exists k, []. auto.
    + destruct (near_in o acc) as [[b0 m0]|] eqn:A.
      * destruct IH as (I0 & C0 & F0 & H0). split; [apply in_app_iff; now left|]. split; [exact C0|]. split.
        -- intros x Ix Cx Hx. apply in_app_iff in Ix as [Ix|[<-|[]]]; [now apply F0|]. cbn in Cx. congruence.
        -- destruct H0 as [H0|(l1 & l2 & -> & H0)]; [now left|]. right. exists l1, (l2 ++ [(b', m')]).
           rewrite <- app_assoc. cbn. auto.
      * intros x Ix. apply in_app_iff in Ix as [Ix|[<-|[]]]; [now apply IH|exact C].
Qed.

Lemma near_some rects n o l x : In x l -> candidate o n (snd x) = true ->
  exists b m, near_in o (fold_left (nearest_step rects n) l (mkNear None None None None)) = Some (b, m).
Proof.
  assert (K : forall k acc, (exists y, near_in o acc = Some y) -> exists y, near_in o (fold_left (nearest_step rects n) k acc) = Some y).
  { induction k as [|[b m] k IH]; intros acc (y & E); cbn [fold_left]; [eauto|]. apply IH. rewrite near_step, E.
    destruct (candidate o n m); [|eauto]. destruct y as [b' u]. destruct (_ && _); eauto. }
  intros I C. apply in_split in I as (l1 & l2 & ->). rewrite fold_left_app. cbn [fold_left].
  destruct (K l2 (nearest_step rects n (fold_left (nearest_step rects n) l1 (mkNear None None None None)) x)) as ([b m] & E); [|eauto].
  destruct x as [b m]. cbn [snd] in C. rewrite near_step, C.
  match goal with |- context [if ?c then _ else _] => destruct c eqn:E end; [eauto|].
  destruct (near_in o (fold_left (nearest_step rects n) l1 (mkNear None None None None))) as [y|]; [eauto|discriminate].
Qed.

(** ** Order in lists *)

(** Every [Q] of the list comes after some [P]. *)
Definition preceded {A} (P Q : A -> Prop) (l : list A) : Prop :=
  forall l1 q l2, l = l1 ++ q :: l2 -> Q q -> exists p, In p l1 /\ P p.

Lemma app_split {A} (a b : list A) l1 q l2 : a ++ b = l1 ++ q :: l2 ->
  (exists r, a = l1 ++ q :: r /\ l2 = r ++ b) \/ (exists r, l1 = a ++ r /\ b = r ++ q :: l2).
Proof.
  revert l1. induction a as [|x a IH]; intros l1 E; cbn in E; [right; exists l1; auto|].
  destruct l1 as [|y l1]; cbn in E.
  - injection E as <- <-. left. exists a. auto.
  - injection E as -> E. destruct (IH l1 E) as [(r & -> & ->)|(r & -> & ->)]; [left|right]; exists r; auto.
Qed.
Lemma preceded_none {A} (P Q : A -> Prop) l : (forall x, In x l -> ~ Q x) -> preceded P Q l.
Proof. intros N l1 q l2 -> Hq. exfalso. apply (N q); [apply in_app_iff; right; now left|exact Hq]. Qed.
Lemma preceded_app {A} (P Q : A -> Prop) a b : preceded P Q a -> preceded P Q b -> preceded P Q (a ++ b).
Proof.
  intros Pa Pb l1 q l2 E Hq. apply app_split in E as [(r & E & _)|(r & -> & E)]; [now apply (Pa l1 q r)|].
  destruct (Pb r q l2 E Hq) as (p & I & Hp). exists p. split; [apply in_app_iff; now right|exact Hp].
Qed.
Lemma preceded_after {A} (P Q : A -> Prop) a b : preceded P Q a -> (exists p, In p a /\ P p) -> preceded P Q (a ++ b).
Proof.
  intros Pa (p & Ip & Hp) l1 q l2 E Hq. apply app_split in E as [(r & E & _)|(r & -> & E)]; [now apply (Pa l1 q r)|].
  exists p. split; [apply in_app_iff; now left|exact Hp].
Qed.
Lemma preceded_flat_map {A B} (P Q : B -> Prop) (f : A -> list B) l : (forall x, In x l -> preceded P Q (f x)) -> preceded P Q (flat_map f l).
Proof.
  induction l as [|x l IH]; intros H; cbn.
  - apply preceded_none. intros y [].
  - apply preceded_app; [apply H; now left|]. apply IH. intros y Iy. apply H. now right.
Qed.
Lemma preceded_filter {A} (P Q : A -> Prop) f l : (forall x, In x l -> P x -> f x = true) -> preceded P Q l -> preceded P Q (filter f l).
Proof.
  intros K Pl l1 q l2 E Hq.
  assert (X : exists m1 m2, l = m1 ++ q :: m2 /\ l1 = filter f m1).
  { clear -E. revert l1 E. induction l as [|x l IH]; intros l1 E; cbn in E; [destruct l1; discriminate|].
    destruct (f x) eqn:F.
    - destruct l1 as [|y l1]; cbn in E; injection E as -> E.
      + exists [], l. auto.
      + destruct (IH l1 E) as (m1 & m2 & -> & ->). exists (y :: m1), m2. cbn. now rewrite F.
    - destruct (IH l1 E) as (m1 & m2 & -> & ->). exists (x :: m1), m2. cbn. now rewrite F. }
  destruct X as (m1 & m2 & -> & ->). destruct (Pl m1 q m2 eq_refl Hq) as (p & I & Hp). exists p.
  split; [|exact Hp]. apply filter_In. split; [exact I|]. apply K; [apply in_app_iff; now left|exact Hp].
Qed.
Lemma first_split {A} (Q : A -> Prop) l : (exists q, In q l /\ Q q) -> exists l1 q l2, l = l1 ++ q :: l2 /\ Q q /\ forall x, In x l1 -> ~ Q x.
Proof.
  induction l as [|x l IH]; intros (q & I & Hq); [destruct I|]. destruct (classic (Q x)) as [Hx|Nx].
  - exists [], x, l. split; [reflexivity|]. split; [exact Hx|]. intros y [].
  - destruct I as [->|I]; [contradiction|]. destruct IH as (l1 & q' & l2 & -> & Hq' & N); [eauto|].
    exists (x :: l1), q', l2. split; [reflexivity|]. split; [exact Hq'|]. intros y [<-|Iy]; auto.
Qed.

Section Doc.
Variables (d : document) (hs : list nat).
Hypothesis GD : grid_doc d hs.
Variable g : route_graph.
Hypothesis R : routes d hs g.
Let ns := rg_nodes g.
Let es := rg_edges g.

(** ** The order of the nodes *)

Lemma build_steps : exists g1 g2, foldM rg_add_node (edge_junctions d) rg_new = Ret g1 /\
  foldM rg_add_port (flat_map (edge_end_ports d) (d_edges d)) g1 = Ret g2 /\ ns = rg_nodes g2.
Proof.
  pose proof (rt_build d hs g R) as B. unfold build_routes in B.
  apply bind_ret in B as (g1 & A1 & B). apply bind_ret in B as (g2 & A2 & B). exists g1, g2.
  split; [exact A1|]. split; [exact A2|]. injection B as B. unfold ns. rewrite <- B. unfold connect_neighbors.
  apply (add_edges_spec (neighbor_edges d (rg_nodes g2)) g2).
Qed.

Lemma foldM_app {A B} (f : A -> B -> res A) l1 l2 a c : foldM f (l1 ++ l2) a = Ret c ->
  exists b, foldM f l1 a = Ret b /\ foldM f l2 b = Ret c.
Proof.
  revert a. induction l1 as [|x l1 IH]; intros a E; cbn in *; [eauto|].
  apply bind_ret in E as (b & F & E). rewrite F. cbn [bind]. now apply IH.
Qed.

Lemma ports_after l : forall g1 g2, foldM rg_add_port l g1 = Ret g2 -> forall i n, nth_error (rg_nodes g2) i = Some n ->
  (i < length (rg_nodes g1))%nat \/ rn_orient n <> None.
Proof.
  induction l as [|p l IH]; intros g1 g2 E i n Hn; cbn [foldM] in E.
  - injection E as <-. left. apply nth_error_Some. congruence.
  - apply bind_ret in E as (g' & A & E). destruct (IH g' g2 E i n Hn) as [L|L]; [|now right].
    destruct (add_ports_spec l g' g2 E) as (Ex & _).
    unfold rg_add_port in A. apply bind_ret in A as ([g3 k] & A & B). injection B as <-. cbn in L, Ex.
    pose proof (add_node_cases g1 (port_location p) (Some (port_orientation p))) as C. rewrite A in C.
    destruct C as (_ & _ & [(N & _)|(N & _)]); rewrite N in L; [now left|]. rewrite app_length in L. cbn in L.
    destruct (lt_dec i (length (rg_nodes g1))) as [L'|L']; [now left|]. right.
    assert (E' : nth_error (rg_nodes g3) i = Some (mkRNode (port_location p) (Some (port_orientation p)))).
    { rewrite N, nth_error_app2 by lia. replace (i - length (rg_nodes g1))%nat with 0%nat by lia. reflexivity. }
    assert (E2 := extends_nth _ _ i _ Ex E'). rewrite Hn in E2. injection E2 as ->. discriminate.
Qed.

(** Junctions come before ports. *)
Theorem junction_first i j X Y X' Y' o : spot ns i X Y None -> spot ns j X' Y' (Some o) -> (i < j)%nat.
Proof.
  intros (n & Hn & _ & O) (m & Hm & _ & O'). destruct build_steps as (g1 & g2 & A1 & A2 & E). rewrite E in Hn, Hm.
  destruct (ports_after _ _ _ A2 i n Hn) as [L|L]; [|congruence].
  destruct (lt_dec j (length (rg_nodes g1))) as [L'|L']; [|lia]. exfalso.
  destruct (nth_error (rg_nodes g1) j) as [m1|] eqn:E1; [|apply nth_error_None in E1; lia].
  destruct (add_ports_spec _ _ _ A2) as (Ex & _). assert (E2 := extends_nth _ _ _ _ Ex E1). rewrite Hm in E2. injection E2 as <-.
  destruct (add_nodes_spec _ _ _ A1) as (_ & _ & _ & N1 & _). destruct (N1 m (nth_error_In _ _ E1)) as [[]|[O1 _]]. congruence.
Qed.

(** Junctions keep the order of the list. *)
Theorem junction_order i j X Y X' Y' : spot ns i X Y None -> spot ns j X' Y' None ->
  preceded (fun p => hpoint p X Y) (fun p => hpoint p X' Y') (edge_junctions d) -> (i < j)%nat.
Proof.
  intros A B Pr. destruct build_steps as (g1 & g2 & A1 & A2 & E). destruct (add_ports_spec _ _ _ A2) as (Ex2 & _).
  pose proof B as (m & Hm & Hb & Ob). pose proof A as (n & Hn & Ha & Oa). rewrite E in Hm, Hn.
  destruct (ports_after _ _ _ A2 j m Hm) as [Lj|Q]; [|congruence].
  assert (M1 : nth_error (rg_nodes g1) j = Some m).
  { destruct (nth_error (rg_nodes g1) j) as [m1|] eqn:E1; [|apply nth_error_None in E1; lia].
    assert (E2 := extends_nth _ _ _ _ Ex2 E1). rewrite Hm in E2. congruence. }
  destruct (add_nodes_spec _ _ _ A1) as (_ & _ & _ & N1 & _). destruct (N1 m (nth_error_In _ _ M1)) as [[]|[_ Im]].
  destruct (first_split (fun p => hpoint p X' Y') (edge_junctions d)) as (l1 & q & l2 & El & Hq & F); [eauto|].
  destruct (Pr l1 q l2 El Hq) as (p & Ip & Hp).
  rewrite El in A1. apply foldM_app in A1 as (g0 & B1 & B2).
  destruct (add_nodes_spec _ _ _ B1) as (_ & _ & _ & N0 & M0). destruct (add_nodes_spec _ _ _ B2) as (Ex0 & _).
  destruct (M0 p Ip (hpoint_proper _ _ _ Hp)) as (n0 & In0 & S0 & O0). apply In_nth_error in In0 as (k & Hk).
  pose proof (extends_nth _ _ _ _ (extends_trans _ _ _ Ex0 Ex2) Hk) as Hk2. rewrite <- E in Hk2.
  assert (Sk : spot ns k X Y None).
  { destruct (nth_spot d hs g R k n0 Hk2) as (X0 & Y0 & S' & H'). rewrite O0 in S'.
    destruct (same_hpoint _ _ _ _ S0 H' _ _ Hp) as [-> ->]. exact S'. }
  destruct (spot_index d hs g R _ _ _ _ _ _ A Sk) as [-> _].
  assert (Lk : (k < length (rg_nodes g0))%nat) by (apply nth_error_Some; congruence).
  destruct (lt_dec j (length (rg_nodes g0))) as [Lj0|Lj0]; [|lia]. exfalso.
  destruct (nth_error (rg_nodes g0) j) as [m0|] eqn:E0; [|apply nth_error_None in E0; lia].
  assert (E1 := extends_nth _ _ _ _ (extends_trans _ _ _ Ex0 Ex2) E0). rewrite Hm in E1. injection E1 as <-.
  destruct (N0 m (nth_error_In _ _ E0)) as [[]|[_ I0]]. exact (F _ I0 Hb).
Qed.

(** ** Horizontal edges *)

Definition faces (o : option orientation) (w : orientation) : Prop := o = None \/ o = Some w.

Lemma enum_nth l1 b m l2 : enum ns = l1 ++ (b, m) :: l2 -> forall c m', nth_error ns c = Some m' -> (c < b)%nat -> In (c, m') l1.
Proof.
  intros E c m' H L. assert (I : In (c, m') (enum ns)).
  { apply in_enum. rewrite Nat.sub_0_r. split; [lia|exact H]. }
  assert (G : forall (l : list route_node) s l1 b m l2, enum_from s l = l1 ++ (b, m) :: l2 -> forall c m', In (c, m') ((b, m) :: l2) -> (b <= c)%nat).
  { clear. induction l as [|x l IH]; intros s l1 b m l2 E c m' I; cbn in E; [destruct l1; discriminate|].
    destruct l1 as [|y l1]; cbn in E.
    - injection E as -> -> E. destruct I as [Q|I]; [injection Q as -> ->; lia|]. rewrite <- E in I.
      apply in_enum in I. lia.
    - injection E as _ E. eapply IH; eauto. }
  rewrite E in I. apply in_app_iff in I as [I|I]; [exact I|]. pose proof (G ns 0%nat _ _ _ _ E c m' I). lia.
Qed.

(** An edge chosen by its left or by its right end. *)
Definition picks_right (a b : nat) (X1 X2 Y : Z) : Prop :=
  (forall c X v, spot ns c X Y v -> X1 < X -> faces v Left -> misses hs X1 Y X Y -> X2 <= X) /\
  (misses hs X1 Y X2 Y \/ forall c X v, spot ns c X Y v -> X1 < X -> faces v Left -> (b <= c)%nat).
Definition picks_left (a b : nat) (X1 X2 Y : Z) : Prop :=
  (forall c X v, spot ns c X Y v -> X < X2 -> faces v Right -> misses hs X Y X2 Y -> X <= X1) /\
  (misses hs X1 Y X2 Y \/ forall c X v, spot ns c X Y v -> X < X2 -> faces v Right -> (a <= c)%nat).

Lemma misses_sym X1 Y1 X2 Y2 : misses hs X1 Y1 X2 Y2 -> misses hs X2 Y2 X1 Y1.
Proof. intros M t L. specialize (M t L). lia. Qed.

Lemma spot_ordered w x y z : In x (enum ns) -> In y (enum ns) -> In z (enum ns) ->
  before w (rn_loc (snd x)) (rn_loc (snd y)) = true -> before w (rn_loc (snd y)) (rn_loc (snd z)) = true ->
  before w (rn_loc (snd x)) (rn_loc (snd z)) = true.
Proof.
  intros Ix Iy Iz. destruct x as [i x], y as [j y], z as [k z]. apply in_enum in Ix as [_ Ix], Iy as [_ Iy], Iz as [_ Iz].
  cbn [snd]. fold ns in Ix, Iy, Iz.
  destruct (nth_spot d hs g R _ _ Ix) as (X1 & Y1 & _ & [Hx1 Hy1]). destruct (nth_spot d hs g R _ _ Iy) as (X2 & Y2 & _ & [Hx2 Hy2]).
  destruct (nth_spot d hs g R _ _ Iz) as (X3 & Y3 & _ & [Hx3 Hy3]).
  destruct w; cbn [before]; rewrite ?(hv_lt _ _ _ _ Hx1 Hx2), ?(hv_lt _ _ _ _ Hx2 Hx3), ?(hv_lt _ _ _ _ Hx1 Hx3),
    ?(hv_lt _ _ _ _ Hy1 Hy2), ?(hv_lt _ _ _ _ Hy2 Hy3), ?(hv_lt _ _ _ _ Hy1 Hy3),
    ?(hv_lt _ _ _ _ Hx2 Hx1), ?(hv_lt _ _ _ _ Hx3 Hx2), ?(hv_lt _ _ _ _ Hx3 Hx1),
    ?(hv_lt _ _ _ _ Hy2 Hy1), ?(hv_lt _ _ _ _ Hy3 Hy2), ?(hv_lt _ _ _ _ Hy3 Hy1), !Z.ltb_lt; lia.
Qed.

Lemma hidden_iff a b X1 X2 Y o u n m : spot ns a X1 Y o -> spot ns b X2 Y u -> nth_error ns a = Some n -> nth_error ns b = Some m ->
  (existsb (fun r => intersects_line r (rn_loc n) (rn_loc m)) (shrunk d) = false <-> misses hs X1 Y X2 Y).
Proof.
  intros A B Hn Hm. destruct (spot_ok d hs GD g R _ _ _ _ A) as (Ba & Ba' & _). destruct (spot_ok d hs GD g R _ _ _ _ B) as (Bb & Bb' & _).
  pose proof A as (n' & Hn' & Ha & _). pose proof B as (m' & Hm' & Hb & _). fold ns in Hn', Hm'.
  rewrite Hn in Hn'. rewrite Hm in Hm'. injection Hn' as <-. injection Hm' as <-.
  apply (shrunk_iff d hs GD _ _ X1 Y X2 Y); auto.
  intros t Lt Q. apply (spot_outside d hs GD g R a X1 Y o t A Lt). lia.
Qed.

Lemma chosen_h a b X1 X2 Y o u : In (a, b) es -> spot ns a X1 Y o -> spot ns b X2 Y u -> X1 <> X2 ->
  (X1 < X2 -> faces o Right /\ faces u Left /\ picks_right a b X1 X2 Y) /\
  (X2 < X1 -> faces o Left /\ faces u Right /\ picks_left b a X2 X1 Y).
Proof.
  intros I A B Ne. apply (rt_sound d hs g R) in I. apply neighbor_edge_iff in I as (n & w & m & Hn & Nr).
  fold (shrunk d) ns in Nr. fold ns in Hn. apply near_first in Nr; [|apply spot_ordered].
  destruct Nr as (Im & C & F & H). apply in_enum in Im as [_ Im]. rewrite Nat.sub_0_r in Im.
  pose proof (proj1 (spot_candidate g a b _ _ _ _ _ _ w A B n m Hn Im) C) as (D & Fo & Fu).
  assert (Cd : forall c X v, spot ns c X Y v -> exists k, nth_error ns c = Some k /\ In (c, k) (enum ns) /\ hv (px (rn_loc k)) X).
  { intros c X v (k & Hk & [Hx _] & _). exists k. split; [exact Hk|]. split; [|exact Hx]. apply in_enum. rewrite Nat.sub_0_r.
    split; [lia|exact Hk]. }
  assert (Hb : hv (px (rn_loc m)) X2).
  { destruct B as (m' & Hm' & [Hx _] & _). fold ns in Hm'. rewrite Im in Hm'. now injection Hm' as <-. }
  assert (Q : forall c X v, spot ns c X Y v -> match w with Left => X < X1 | Right => X1 < X | _ => False end ->
     faces v (opposite w) -> (misses hs X1 Y X Y -> match w with Left => X <= X2 | Right => X2 <= X | _ => False end) /\
     (misses hs X1 Y X2 Y \/ (b <= c)%nat)).
  { intros c X v Sc Lc Fc. destruct (Cd c X v Sc) as (k & Hk & Ik & Hx).
    assert (Ck : candidate w n k = true).
    { apply (proj2 (spot_candidate g a c _ _ _ _ _ _ w A Sc n k Hn Hk)). destruct w; try contradiction; auto. }
    split.
    - intros M. apply (hidden_iff a c X1 X Y o v n k A Sc Hn Hk) in M. specialize (F (c, k) Ik Ck M). cbn [snd] in F.
      destruct w; try contradiction; cbn [before] in F;
        rewrite ?(hv_lt _ _ _ _ Hx Hb), ?(hv_lt _ _ _ _ Hb Hx) in F; lia.
    - destruct H as [H|(l1 & l2 & E & N)]; [left; now apply (hidden_iff a b X1 X2 Y o u n m A B Hn Im)|].
      right. destruct (le_lt_dec b c) as [L|L]; [exact L|]. exfalso.
      pose proof (enum_nth l1 b m l2 E c k Hk L) as I1. specialize (N _ I1). cbn [snd] in N. congruence. }
  split; intros L.
  - assert (w = Right) as -> by (destruct w; try lia; reflexivity). split; [exact Fo|]. split; [exact Fu|]. split.
    + intros c X v Sc Lc Fc M. now apply (Q c X v Sc Lc Fc).
    + destruct (classic (misses hs X1 Y X2 Y)) as [M|M]; [now left|]. right. intros c X v Sc Lc Fc.
      destruct (Q c X v Sc Lc Fc) as [_ [Z|Z]]; [contradiction|exact Z].
  - assert (w = Left) as -> by (destruct w; try lia; reflexivity). split; [exact Fo|]. split; [exact Fu|]. split.
    + intros c X v Sc Lc Fc M. apply (Q c X v Sc Lc Fc). now apply misses_sym.
    + destruct (classic (misses hs X2 Y X1 Y)) as [M|M]; [now left|]. right. intros c X v Sc Lc Fc.
      destruct (Q c X v Sc Lc Fc) as [_ [Z|Z]]; [|exact Z]. exfalso. apply M. now apply misses_sym.
Qed.

Theorem edge_h a b X1 X2 Y o u : joined es a b -> spot ns a X1 Y o -> spot ns b X2 Y u -> X1 < X2 ->
  faces o Right /\ faces u Left /\ (picks_right a b X1 X2 Y \/ picks_left a b X1 X2 Y).
Proof.
  intros [J|J] A B L.
  - destruct (chosen_h a b X1 X2 Y o u J A B ltac:(lia)) as [H _]. destruct (H L) as (H1 & H2 & H3). auto.
  - destruct (chosen_h b a X2 X1 Y u o J B A ltac:(lia)) as [_ H]. destruct (H L) as (H1 & H2 & H3). auto.
Qed.

(** A node with a candidate on its left chooses one. *)
Theorem chooses_left b X2 Y u c X v : spot ns b X2 Y u -> faces u Left -> spot ns c X Y v -> X < X2 -> faces v Right ->
  exists a X1 o, joined es a b /\ spot ns a X1 Y o /\ X1 < X2 /\ picks_left a b X1 X2 Y.
Proof.
  intros B Fu C L Fv. pose proof B as (n & Hn & _). pose proof C as (k & Hk & _).
  assert (Ck : candidate Left n k = true) by (apply (proj2 (spot_candidate g b c _ _ _ _ _ _ Left B C n k Hn Hk)); auto).
  assert (Ik : In (c, k) (enum ns)) by (apply in_enum; rewrite Nat.sub_0_r; split; [lia|exact Hk]).
  destruct (near_some (shrunk d) n Left (enum ns) (c, k) Ik Ck) as (a & m & Nr).
  pose proof Nr as Nr'. apply near_first in Nr'; [|apply spot_ordered]. destruct Nr' as (Im & Cm & F & H).
  apply in_enum in Im as [_ Im]. rewrite Nat.sub_0_r in Im. fold ns in Im.
  destruct (nth_spot d hs g R a m Im) as (X1 & Y1 & A & Ha).
  pose proof (proj1 (spot_candidate g b a _ _ _ _ _ _ Left B A n m Hn Im) Cm) as ((E & L1) & _ & _). symmetry in E. rewrite E in *. clear E Y1.
  exists a, X1, (rn_orient m). assert (J : joined es b a).
  { apply (rt_edges d hs g R). apply neighbor_edge_iff. exists n, Left, m. auto. }
  split; [destruct J; [right|left]; assumption|]. split; [exact A|]. split; [exact L1|].
  assert (Q : forall q X' w, spot ns q X' Y w -> X' < X2 -> faces w Right ->
    (misses hs X' Y X2 Y -> X' <= X1) /\ (misses hs X1 Y X2 Y \/ (a <= q)%nat)).
  { intros q X' w Sq Lq Fq. pose proof Sq as (kq & Hq & [Hx _] & _). fold ns in Hq.
    assert (Cq : candidate Left n kq = true) by (apply (proj2 (spot_candidate g b q _ _ _ _ _ _ Left B Sq n kq Hn Hq)); auto).
    assert (Iq : In (q, kq) (enum ns)) by (apply in_enum; rewrite Nat.sub_0_r; split; [lia|exact Hq]).
    split.
    - intros M. apply misses_sym in M. apply (hidden_iff b q X2 X' Y _ _ n kq B Sq Hn Hq) in M.
      specialize (F (q, kq) Iq Cq M). cbn [snd before] in F. destruct Ha as [Ha _]. rewrite (hv_lt _ _ _ _ Ha Hx) in F. lia.
    - destruct H as [H|(l1 & l2 & E & N)]; [left; apply misses_sym; now apply (hidden_iff b a X2 X1 Y _ _ n m B A Hn Im)|].
      right. destruct (le_lt_dec a q) as [Z|Z]; [exact Z|]. exfalso.
      pose proof (enum_nth l1 a m l2 E q kq Hq Z) as I1. specialize (N _ I1). cbn [snd] in N. congruence. }
  split.
  - intros q X' w Sq Lq Fq M. now apply (Q q X' w).
  - destruct (classic (misses hs X1 Y X2 Y)) as [M|M]; [now left|]. right. intros q X' w Sq Lq Fq.
    destruct (Q q X' w Sq Lq Fq) as [_ [Z|Z]]; [contradiction|exact Z].
Qed.

(** An edge is horizontal or vertical; vertical ones leave ports outward. *)
Theorem edge_straight a b X1 Y1 X2 Y2 o u : joined es a b -> spot ns a X1 Y1 o -> spot ns b X2 Y2 u ->
  (Y1 = Y2 /\ X1 <> X2) \/ (X1 = X2 /\ Y1 < Y2 /\ faces o Down /\ faces u Up) \/ (X1 = X2 /\ Y2 < Y1 /\ faces o Up /\ faces u Down).
Proof.
  assert (G : forall a b X1 Y1 X2 Y2 o u, In (a, b) es -> spot ns a X1 Y1 o -> spot ns b X2 Y2 u ->
    (Y1 = Y2 /\ X1 <> X2) \/ (X1 = X2 /\ Y1 < Y2 /\ faces o Down /\ faces u Up) \/ (X1 = X2 /\ Y2 < Y1 /\ faces o Up /\ faces u Down)).
  { clear a b X1 Y1 X2 Y2 o u. intros a b X1 Y1 X2 Y2 o u I A B.
    apply (rt_sound d hs g R) in I. apply neighbor_edge_iff in I as (n & w & m & Hn & Nr).
    fold (shrunk d) ns in Nr. fold ns in Hn. apply near_first in Nr; [|apply spot_ordered].
    destruct Nr as (Im & C & _). apply in_enum in Im as [_ Im]. rewrite Nat.sub_0_r in Im.
    pose proof (proj1 (spot_candidate g a b _ _ _ _ _ _ w A B n m Hn Im) C) as (D & Fo & Fu).
    destruct w; cbn [opposite] in Fu; unfold faces; intuition lia. }
  intros [J|J] A B; [now apply (G a b)|].
  destruct (G b a X2 Y2 X1 Y1 u o J B A) as [[E N]|[(E & L & F1 & F2)|(E & L & F1 & F2)]]; [left; lia|do 2 right|right; left]; auto.
Qed.
End Doc.
