(** Invariants of the routing graph and of the drawn paths. *)
From Coq Require Import List Arith NArith ZArith Bool Lia SpecFloat.
From Verif Require Import Base F32 Geometry Mir Heap Route Layout SpecF32 SpecGeom SpecRoute SpecGraph
  F32Facts GeomFacts SearchFacts RenderFacts PipelineFacts.
Import ListNotations.

(** ** Equality of places *)

Lemma feq_sym x y : feq x y = feq y x.
Proof. unfold feq, SFeqb. rewrite (SFcompare_swap x y). now destruct (SFcompare x y) as [[]|]. Qed.
Lemma same_place_sym p q : same_place p q -> same_place q p.
Proof. intros [A B]. split; now rewrite feq_sym. Qed.
Lemma point_eqb_same p q : point_eqb p q = true <-> same_place p q.
Proof. unfold point_eqb, same_place. now rewrite andb_true_iff. Qed.
Lemma feq_refl x : is_nan x = false -> feq x x = true.
Proof.
  intros N. destruct (flt_trichotomy x x N N) as [(A & B & _)|[(_ & _ & E)|(A & B & _)]]; congruence.
Qed.
Lemma proper_same p : proper p -> same_place p p.
Proof. intros [A B]. split; now apply feq_refl. Qed.
Lemma orientation_eqb_eq a b : orientation_eqb a b = true <-> a = b.
Proof. destruct a, b; cbn; split; congruence. Qed.
Lemma opt_orient_eq a b : opt_orient_eqb a b = true <-> a = b.
Proof.
  destruct a as [a|], b as [b|]; cbn; try rewrite orientation_eqb_eq; split; congruence.
Qed.

(** ** Insertion *)

Lemma find_loc_spec loc ns : forall i,
  match find_loc loc i ns with
  | Some (k, n) => i <= k /\ nth_error ns (k - i) = Some n /\ same_place (rn_loc n) loc
  | None => forall n, In n ns -> ~ same_place (rn_loc n) loc
  end.
Proof.
  induction ns as [|n ns IH]; intros i; cbn [find_loc]; [intros n []|].
  destruct (point_eqb (rn_loc n) loc) eqn:E.
  - rewrite Nat.sub_diag. apply point_eqb_same in E. auto.
  - specialize (IH (S i)). destruct (find_loc loc (S i) ns) as [[k m]|].
    + destruct IH as (L & N & P). repeat split; try lia; auto.
      * replace (k - i) with (S (k - S i)) by lia. exact N.
      * apply P.
      * apply P.
    + intros m [<-|I]; [|now apply IH]. rewrite <- point_eqb_same. congruence.
Qed.

(** What an insertion does. *)
Lemma add_node_cases g loc o :
  match rg_add_node_ g loc o with
  | Ret (g', i) => rg_edges g' = rg_edges g /\ rg_ports g' = rg_ports g /\
      ((rg_nodes g' = rg_nodes g /\ exists n, nth_error (rg_nodes g) i = Some n /\ same_place (rn_loc n) loc /\ rn_orient n = o) \/
       (rg_nodes g' = rg_nodes g ++ [mkRNode loc o] /\ i = length (rg_nodes g) /\
        forall n, In n (rg_nodes g) -> ~ same_place (rn_loc n) loc))
  | Panic p => p = POrientation /\ exists i n, nth_error (rg_nodes g) i = Some n /\ same_place (rn_loc n) loc /\ rn_orient n <> o
  end.
Proof.
  unfold rg_add_node_. pose proof (find_loc_spec loc (rg_nodes g) 0) as F.
  destruct (find_loc loc 0 (rg_nodes g)) as [[k n]|].
  - destruct F as (_ & N & P). rewrite Nat.sub_0_r in N.
    destruct (opt_orient_eqb (rn_orient n) o) eqn:E.
    + apply opt_orient_eq in E. split; [reflexivity|]. split; [reflexivity|]. left. eauto.
    + split; [reflexivity|]. exists k, n. split; [exact N|]. split; [exact P|].
      intros X. apply opt_orient_eq in X. congruence.
  - cbn. split; [reflexivity|]. split; [reflexivity|]. right. auto.
Qed.

(** [extends g g']: [g'] has the nodes of [g] and possibly more, and its edges. *)
Definition extends (g g' : route_graph) : Prop :=
  (exists l, rg_nodes g' = rg_nodes g ++ l) /\ rg_edges g' = rg_edges g.
Lemma extends_refl g : extends g g.
Proof. split; [exists []; now rewrite app_nil_r|reflexivity]. Qed.
Lemma extends_trans a b c : extends a b -> extends b c -> extends a c.
Proof.
  intros [(l & E) F] [(l' & E') F']. split; [|congruence]. exists (l ++ l'). now rewrite E', E, app_assoc.
Qed.
Lemma extends_nth g g' i n : extends g g' -> nth_error (rg_nodes g) i = Some n -> nth_error (rg_nodes g') i = Some n.
Proof. intros [(l & E) _] H. rewrite E. rewrite nth_error_app1; [exact H|]. apply nth_error_Some. congruence. Qed.

Lemma add_node_extends g p g' : rg_add_node g p = Ret g' -> extends g g' /\ rg_ports g' = rg_ports g.
Proof.
  unfold rg_add_node. intros H. apply bind_ret in H as ([g1 i] & A & H). injection H as <-. cbn.
  pose proof (add_node_cases g p None) as C. rewrite A in C. destruct C as (E & P & [(N & _)|(N & _)]);
    (split; [split; [|exact E]|exact P]).
  - exists []. now rewrite app_nil_r.
  - eauto.
Qed.
Definition stands_weak (g : route_graph) (p : terminal_port) (i : nat) : Prop :=
  exists n, nth_error (rg_nodes g) i = Some n /\
    (same_place (rn_loc n) (port_location p) \/ rn_loc n = port_location p) /\
    rn_orient n = Some (port_orientation p).
Lemma weak_stands g p i : stands_weak g p i -> proper (port_location p) -> stands_for g p i.
Proof.
  intros (n & Hn & [S|E] & O) P; exists n; split; auto. split; [|exact O]. rewrite E. now apply proper_same.
Qed.

Lemma add_port_extends g p g' : rg_add_port g p = Ret g' -> extends g g' /\
  exists i, rg_ports g' = (port_ident p, i) :: rg_ports g /\ stands_weak g' p i.
Proof.
  unfold rg_add_port. intros H. apply bind_ret in H as ([g1 i] & A & H). injection H as <-.
  pose proof (add_node_cases g (port_location p) (Some (port_orientation p))) as C. rewrite A in C.
  destruct C as (E & P & [(N & n & Hn & S & O)|(N & -> & _)]).
  - split; [split; cbn; [exists []; now rewrite app_nil_r|exact E]|]. exists i. cbn. rewrite P. split; [reflexivity|].
    exists n. cbn. rewrite N. auto.
  - split; [split; cbn; [eauto|exact E]|]. eexists. cbn. rewrite P. split; [reflexivity|].
    eexists. cbn. rewrite N, nth_error_app2, Nat.sub_diag by lia. split; [reflexivity|]. cbn. auto.
Qed.

Lemma add_distinct g loc o g' i : distinct_places (rg_nodes g) -> rg_add_node_ g loc o = Ret (g', i) -> distinct_places (rg_nodes g').
Proof.
  intros D A. pose proof (add_node_cases g loc o) as C. rewrite A in C.
  destruct C as (_ & _ & [(N & _)|(N & _ & F)]); rewrite N; [exact D|].
  intros a b n m Ha Hb Hab. destruct (lt_dec a (length (rg_nodes g))) as [La|La];
    destruct (lt_dec b (length (rg_nodes g))) as [Lb|Lb].
  - rewrite nth_error_app1 in Ha, Hb by lia. now apply (D a b).
  - rewrite nth_error_app1 in Ha by lia. rewrite nth_error_app2 in Hb by lia.
    destruct (b - length (rg_nodes g)) as [|[|k]]; [|discriminate|discriminate]. injection Hb as <-. cbn.
    apply F. now apply nth_error_In in Ha.
  - rewrite nth_error_app1 in Hb by lia. rewrite nth_error_app2 in Ha by lia.
    destruct (a - length (rg_nodes g)) as [|[|k]]; [|discriminate|discriminate]. injection Ha as <-. cbn.
    intros S. apply same_place_sym in S. revert S. apply F. now apply nth_error_In in Hb.
  - rewrite nth_error_app2 in Ha, Hb by lia.
    destruct (a - length (rg_nodes g)) as [|[|?]] eqn:Ea; [|discriminate|discriminate].
    destruct (b - length (rg_nodes g)) as [|[|?]] eqn:Eb; [|discriminate|discriminate]. lia.
Qed.
Lemma add_node_distinct g p g' : distinct_places (rg_nodes g) -> rg_add_node g p = Ret g' -> distinct_places (rg_nodes g').
Proof. intros D H. unfold rg_add_node in H. apply bind_ret in H as ([g1 i] & A & H). injection H as <-. eapply add_distinct; eauto. Qed.
Lemma add_port_distinct g p g' : distinct_places (rg_nodes g) -> rg_add_port g p = Ret g' -> distinct_places (rg_nodes g').
Proof. intros D H. unfold rg_add_port in H. apply bind_ret in H as ([g1 i] & A & H). injection H as <-. cbn. eapply add_distinct; eauto. Qed.

(** ** Edges *)

Lemma existsb_nat b l : existsb (Nat.eqb b) l = true <-> In b l.
Proof.
  rewrite existsb_exists. split.
  - intros (x & I & E). apply Nat.eqb_eq in E. now subst.
  - intros I. exists b. now rewrite Nat.eqb_refl.
Qed.
Lemma add_edge_cases g a b :
  rg_nodes (rg_add_edge g (a, b)) = rg_nodes g /\ rg_ports (rg_add_edge g (a, b)) = rg_ports g /\
  ((joined (rg_edges g) a b /\ rg_edges (rg_add_edge g (a, b)) = rg_edges g) \/
   (~ joined (rg_edges g) a b /\ rg_edges (rg_add_edge g (a, b)) = rg_edges g ++ [(a, b)])).
Proof.
  cbn [rg_add_edge]. destruct (existsb (Nat.eqb b) (neighbors (rg_edges g) a)) eqn:E.
  - apply existsb_nat, neighbors_joined in E. auto.
  - split; [reflexivity|]. split; [reflexivity|]. right. split; [|reflexivity].
    intros J. apply neighbors_joined, existsb_nat in J. congruence.
Qed.

Lemma parallel_snoc es a b : no_parallel es -> ~ joined es a b -> no_parallel (es ++ [(a, b)]).
Proof.
  intros P N.
  assert (S : forall i u v, i < length es -> nth_error (es ++ [(a, b)]) i = Some (u, v) -> In (u, v) es /\ nth_error es i = Some (u, v)).
  { intros i u v L H. rewrite nth_error_app1 in H by exact L. split; [now apply nth_error_In in H|exact H]. }
  assert (T : forall i u v, ~ i < length es -> nth_error (es ++ [(a, b)]) i = Some (u, v) -> i = length es /\ u = a /\ v = b).
  { intros i u v L H. rewrite nth_error_app2 in H by lia.
    destruct (i - length es) as [|[|k]] eqn:E; [|discriminate|discriminate]. injection H as <- <-. repeat split. lia. }
  intros i j u v c d Hi Hj Nij.
  destruct (lt_dec i (length es)) as [Li|Li], (lt_dec j (length es)) as [Lj|Lj].
  - apply (P i j); try assumption; [now apply S in Hi|now apply S in Hj].
  - apply S in Hi as [I _]; [|exact Li]. apply T in Hj as (_ & -> & ->); [|exact Lj].
    intros [[-> ->]|[-> ->]]; apply N; unfold joined; auto.
  - apply S in Hj as [I _]; [|exact Lj]. apply T in Hi as (_ & -> & ->); [|exact Li].
    intros [[-> ->]|[-> ->]]; apply N; unfold joined; auto.
  - apply T in Hi as (-> & _); [|exact Li]. apply T in Hj as (-> & _); [|exact Lj]. now destruct Nij.
Qed.
Lemma add_edge_parallel g ab : no_parallel (rg_edges g) -> no_parallel (rg_edges (rg_add_edge g ab)).
Proof.
  destruct ab as [a b]. intros P. destruct (add_edge_cases g a b) as (_ & _ & [[_ ->]|[N ->]]); [exact P|].
  now apply parallel_snoc.
Qed.
Lemma no_parallel_nil : no_parallel [].
Proof. intros [|i] j a b c d H; discriminate. Qed.

Theorem grown_ok g : grown g -> distinct_places (rg_nodes g) /\ no_parallel (rg_edges g) /\
  within (length (rg_nodes g)) (rg_edges g).
Proof.
  induction 1 as [|g p g' G (D & P & W) A|g t g' G (D & P & W) A|g a b G (D & P & W) La Lb].
  - repeat split.
    + intros [|i] j n m H; discriminate.
    + apply no_parallel_nil.
    + destruct H.
    + destruct H.
  - destruct (add_node_extends g p g' A) as [[(l & El) E] _]. split; [eapply add_node_distinct; eauto|].
    rewrite E. split; [exact P|]. intros u v I. apply W in I. rewrite El, app_length. lia.
  - destruct (add_port_extends g t g' A) as [[(l & El) E] _]. split; [eapply add_port_distinct; eauto|].
    rewrite E. split; [exact P|]. intros u v I. apply W in I. rewrite El, app_length. lia.
  - destruct (add_edge_cases g a b) as (En & _ & C). rewrite En. split; [exact D|].
    split; [now apply add_edge_parallel|].
    intros u v I. destruct C as [[_ C]|[_ C]]; rewrite C in I; [now apply W|].
    apply in_app_iff in I as [I|[I|[]]]; [now apply W|]. injection I as <- <-. auto.
Qed.

Lemma place_trans x y z : feq x y = true -> feq y z = true -> feq x z = true.
Proof.
  unfold feq, SFeqb. destruct x as [sx|sx| |sx mx ex], y as [sy|sy| |sy my ey], z as [sz|sz| |sz mz ez];
    cbn; try discriminate; auto; try (destruct sx; discriminate); try (destruct sy; discriminate).
  all: repeat match goal with s : bool |- _ => destruct s end; cbn; try discriminate; auto.
  all: destruct (Z.compare_spec ex ey), (Z.compare_spec ey ez); try discriminate; subst;
    rewrite ?Z.compare_refl; intros A B;
    repeat match goal with H : context [Pos.compare_cont Eq ?a ?b] |- _ =>
      change (Pos.compare_cont Eq a b) with (Pos.compare a b) in H; destruct (Pos.compare_spec a b); try discriminate end;
    subst; change (Pos.compare_cont Eq mz mz) with (Pos.compare mz mz); now rewrite Pos.compare_refl.
Qed.
Lemma same_place_trans p q r : same_place p q -> same_place q r -> same_place p r.
Proof. intros [A B] [C D]. split; eapply place_trans; eauto. Qed.

Lemma distinct_index ns i j n m p : distinct_places ns -> nth_error ns i = Some n -> nth_error ns j = Some m ->
  same_place (rn_loc n) p -> same_place (rn_loc m) p -> i = j.
Proof.
  intros D Hi Hj Si Sj. destruct (Nat.eq_dec i j) as [|N]; [assumption|]. exfalso.
  apply (D i j n m Hi Hj N). eapply same_place_trans; [exact Si|now apply same_place_sym].
Qed.

Theorem insert_spec g loc o : distinct_places (rg_nodes g) -> proper loc ->
  (forall g' i, rg_add_node_ g loc o = Ret (g', i) ->
     distinct_places (rg_nodes g') /\
     (exists n, nth_error (rg_nodes g') i = Some n /\ same_place (rn_loc n) loc /\ rn_orient n = o) /\
     (exists l, rg_nodes g' = rg_nodes g ++ l /\ length l <= 1)) /\
  ((exists p, rg_add_node_ g loc o = Panic p) <->
   exists n, In n (rg_nodes g) /\ same_place (rn_loc n) loc /\ rn_orient n <> o).
Proof.
  intros D Pr. pose proof (add_node_cases g loc o) as C. split.
  - intros g' i A. split; [eapply add_distinct; eauto|]. rewrite A in C.
    destruct C as (_ & _ & [(N & n & Hn & S & O)|(N & -> & _)]); rewrite N.
    + split; [eauto|]. exists []. rewrite app_nil_r. auto.
    + split; [|eauto]. exists (mkRNode loc o). rewrite nth_error_app2, Nat.sub_diag by lia.
      repeat split; auto; now apply proper_same.
  - split.
    + intros (p & A). rewrite A in C. destruct C as (_ & i & n & Hn & S & O). exists n. split; [now apply nth_error_In in Hn|auto].
    + intros (n & I & S & O). destruct (rg_add_node_ g loc o) as [[g' i]|p]; [|eauto]. exfalso.
      apply In_nth_error in I as (j & Hj). destruct C as (_ & _ & [(_ & m & Hm & Sm & Om)|(_ & _ & F)]).
      * pose proof (distinct_index _ _ _ _ _ _ D Hm Hj Sm S) as ->. congruence.
      * apply (F n); [now apply nth_error_In in Hj|exact S].
Qed.

(** ** Neighbours *)

Lemma connectable_orient n o : is_connectable n o = true -> forall u, rn_orient n = Some u -> u = o.
Proof. unfold is_connectable. intros H u E. rewrite E in H. now apply orientation_eqb_eq. Qed.

Definition near_in (o : orientation) (nr : nearest) : option (nat * route_node) :=
  match o with Left => nr_left nr | Right => nr_right nr | Up => nr_up nr | Down => nr_down nr end.

Lemma nearest_sound rects ns n nr o b m :
  fold_left (nearest_step rects n) ns (mkNear None None None None) = nr ->
  near_in o nr = Some (b, m) ->
  In (b, m) ns /\ straight o (rn_loc n) (rn_loc m) /\ is_connectable n o = true /\ is_connectable m (opposite o) = true.
Proof.
  set (Q := fun (l : list (nat * route_node)) (nr : nearest) => forall o b m, near_in o nr = Some (b, m) ->
     In (b, m) l /\ straight o (rn_loc n) (rn_loc m) /\ is_connectable n o = true /\ is_connectable m (opposite o) = true).
  assert (St : forall l nr x, Q l nr -> In x l -> Q l (nearest_step rects n nr x)).
  { intros l acc [b' m'] H I. unfold nearest_step.
    repeat match goal with |- Q l (if ?c then _ else _) => destruct c eqn:?; [|try exact H] end; try exact H;
    repeat match goal with E : _ && _ = true |- _ => apply andb_true_iff in E as [? ?] end;
    intros o' b0 m0 E; destruct o'; cbn in E;
    first [ injection E as <- <-; split; [exact I|]; split; [split; assumption|split; assumption]
          | now apply H with (o := Up) | now apply H with (o := Down) | now apply H with (o := Left) | now apply H with (o := Right) ]. }
  intros <- E.
  assert (G : forall l acc, incl l ns -> Q ns acc -> Q ns (fold_left (nearest_step rects n) l acc)).
  { intros l. induction l as [|x l IH]; intros acc IL H; [exact H|]. cbn. apply IH.
    - intros y Iy. apply IL. now right.
    - apply St; [exact H|]. apply IL. now left. }
  apply (G ns (mkNear None None None None)).
  - apply incl_refl.
  - intros o' b' m' E'. destruct o'; discriminate.
  - exact E.
Qed.

Lemma neighbor_edge_iff d ns a b : In (a, b) (neighbor_edges d ns) <->
  exists n o m, nth_error ns a = Some n /\
    near_in o (fold_left (nearest_step (map (fun r => inset_by r (f32_of_Z 1) (f32_of_Z 1)) (shape_rects d)) n) (enum ns)
                 (mkNear None None None None)) = Some (b, m).
Proof.
  unfold neighbor_edges. rewrite in_flat_map. split.
  - intros ([a' n] & I & H). apply in_enum in I as [_ I]. rewrite Nat.sub_0_r in I. cbn [fst snd] in H.
    unfold nearest_edges in H. apply in_flat_map in H as (x & Ix & H).
    destruct x as [[b' m]|]; [|destruct H]. destruct H as [H|[]]. injection H as <- <-. exists n.
    destruct Ix as [E|[E|[E|[E|[]]]]]; [exists Left|exists Right|exists Up|exists Down]; exists m; split; auto.
  - intros (n & o & m & I & H). exists (a, n). split; [apply in_enum; rewrite Nat.sub_0_r; split; [lia|exact I]|].
    cbn [fst snd]. unfold nearest_edges. apply in_flat_map. exists (Some (b, m)). split; [|now left].
    rewrite <- H. destruct o; cbn; auto.
Qed.

Lemma neighbor_edge_straight d ns a b : In (a, b) (neighbor_edges d ns) ->
  exists n m, nth_error ns a = Some n /\ nth_error ns b = Some m /\ straight_edge n m.
Proof.
  intros I. apply neighbor_edge_iff in I as (n & o & m & Ha & H).
  apply nearest_sound with (1 := eq_refl) in H as (I & S & C1 & C2).
  apply in_enum in I as [_ I]. rewrite Nat.sub_0_r in I. exists n, m. split; [exact Ha|]. split; [exact I|].
  exists o. split; [exact S|]. split; now apply connectable_orient.
Qed.

Lemma flt_irrefl x : flt x x = false.
Proof.
  unfold flt, SFltb. pose proof (SFcompare_swap x x) as S.
  destruct (SFcompare x x) as [[]|]; auto. discriminate.
Qed.
Lemma straight_irrefl o p : ~ straight o p p.
Proof. destruct o; intros [_ H]; rewrite flt_irrefl in H; discriminate. Qed.

Lemma add_edges_spec l : forall g, let g' := fold_left rg_add_edge l g in
  rg_nodes g' = rg_nodes g /\ rg_ports g' = rg_ports g /\
  (no_parallel (rg_edges g) -> no_parallel (rg_edges g')) /\
  (forall a b, In (a, b) (rg_edges g') -> In (a, b) (rg_edges g) \/ In (a, b) l) /\
  (forall a b, In (a, b) (rg_edges g) -> In (a, b) (rg_edges g')) /\
  (forall a b, In (a, b) l -> joined (rg_edges g') a b).
Proof.
  induction l as [|[x y] l IH]; intros g; cbn [fold_left]; [repeat split; auto; intros a b []|].
  destruct (IH (rg_add_edge g (x, y))) as (A & B & C & D & E & F).
  destruct (add_edge_cases g x y) as (A' & B' & X). cbn zeta in *. rewrite A, B, A', B'.
  split; [reflexivity|]. split; [reflexivity|]. split; [intros P; now apply C, add_edge_parallel|].
  assert (Sub : forall a b, In (a, b) (rg_edges g) -> In (a, b) (rg_edges (rg_add_edge g (x, y)))).
  { intros a b I. destruct X as [[_ ->]|[_ ->]]; [exact I|]. apply in_app_iff. now left. }
  assert (J : joined (rg_edges (rg_add_edge g (x, y))) x y).
  { destruct X as [[J ->]|[_ ->]]; [exact J|]. left. apply in_app_iff. right. now left. }
  split; [|split].
  - intros a b I. apply D in I as [I|I]; [|right; now right].
    destruct X as [[_ X]|[_ X]]; rewrite X in I; [now left|].
    apply in_app_iff in I as [I|[I|[]]]; [now left|]. right. now left.
  - intros a b I. apply E, Sub, I.
  - intros a b [I|I]; [|now apply F]. injection I as -> ->. destruct J as [J|J]; [left|right]; now apply E.
Qed.

(** ** Building the graph *)

Lemma foldM_ind {A B} (f : A -> B -> res A) (P : A -> A -> Prop) :
  (forall a, P a a) -> (forall a b c, P a b -> P b c -> P a c) ->
  (forall a x a', f a x = Ret a' -> P a a') ->
  forall l a a', foldM f l a = Ret a' -> P a a'.
Proof.
  intros R T St l. induction l as [|x l IH]; intros a a' H; cbn in H; [injection H as <-; apply R|].
  apply bind_ret in H as (b & F & H). apply T with b; eauto.
Qed.

Lemma add_nodes_spec l : forall g g', foldM rg_add_node l g = Ret g' ->
  extends g g' /\ rg_ports g' = rg_ports g /\ (distinct_places (rg_nodes g) -> distinct_places (rg_nodes g')) /\
  (forall n, In n (rg_nodes g') -> In n (rg_nodes g) \/ (rn_orient n = None /\ In (rn_loc n) l)) /\
  (forall p, In p l -> proper p -> exists n, In n (rg_nodes g') /\ same_place (rn_loc n) p /\ rn_orient n = None).
Proof.
  induction l as [|p l IH]; intros g g' H; cbn [foldM] in H.
  - injection H as <-. split; [apply extends_refl|]. repeat split; auto. intros p [].
  - apply bind_ret in H as (g1 & A & H). destruct (IH g1 g' H) as (E & P & D & N & M).
    destruct (add_node_extends g p g1 A) as [E1 P1].
    pose proof (add_node_distinct g p g1) as D1.
    unfold rg_add_node in A. apply bind_ret in A as ([g2 i] & A & X). injection X as <-. cbn [fst] in *.
    pose proof (add_node_cases g p None) as C. rewrite A in C. destruct C as (_ & _ & C).
    split; [eapply extends_trans; eauto|]. split; [congruence|].
    split; [|split].
    + intros X. apply D. eapply add_distinct; eauto.
    + intros n I. apply N in I as [I|[O I]]; [|right; split; [exact O|now right]].
      destruct C as [(Q & _)|(Q & _)]; rewrite Q in I; [now left|].
      apply in_app_iff in I as [I|[<-|[]]]; [now left|]. right. cbn. split; [reflexivity|now left].
    + intros q [<-|I] Pr; [|now apply M].
      assert (X : exists n j, nth_error (rg_nodes g2) j = Some n /\ same_place (rn_loc n) p /\ rn_orient n = None).
      { destruct C as [(Q & n & Hn & Sn & On)|(Q & -> & _)]; rewrite Q.
        - exists n, i. auto.
        - exists (mkRNode p None), (length (rg_nodes g)). rewrite nth_error_app2, Nat.sub_diag by lia.
          repeat split; auto; now apply proper_same. }
      destruct X as (n & j & Hn & Sn & On). exists n. split; [|auto]. eapply nth_error_In. eapply extends_nth; eauto.
Qed.

Lemma port_id_eqb_eq a b : port_id_eqb a b = true <-> a = b.
Proof.
  destruct a as [a1 a2], b as [b1 b2]. unfold port_id_eqb. cbn. rewrite andb_true_iff, !Nat.eqb_eq.
  split; [intros [-> ->]|intros E; injection E as -> ->]; auto.
Qed.

Lemma add_ports_spec l : forall g g', foldM rg_add_port l g = Ret g' ->
  extends g g' /\ (distinct_places (rg_nodes g) -> distinct_places (rg_nodes g')) /\
  (forall n, In n (rg_nodes g') -> In n (rg_nodes g) \/
     exists p, In p l /\ rn_orient n = Some (port_orientation p) /\ rn_loc n = port_location p) /\
  (forall id, rg_get_port g' id = rg_get_port g id \/
     exists p i, In p l /\ port_ident p = id /\ rg_get_port g' id = Some i /\ stands_weak g' p i) /\
  (forall p, In p l -> exists q i, In q l /\ port_ident q = port_ident p /\ rg_get_port g' (port_ident p) = Some i /\
      stands_weak g' q i).
Proof.
  induction l as [|p l IH]; intros g g' H; cbn [foldM] in H.
  - injection H as <-. split; [apply extends_refl|]. repeat split; auto. intros p [].
  - apply bind_ret in H as (g1 & A & H). destruct (IH g1 g' H) as (E & D & N & Gt & M).
    pose proof (add_port_distinct g p g1) as D1.
    destruct (add_port_extends g p g1 A) as (E1 & i & P1 & S1).
    assert (SE : forall q k, stands_weak g1 q k -> stands_weak g' q k).
    { intros q k (n & Hn & R). exists n. split; [eapply extends_nth; eauto|exact R]. }
    split; [eapply extends_trans; eauto|].
    split; [auto|]. split; [|split].
    + intros n I. apply N in I as [I|(q & Iq & R)]; [|right; exists q; split; [now right|exact R]].
      unfold rg_add_port in A. apply bind_ret in A as ([g2 k] & A & X). injection X as <-. cbn in I.
      pose proof (add_node_cases g (port_location p) (Some (port_orientation p))) as C. rewrite A in C.
      destruct C as (_ & _ & [(Q & _)|(Q & _)]); rewrite Q in I; [now left|].
      apply in_app_iff in I as [I|[<-|[]]]; [now left|]. right. exists p. split; [now left|auto].
    + intros id. destruct (Gt id) as [G|(q & k & Iq & R)]; [|right; exists q, k; split; [now right|exact R]].
      rewrite G. unfold rg_get_port. rewrite P1. cbn [assoc]. destruct (port_id_eqb id (port_ident p)) eqn:Q.
      * apply port_id_eqb_eq in Q as ->. right. exists p, i. split; [now left|]. split; [reflexivity|].
        split; [reflexivity|]. apply SE, S1.
      * now left.
    + intros q [<-|Iq].
      * destruct (Gt (port_ident p)) as [G|(q & k & Iq & R1 & R2 & R3)].
        -- exists p, i. split; [now left|]. split; [reflexivity|]. split; [|apply SE, S1].
           rewrite G. unfold rg_get_port. rewrite P1. cbn [assoc].
           replace (port_id_eqb (port_ident p) (port_ident p)) with true; [reflexivity|].
           symmetry. now apply port_id_eqb_eq.
        -- exists q, k. split; [now right|]. auto.
      * destruct (M q Iq) as (r & k & Ir & R). exists r, k. split; [now right|exact R].
Qed.

Record graph_ok (g : route_graph) : Prop := {
  ok_places : distinct_places (rg_nodes g);
  ok_parallel : no_parallel (rg_edges g);
  ok_straight : straight_edges g }.
Lemma straight_within g : straight_edges g -> within (length (rg_nodes g)) (rg_edges g).
Proof.
  intros S a b I. destruct (S a b I) as (n & m & Hn & Hm & _). split; apply nth_error_Some; congruence.
Qed.
Lemma straight_no_loop g : straight_edges g -> no_loop (rg_edges g).
Proof.
  intros S a I. destruct (S a a I) as (n & m & Hn & Hm & o & St & _). rewrite Hn in Hm. injection Hm as <-.
  exact (straight_irrefl _ _ St).
Qed.
Lemma graph_new : graph_ok rg_new.
Proof.
  split.
  - intros [|i] j n m H; discriminate.
  - apply no_parallel_nil.
  - intros a b [].
Qed.

Lemma connect_ok d g : distinct_places (rg_nodes g) -> no_parallel (rg_edges g) -> straight_edges g ->
  graph_ok (connect_neighbors d g).
Proof.
  intros D P S. unfold connect_neighbors.
  destruct (add_edges_spec (neighbor_edges d (rg_nodes g)) g) as (N & _ & Q & I & _). split.
  - now rewrite N.
  - now apply Q.
  - intros a b Iab. rewrite N. apply I in Iab as [Iab|Iab]; [now apply S|]. eapply neighbor_edge_straight; eauto.
Qed.

Lemma build_ok g d g' : graph_ok g -> build_routes g d = Ret g' -> graph_ok g' /\
  (exists l, rg_nodes g' = rg_nodes g ++ l).
Proof.
  intros G H. unfold build_routes in H. apply bind_ret in H as (g1 & A1 & H). apply bind_ret in H as (g2 & A2 & H).
  injection H as <-.
  destruct (add_nodes_spec _ _ _ A1) as (E1 & _ & D1 & _). destruct (add_ports_spec _ _ _ A2) as (E2 & D2 & _).
  pose proof (extends_trans _ _ _ E1 E2) as E.
  split.
  - apply connect_ok.
    + apply D2, D1, G.
    + destruct E as [_ ->]. apply G.
    + intros a b I. destruct E as [X F]. rewrite F in I. destruct (ok_straight g G a b I) as (n & m & Hn & Hm & St).
      exists n, m. split; [|split; [|exact St]]; (eapply extends_nth; [|eassumption]; split; [exact X|exact F]).
  - unfold connect_neighbors. destruct (add_edges_spec (neighbor_edges d (rg_nodes g2)) g2) as (N & _). rewrite N.
    apply E.
Qed.

Theorem engine_ok g : engine_graph g -> graph_ok g.
Proof.
  induction 1 as [|g d g' d' G IH H]; [apply graph_new|].
  unfold draw_edge_path in H. apply bind_ret in H as (g1 & B & H). apply bind_ret in H as (ps & _ & H).
  apply bind_ret in H as (es & _ & H). injection H as <- _. now apply (build_ok g d g1).
Qed.

Theorem engine_simple g : engine_graph g -> no_parallel (rg_edges g) /\ no_loop (rg_edges g).
Proof. intros G. apply engine_ok in G. split; [apply G|apply straight_no_loop, G]. Qed.

(** ** Junctions keep away from tables *)

Lemma in_shape_rects d r : In r (shape_rects d) <-> table_rect d r.
Proof.
  unfold shape_rects, table_rect. rewrite in_filter_map. split.
  - intros (i & I & H). destruct (get_node d i) as [n|] eqn:E; [|discriminate]. eauto 6.
  - intros (i & n & I & E & R). exists i. now rewrite E.
Qed.

Lemma junction_outside d j r : In j (edge_junctions d) -> table_rect d r ->
  contains_point (inset_by r (f32_of_Z (-39)) (f32_of_Z (-39))) j = false.
Proof.
  intros I T. unfold edge_junctions, remove_overlapped in I. apply filter_In in I as [_ I].
  apply negb_true_iff in I. rewrite <- in_shape_rects in T.
  destruct (contains_point _ j) eqn:E; [|reflexivity]. rewrite <- I. symmetry. apply existsb_exists.
  exists (inset_by r (f32_of_Z (-39)) (f32_of_Z (-39))). split; [|exact E].
  apply in_map_iff. exists r. split; [|exact T].
  replace (fneg (fsub SHAPE_JUNCTION_MARGIN (f32_of_Z 1))) with (f32_of_Z (-39)); [reflexivity|]. now vm_compute.
Qed.

(** A junction: a node without orientation that the drawing has added. *)
Theorem junctions_outside g d g' n r : build_routes g d = Ret g' ->
  In n (rg_nodes g') -> ~ In n (rg_nodes g) -> rn_orient n = None -> table_rect d r ->
  contains_point (inset_by r (f32_of_Z (-39)) (f32_of_Z (-39))) (rn_loc n) = false.
Proof.
  intros H I N O T. unfold build_routes in H. apply bind_ret in H as (g1 & A1 & H). apply bind_ret in H as (g2 & A2 & H).
  injection H as <-. unfold connect_neighbors in I.
  destruct (add_edges_spec (neighbor_edges d (rg_nodes g2)) g2) as (Q & _). rewrite Q in I.
  destruct (add_ports_spec _ _ _ A2) as (_ & _ & N2 & _). destruct (add_nodes_spec _ _ _ A1) as (_ & _ & _ & N1 & _).
  apply N2 in I as [I|(p & _ & X & _)]; [|congruence]. apply N1 in I as [I|[_ I]]; [now destruct N|].
  now apply junction_outside with d.
Qed.

Theorem junctions_clear g d g' n r x y w h a b : build_routes g d = Ret g' ->
  In n (rg_nodes g') -> ~ In n (rg_nodes g) -> rn_orient n = None -> table_rect d r ->
  hrect r x y w h -> hpoint (rn_loc n) a b ->
  (- M24 + 78 <= x -> - M24 + 78 <= y -> 0 <= w <= M24 - 156 -> 0 <= h <= M24 - 156 ->
   x + w <= M24 - 78 -> y + h <= M24 - 78 -> clear_of 78 x y w h a b)%Z.
Proof.
  intros H I N O T R P Bx By Bw Bh Bxw Byh.
  pose proof (junctions_outside g d g' n r H I N O T) as C.
  assert (H39 : hv (f32_of_Z (-39)) (-78)) by (apply (hv_of_Z (-39)); lia).
  pose proof (inset_exact r x y w h _ _ _ _ R H39 H39) as X.
  assert (HR : hrect (inset_by r (f32_of_Z (-39)) (f32_of_Z (-39))) (x + -78) (y + -78) (w - 2 * -78) (h - 2 * -78)).
  { rewrite <- (Z.max_l (w - 2 * -78) 0), <- (Z.max_l (h - 2 * -78) 0) by lia. unfold M24 in *. apply X; lia. }
  assert (Q : ~ (x - 78 <= a <= x + w + 78 /\ y - 78 <= b <= y + h + 78)%Z).
  { intros Q. assert (Y : contains_point (inset_by r (f32_of_Z (-39)) (f32_of_Z (-39))) (rn_loc n) = true); [|congruence].
    apply (contains_rect _ _ _ _ _ _ _ _ HR P); unfold M24 in *; lia. }
  unfold clear_of. lia.
Qed.
