(** The routing graph of a grid of tables, over integers (unit: halves). *)
From Coq Require Import List Arith NArith ZArith Reals Lra Bool Lia SpecFloat.
From Flocq Require Import Core.
From Verif Require Import Base F32 Geometry Mir Erd Heap Route Layout SpecMir SpecF32 SpecGeom SpecLayout SpecRoute SpecGraph
  F32Facts GeomFacts SearchFacts MirFacts GridFacts LayoutFacts RenderFacts PipelineFacts GraphFacts PathFacts.
Import ListNotations.
Local Open Scope Z_scope.

(** ** The grid *)

Definition zl (i : nat) : Z := 2 * table_left i.
Definition zt (hs : list nat) (i : nat) : Z := 2 * table_top hs i.
Definition zb (hs : list nat) (i : nat) : Z := zt hs i + 2 * table_height hs i.
Definition zh (hs : list nat) : Z := 2 * total_height hs.

Lemma zl_cases i : (zl i = 100 /\ (i mod 3 = 0)%nat) \/ (zl i = 860 /\ (i mod 3 = 1)%nat) \/ (zl i = 1620 /\ (i mod 3 = 2)%nat).
Proof.
  unfold zl, table_left. pose proof (Nat.mod_upper_bound i 3 ltac:(lia)) as B.
  destruct (i mod 3)%nat as [|[|[|k]]]; [left|right; left|right; right|]; try lia; split; reflexivity.
Qed.
Lemma zl_mod i : zl (i mod 3) = zl i.
Proof. unfold zl, table_left. now rewrite Nat.mod_mod by lia. Qed.
Lemma zl_col i j : zl i = zl j <-> (i mod 3 = j mod 3)%nat.
Proof. unfold zl, table_left. lia. Qed.

Section Grid.
Variable hs : list nat.
Hypothesis Hpos : forall i, (i < length hs)%nat -> (1 <= nth i hs 0)%nat.

Lemma zt_ge i : 100 <= zt hs i.
Proof. unfold zt, table_top. pose proof (row_top_ge hs (i / 3)). lia. Qed.
Lemma zt_zb i : (i < length hs)%nat -> zt hs i + 70 <= zb hs i.
Proof. intros L. unfold zb, table_height. specialize (Hpos i L). lia. Qed.
Lemma zb_le i : (i < length hs)%nat -> zb hs i + 100 <= zh hs.
Proof.
  intros L. pose proof (row_bottom hs i L). pose proof (nth_tallest hs i).
  unfold zb, zt, zh, table_top, table_height. lia.
Qed.
Lemma zt_same i j : (i / 3 = j / 3)%nat -> zt hs i = zt hs j.
Proof. intros E. unfold zt, table_top. now rewrite E. Qed.
Lemma zb_zt i j : (i / 3 < j / 3)%nat -> zb hs i + 160 <= zt hs j.
Proof.
  intros L. unfold zb, zt, table_top, table_height. pose proof (nth_tallest hs i).
  pose proof (row_top_mono hs (S (i / 3)) (j / 3) ltac:(lia)) as M. cbn [row_top] in M. lia.
Qed.
(** Two tables: in the same grid row, or one row above the other. *)
Lemma rows_apart i j : zt hs i = zt hs j /\ (i / 3 = j / 3)%nat \/ zb hs i + 160 <= zt hs j \/ zb hs j + 160 <= zt hs i.
Proof.
  destruct (lt_eq_lt_dec (i / 3) (j / 3)) as [[L|E]|L].
  - right. left. now apply zb_zt.
  - left. split; [now apply zt_same|exact E].
  - right. right. now apply zb_zt.
Qed.
Lemma same_table i j : (i / 3 = j / 3)%nat -> zl i = zl j -> i = j.
Proof. intros E F. apply zl_col in F. rewrite (Nat.div_mod i 3), (Nat.div_mod j 3) by lia. lia. Qed.
Lemma col_apart i j : zl i = zl j -> i = j \/ zb hs i + 160 <= zt hs j \/ zb hs j + 160 <= zt hs i.
Proof.
  intros E. destruct (rows_apart i j) as [[_ R]|R]; [left; now apply same_table|now right].
Qed.
Lemma zt_even i : exists k, zt hs i = 2 * k.
Proof. unfold zt. eauto. Qed.
Lemma zb_even i : exists k, zb hs i = 2 * k.
Proof. unfold zb, zt. exists (table_top hs i + table_height hs i). lia. Qed.
(** The table at the top of the same column. *)
Lemma first_row i : (i < length hs)%nat -> (i mod 3 < length hs)%nat /\ zt hs (i mod 3) = 100.
Proof.
  intros L. pose proof (Nat.mod_upper_bound i 3 ltac:(lia)). split.
  - pose proof (Nat.mod_le i 3 ltac:(lia)). lia.
  - unfold zt, table_top. rewrite Nat.div_small by lia. reflexivity.
Qed.
End Grid.

(** A place on the border of table [i]. *)
Definition port_on (hs : list nat) (i : nat) (o : orientation) (X Y : Z) : Prop :=
  match o with
  | Up => X = zl i + 300 /\ Y = zt hs i
  | Down => X = zl i + 300 /\ Y = zb hs i
  | Left => X = zl i /\ zt hs i < Y < zb hs i
  | Right => X = zl i + 600 /\ zt hs i < Y < zb hs i
  end.

Record grid_doc (d : document) (hs : list nat) : Prop := {
  gd_fits : fits hs;
  gd_pos : forall i, (i < length hs)%nat -> (1 <= nth i hs 0)%nat;
  gd_rect : forall r, table_rect d r -> exists i, (i < length hs)%nat /\ hrect r (zl i) (zt hs i) 600 (zb hs i - zt hs i);
  gd_table : forall i, (i < length hs)%nat -> exists r, table_rect d r /\ hrect r (zl i) (zt hs i) 600 (zb hs i - zt hs i);
  gd_port : forall p, end_port d p -> exists i X Y, (i < length hs)%nat /\ hpoint (port_location p) X Y /\
      port_on hs i (port_orientation p) X Y;
  gd_ends : forall e, In e (d_edges d) -> exists s t, get_node d (e_source e) = Some s /\ get_node d (e_target e) = Some t /\
      n_ports s <> [] /\ n_ports t <> [];
  gd_named : named_ports d }.

Lemma port_on_unique hs i j o u X Y : (forall i, (i < length hs)%nat -> (1 <= nth i hs 0)%nat) ->
  (i < length hs)%nat -> (j < length hs)%nat -> port_on hs i o X Y -> port_on hs j u X Y -> o = u.
Proof.
  intros P Li Lj A B. pose proof (zl_cases i) as Ci. pose proof (zl_cases j) as Cj.
  pose proof (zt_zb hs P i Li). pose proof (zt_zb hs P j Lj).
  destruct o, u; unfold port_on in A, B; try reflexivity; try lia; exfalso;
    (destruct (col_apart hs i j) as [->|[X1|X1]]; lia).
Qed.

(** ** Modules *)

Section Module.
Variables (m : module) (d : document).
Hypothesis Hm : into_mir m = Ret d.
Hypothesis Hf : fits (table_rows m).
Let d2 := place_terminal_ports (fst (place_nodes d)).
Let hs := table_rows m.

Lemma module_edges : d_edges d2 = d_edges d.
Proof.
  unfold d2. destruct (place_nodes d) as [d1 v1] eqn:P. destruct (places_all m d d1 v1 Hm P) as [[E1 _] _].
  destruct (ports_frame d1) as [E2 _]. cbn [fst]. congruence.
Qed.

Lemma forall2_nth_l {A B} (R : A -> B -> Prop) l l' : Forall2 R l l' -> forall i a, nth_error l i = Some a ->
  exists b, nth_error l' i = Some b /\ R a b.
Proof. induction 1; intros [|i] a E; cbn in *; try discriminate; [injection E as <-|]; eauto. Qed.
Lemma forall2_nth_r {A B} (R : A -> B -> Prop) l l' : Forall2 R l l' -> forall i b, nth_error l' i = Some b ->
  exists a, nth_error l i = Some a /\ R a b.
Proof. induction 1; intros [|i] a E; cbn in *; try discriminate; [injection E as <-|]; eauto. Qed.

(** What d2 keeps of d. *)
Lemma module_keeps i n : get_node d i = Some n -> exists n2, get_node d2 i = Some n2 /\ n_children n2 = n_children n.
Proof.
  unfold d2. destruct (place_nodes d) as [d1 v1] eqn:P. cbn [fst]. destruct (places_all m d d1 v1 Hm P) as [[_ F1] _].
  destruct (ports_frame d1) as [_ F2]. intros G.
  destruct (forall2_nth_l _ _ _ F1 i n G) as (n1 & G1 & _ & C1 & _).
  destruct (forall2_nth_l _ _ _ F2 i n1 G1) as (n2 & G2 & _ & C2 & _). exists n2. split; [exact G2|congruence].
Qed.
Lemma module_rect i n2 : get_node d2 i = Some n2 -> exists n1,
  get_node (fst (place_nodes d)) i = Some n1 /\ node_rect n2 = node_rect n1.
Proof.
  unfold d2. destruct (ports_frame (fst (place_nodes d))) as [_ F2]. intros G.
  destruct (forall2_nth_r _ _ _ F2 i n2 G) as (n1 & G1 & _ & _ & O & S). exists n1. split; [exact G1|].
  unfold node_rect. now rewrite O, S.
Qed.
Lemma module_body : body_children d2 = body_children d.
Proof.
  destruct (tree_root d (into_mir_tree m d Hm)) as (n & G & _). destruct (module_keeps 0%nat n G) as (n2 & G2 & C).
  unfold body_children. now rewrite G, G2.
Qed.
Lemma module_count : length (body_children d) = length hs.
Proof.
  pose proof (Forall2_length' _ _ _ (into_mir_tables m d Hm)) as L. unfold hs, table_rows. now rewrite map_length.
Qed.

Lemma module_pos i : (i < length hs)%nat -> (1 <= nth i hs 0)%nat.
Proof.
  unfold hs, table_rows. intros L. rewrite map_length in L.
  destruct (nth_error (definitions (m_entries m)) i) as [e|] eqn:He; [|apply nth_error_None in He; lia].
  pose proof (map_nth_error (fun e => S (length (ent_fields e))) i (definitions (m_entries m)) He) as M.
  apply nth_error_nth with (d := 0%nat) in M. rewrite M. lia.
Qed.

Lemma module_table i id : table_id d i id ->
  (i < length hs)%nat /\ exists n r, get_node d2 id = Some n /\ node_rect n = Some r /\
    hrect r (zl i) (zt hs i) 600 (zb hs i - zt hs i).
Proof.
  intros T. assert (L : (i < length hs)%nat).
  { rewrite <- module_count. apply nth_error_Some. unfold table_id in T. congruence. }
  split; [exact L|]. pose proof (surjective_pairing (place_nodes d)) as P.
  destruct (grid_positions m d _ _ Hm P Hf i id T) as (n1 & r & G1 & R1 & X).
  pose proof (ports_frame (fst (place_nodes d))) as [_ F2]. destruct (forall2_nth_l _ _ _ F2 id n1 G1) as (n2 & G2 & _ & _ & O & S).
  exists n2, r. split; [exact G2|]. split; [unfold node_rect; now rewrite O, S|].
  unfold zb, zl, zt. unfold exact_rect in X. fold hs in X. change (2 * 300) with 600 in X.
  replace (2 * table_top hs i + 2 * table_height hs i - 2 * table_top hs i) with (2 * table_height hs i) by lia. exact X.
Qed.

Lemma shown_place q id : shows_path d q id -> exists i, (i < length hs)%nat /\
  ((exists a, q = PEntity a) /\ table_id d i id \/
   (exists a b, q = PField a b) /\ exists k, (1 <= k < nth i hs 0)%nat /\ row_id d i k id).
Proof.
  intros S. pose proof (into_mir_tables m d Hm) as T.
  destruct S as [j en I Hs|r en n h rows k j f I Hs G C K F].
  - apply In_nth_error in I as (i & I). exists i. split; [apply (module_table i j I)|]. left. split; eauto.
  - apply In_nth_error in I as (i & I). exists i. split; [apply (module_table i r I)|]. right. split; [eauto|].
    exists (S k). assert (R : row_id d i (S k) j).
    { exists r, n. split; [exact I|]. split; [exact G|]. rewrite C. exact K. }
    split; [|exact R]. split; [lia|].
    destruct (forall2_nth_l _ _ _ T i r I) as (e & He & (n' & s & h' & rows' & G' & _ & C' & _ & F')).
    rewrite G in G'. injection G' as <-. rewrite C in C'. injection C' as <- <-.
    apply Forall2_length' in F'. unfold hs, table_rows.
    assert (Lk : (k < length rows)%nat) by (apply nth_error_Some; congruence).
    pose proof (map_nth_error (fun e => S (length (ent_fields e))) i (definitions (m_entries m)) He) as M.
    apply nth_error_nth with (d := 0%nat) in M. rewrite M. lia.
Qed.

Lemma is_port_on id i o p : (i < length hs)%nat ->
  is_port id (table_left i) (table_top hs i) 300 (table_height hs i) o p ->
  port_orientation p = o /\ exists X Y, hpoint (port_location p) X Y /\ port_on hs i o X Y.
Proof.
  intros L (_ & O & H). split; [exact O|]. eexists. eexists. split; [exact H|].
  pose proof (zt_zb hs module_pos i L) as Z. unfold zb, zt in Z.
  destruct o; unfold port_on, side_midpoint, fst, snd, zb, zt, zl; lia.
Qed.
Lemma is_row_port_on id i k o p : (i < length hs)%nat -> (k < nth i hs 0)%nat ->
  In o (row_sides (nth i hs 0%nat) k) ->
  is_port id (table_left i) (table_top hs i + 35 * Z.of_nat k) 300 35 o p ->
  port_orientation p = o /\ exists X Y, hpoint (port_location p) X Y /\ port_on hs i o X Y.
Proof.
  intros L K I (_ & O & H). split; [exact O|]. eexists. eexists. split; [exact H|].
  unfold row_sides in I. destruct o; unfold port_on, side_midpoint, fst, snd, zb, zt, zl, table_height.
  - destruct (Nat.eqb_spec k 0) as [->|N]; [lia|].
    destruct (Nat.eqb k (nth i hs 0%nat - 1)); cbn in I; intuition discriminate.
  - destruct (Nat.eqb_spec k (nth i hs 0%nat - 1)) as [E|N]; [lia|].
    destruct (Nat.eqb k 0); cbn in I; intuition discriminate.
  - lia.
  - lia.
Qed.

Lemma forall2_in_r {A B} (R : A -> B -> Prop) l l' b : Forall2 R l l' -> In b l' -> exists a, In a l /\ R a b.
Proof. induction 1 as [|x y l l' H F IH]; intros []; [subst; exists x; split; [now left|auto]|]. destruct (IH H0) as (a & I & Q). exists a. split; [now right|auto]. Qed.

(** The ports of the node a relation names. *)
Lemma shown_ports q id n p : shows_path d q id -> get_node d2 id = Some n -> In p (n_ports n) ->
  exists i X Y, (i < length hs)%nat /\ hpoint (port_location p) X Y /\ port_on hs i (port_orientation p) X Y.
Proof.
  intros S G I. destruct (shown_place q id S) as (i & L & [[_ T]|[_ (k & K & R)]]).
  - destruct (table_ports m d Hm Hf i id T) as (n' & G' & F). fold d2 in G'. rewrite G in G'. injection G' as <-.
    destruct (forall2_in_r _ _ _ _ F I) as (o & _ & P). apply is_port_on in P as (E & X & Y & HP & O); [|exact L].
    rewrite E. eauto 7.
  - destruct (row_ports m d Hm Hf i k id R) as (n' & G' & F). fold d2 in G'. rewrite G in G'. injection G' as <-.
    destruct (forall2_in_r _ _ _ _ F I) as (o & Io & P).
    apply is_row_port_on in P as (E & X & Y & HP & O); [|exact L|fold hs; lia|exact Io]. rewrite E. eauto 7.
Qed.

Theorem module_grid : grid_doc d2 hs.
Proof.
  pose proof (into_mir_edges_show m d Hm) as Sh. rewrite Forall_forall in Sh.
  split.
  - exact Hf.
  - exact module_pos.
  - intros r (id & n & I & G & R). rewrite module_body in I. apply In_nth_error in I as (i & I).
    destruct (module_table i id I) as (L & n' & r' & G' & R' & X). rewrite G in G'. injection G' as <-.
    rewrite R in R'. injection R' as <-. eauto.
  - intros i L. destruct (nth_error (body_children d) i) as [id|] eqn:T.
    2:{ apply nth_error_None in T. rewrite module_count in T. lia. }
    destruct (module_table i id T) as (_ & n & r & G & R & X). exists r. split; [|exact X].
    exists id, n. rewrite module_body. split; [now apply nth_error_In in T|auto].
  - intros p (e & id & n & Ie & Ei & G & I). rewrite module_edges in Ie. destruct (Sh e Ie) as (r & _ & S1 & S2).
    destruct Ei as [E|E]; subst id; [exact (shown_ports _ _ _ _ S1 G I)|exact (shown_ports _ _ _ _ S2 G I)].
  - intros e Ie. rewrite module_edges in Ie. destruct (Sh e Ie) as (r & _ & S1 & S2).
    assert (Q : forall q id, shows_path d q id -> exists n, get_node d2 id = Some n /\ n_ports n <> []).
    { intros q id S. destruct (port_sides m d Hm) as [T R].
      destruct (shown_place q id S) as (i & L & [ [_ X] | [_ (k & K & X)] ]).
      - destruct (T i id X) as (n & G & P). exists n. split; [exact G|]. intros Z. now rewrite Z in P.
      - destruct (R i k id X) as (n & G & P). exists n. split; [exact G|]. intros Z. rewrite Z in P. cbn in P.
        unfold row_sides in P. destruct (Nat.eqb k 0); discriminate. }
    destruct (Q _ _ S1) as (s & Gs & Ps), (Q _ _ S2) as (t & Gt & Pt). eauto 7.
  - apply (module_named m d Hm).
Qed.
End Module.

(** ** Limits of rays *)

Lemma fmax_fge a b x ra rb rx : fin a ra -> fin b rb -> fin x rx ->
  (exists r, fin (fmax a b) r) /\ fge x (fmax a b) = fge x a && fge x b.
Proof.
  intros A B C. unfold fmax. rewrite (fin_nan _ _ A), (fin_nan _ _ B).
  unfold fge. rewrite (fin_le _ _ _ _ A C), (fin_le _ _ _ _ B C). rewrite (fin_lt _ _ _ _ A B).
  destruct (Rlt_bool_spec ra rb) as [L|L].
  - split; [eauto|]. rewrite (fin_le _ _ _ _ B C).
    destruct (Rle_bool_spec rb rx), (Rle_bool_spec ra rx); auto. exfalso. lra.
  - split; [eauto|]. rewrite (fin_le _ _ _ _ A C).
    destruct (Rle_bool_spec rb rx), (Rle_bool_spec ra rx); auto. exfalso. lra.
Qed.
Lemma fmin_fle a b x ra rb rx : fin a ra -> fin b rb -> fin x rx ->
  (exists r, fin (fmin a b) r) /\ fle x (fmin a b) = fle x a && fle x b.
Proof.
  intros A B C. unfold fmin. rewrite (fin_nan _ _ A), (fin_nan _ _ B).
  rewrite (fin_le _ _ _ _ C A), (fin_le _ _ _ _ C B). rewrite (fin_lt _ _ _ _ B A).
  destruct (Rlt_bool_spec rb ra) as [L|L].
  - split; [eauto|]. rewrite (fin_le _ _ _ _ C B).
    destruct (Rle_bool_spec rx rb), (Rle_bool_spec rx ra); auto. exfalso. lra.
  - split; [eauto|]. rewrite (fin_le _ _ _ _ C A).
    destruct (Rle_bool_spec rx rb), (Rle_bool_spec rx ra); auto. exfalso. lra.
Qed.

Lemma fold_max_lim (f : rect -> bool) (v : rect -> f32) x rx : fin x rx -> forall rs acc ra, fin acc ra ->
  (forall r, In r rs -> exists q, fin (v r) q) ->
  fge x (fold_left (fun a r => if f r then fmax a (v r) else a) rs acc) =
  fge x acc && forallb (fun r => negb (f r) || fge x (v r)) rs.
Proof.
  intros X rs. induction rs as [|r rs IH]; intros acc ra A V; [cbn; now rewrite andb_true_r|].
  cbn [fold_left forallb]. destruct (V r (or_introl eq_refl)) as (q & Q).
  destruct (f r); cbn [negb orb].
  - destruct (fmax_fge acc (v r) x ra q rx A Q X) as ((ra' & A') & E).
    rewrite (IH _ ra' A'), E, andb_assoc; [reflexivity|]. intros s I. apply V. now right.
  - rewrite (IH _ ra A); [reflexivity|]. intros s I. apply V. now right.
Qed.
Lemma fold_min_lim (f : rect -> bool) (v : rect -> f32) x rx : fin x rx -> forall rs acc ra, fin acc ra ->
  (forall r, In r rs -> exists q, fin (v r) q) ->
  fle x (fold_left (fun a r => if f r then fmin a (v r) else a) rs acc) =
  fle x acc && forallb (fun r => negb (f r) || fle x (v r)) rs.
Proof.
  intros X rs. induction rs as [|r rs IH]; intros acc ra A V; [cbn; now rewrite andb_true_r|].
  cbn [fold_left forallb]. destruct (V r (or_introl eq_refl)) as (q & Q).
  destruct (f r); cbn [negb orb].
  - destruct (fmin_fle acc (v r) x ra q rx A Q X) as ((ra' & A') & E).
    rewrite (IH _ ra' A'), E, andb_assoc; [reflexivity|]. intros s I. apply V. now right.
  - rewrite (IH _ ra A); [reflexivity|]. intros s I. apply V. now right.
Qed.

(** ** Junctions *)

(** The x and y coordinates of the corners of the tables grown by 40. *)
Definition xs (hs : list nat) (x : Z) : Prop :=
  exists i, (i < length hs)%nat /\ (x = zl i - 80 \/ x = zl i + 680).
Definition ys (hs : list nat) (y : Z) : Prop :=
  exists i, (i < length hs)%nat /\ (y = zt hs i - 80 \/ y = zb hs i + 80).
Definition corner (hs : list nat) (x y : Z) : Prop :=
  exists i, (i < length hs)%nat /\ (x = zl i - 80 \/ x = zl i + 680) /\ (y = zt hs i - 80 \/ y = zb hs i + 80).
(** The junctions in front of a port at [(X,Y)]. *)
Definition ray (hs : list nat) (o : orientation) (X Y x y : Z) : Prop :=
  match o with
  | Up => x = X /\ ys hs y /\ y <= Y
  | Down => x = X /\ ys hs y /\ Y <= y
  | Left => y = Y /\ xs hs x /\ x <= X /\
      forall t, (t < length hs)%nat -> zl t + 680 < X -> zt hs t - 80 <= Y <= zb hs t + 80 -> zl t + 680 <= x
  | Right => y = Y /\ xs hs x /\ X <= x /\
      forall t, (t < length hs)%nat -> X < zl t - 80 -> zt hs t - 80 <= Y <= zb hs t + 80 -> x <= zl t - 80
  end.

Section Doc.
Variables (d : document) (hs : list nat).
Hypothesis GD : grid_doc d hs.
Let Hp := gd_pos d hs GD.

Lemma zh_le : zh hs <= M24.
Proof. pose proof (gd_fits d hs GD) as F. unfold fits in F. unfold zh, M24. lia. Qed.

(** All about one table. *)
Lemma table_bounds i : (i < length hs)%nat ->
  (zl i = 100 \/ zl i = 860 \/ zl i = 1620) /\ 100 <= zt hs i /\ zt hs i + 70 <= zb hs i /\ zb hs i + 100 <= zh hs <= M24.
Proof.
  intros L. pose proof (zl_cases i). pose proof (zt_ge hs i). pose proof (zt_zb hs Hp i L).
  pose proof (zb_le hs i L). pose proof zh_le. lia.
Qed.

Lemma grown_rect k r i : (i < length hs)%nat -> hrect r (zl i) (zt hs i) 600 (zb hs i - zt hs i) ->
  -80 <= k <= 2 -> forall v, hv v k -> hrect (inset_by r v v) (zl i + k) (zt hs i + k) (600 - 2 * k) (zb hs i - zt hs i - 2 * k).
Proof.
  intros L R K v V. pose proof (table_bounds i L) as B.
  rewrite <- (Z.max_l (600 - 2 * k) 0), <- (Z.max_l (zb hs i - zt hs i - 2 * k) 0) by lia.
  unfold M24 in *. apply inset_exact; auto; unfold M24; lia.
Qed.
Lemma hv_m40 : hv (fneg SHAPE_JUNCTION_MARGIN) (-80).
Proof. replace (fneg SHAPE_JUNCTION_MARGIN) with (f32_of_Z (-40)) by now vm_compute. apply (hv_of_Z (-40)). lia. Qed.
Lemma hv_m39 : hv (fneg (fsub SHAPE_JUNCTION_MARGIN (f32_of_Z 1))) (-78).
Proof. replace (fneg (fsub SHAPE_JUNCTION_MARGIN (f32_of_Z 1))) with (f32_of_Z (-39)) by now vm_compute. apply (hv_of_Z (-39)). lia. Qed.

Lemma grown_box r i : (i < length hs)%nat -> hrect r (zl i) (zt hs i) 600 (zb hs i - zt hs i) ->
  let g := inset_by r (fneg SHAPE_JUNCTION_MARGIN) (fneg SHAPE_JUNCTION_MARGIN) in
  hbox g (zl i - 80) (zt hs i - 80) (zl i + 680) (zb hs i + 80) /\ origin g = mkPoint (min_x g) (min_y g).
Proof.
  intros L R g. pose proof (table_bounds i L) as B. split; [|reflexivity].
  pose proof (grown_rect (-80) r i L R ltac:(lia) _ hv_m40) as G.
  apply hrect_box in G; try (unfold M24 in *; lia). unfold hbox in *.
  replace (zl i - 80) with (zl i + -80) by lia. replace (zt hs i - 80) with (zt hs i + -80) by lia.
  replace (zl i + 680) with (zl i + -80 + (600 - 2 * -80)) by lia.
  replace (zb hs i + 80) with (zt hs i + -80 + (zb hs i - zt hs i - 2 * -80)) by lia. exact G.
Qed.

Lemma around_in p : In p (junctions_around_shapes d) -> exists x y, hpoint p x y /\ corner hs x y.
Proof.
  intros I. unfold junctions_around_shapes in I. apply in_flat_map in I as (r & Ir & I).
  apply in_shape_rects in Ir. destruct (gd_rect d hs GD r Ir) as (i & L & R).
  destruct (grown_box r i L R) as ((H1 & H2 & H3 & H4) & O). cbn zeta in *. unfold corner.
  destruct I as [<-|[<-|[<-|[<-|[]]]]]; (eexists; eexists; split; [rewrite ?O; split; cbn [px py]; eassumption|]); exists i; auto.
Qed.
Lemma around_all x y : corner hs x y -> exists p, In p (junctions_around_shapes d) /\ hpoint p x y.
Proof.
  intros (i & L & Hx & Hy). destruct (gd_table d hs GD i L) as (r & T & R).
  destruct (grown_box r i L R) as ((H1 & H2 & H3 & H4) & O). cbn zeta in *.
  assert (Q : forall p, In p (let j := inset_by r (fneg SHAPE_JUNCTION_MARGIN) (fneg SHAPE_JUNCTION_MARGIN) in
     [origin j; mkPoint (max_x j) (min_y j); mkPoint (max_x j) (max_y j); mkPoint (min_x j) (max_y j)]) ->
     In p (junctions_around_shapes d)).
  { intros p I. unfold junctions_around_shapes. apply in_flat_map. exists r. split; [now apply in_shape_rects|exact I]. }
  cbn zeta in Q. rewrite O in Q.
  destruct Hx as [->| ->], Hy as [->| ->]; (eexists; split; [apply Q|]);
    [left; reflexivity|split; assumption|do 3 right; left; reflexivity|split; assumption
    |right; left; reflexivity|split; assumption|do 2 right; left; reflexivity|split; assumption].
Qed.
Lemma corner_x x : xs hs x -> exists y, corner hs x y.
Proof. intros (i & L & H). exists (zt hs i - 80), i. auto. Qed.
Lemma corner_y y : ys hs y -> exists x, corner hs x y.
Proof. intros (i & L & H). exists (zl i - 80), i. auto. Qed.
Lemma corner_xs x y : corner hs x y -> xs hs x /\ ys hs y.
Proof. intros (i & L & H & K). split; exists i; auto. Qed.
Lemma xs_cases x : xs hs x -> x = 20 \/ x = 780 \/ x = 1540 \/ x = 2300.
Proof. intros (i & L & H). pose proof (zl_cases i). lia. Qed.
Lemma ys_bounds y : ys hs y -> 20 <= y <= zh hs - 20.
Proof. intros (i & L & H). pose proof (table_bounds i L). lia. Qed.

Definition grown_rects : list rect :=
  map (fun r => inset_by r (fneg SHAPE_JUNCTION_MARGIN) (fneg SHAPE_JUNCTION_MARGIN)) (shape_rects d).
Lemma grown_in r : In r grown_rects -> exists i, (i < length hs)%nat /\
  hbox r (zl i - 80) (zt hs i - 80) (zl i + 680) (zb hs i + 80).
Proof.
  intros I. apply in_map_iff in I as (s & <- & I). apply in_shape_rects in I.
  destruct (gd_rect d hs GD s I) as (i & L & R). exists i. split; [exact L|]. now apply grown_box.
Qed.
Lemma grown_all i : (i < length hs)%nat -> exists r, In r grown_rects /\
  hbox r (zl i - 80) (zt hs i - 80) (zl i + 680) (zb hs i + 80).
Proof.
  intros L. destruct (gd_table d hs GD i L) as (s & T & R).
  exists (inset_by s (fneg SHAPE_JUNCTION_MARGIN) (fneg SHAPE_JUNCTION_MARGIN)). split; [|apply (grown_box s i L R)].
  apply in_map_iff. exists s. split; [reflexivity|now apply in_shape_rects].
Qed.

Lemma forallb_grown (c : rect -> bool) (P : nat -> Prop) :
  (forall r i, In r grown_rects -> (i < length hs)%nat -> hbox r (zl i - 80) (zt hs i - 80) (zl i + 680) (zb hs i + 80) ->
     (c r = true <-> P i)) ->
  (forallb c grown_rects = true <-> forall i, (i < length hs)%nat -> P i).
Proof.
  intros H. rewrite forallb_forall. split.
  - intros A i L. destruct (grown_all i L) as (r & I & B). apply (H r i I L B). auto.
  - intros A r I. destruct (grown_in r I) as (i & L & B). apply (H r i I L B). auto.
Qed.

Lemma hv_fin_ x a : hv x a -> exists q, fin x q.
Proof. intros H. eexists. exact H. Qed.
Lemma MAX_ge x a : hv x a -> Z.abs a <= M24 -> fle x F_MAX = true.
Proof.
  intros H B. rewrite (fin_le _ _ _ _ H fin_MAX). apply Rle_bool_true. pose proof (hv_lt_MAX a B). lra.
Qed.

Lemma port_bounds i o X Y : (i < length hs)%nat -> port_on hs i o X Y -> 100 <= X <= 2220 /\ 100 <= Y <= zh hs - 100.
Proof. intros L P. pose proof (table_bounds i L). destruct o; unfold port_on in P; lia. Qed.

Let Gf f : In f [min_x; min_y; max_x; max_y] -> forall r, In r grown_rects -> exists q, fin (f r) q.
Proof.
  intros I r Ir. destruct (grown_in r Ir) as (k & _ & H1 & H2 & H3 & H4).
  destruct I as [<-|[<-|[<-|[<-|[]]]]]; eapply hv_fin_; eassumption.
Qed.

Lemma ray_left_iff i c X Y x a : (i < length hs)%nat -> hpoint c X Y -> port_on hs i Left X Y ->
  hv x a -> 0 <= a <= M24 ->
  let lim := fold_left (fun a r => if flt (max_x r) (px c) && intersects_line r c (mkPoint F_MIN (py c))
                                       then fmax a (max_x r) else a) grown_rects fzero in
  (fle x (px c) && fge x lim = true <->
   a <= X /\ forall t, (t < length hs)%nat -> zl t + 680 < X -> zt hs t - 80 <= Y <= zb hs t + 80 -> zl t + 680 <= a).
Proof.
  intros L Hc On Hx Ba lim. pose proof (port_bounds i _ X Y L On) as Bd. pose proof zh_le as Zh.
  pose proof Hc as [Cx Cy]. unfold lim.
  rewrite (fold_max_lim _ _ _ _ Hx _ _ _ hv_zero (Gf max_x ltac:(cbn; auto))).
  rewrite (hv_le _ _ _ _ Hx Cx), (hv_ge _ _ _ _ Hx hv_zero), !andb_true_iff, !Z.leb_le.
  rewrite (forallb_grown _ (fun t => zl t + 680 < X -> zt hs t - 80 <= Y <= zb hs t + 80 -> zl t + 680 <= a)).
  - intuition lia.
  - intros r t _ Lt B. pose proof (table_bounds t Lt) as Bt.
    rewrite (ray_left _ _ _ _ _ _ _ _ B Hc) by (unfold M24 in *; lia).
    destruct B as (H1 & H2 & H3 & H4). rewrite (hv_lt _ _ _ _ H3 Cx), (hv_ge _ _ _ _ Hx H3). lia.
Qed.

Lemma ray_right_iff i c X Y x a : (i < length hs)%nat -> hpoint c X Y -> port_on hs i Right X Y ->
  hv x a -> 0 <= a <= M24 ->
  let lim := fold_left (fun a r => if fgt (min_x r) (px c) && intersects_line r c (mkPoint F_MAX (py c))
                                       then fmin a (min_x r) else a) grown_rects F_MAX in
  (fge x (px c) && fle x lim = true <->
   X <= a /\ forall t, (t < length hs)%nat -> X < zl t - 80 -> zt hs t - 80 <= Y <= zb hs t + 80 -> a <= zl t - 80).
Proof.
  intros L Hc On Hx Ba lim. pose proof (port_bounds i _ X Y L On) as Bd. pose proof zh_le as Zh.
  pose proof Hc as [Cx Cy]. unfold lim.
  rewrite (fold_min_lim _ _ _ _ Hx _ _ _ fin_MAX (Gf min_x ltac:(cbn; auto))).
  rewrite (MAX_ge _ _ Hx ltac:(lia)), (hv_ge _ _ _ _ Hx Cx), !andb_true_iff, !Z.leb_le.
  rewrite (forallb_grown _ (fun t => X < zl t - 80 -> zt hs t - 80 <= Y <= zb hs t + 80 -> a <= zl t - 80)).
  - intuition lia.
  - intros r t _ Lt B. pose proof (table_bounds t Lt) as Bt.
    pose proof B as (H1 & H2 & H3 & H4). rewrite (hv_gt _ _ _ _ H1 Cx), (hv_le _ _ _ _ Hx H1).
    destruct (Z.ltb_spec X (zl t - 80)) as [Q|Q]; cbn [andb negb orb].
    + rewrite (ray_right _ _ _ _ _ _ _ _ B Hc) by (unfold M24 in *; lia). lia.
    + split; [intros _ Z; lia|reflexivity].
Qed.

Lemma ray_up_iff i c X Y y b : (i < length hs)%nat -> hpoint c X Y -> port_on hs i Up X Y ->
  hv y b -> 0 <= b <= M24 ->
  let lim := fold_left (fun a r => if fgt (min_y r) (py c) && intersects_line r c (mkPoint (px c) F_MAX)
                                       then fmin a (min_y r) else a) grown_rects F_MAX in
  (fle y (py c) && fle y lim = true <-> b <= Y).
Proof.
  intros L Hc On Hx Ba lim. pose proof (port_bounds i _ X Y L On) as Bd. pose proof zh_le as Zh.
  pose proof Hc as [Cx Cy]. unfold lim.
  rewrite (fold_min_lim _ _ _ _ Hx _ _ _ fin_MAX (Gf min_y ltac:(cbn; auto))).
  rewrite (MAX_ge _ _ Hx ltac:(lia)), (hv_le _ _ _ _ Hx Cy), !andb_true_iff, !Z.leb_le.
  split; [tauto|]. intros Q. split; [exact Q|]. split; [reflexivity|]. apply forallb_forall. intros r I.
  destruct (grown_in r I) as (t & Lt & H1 & H2 & H3 & H4). rewrite (hv_gt _ _ _ _ H2 Cy), (hv_le _ _ _ _ Hx H2). lia.
Qed.

Lemma ray_down_iff i c X Y y b : (i < length hs)%nat -> hpoint c X Y -> port_on hs i Down X Y ->
  hv y b -> 0 <= b <= M24 ->
  let lim := fold_left (fun a r => if flt (max_y r) (py c) && intersects_line r c (mkPoint (px c) F_MIN)
                                       then fmax a (max_y r) else a) grown_rects fzero in
  (fge y (py c) && fge y lim = true <-> Y <= b).
Proof.
  intros L Hc On Hx Ba lim. pose proof (port_bounds i _ X Y L On) as Bd. pose proof zh_le as Zh.
  pose proof Hc as [Cx Cy]. unfold lim.
  rewrite (fold_max_lim _ _ _ _ Hx _ _ _ hv_zero (Gf max_y ltac:(cbn; auto))).
  rewrite (hv_ge _ _ _ _ Hx hv_zero), (hv_ge _ _ _ _ Hx Cy), !andb_true_iff, !Z.leb_le.
  split; [tauto|]. intros Q. split; [exact Q|]. split; [lia|]. apply forallb_forall. intros r I.
  destruct (grown_in r I) as (t & Lt & H1 & H2 & H3 & H4). rewrite (hv_lt _ _ _ _ H4 Cy), (hv_ge _ _ _ _ Hx H4). lia.
Qed.

Lemma in_filter_if {A B} (c : A -> bool) (f : A -> B) l y :
  In y (filter_map (fun j => if c j then Some (f j) else None) l) <-> exists j, In j l /\ c j = true /\ y = f j.
Proof.
  rewrite in_filter_map. split.
  - intros (j & I & E). destruct (c j) eqn:C; [|discriminate]. injection E as <-. eauto.
  - intros (j & I & C & ->). exists j. now rewrite C.
Qed.

Lemma ray_in tp i X Y p : (i < length hs)%nat -> hpoint (port_location tp) X Y -> port_on hs i (port_orientation tp) X Y ->
  In p (junctions_from_port d tp (junctions_around_shapes d)) -> exists x y, hpoint p x y /\ ray hs (port_orientation tp) X Y x y.
Proof.
  intros L Hc On I. unfold junctions_from_port in I. fold grown_rects in I. pose proof zh_le as Zh.
  assert (Q : forall j, In j (junctions_around_shapes d) -> exists a b, hpoint j a b /\ xs hs a /\ ys hs b /\ 0 <= a <= M24 /\ 0 <= b <= M24).
  { intros j J. destruct (around_in j J) as (a & b & Hj & C). destruct (corner_xs a b C) as [Cx Cy].
    pose proof (xs_cases a Cx). pose proof (ys_bounds b Cy). exists a, b. unfold M24 in *. intuition lia. }
  pose proof Hc as [Cx Cy].
  destruct (port_orientation tp); apply in_filter_if in I as (j & J & E & ->);
    destruct (Q j J) as (a & b & [Ha Hb] & Xa & Yb & Ba & Bb).
  - apply (ray_up_iff i _ X Y _ b L Hc On Hb Bb) in E. exists X, b. split; [split; assumption|]. split; auto.
  - apply (ray_down_iff i _ X Y _ b L Hc On Hb Bb) in E. exists X, b. split; [split; assumption|]. split; auto.
  - apply (ray_left_iff i _ X Y _ a L Hc On Ha Ba) in E. exists a, Y. split; [split; assumption|]. split; auto.
  - apply (ray_right_iff i _ X Y _ a L Hc On Ha Ba) in E. exists a, Y. split; [split; assumption|]. split; auto.
Qed.

Lemma ray_all tp i X Y x y : (i < length hs)%nat -> hpoint (port_location tp) X Y -> port_on hs i (port_orientation tp) X Y ->
  ray hs (port_orientation tp) X Y x y -> exists p, In p (junctions_from_port d tp (junctions_around_shapes d)) /\ hpoint p x y.
Proof.
  intros L Hc On R. unfold junctions_from_port. fold grown_rects. pose proof zh_le as Zh.
  assert (Qx : forall a, xs hs a -> exists j, In j (junctions_around_shapes d) /\ hv (px j) a /\ 0 <= a <= M24).
  { intros a Xa. destruct (corner_x a Xa) as (b & C). destruct (around_all a b C) as (j & J & [Ha Hb]).
    pose proof (xs_cases a Xa). exists j. unfold M24 in *. intuition lia. }
  assert (Qy : forall b, ys hs b -> exists j, In j (junctions_around_shapes d) /\ hv (py j) b /\ 0 <= b <= M24).
  { intros b Yb. destruct (corner_y b Yb) as (a & C). destruct (around_all a b C) as (j & J & [Ha Hb]).
    pose proof (ys_bounds b Yb). exists j. unfold M24 in *. intuition lia. }
  pose proof Hc as [Cx Cy].
  destruct (port_orientation tp); unfold ray in R.
  - destruct R as (-> & Yb & Le). destruct (Qy y Yb) as (j & J & Hb & Bb).
    exists (mkPoint (px (port_location tp)) (py j)). split; [|split; assumption]. apply in_filter_if.
    exists j. split; [exact J|]. split; [|reflexivity]. now apply (ray_up_iff i _ X Y _ y L Hc On Hb Bb).
  - destruct R as (-> & Yb & Le). destruct (Qy y Yb) as (j & J & Hb & Bb).
    exists (mkPoint (px (port_location tp)) (py j)). split; [|split; assumption]. apply in_filter_if.
    exists j. split; [exact J|]. split; [|reflexivity]. now apply (ray_down_iff i _ X Y _ y L Hc On Hb Bb).
  - destruct R as (-> & Xa & Le). destruct (Qx x Xa) as (j & J & Ha & Ba).
    exists (mkPoint (px j) (py (port_location tp))). split; [|split; assumption]. apply in_filter_if.
    exists j. split; [exact J|]. split; [|reflexivity]. now apply (ray_left_iff i _ X Y _ x L Hc On Ha Ba).
  - destruct R as (-> & Xa & Le). destruct (Qx x Xa) as (j & J & Ha & Ba).
    exists (mkPoint (px j) (py (port_location tp))). split; [|split; assumption]. apply in_filter_if.
    exists j. split; [exact J|]. split; [|reflexivity]. now apply (ray_right_iff i _ X Y _ x L Hc On Ha Ba).
Qed.

(** The ports of the ends of edges, and the junctions. *)
Definition port_at (o : orientation) (X Y : Z) : Prop :=
  exists tp, end_port d tp /\ port_orientation tp = o /\ hpoint (port_location tp) X Y.
Definition clear (x y : Z) : Prop :=
  forall i, (i < length hs)%nat -> x < zl i - 78 \/ zl i + 678 < x \/ y < zt hs i - 78 \/ zb hs i + 78 < y.
Definition junction (x y : Z) : Prop :=
  (corner hs x y \/ exists o X Y, port_at o X Y /\ ray hs o X Y x y) /\ clear x y.

Lemma port_at_on o X Y : port_at o X Y -> exists i, (i < length hs)%nat /\ port_on hs i o X Y.
Proof.
  intros (tp & E & <- & [H1 H2]). destruct (gd_port d hs GD tp E) as (i & X' & Y' & L & [H1' H2'] & On).
  rewrite (hv_unique _ _ _ H1 H1'), (hv_unique _ _ _ H2 H2'). eauto.
Qed.
Lemma end_port_in tp : end_port d tp <-> In tp (flat_map (edge_end_ports d) (d_edges d)).
Proof.
  split; [|apply in_end_ports]. intros (e & i & n & Ie & Ei & G & I).
  destruct (gd_ends d hs GD e Ie) as (s & t & Gs & Gt & _).
  apply (end_ports_in d e s t tp Ie Gs Gt). destruct Ei as [-> | ->]; [left|right]; congruence.
Qed.

Lemma kept_iff j x y : hpoint j x y -> 0 <= x <= M24 -> 0 <= y <= M24 ->
  (negb (existsb (fun r => contains_point r j)
     (map (fun r => inset_by r (fneg (fsub SHAPE_JUNCTION_MARGIN (f32_of_Z 1))) (fneg (fsub SHAPE_JUNCTION_MARGIN (f32_of_Z 1)))) (shape_rects d))) = true
   <-> clear x y).
Proof.
  intros Hj Bx By. pose proof zh_le as Zh. set (mm := fneg (fsub SHAPE_JUNCTION_MARGIN (f32_of_Z 1))) in *.
  assert (C : forall r i, (i < length hs)%nat -> hrect r (zl i) (zt hs i) 600 (zb hs i - zt hs i) ->
     (contains_point (inset_by r mm mm) j = true <-> zl i - 78 <= x <= zl i + 678 /\ zt hs i - 78 <= y <= zb hs i + 78)).
  { intros r i L R. pose proof (table_bounds i L) as B.
    pose proof (grown_rect (-78) r i L R ltac:(lia) _ hv_m39) as G. fold mm in G.
    rewrite (contains_rect _ _ _ _ _ _ _ _ G Hj) by (unfold M24 in *; lia). lia. }
  rewrite negb_true_iff. split.
  - intros E i L. destruct (gd_table d hs GD i L) as (r & T & R). specialize (C r i L R).
    assert (N : ~ (zl i - 78 <= x <= zl i + 678 /\ zt hs i - 78 <= y <= zb hs i + 78)); [|lia].
    intros Q. apply C in Q. rewrite <- not_true_iff_false in E. apply E. apply existsb_exists. exists (inset_by r mm mm).
    split; [|exact Q]. apply in_map_iff. exists r. split; [reflexivity|now apply in_shape_rects].
  - intros Cl. apply not_true_iff_false. intros E. apply existsb_exists in E as (s & I & Q).
    apply in_map_iff in I as (r & <- & I). apply in_shape_rects in I. destruct (gd_rect d hs GD r I) as (i & L & R).
    apply (C r i L R) in Q. specialize (Cl i L). lia.
Qed.

Lemma ray_bounds i o X Y x y : (i < length hs)%nat -> port_on hs i o X Y -> ray hs o X Y x y ->
  20 <= x <= 2300 /\ 20 <= y <= zh hs - 20.
Proof.
  intros L On R. pose proof (port_bounds i o X Y L On) as B.
  destruct o; unfold ray in R; destruct R as (-> & Q & _);
    first [pose proof (ys_bounds _ Q); lia|pose proof (xs_cases _ Q); lia].
Qed.
Lemma junction_bounds x y : junction x y -> 20 <= x <= 2300 /\ 20 <= y <= zh hs - 20.
Proof.
  intros [[C|(o & X & Y & P & R)] _].
  - destruct (corner_xs x y C) as [Cx Cy]. pose proof (xs_cases x Cx). pose proof (ys_bounds y Cy). lia.
  - destruct (port_at_on o X Y P) as (i & L & On). now apply (ray_bounds i o X Y).
Qed.

Theorem junctions_sound p : In p (edge_junctions d) -> exists x y, hpoint p x y /\ junction x y.
Proof.
  intros I. unfold edge_junctions, remove_overlapped in I. apply filter_In in I as [I K]. pose proof zh_le as Zh.
  assert (Q : exists x y, hpoint p x y /\ (corner hs x y \/ exists o X Y, port_at o X Y /\ ray hs o X Y x y) /\
     20 <= x <= 2300 /\ 20 <= y <= zh hs - 20).
  { apply in_app_iff in I as [I|I].
    - destruct (around_in p I) as (x & y & H & C). exists x, y. split; [exact H|]. split; [now left|].
      destruct (corner_xs x y C) as [Cx Cy]. pose proof (xs_cases x Cx). pose proof (ys_bounds y Cy). lia.
    - apply in_flat_map in I as (e & Ie & I). apply in_flat_map in I as (tp & It & I).
      assert (E : end_port d tp) by (apply in_end_ports, in_flat_map; eauto).
      destruct (gd_port d hs GD tp E) as (i & X & Y & L & H & On).
      destruct (ray_in tp i X Y p L H On I) as (x & y & Hp' & R). exists x, y. split; [exact Hp'|]. split.
      + right. exists (port_orientation tp), X, Y. split; [exists tp; auto|exact R].
      + eapply ray_bounds; eauto. }
  destruct Q as (x & y & H & J & Bx & By). exists x, y. split; [exact H|]. split; [exact J|].
  apply (kept_iff p x y H) in K; [exact K| |]; unfold M24 in *; lia.
Qed.

Theorem junctions_complete x y : junction x y -> exists p, In p (edge_junctions d) /\ hpoint p x y.
Proof.
  intros J. pose proof (junction_bounds x y J) as B. pose proof zh_le as Zh. destruct J as [J C].
  assert (Q : exists p, hpoint p x y /\ In p (junctions_around_shapes d ++
     flat_map (fun e => flat_map (fun p => junctions_from_port d p (junctions_around_shapes d)) (edge_end_ports d e)) (d_edges d))).
  { destruct J as [J|(o & X & Y & (tp & E & <- & H) & R)].
    - destruct (around_all x y J) as (p & I & H). exists p. split; [exact H|]. apply in_app_iff. now left.
    - destruct (gd_port d hs GD tp E) as (i & X' & Y' & L & H' & On).
      assert (X' = X) as -> by (eapply hv_unique; [apply H'|apply H]).
      assert (Y' = Y) as -> by (eapply hv_unique; [apply H'|apply H]).
      destruct (ray_all tp i X Y x y L H On R) as (p & I & Hp'). exists p. split; [exact Hp'|]. apply in_app_iff. right.
      apply end_port_in, in_flat_map in E as (e & Ie & It). apply in_flat_map. exists e. split; [exact Ie|].
      apply in_flat_map. eauto. }
  destruct Q as (p & H & I). exists p. split; [|exact H]. unfold edge_junctions, remove_overlapped. apply filter_In.
  split; [exact I|]. apply (kept_iff p x y H); [| |exact C]; unfold M24 in *; lia.
Qed.
End Doc.
