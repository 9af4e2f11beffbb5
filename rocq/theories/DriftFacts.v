(** Tall diagrams: rounding down makes up for a detour. *)
From Coq Require Import String List Arith NArith ZArith Bool Lia SpecFloat Classical_Prop Sorting.Sorted.
From Verif Require Import Base F32 Geometry Mir Erd Heap Route Layout Parser Cli SpecMir SpecF32 SpecGeom SpecLayout SpecRoute SpecGraph SpecRender SpecLink SpecEnds SpecThrough SpecGap
  F32Facts GeomFacts SearchFacts MirFacts GridFacts LayoutFacts RenderFacts PipelineFacts GraphFacts PathFacts LatticeFacts
  ConnectFacts HubFacts DrawFacts OrderFacts RowFacts LineFacts MidFacts FarFacts TurnFacts CalmFacts LinkFacts EndFacts ThroughFacts MiddleFacts GapFacts.
From Verif Require OuterFacts FieldFacts.
Import ListNotations.
Local Open Scope Z_scope.

(** ** The module *)

(** Rows of three tables with two fields each; a relation from the first table to
    table [far], and one at each table of the last column but the first and the
    last. *)
Definition drift_name (i : nat) : str := [(19968 + N.of_nat i)%N].
Definition drift_table (i : nat) : entity_definition :=
  mkEntity (drift_name i) [mkField (lit "x") TInt None; mkField (lit "y") TInt None].
Definition drift_loop (r : nat) : entity_relation :=
  mkRelation (PField (drift_name (3 * r + 2)) (lit "x")) (PField (drift_name (3 * r + 2)) (lit "y")).
Definition drift (n far : nat) : module :=
  mkModule None (map (fun i => EDef (drift_table i)) (seq 0 (3 * n + 3)) ++
    ERel (mkRelation (PField (drift_name 0) (lit "x")) (PField (drift_name far) (lit "x"))) ::
    map (fun r => ERel (drift_loop r)) (seq 1 (n - 1))).
Definition drift_places (n far : nat) : list (place * place) :=
  (Row 0 1, Row far 1) :: map (fun r => (Row (3 * r + 2) 1, Row (3 * r + 2) 2)) (seq 1 (n - 1)).

Lemma links_tables (f : nat -> entity_definition) es ls : forall k a ds, links (ds ++ map f (seq a k)) es ls ->
  links ds (map (fun i => EDef (f i)) (seq a k) ++ es) ls.
Proof.
  induction k as [|k IH]; intros a ds H; cbn [seq map app] in *; [now rewrite app_nil_r in H|].
  constructor. apply IH. now rewrite <- app_assoc.
Qed.
Lemma drift_nth n i : (i < n)%nat -> nth_error (map drift_table (seq 0 n)) i = Some (drift_table i).
Proof. intros L. rewrite nth_error_map. assert (E : nth_error (seq 0 n) i = Some i) by (rewrite (nth_error_nth' _ 0%nat); [rewrite seq_nth by lia; reflexivity|rewrite seq_length; lia]). now rewrite E. Qed.
Lemma drift_refers n i k : (i < n)%nat -> (k = 0%nat \/ k = 1%nat) ->
  refers (map drift_table (seq 0 n)) (PField (drift_name i) (lit (if Nat.eqb k 0 then "x" else "y"))) (Row i (S k)).
Proof.
  intros L K. apply refers_row with (e := drift_table i).
  - split; [now apply drift_nth|]. split.
    + split; [reflexivity|]. destruct K as [-> | ->]; cbn; auto.
    + intros j e' Lt N (E & _). assert (Lj : (j < n)%nat).
      { assert (H : (j < length (map drift_table (seq 0 n)))%nat) by (apply nth_error_Some; congruence). now rewrite map_length, seq_length in H. }
      rewrite drift_nth in N by exact Lj. injection N as <-. unfold drift_table, drift_name in E. cbn [ent_name] in E.
      assert (Q : (19968 + N.of_nat j = 19968 + N.of_nat i)%N) by congruence. lia.
  - destruct K as [-> | ->].
    + split; [eexists; split; reflexivity|]. intros [|[|k]] f Lk N; [lia| |destruct k; discriminate]. injection N as <-. discriminate.
    + split; [eexists; split; reflexivity|]. intros [|[|k]] f Lk N; [lia|lia|destruct k; discriminate].
Qed.
Lemma drift_links n far : (far < 3 * n + 3)%nat -> links [] (m_entries (drift n far)) (drift_places n far).
Proof.
  intros Lf. unfold drift, drift_places. cbn [m_entries]. apply links_tables. cbn [app].
  apply links_rel; [exact (drift_refers (3 * n + 3) 0 0 ltac:(lia) ltac:(lia))|exact (drift_refers (3 * n + 3) far 0 Lf ltac:(lia))|].
  assert (H : forall r, In r (seq 1 (n - 1)) -> (3 * r + 2 < 3 * n + 3)%nat) by (intros r I; apply in_seq in I; lia).
  induction (seq 1 (n - 1)) as [|r l IH]; cbn [map]; [constructor|].
  apply links_rel; [| |apply IH; intros; apply H; now right];
    [exact (drift_refers (3 * n + 3) (3 * r + 2) 0 (H r ltac:(now left)) ltac:(lia))|exact (drift_refers (3 * n + 3) (3 * r + 2) 1 (H r ltac:(now left)) ltac:(lia))].
Qed.

Lemma drift_rows n far : table_rows (drift n far) = repeat 3%nat (3 * n + 3).
Proof.
  unfold table_rows, drift. cbn [m_entries]. generalize (3 * n + 3)%nat as k. intros k.
  assert (T : forall es, definitions es = [] -> forall a, map (fun e => S (length (ent_fields e))) (definitions (map (fun i => EDef (drift_table i)) (seq a k) ++ es)) = repeat 3%nat k).
  { intros es E. induction k as [|k IH]; intros a; cbn [seq map app repeat definitions]; [now rewrite E|]. f_equal. apply IH. }
  apply T. cbn [definitions]. induction (seq 1 (n - 1)) as [|r l IH]; cbn [map definitions]; auto.
Qed.

Lemma nth_repeat3 k i : (i < k)%nat -> nth i (repeat 3%nat k) 0%nat = 3%nat.
Proof. revert i. induction k; intros [|i] L; cbn; try lia. apply IHk. lia. Qed.
Lemma drift_top n r : (r <= S n)%nat -> row_top (repeat 3%nat (3 * n + 3)) r = 50 + 185 * Z.of_nat r.
Proof.
  induction r as [|r IH]; intros L; [reflexivity|]. cbn [row_top]. rewrite IH by lia. unfold tallest. rewrite !nth_repeat3 by lia. lia.
Qed.
Lemma drift_zt n t : (t < 3 * n + 3)%nat -> zt (repeat 3%nat (3 * n + 3)) t = 100 + 370 * Z.of_nat (t / 3).
Proof.
  intros L. unfold zt, table_top. rewrite drift_top; [lia|]. assert (t / 3 < S n)%nat by (apply Nat.div_lt_upper_bound; lia). lia.
Qed.
Lemma drift_zb n t : (t < 3 * n + 3)%nat -> zb (repeat 3%nat (3 * n + 3)) t = 310 + 370 * Z.of_nat (t / 3).
Proof. intros L. unfold zb, table_height. rewrite drift_zt, nth_repeat3 by lia. lia. Qed.
Lemma drift_fits n far : (n <= 4500)%nat -> fits (table_rows (drift n far)).
Proof.
  intros L. rewrite drift_rows. unfold fits, total_height. rewrite repeat_length.
  assert (E : ((3 * n + 3 - 1) / 3 = n)%nat) by (symmetry; apply Nat.div_unique with (r := 2%nat); lia). rewrite E.
  rewrite drift_top by lia. unfold tallest. rewrite !nth_repeat3 by lia. change (2 ^ 23) with 8388608. lia.
Qed.

Lemma div3 r c : (c < 3)%nat -> ((3 * r + c) / 3 = r)%nat /\ ((3 * r + c) mod 3 = c)%nat.
Proof. intros L. split; symmetry; [apply Nat.div_unique with (r := c)|apply Nat.mod_unique with (q := r)]; lia. Qed.
Lemma zl_at r c : (c < 3)%nat -> zl (3 * r + c) = 100 + 760 * Z.of_nat c.
Proof. intros L. unfold zl, table_left. rewrite (proj2 (div3 r c L)). lia. Qed.

Lemma ports_row hs a b ps : has_ports hs a ps -> has_ports hs b ps -> rowY hs a = rowY hs b.
Proof.
  intros (Ka & Fa) (Kb & Fb). assert (I : In Right (anchor_sides hs a)) by (apply sides_in; auto 6).
  apply In_nth_error in I as (j & I). destruct (forall2_nth_l _ _ _ Fa j Right I) as (p & Hp & O & Q).
  destruct (forall2_in_r _ _ _ _ Fb (nth_error_In _ _ Hp)) as (o & Io & O' & Q'). rewrite O in O'. subst o.
  destruct (ConnectFacts.hpoint_unique _ _ _ _ _ Q Q') as [_ E]. exact E.
Qed.

Lemma walk_cost_cons c a b l : walk_cost c (a :: b :: l) = (c a b + walk_cost c (b :: l))%N.
Proof. reflexivity. Qed.

(** ** Both ways *)

Section Doc.
Variables (n c : nat).
Hypothesis Hn : (1 <= n)%nat.
Hypothesis Hc : (c <= 1)%nat.
Let far := (3 * n + c)%nat.
Let hs := repeat 3%nat (3 * n + 3).
Variable d : document.
Hypothesis ED : end_doc d hs.
Variable g : route_graph.
Hypothesis R : routes d hs g.
Hypothesis Ends : forall a, end_at d hs a -> exists p q x ports, In (p, q) (drift_places n far) /\ (x = p \/ x = q) /\
  has_ports hs (end_of x) ports /\ has_ports hs a ports.
Hypothesis Loops : forall r, (1 <= r < n)%nat -> end_at d hs (row_end (3 * r + 2) 1).
Hypothesis Es : end_at d hs (row_end 0 1).
Hypothesis Et : end_at d hs (row_end far 1).
Let ns := rg_nodes g.
Let cost := rg_cost ns.
Let GD := ed_grid d hs ED.

Lemma row_at r k t : (t <= 2)%nat -> (r <= n)%nat -> rowY hs (row_end (3 * r + t) k) = 135 + 370 * Z.of_nat r + 70 * Z.of_nat k.
Proof. intros Lt Lr. cbn [rowY]. unfold hs. rewrite drift_zt by lia. rewrite (proj1 (div3 r t ltac:(lia))). lia. Qed.
Lemma row_first : rowY hs (row_end 0 1) = 205.
Proof. exact (row_at 0 1 0 ltac:(lia) ltac:(lia)). Qed.
Lemma row_far : rowY hs (row_end far 1) = 205 + 370 * Z.of_nat n.
Proof. unfold far. rewrite row_at by lia. lia. Qed.

Lemma line_at r : (r <= n)%nat -> ys hs (20 + 370 * Z.of_nat r).
Proof.
  intros L. exists (3 * r)%nat. unfold hs. rewrite repeat_length. split; [lia|]. left. rewrite drift_zt by lia.
  rewrite <- (Nat.add_0_r (3 * r)), (proj1 (div3 r 0 ltac:(lia))). lia.
Qed.
Lemma corner_at K r : (r <= n)%nat -> K = 780 \/ K = 1540 -> exists a, spot ns a K (20 + 370 * Z.of_nat r) None.
Proof.
  intros L C. apply (corner_spot d hs g R). exists (3 * r + 1)%nat. unfold hs. rewrite repeat_length. split; [lia|].
  rewrite zl_at, drift_zt, (proj1 (div3 r 1 ltac:(lia))) by lia. lia.
Qed.

(** Down the second gap each row of tables takes less than its height. *)
Lemma band r a b : (1 <= r < n)%nat -> spot ns a 1540 (20 + 370 * Z.of_nat r) None -> spot ns b 1540 (20 + 370 * Z.of_nat (S r)) None ->
  conn g a b 184.
Proof.
  intros L A B. destruct (side_corridor d hs ED g R (row_end (3 * r + 2) 1) 1540 (Loops r L)) as (i & j & _ & J & _).
  { left. cbn [tab]. rewrite zl_at; lia. }
  rewrite row_at in J by lia. assert (C : corridor 1540) by (unfold corridor; lia).
  pose proof (corr_vline d hs ED g R 1540 a j _ _ None None C A J) as C1. pose proof (corr_vline d hs ED g R 1540 j b _ _ None None C J B) as C2.
  replace (Z.abs _ / 2) with 92 in C1 by (replace (Z.abs _) with 185 by lia; reflexivity).
  replace (Z.abs _ / 2) with 92 in C2 by (replace (Z.abs _) with 185 by lia; reflexivity).
  exact (conn_trans g _ _ _ _ _ C1 C2).
Qed.
Lemma bands k : forall a b, (1 + k <= n)%nat -> spot ns a 1540 390 None -> spot ns b 1540 (20 + 370 * Z.of_nat (1 + k)) None ->
  conn g a b (184 * Z.of_nat k).
Proof.
  induction k as [|k IH]; intros a b L A B.
  - replace (20 + 370 * Z.of_nat (1 + 0)) with 390 in B by lia. destruct (spot_index d hs g R _ _ _ _ _ _ A B) as [<- _]. apply conn_refl.
  - destruct (corner_at 1540 (1 + k) ltac:(lia) ltac:(lia)) as (e & E). eapply conn_le.
    + eapply conn_trans; [exact (IH a e ltac:(lia) A E)|]. exact (band (1 + k) e b ltac:(lia) E B).
    + lia.
Qed.

(** There is a way this short. *)
Lemma detour w : (if Nat.eqb c 0 then 840 else 460) + 184 * Z.of_nat n < w -> better hs g (row_end 0 1) (row_end far 1) w.
Proof.
  intros Lw. assert (C7 : corridor 780) by (unfold corridor; lia). assert (C15 : corridor 1540) by (unfold corridor; lia).
  destruct (side_corridor d hs ED g R (row_end 0 1) 780 Es) as (s & s1 & Ss & S1 & Cs).
  { right. cbn [tab]. change 0%nat with (3 * 0 + 0)%nat. rewrite zl_at; lia. }
  rewrite row_first in S1. destruct (corner_at 780 1 ltac:(lia) ltac:(lia)) as (e1 & E1). destruct (corner_at 1540 1 ltac:(lia) ltac:(lia)) as (f1 & F1).
  destruct (corner_at 1540 n ltac:(lia) ltac:(lia)) as (fn & Fn). destruct (corner_at 780 n ltac:(lia) ltac:(lia)) as (en & En).
  pose proof (corr_vline d hs ED g R 780 s1 e1 _ _ None None C7 S1 E1) as V1.
  replace (Z.abs _ / 2) with 92 in V1 by (replace (Z.abs _) with 185 by lia; reflexivity).
  pose proof (FieldFacts.line_le d hs ED g R e1 f1 780 1540 _ 380 (line_at 1 ltac:(lia)) E1 F1 ltac:(lia)) as H1.
  assert (B : conn g f1 fn (184 * Z.of_nat (n - 1))).
  { apply bands; [lia|exact F1|]. replace (1 + (n - 1))%nat with n by lia. exact Fn. }
  assert (Hs1 : conn g s f1 (40 + 92 + 380)) by (eapply conn_trans; [eapply conn_trans; [exact Cs|exact V1]|exact H1]).
  assert (Hsn : conn g s fn (512 + 184 * Z.of_nat (n - 1))) by (eapply conn_trans; [exact Hs1|exact B]).
  pose proof row_far as Rf. destruct (Nat.eqb_spec c 0) as [C0|C0].
  - destruct (side_corridor d hs ED g R (row_end far 1) 780 Et) as (t & t1 & St & T1 & Ct).
    { right. cbn [tab]. unfold far. rewrite zl_at; lia. }
    rewrite Rf in T1. pose proof (FieldFacts.line_le d hs ED g R fn en 1540 780 _ 380 (line_at n ltac:(lia)) Fn En ltac:(lia)) as H2.
    pose proof (corr_vline d hs ED g R 780 en t1 _ _ None None C7 En T1) as V2.
    replace (Z.abs _ / 2) with 92 in V2 by (replace (Z.abs _) with 185 by lia; reflexivity).
    exists s, t, (512 + 184 * Z.of_nat (n - 1) + (380 + (92 + 40))). split; [exact Ss|]. split; [exact St|]. split; [|lia].
    eapply conn_trans; [exact Hsn|]. eapply conn_trans; [exact H2|]. eapply conn_trans; [exact V2|]. apply conn_sym. exact Ct.
  - destruct (side_corridor d hs ED g R (row_end far 1) 1540 Et) as (t & t1 & St & T1 & Ct).
    { right. cbn [tab]. unfold far. rewrite zl_at; lia. }
    rewrite Rf in T1.
    pose proof (corr_vline d hs ED g R 1540 fn t1 _ _ None None C15 Fn T1) as V2.
    replace (Z.abs _ / 2) with 92 in V2 by (replace (Z.abs _) with 185 by lia; reflexivity).
    exists s, t, (512 + 184 * Z.of_nat (n - 1) + (92 + 40)). split; [exact Ss|]. split; [exact St|]. split; [|lia].
    eapply conn_trans; [exact Hsn|]. eapply conn_trans; [exact V2|]. apply conn_sym. exact Ct.
Qed.

(** The ends in the first two columns are those of the first relation. *)
Lemma rel_places cc Y : rel d hs cc Y -> Y = 205 \/ Y = 205 + 370 * Z.of_nat n \/
  (cc = 1620 /\ exists r, (r <= n)%nat /\ (Y = 205 + 370 * Z.of_nat r \/ Y = 275 + 370 * Z.of_nat r)).
Proof.
  intros (a & E & Ec & ->). destruct (Ends a E) as (p & q & x & ports & I & X & P1 & P2).
  rewrite (ports_row hs a (end_of x) ports P2 P1). rewrite (ports_column hs a (end_of x) ports P2 P1) in Ec.
  destruct I as [I|I].
  - injection I as <- <-. destruct X as [-> | ->]; cbn [end_of]; [left; exact row_first|right; left; exact row_far].
  - apply in_map_iff in I as (r & I & Ir). apply in_seq in Ir. right. right.
    assert (Xr : x = Row (3 * r + 2) 1 \/ x = Row (3 * r + 2) 2) by (destruct X; [left|right]; congruence).
    destruct Xr as [-> | ->]; cbn [end_of tab] in *; (rewrite zl_at in Ec by lia; split; [lia|]; exists r; split; [lia|]; rewrite row_at by lia; lia).
Qed.
Lemma middle_not_free r k : (r <= n)%nat -> 2 <= k <= 208 -> ~ free hs 860 (100 + 370 * Z.of_nat r + k).
Proof.
  intros L Lk F. specialize (F (3 * r + 1)%nat). rewrite zl_at in F by lia. unfold hs in F. rewrite repeat_length, drift_zt, drift_zb in F by lia.
  rewrite (proj1 (div3 r 1 ltac:(lia))) in F. lia.
Qed.

(** In between the lines beside the first column have no other junctions. *)
Lemma between_even K i Y : K = 20 \/ K = 780 -> spot ns i K Y None -> 205 < Y < 205 + 370 * Z.of_nat n -> exists z, Y = 10 * z.
Proof.
  intros C S B. destruct (classic (ys hs Y)) as [Yy|O]; [exact (ys_even hs Y Yy)|]. exfalso.
  destruct C as [-> | ->].
  - destruct (odd_20 d hs ED g R i Y O S) as [Rl|[(Rl & F)|(Rl & F & F')]].
    + destruct (rel_places _ _ Rl) as [Q|[Q|(Q & _)]]; lia.
    + destruct (rel_places _ _ Rl) as [Q|[Q|(Q & _)]]; lia.
    + destruct (rel_places _ _ Rl) as [Q|[Q|(_ & r & Lr & [-> | ->])]]; try lia.
      * apply (middle_not_free r 105 Lr); [lia|]. now replace (100 + 370 * Z.of_nat r + 105) with (205 + 370 * Z.of_nat r) by lia.
      * apply (middle_not_free r 175 Lr); [lia|]. now replace (100 + 370 * Z.of_nat r + 175) with (275 + 370 * Z.of_nat r) by lia.
  - destruct (odd_780 d hs ED g R i Y O S) as [Rl|[Rl|(Rl & F)]].
    + destruct (rel_places _ _ Rl) as [Q|[Q|(Q & _)]]; lia.
    + destruct (rel_places _ _ Rl) as [Q|[Q|(Q & _)]]; lia.
    + destruct (rel_places _ _ Rl) as [Q|[Q|(_ & r & Lr & [-> | ->])]]; try lia.
      * apply (middle_not_free r 105 Lr); [lia|]. now replace (100 + 370 * Z.of_nat r + 105) with (205 + 370 * Z.of_nat r) by lia.
      * apply (middle_not_free r 175 Lr); [lia|]. now replace (100 + 370 * Z.of_nat r + 175) with (275 + 370 * Z.of_nat r) by lia.
Qed.

(** So they are not shortened. *)
Lemma floor_half z : z - 1 <= 2 * (z / 2).
Proof. pose proof (Z.div_mod z 2 ltac:(lia)). pose proof (Z.mod_pos_bound z 2 ltac:(lia)). lia. Qed.

Lemma straight_even K Yn : forall mid l i Y, spot ns i K Y None -> Forall2 (fun j Z => spot ns j K Z None) l (mid ++ [Yn]) ->
  StronglySorted Z.lt (Y :: mid ++ [Yn]) -> Forall (fun Z => exists z, Z = 10 * z) (Y :: mid) ->
  Yn - Y - 1 <= 2 * Z.of_N (walk_cost cost (i :: l)).
Proof.
  induction mid as [|Z mid IH]; intros l i Y A F So Ev; cbn [app] in *; inversion F as [|j ? l' ? B F']; subst; rewrite walk_cost_cons.
  - inversion F'. subst. pose proof (TurnFacts.cost_v d hs ED g R i j K Y Yn None None A B) as Cv. fold ns cost in Cv.
    inversion So as [|? ? _ Lt]; subst. inversion Lt. subst. pose proof (floor_half (Z.abs (Y - Yn))). rewrite N2Z.inj_add, Cv. lia.
  - pose proof (TurnFacts.cost_v d hs ED g R i j K Y Z None None A B) as Cv. fold ns cost in Cv.
    inversion So as [|? ? So' Lt]; subst. inversion Lt. subst. inversion Ev as [|? ? (y & Ey) Ev']; subst.
    specialize (IH l' j Z B F' So' Ev'). inversion Ev' as [|? ? (z & Ez) _]; subst.
    assert (2 * (Z.abs (10 * y - 10 * z) / 2) = 10 * z - 10 * y) by (replace (Z.abs _) with ((5 * z - 5 * y) * 2) by lia; rewrite Z.div_mul; lia).
    rewrite N2Z.inj_add, Cv. lia.
Qed.
Lemma straight K Y Yn mid l i : spot ns i K Y None -> Forall2 (fun j Z => spot ns j K Z None) l (mid ++ [Yn]) ->
  StronglySorted Z.lt (Y :: mid ++ [Yn]) -> Forall (fun Z => exists z, Z = 10 * z) mid ->
  Yn - Y - 2 <= 2 * Z.of_N (walk_cost cost (i :: l)).
Proof.
  intros A F So Ev. destruct mid as [|Z mid]; cbn [app] in *; inversion F as [|j ? l' ? B F']; subst; rewrite walk_cost_cons.
  - inversion F'. subst. pose proof (TurnFacts.cost_v d hs ED g R i j K Y Yn None None A B) as Cv. fold ns cost in Cv.
    inversion So as [|? ? _ Lt]; subst. inversion Lt. subst. pose proof (floor_half (Z.abs (Y - Yn))). rewrite N2Z.inj_add, Cv. lia.
  - pose proof (TurnFacts.cost_v d hs ED g R i j K Y Z None None A B) as Cv. fold ns cost in Cv.
    inversion So as [|? ? So' Lt]; subst. inversion Lt. subst.
    pose proof (straight_even K Yn mid l' j Z B F' So' Ev) as H. pose proof (floor_half (Z.abs (Y - Z))). rewrite N2Z.inj_add, Cv. lia.
Qed.

Lemma sorted_between Y mid Yn Z : StronglySorted Z.lt (Y :: mid ++ [Yn]) -> In Z mid -> Y < Z < Yn.
Proof.
  intros So I. inversion So as [|? ? So' Lt]; subst. rewrite Forall_forall in Lt. split; [apply Lt, in_or_app; now left|].
  clear - So' I. induction mid as [|a mid IH]; [destruct I|]. cbn [app] in So'. inversion So' as [|? ? So'' Lt]; subst. destruct I as [<-|I]; [|auto].
  rewrite Forall_forall in Lt. apply Lt, in_or_app. right. now left.
Qed.

(** A line along the first two corridors is at least this long. *)
Lemma along_long K ps l X1 X2 : K = 20 \/ K = 780 -> (X1 = K - 80 \/ X1 = K + 80) -> (X2 = K - 80 \/ X2 = K + 80) ->
  places g l ps -> along K ps X1 205 X2 (205 + 370 * Z.of_nat n) -> 158 + 370 * Z.of_nat n <= 2 * Z.of_N (walk_cost cost l).
Proof.
  intros Ck H1 H2 Pl (p & inner & q & Ys & -> & Hp & Hq & F & (l1 & E1) & (l2 & E2) & So). set (Yn := 205 + 370 * Z.of_nat n) in *.
  assert (Co : corridor K) by (unfold corridor; lia).
  assert (M : exists mid, Ys = 205 :: mid ++ [Yn]).
  { destruct l2 as [|y l2]; cbn [app] in E2; subst Ys; [injection E2 as E2; unfold Yn in E2; lia|]. injection E2 as -> E2. exists l2. now rewrite E2. }
  destruct M as (mid & ->). assert (So' : StronglySorted Z.lt (205 :: mid ++ [Yn])).
  { destruct So as [So|So]; [exact So|]. exfalso. inversion So as [|? ? _ Gt]; subst. rewrite Forall_forall in Gt.
    specialize (Gt Yn ltac:(apply in_or_app; right; now left)). unfold Yn in Gt. lia. }
  inversion Pl as [|a ? l' ? (na & Na & La) Pl']; subst. inversion F as [|x ? xs' ? Hx F']; subst.
  cbn [app] in Pl'. inversion Pl' as [|i ? l'' ? (ni & Ni & Li) Pl'']; subst.
  apply Forall2_app_inv_r in Pl'' as (k1 & k2 & G1 & G2 & ->). inversion G2 as [|b ? ? ? (nb & Nb & Lb) G3]; subst. inversion G3. subst.
  assert (A : spot ns a X1 205 (rn_orient na)) by (exists na; auto). assert (I : spot ns i K 205 (rn_orient ni)) by (exists ni; auto).
  assert (B : spot ns b X2 Yn (rn_orient nb)) by (exists nb; auto).
  pose proof (corridor_none d hs GD g R _ _ _ _ Co I) as Ni'. rewrite Ni' in I.
  assert (Sp : Forall2 (fun j Z => spot ns j K Z None) k1 (mid ++ [Yn])).
  { clear - G1 F' Co GD R. revert k1 G1. induction F' as [|x Z xs Zs Hx F' IH]; intros k1 G1; inversion G1 as [|j ? k1' ? (nj & Nj & Lj) G1']; subst; constructor; auto.
    assert (S : spot ns j K Z (rn_orient nj)) by (exists nj; auto). rewrite (corridor_none d hs GD g R _ _ _ _ Co S) in S. exact S. }
  assert (Ev : Forall (fun Z => exists z, Z = 10 * z) mid).
  { apply Forall_forall. intros Z Iz. pose proof (sorted_between _ _ _ _ So' Iz) as Bz.
    destruct (forall2_in_r _ _ _ Z Sp ltac:(apply in_or_app; now left)) as (j & _ & Sj). exact (between_even K j Z Ck Sj Bz). }
  pose proof (straight K 205 Yn mid k1 i I Sp So' Ev) as Lo.
  assert (Sn : exists k0 j, k1 = k0 ++ [j] /\ spot ns j K Yn None).
  { apply Forall2_app_inv_r in Sp as (k0 & k2 & _ & S2 & ->). inversion S2 as [|j ? ? ? Sj S3]; subst. inversion S3. subst. eauto. }
  destruct Sn as (k0 & j & -> & Sj).
  pose proof (TurnFacts.cost_h d hs ED g R a i _ _ _ _ _ A I) as Ca. pose proof (TurnFacts.cost_h d hs ED g R j b _ _ _ _ _ Sj B) as Cb. fold ns cost in Ca, Cb.
  rewrite walk_cost_cons. change (i :: (k0 ++ [j]) ++ [b]) with ((i :: k0 ++ [j]) ++ [b]).
  replace ((i :: k0 ++ [j]) ++ [b]) with ((i :: k0) ++ [j; b]) by (cbn [app]; now rewrite <- app_assoc).
  rewrite OuterFacts.walk_cost_snoc. cbn [app]. rewrite !N2Z.inj_add. unfold Yn in *. lia.
Qed.

End Doc.

(** ** Modules *)

Lemma drift_walk n c : (1 <= n)%nat -> (c <= 1)%nat -> (n <= 4500)%nat -> let m := drift n (3 * n + c) in
  exists vb g d e ps, layout_module m = Ret (vb, g, d) /\ nth_error (d_edges d) 0 = Some e /\ e_path e = Some ps /\
  forall K X1 X2, K = 20 \/ K = 780 -> (X1 = K - 80 \/ X1 = K + 80) -> (X2 = K - 80 \/ X2 = K + 80) ->
  along K ps X1 205 X2 (205 + 370 * Z.of_nat n) -> 158 + 370 * Z.of_nat n <= 2 * ((if Nat.eqb c 0 then 840 else 460) + 184 * Z.of_nat n).
Proof.
  intros Hn Hc Hm m. assert (F : fits (table_rows m)) by (apply drift_fits; exact Hm).
  destruct (layout_returns m F) as (vb & g & d & L & _). assert (Ll : links [] (m_entries m) (drift_places n (3 * n + c))) by (apply drift_links; lia).
  destruct (rows_walk m vb g d _ F L Ll) as (d2 & ED & R & Ends & H). assert (Eh : table_rows m = repeat 3%nat (3 * n + 3)) by (apply drift_rows).
  rewrite Eh in *. destruct (forall2_nth_l _ _ _ H 0%nat _ eq_refl) as (e & Ne & He).
  destruct (He _ _ _ _ eq_refl) as (ps & a & b & w & Ep & Es & Et & Sa & Sb & W & Best & Once & Pl).
  assert (Loops : forall r, (1 <= r < n)%nat -> end_at d2 (repeat 3%nat (3 * n + 3)) (row_end (3 * r + 2) 1)).
  { intros r Lr. assert (I : In (Row (3 * r + 2) 1, Row (3 * r + 2) 2) (drift_places n (3 * n + c))).
    { right. apply in_map_iff. exists r. split; [reflexivity|]. apply in_seq. lia. }
    destruct (forall2_in_l _ _ _ _ H I) as (e' & _ & He'). destruct (He' _ _ _ _ eq_refl) as (ps' & a' & b' & w' & _ & E' & _). exact E'. }
  exists vb, g, d, e, ps. split; [exact L|]. split; [exact Ne|]. split; [exact Ep|]. intros K X1 X2 Ck H1 H2 A.
  pose proof (along_long n c Hn Hc d2 ED g R Ends K ps w X1 X2 Ck H1 H2 Pl A) as Lo.
  pose proof (detour n c Hn Hc d2 ED g R Loops Es Et (Z.of_N (walk_cost (rg_cost (rg_nodes g)) w))) as Up.
  destruct (Z.lt_ge_cases ((if Nat.eqb c 0 then 840 else 460) + 184 * Z.of_nat n) (Z.of_N (walk_cost (rg_cost (rg_nodes g)) w))) as [Lt|Ge]; [exfalso; exact (Best (Up Lt))|lia].
Qed.

Lemma drift_middle n t k : (t < 3 * n + 3)%nat -> row_middle (repeat 3%nat (3 * n + 3)) t k = 135 + 370 * Z.of_nat (t / 3) + 70 * Z.of_nat k.
Proof. intros L. pose proof (drift_zt n t L) as Q. unfold row_middle. unfold zt in Q. lia. Qed.

(** A relation between neighbouring columns that is not drawn in the gap. *)
Theorem far_neighbours : exists m vb g d ls i k j l n e ps, fits (table_rows m) /\ layout_module m = Ret (vb, g, d) /\ links [] (m_entries m) ls /\
  nth_error ls n = Some (Row i k, Row j l) /\ nth_error (d_edges d) n = Some e /\ e_path e = Some ps /\ (j mod 3 = S (i mod 3))%nat /\
  ~ in_the_gap ps (2 * (table_left i + 300)) (row_middle (table_rows m) i k) (2 * table_left j) (row_middle (table_rows m) j l).
Proof.
  destruct (drift_walk 400 1 ltac:(lia) ltac:(lia) ltac:(lia)) as (vb & g & d & e & ps & L & Ne & Ep & H).
  exists (drift 400 (3 * 400 + 1)), vb, g, d, (drift_places 400 (3 * 400 + 1)), 0%nat, 1%nat, (3 * 400 + 1)%nat, 1%nat, 0%nat, e, ps.
  split; [apply drift_fits; lia|]. split; [exact L|]. split; [apply drift_links; lia|]. split; [reflexivity|]. split; [exact Ne|]. split; [exact Ep|].
  split; [reflexivity|]. rewrite drift_rows. rewrite !drift_middle by lia. change (0 / 3)%nat with 0%nat. rewrite (proj1 (div3 400 1 ltac:(lia))).
  intros (K & E & A). change (2 * (table_left 0 + 300)) with 700 in *.
  assert (Q : 2 * table_left (3 * 400 + 1) = 860) by (exact (zl_at 400 1 ltac:(lia))). rewrite Q in *.
  assert (K = 780) as -> by lia.
  replace (135 + 370 * Z.of_nat 0 + 70 * Z.of_nat 1) with 205 in A by reflexivity.
  replace (135 + 370 * Z.of_nat 400 + 70 * Z.of_nat 1) with (205 + 370 * Z.of_nat 400) in A by lia.
  specialize (H 780 700 860 ltac:(lia) ltac:(lia) ltac:(lia) A). cbn [Nat.eqb] in H. lia.
Qed.

(** A relation within a column that is not drawn beside it. *)
Theorem far_same_column : exists m vb g d ls i k j l n e ps, fits (table_rows m) /\ layout_module m = Ret (vb, g, d) /\ links [] (m_entries m) ls /\
  nth_error ls n = Some (Row i k, Row j l) /\ nth_error (d_edges d) n = Some e /\ e_path e = Some ps /\ (i mod 3 = j mod 3)%nat /\ (i, k) <> (j, l) /\
  ~ along (2 * table_left i - 80) ps (2 * table_left i) (row_middle (table_rows m) i k) (2 * table_left i) (row_middle (table_rows m) j l) /\
  ~ along (2 * table_left i + 680) ps (2 * table_left i + 600) (row_middle (table_rows m) i k) (2 * table_left i + 600) (row_middle (table_rows m) j l).
Proof.
  destruct (drift_walk 800 0 ltac:(lia) ltac:(lia) ltac:(lia)) as (vb & g & d & e & ps & L & Ne & Ep & H).
  exists (drift 800 (3 * 800 + 0)), vb, g, d, (drift_places 800 (3 * 800 + 0)), 0%nat, 1%nat, (3 * 800 + 0)%nat, 1%nat, 0%nat, e, ps.
  split; [apply drift_fits; lia|]. split; [exact L|]. split; [apply drift_links; lia|]. split; [reflexivity|]. split; [exact Ne|]. split; [exact Ep|].
  split; [reflexivity|]. split; [discriminate|]. rewrite drift_rows. rewrite !drift_middle by lia. change (0 / 3)%nat with 0%nat. rewrite (proj1 (div3 800 0 ltac:(lia))).
  change (table_left 0) with 50.
  replace (135 + 370 * Z.of_nat 0 + 70 * Z.of_nat 1) with 205 by reflexivity.
  replace (135 + 370 * Z.of_nat 800 + 70 * Z.of_nat 1) with (205 + 370 * Z.of_nat 800) by lia.
  split; intros A; [specialize (H 20 100 100 ltac:(lia) ltac:(lia) ltac:(lia) A)|specialize (H 780 700 700 ltac:(lia) ltac:(lia) ltac:(lia) A)]; cbn [Nat.eqb] in H; lia.
Qed.
