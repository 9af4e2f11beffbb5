(** Routes that turn around are not the cheapest. *)
From Coq Require Import List Arith NArith ZArith Bool Lia SpecFloat Classical_Prop.
From Verif Require Import Base F32 Geometry Mir Erd Heap Route Layout SpecMir SpecF32 SpecGeom SpecLayout SpecRoute SpecGraph
  F32Facts GeomFacts SearchFacts MirFacts GridFacts LayoutFacts RenderFacts PipelineFacts GraphFacts PathFacts LatticeFacts
  ConnectFacts HubFacts DrawFacts OrderFacts RowFacts LineFacts MidFacts FarFacts.
Import ListNotations.
Local Open Scope Z_scope.

Section Doc.
Variables (d : document) (hs : list nat).
Hypothesis FD : end_doc d hs.
Let GD := ed_grid d hs FD.
Variable g : route_graph.
Hypothesis R : routes d hs g.
Let ns := rg_nodes g.
Let es := rg_edges g.
Let cost := rg_cost ns.
Local Notation mid := (mid d hs g).
Local Notation conn := (conn g).

(** ** Coordinates and costs *)

Lemma spot_five a X Y o : spot ns a X Y o -> (exists k, X = 20 * k) /\ (exists k, Y = 5 * k).
Proof.
  intros A.
  assert (Co : forall x, corridor x -> exists k, x = 20 * k).
  { intros x [-> | [-> | [-> | ->]]]; [exists 1|exists 39|exists 77|exists 115]; reflexivity. }
  assert (Cl : forall c, column c -> (exists k, c = 20 * k) /\ (exists k, c + 300 = 20 * k) /\ (exists k, c + 600 = 20 * k)).
  { intros x [-> | [-> | ->]]; (split; [|split]); [exists 5|exists 20|exists 35|exists 43|exists 58|exists 73|exists 81|exists 96|exists 111]; reflexivity. }
  assert (Ev : forall y, even y -> exists k, y = 5 * k) by (intros y (k & ->); exists (2 * k); lia).
  assert (Ey : forall y, ys hs y -> exists k, y = 5 * k) by (intros y Yy; apply Ev, (ys_even hs y Yy)).
  assert (Od : forall c y, rel d hs c y -> exists k, y = 5 * k) by (intros c y (e & _ & _ & ->); apply row_five).
  destruct (spot_kind d hs FD g R a X Y o A) as [(_ & C & _ & E)|[(_ & C & _ & c & E & _)|[(_ & c & C & -> & E & _)|[(_ & C & _)|[(_ & C & _)|(e & _ & -> & H)]]]]].
  - split; auto.
  - split; eauto.
  - split; [apply (Cl c C)|auto].
  - split; [apply (Cl X (rel_column d hs X Y C))|eauto].
  - split; [|eauto]. destruct (Cl _ (rel_column d hs _ Y C)) as (_ & _ & k & K). exists k. lia.
  - split; [apply (Cl _ (zl_column (tab e)))|]. destruct H as [(_ & -> & _)|(_ & -> & _)]; apply Ev; [apply zb_ten|apply zt_ten].
Qed.

Lemma joined_sym a b : joined es a b -> joined es b a.
Proof. intros [J|J]; [right|left]; assumption. Qed.
Lemma joined_spots a b : joined es a b -> exists X1 Y1 X2 Y2 o u, spot ns a X1 Y1 o /\ spot ns b X2 Y2 u.
Proof.
  intros [J|J].
  - destruct (straight_spots d hs g R a b J) as (X1 & Y1 & X2 & Y2 & o & u & A & B & _). eauto 10.
  - destruct (straight_spots d hs g R b a J) as (X1 & Y1 & X2 & Y2 & o & u & A & B & _). eauto 10.
Qed.

Lemma cost_h a b X1 X2 Y o u : spot ns a X1 Y o -> spot ns b X2 Y u -> 2 * Z.of_N (cost a b) = Z.abs (X1 - X2).
Proof.
  intros A B. unfold cost, ns. rewrite (spot_cost d hs GD g R a b _ _ _ _ _ _ A B (or_intror eq_refl)).
  destruct (spot_five a _ _ _ A) as ((k & ->) & _). destruct (spot_five b _ _ _ B) as ((k' & ->) & _).
  rewrite Z2N.id by (apply Z.div_pos; lia).
  replace (Z.abs (20 * k - 20 * k') + Z.abs (Y - Y)) with ((10 * Z.abs (k - k')) * 2) by lia. rewrite Z.div_mul; lia.
Qed.
Lemma cost_v a b X Y1 Y2 o u : spot ns a X Y1 o -> spot ns b X Y2 u -> Z.of_N (cost a b) = Z.abs (Y1 - Y2) / 2.
Proof.
  intros A B. unfold cost, ns. rewrite (spot_cost d hs GD g R a b _ _ _ _ _ _ A B (or_introl eq_refl)).
  rewrite Z2N.id by (apply Z.div_pos; lia). f_equal. lia.
Qed.
Lemma half_even Y1 Y2 : even Y1 -> even Y2 -> 2 * (Z.abs (Y1 - Y2) / 2) = Z.abs (Y1 - Y2).
Proof.
  intros (k & ->) (k' & ->). replace (Z.abs _) with ((5 * Z.abs (k - k')) * 2) by lia. rewrite Z.div_mul; lia.
Qed.
Lemma half_le x : 0 <= x -> x - 1 <= 2 * (x / 2) <= x.
Proof. intros L. pose proof (Z.div_mod x 2). pose proof (Z.mod_pos_bound x 2). lia. Qed.
Lemma cost_sym a b : joined es a b -> cost a b = cost b a.
Proof.
  intros J. destruct (joined_spots a b J) as (X1 & Y1 & X2 & Y2 & o & u & A & B).
  assert (E : X1 = X2 \/ Y1 = Y2) by (destruct (edge_straight d hs g R a b _ _ _ _ _ _ J A B); lia).
  unfold cost, ns. rewrite (spot_cost d hs GD g R a b _ _ _ _ _ _ A B E), (spot_cost d hs GD g R b a _ _ _ _ _ _ B A ltac:(lia)).
  do 2 f_equal. lia.
Qed.
Lemma edge_conn a b : joined es a b -> conn a b (Z.of_N (cost a b)).
Proof.
  intros J. pose proof (cost_sym a b J) as E.
  split; [exists [a; b]|exists [b; a]]; (split; [econstructor; [|constructor]|cbn [walk_cost]]); [exact J| |now apply joined_sym|]; fold ns cost; lia.
Qed.

(** ** Walks with their cost *)

Inductive steps : nat -> nat -> Z -> Prop :=
| steps_here a : steps a a 0
| steps_next a b c x : joined es a b -> steps b c x -> steps a c (Z.of_N (cost a b) + x).

Lemma steps_app a b c x y : steps a b x -> steps b c y -> steps a c (x + y).
Proof.
  intros A B. induction A as [a|a b' c' x J A IH]; [exact B|]. rewrite <- Z.add_assoc. constructor; auto.
Qed.
Lemma steps_sym a b x : steps a b x -> steps b a x.
Proof.
  intros A. induction A as [a|a b c x J A IH]; [constructor|].
  replace (Z.of_N (cost a b) + x) with (x + (Z.of_N (cost b a) + 0)) by (rewrite (cost_sym a b J); lia).
  eapply steps_app; [exact IH|]. constructor; [now apply joined_sym|constructor].
Qed.
Lemma steps_conn a b x : steps a b x -> conn a b x.
Proof.
  intros A. induction A as [a|a b c x J A IH]; [apply conn_refl|]. eapply conn_trans; [now apply edge_conn|exact IH].
Qed.
Lemma steps_pos a b x : steps a b x -> 0 <= x.
Proof. intros A. induction A; lia. Qed.

(** The nodes of the ports of an end. *)
Definition stop (p : anchor) (i : nat) : Prop :=
  exists o, In o (anchor_sides hs p) /\ spot ns i (side_x (tab p) o) (side_y hs p o) (Some o).

Definition better (p q : anchor) (w : Z) : Prop :=
  exists s t z, stop p s /\ stop q t /\ conn s t z /\ z < w.

Lemma better_sym p q w : better p q w -> better q p w.
Proof. intros (s & t & z & S & T & C & L). exists t, s, z. split; [exact T|]. split; [exact S|]. split; [now apply conn_sym|exact L]. Qed.
Lemma better_mid p q s t a c x y z w : stop p s -> stop q t -> steps a s x -> steps c t y -> conn a c z -> x + z + y < w ->
  better p q w.
Proof.
  intros S T A C Z L. exists s, t, (x + z + y). split; [exact S|]. split; [exact T|]. split; [|exact L].
  eapply conn_trans; [eapply conn_trans; [apply conn_sym, steps_conn, A|exact Z]|apply steps_conn, C].
Qed.
Lemma better_start p q s t c y z w : stop p s -> stop q t -> steps c t y -> conn s c z -> z + y < w -> better p q w.
Proof. intros S T C Z L. apply (better_mid p q s t s c 0 y z w S T (steps_here s) C Z); lia. Qed.

(** ** Ports of an end *)

Lemma side_corridor p K : end_at d hs p -> K = zl (tab p) - 80 \/ K = zl (tab p) + 680 ->
  exists i j, stop p i /\ spot ns j K (rowY hs p) None /\ conn i j 40.
Proof.
  intros E Ek. set (t := tab p) in *. assert (Rl : rel d hs (zl t) (rowY hs p)) by (exists p; auto). pose proof (zl_cases t) as Zt.
  pose proof (end_ok d hs p E) as Ko. destruct Ek as [-> | ->].
  - destruct (rel_left d hs g R _ _ Rl) as (i & I). destruct (rel_next_left d hs g R _ _ Rl) as (j & J).
    exists i, j. split; [exists Left; split; [apply sides_in; auto|exact I]|]. split; [exact J|]. apply conn_sym.
    eapply conn_le; [eapply (hline d hs GD g R 80%nat j i _ _ _ None (Some Left)); eauto; try lia|].
    + intros u Lu. pose proof (zl_cases u). lia.
    + intros c X w Sc B. exfalso. pose proof (spot_in_column d hs GD g R c X _ w t Sc ltac:(lia)). lia.
    + replace (zl t - (zl t - 80)) with (40 * 2) by lia. rewrite Z.div_mul; lia.
  - destruct (rel_right d hs g R _ _ Rl) as (i & I). destruct (rel_next_right d hs g R _ _ Rl) as (j & J).
    exists i, j. split; [exists Right; split; [apply sides_in; auto|exact I]|]. split; [exact J|].
    eapply conn_le; [eapply (hline d hs GD g R 80%nat i j _ _ _ (Some Right) None); eauto; try lia|].
    + intros u Lu. pose proof (zl_cases u). lia.
    + intros c X w Sc B. exfalso. pose proof (spot_in_column d hs GD g R c X _ w t Sc ltac:(lia)). lia.
    + replace (zl t + 680 - (zl t + 600)) with (40 * 2) by lia. rewrite Z.div_mul; lia.
Qed.

(** The vertical ports of an end. *)
Definition outlet (p : anchor) (Y : Z) (o : orientation) : Prop :=
  (low hs p /\ Y = zb hs (tab p) /\ o = Down) \/ (high p /\ Y = zt hs (tab p) /\ o = Up).

Lemma stop_column p i c Y o : end_at d hs p -> stop p i -> column c -> spot ns i (c + 300) Y o ->
  zl (tab p) = c /\ exists w, o = Some w /\ outlet p Y w.
Proof.
  intros E (w & I & Sp) C A. destruct (spot_place g i _ _ _ _ _ _ Sp A) as (EX & EY & EO).
  apply sides_in in I; [|exact (end_ok d hs p E)]. pose proof (zl_cases (tab p)) as Zt. subst o.
  destruct I as [-> | [-> | [[-> Ek] | [-> Ek]]]]; unfold side_x, side_y in *; [unfold column in C; lia|unfold column in C; lia| |];
    (split; [lia|eexists; split; [reflexivity|]]); [left|right]; auto.
Qed.
Lemma low_stop p : end_at d hs p -> low hs p -> exists i, stop p i /\ spot ns i (zl (tab p) + 300) (zb hs (tab p)) (Some Down).
Proof.
  intros E L. destruct (row_down d hs p E L) as (tp & Ep & O & H). destruct (rt_port d hs g R tp _ _ Ep H) as (i & _ & S). rewrite O in S.
  exists i. split; [|exact S]. exists Down. split; [apply sides_in; [exact (end_ok d hs p E)|auto]|exact S].
Qed.
Lemma high_stop p : end_at d hs p -> high p -> exists i, stop p i /\ spot ns i (zl (tab p) + 300) (zt hs (tab p)) (Some Up).
Proof.
  intros E L. destruct (row_up d hs p E L) as (tp & Ep & O & H). destruct (rt_port d hs g R tp _ _ Ep H) as (i & _ & S). rewrite O in S.
  exists i. split; [|exact S]. exists Up. split; [apply sides_in; [exact (end_ok d hs p E)|auto 6]|exact S].
Qed.
Lemma outlet_low p Y o : outlet p Y o -> low hs p.
Proof. intros [(L & _)|(H & _)]; [exact L|]. destruct p; [destruct H|exact I]. Qed.

(** Nodes next to a port are on its side of the table. *)
Lemma below_port u p b c Yb ob : column c -> (u < length hs)%nat -> zl u = c -> spot ns p (c + 300) (zb hs u) (Some Down) ->
  joined es b p -> spot ns b (c + 300) Yb ob -> zb hs u + 80 <= Yb.
Proof.
  intros C Lu Eu P J B. pose proof (table_bounds d hs GD u Lu) as Bu.
  destruct (edge_straight d hs g R b p _ _ _ _ _ _ J B P) as [(_ & Z)|[(_ & _ & _ & [Z|Z])|(_ & L & _)]]; try discriminate; [congruence|].
  destruct (column_spot d hs FD g R b c Yb ob C B) as [(_ & M)|(a & Ea & Za & H)].
  - pose proof (md_gap _ _ _ _ _ _ M u Lu Eu). lia.
  - pose proof (end_range d hs a Ea) as La. pose proof (table_bounds d hs GD (tab a) La) as Ba.
    destruct (col_apart hs u (tab a) ltac:(congruence)) as [Q|[Q|Q]]; [rewrite Q in *| |]; destruct H as [(_ & _ & H)|(_ & _ & H)]; lia.
Qed.
Lemma above_port u p b c Yb ob : column c -> (u < length hs)%nat -> zl u = c -> spot ns p (c + 300) (zt hs u) (Some Up) ->
  joined es b p -> spot ns b (c + 300) Yb ob -> Yb <= zt hs u - 80.
Proof.
  intros C Lu Eu P J B. pose proof (table_bounds d hs GD u Lu) as Bu.
  destruct (edge_straight d hs g R b p _ _ _ _ _ _ J B P) as [(_ & Z)|[(_ & L & _)|(_ & _ & _ & [Z|Z])]]; try discriminate; [congruence|].
  destruct (column_spot d hs FD g R b c Yb ob C B) as [(_ & M)|(a & Ea & Za & H)].
  - pose proof (md_gap _ _ _ _ _ _ M u Lu Eu). lia.
  - pose proof (end_range d hs a Ea) as La. pose proof (table_bounds d hs GD (tab a) La) as Ba.
    destruct (col_apart hs u (tab a) ltac:(congruence)) as [Q|[Q|Q]]; [rewrite Q in *| |]; destruct H as [(_ & _ & H)|(_ & _ & H)]; lia.
Qed.

(** ** Staying in a middle column *)

(** A walk inside the column at [c]. *)
Inductive inside (c : Z) : nat -> nat -> Prop :=
| inside_here a Y o : spot ns a (c + 300) Y o -> inside c a a
| inside_next a b e Y o : spot ns a (c + 300) Y o -> joined es a b -> inside c b e -> inside c a e.

Lemma run p a s x : steps a s x -> forall c Ya oa, column c -> spot ns a (c + 300) Ya oa -> stop p s -> end_at d hs p ->
  exists v Y1, Z.abs (Ya - Y1) <= 2 * v /\
  ((x = v /\ zl (tab p) = c /\ inside c a s /\ exists w, outlet p Y1 w /\ spot ns s (c + 300) Y1 (Some w) /\
    (Ya = Y1 \/ (w = Down /\ Z.abs (Ya - (Y1 + 80)) + 80 <= 2 * v) \/ (w = Up /\ Z.abs (Ya - (Y1 - 80)) + 80 <= 2 * v))) \/
   exists e h X x', mid e c Y1 /\ joined es e h /\ spot ns h X Y1 None /\ X <> c + 300 /\ steps h s x' /\
     2 * x = 2 * v + Z.abs (X - (c + 300)) + 2 * x').
Proof.
  intros W. induction W as [a|a b s x J W IH]; intros c Ya oa C A St Er.
  - destruct (stop_column p a c Ya oa Er St C A) as (E1 & w & -> & Ol). exists 0, Ya. split; [lia|]. left.
    split; [reflexivity|]. split; [exact E1|]. split; [econstructor; exact A|]. exists w. auto.
  - destruct (joined_spots a b J) as (X1 & Y1 & Xb & Yb & o1 & ob & A' & B).
    destruct (spot_place g a _ _ _ _ _ _ A' A) as (-> & -> & ->). clear A'.
    destruct (Z.eq_dec Xb (c + 300)) as [->|Ne].
    + destruct (IH c Yb ob C B St Er) as (v & Y1 & V & H). exists (Z.of_N (cost a b) + v), Y1.
      pose proof (cost_v a b _ _ _ _ _ A B) as Cv. pose proof (half_even Ya Yb (column_even d hs FD g R a c Ya oa C A) (column_even d hs FD g R b c Yb ob C B)) as He.
      split; [lia|]. destruct H as [(E1 & E2 & In & w & Ol & E5 & H)|(e & h & X & x' & M & Jh & Sh & Nx & W' & E)].
      * left. split; [lia|]. split; [exact E2|]. split; [econstructor; eauto|]. exists w. split; [exact Ol|]. split; [exact E5|]. right.
        pose proof (end_range d hs p Er) as Lt.
        destruct H as [H|[(Ew & H)|(Ew & H)]]; [|left; split; [exact Ew|lia]|right; split; [exact Ew|lia]]. subst Yb.
        destruct (spot_index d hs g R b s _ _ _ _ B E5) as [-> Eo]. destruct Ol as [(_ & EY & ->)|(_ & EY & ->)]; rewrite EY in *; [left|right]; (split; [reflexivity|]).
        -- pose proof (below_port (tab p) s a c Ya oa C Lt E2 E5 J A). lia.
        -- pose proof (above_port (tab p) s a c Ya oa C Lt E2 E5 J A). lia.
      * right. exists e, h, X, x'. split; [exact M|]. split; [exact Jh|]. split; [exact Sh|]. split; [exact Nx|]. split; [exact W'|]. lia.
    + exists 0, Ya. split; [lia|]. right.
      destruct (edge_straight d hs g R a b _ _ _ _ _ _ J A B) as [(E & _)|[(E & _)|(E & _)]]; [|congruence|congruence]. subst Yb.
      assert (oa = None) as ->.
      { assert (Bad : oa <> Some Down /\ oa <> Some Up).
        { destruct (Z.lt_trichotomy (c + 300) Xb) as [L|[L|L]]; [|congruence|].
          - destruct (edge_h d hs GD g R a b _ _ _ _ _ J A B L) as ([Z|Z] & _); subst oa; split; discriminate.
          - destruct (edge_h d hs GD g R b a _ _ _ _ _ (joined_sym _ _ J) B A L) as (_ & [Z|Z] & _); subst oa; split; discriminate. }
        destruct (column_spot d hs FD g R a c Ya oa C A) as [(Z & _)|(e & _ & _ & [(Z & _)|(Z & _)])]; [exact Z| |]; exfalso; tauto. }
      pose proof (spot_mid d hs FD g R a c Ya C A) as M.
      destruct (next_outside d hs FD g R a b c Ya Xb Ya ob M J B Ne) as (_ & -> & _).
      exists a, b, Xb, x. split; [exact M|]. split; [exact J|]. split; [exact B|]. split; [exact Ne|]. split; [exact W|].
      pose proof (cost_h a b _ _ _ _ _ A B). lia.
Qed.

(** Connections with doubled costs. *)
Lemma line_conn a b X1 X2 Y : ys hs Y -> spot ns a X1 Y None -> spot ns b X2 Y None -> exists z, conn a b z /\ 2 * z = Z.abs (X1 - X2).
Proof.
  intros Yy A B. exists (Z.abs (X1 - X2) / 2).
  assert (E : 2 * (Z.abs (X1 - X2) / 2) = Z.abs (X1 - X2)).
  { destruct (spot_five a _ _ _ A) as ((k & ->) & _). destruct (spot_five b _ _ _ B) as ((k' & ->) & _).
    replace (Z.abs _) with ((10 * Z.abs (k - k')) * 2) by lia. rewrite Z.div_mul; lia. }
  split; [|exact E]. destruct (Z.le_ge_cases X1 X2) as [L|L].
  - eapply conn_le; [eapply (even_line d hs FD g R a b X1 X2 Y); eauto|apply Z.div_le_mono; lia].
  - apply conn_sym. eapply conn_le; [eapply (even_line d hs FD g R b a X2 X1 Y); eauto|apply Z.div_le_mono; lia].
Qed.
Lemma corr_conn K a b Y Y' : corridor K -> spot ns a K Y None -> spot ns b K Y' None -> exists z, conn a b z /\ 2 * z <= Z.abs (Y - Y').
Proof.
  intros C A B. exists (Z.abs (Y - Y') / 2). split; [eapply corr_vline; eauto|]. apply half_le. lia.
Qed.
Lemma hub_conn e k c K Y Yo : mid e c Y -> (K = c - 80 \/ K = c + 680) -> spot ns k K Yo None -> ys hs Yo -> gap hs c Y Yo ->
  exists z, conn e k z /\ 2 * z <= 380 + Z.abs (Y - Yo).
Proof.
  intros M Ek A Yy G. exists (190 + Z.abs (Y - Yo) / 2). split; [eapply hub; eauto|]. pose proof (half_le (Z.abs (Y - Yo))). lia.
Qed.

Lemma gap_between c Y Y' Z : gap hs c Y Y' -> Y' <= Z <= Y -> gap hs c Y Z.
Proof. intros G L t Lt E. specialize (G t Lt E). lia. Qed.
Lemma unblocked s c Y : ~ (forall t, (t < length hs)%nat -> zl t = c -> zb hs t <= zb hs s \/ Y <= zt hs t - 80) -> (s < length hs)%nat -> zl s = c ->
  gap hs c Y Y -> exists T, (T < length hs)%nat /\ zl T = c /\ zb hs s + 160 <= zt hs T /\ zb hs T + 80 <= Y.
Proof.
  intros N Ls Es G. apply NNPP. intros X. apply N. intros t Lt Et.
  destruct (Z.le_gt_cases (zb hs t) (zb hs s)) as [L|L]; [now left|]. destruct (Z.le_gt_cases Y (zt hs t - 80)) as [L'|L']; [now right|].
  exfalso. apply X. exists t. split; [exact Lt|]. split; [exact Et|]. specialize (G t Lt Et).
  pose proof (table_bounds d hs GD t Lt). pose proof (table_bounds d hs GD s Ls).
  destruct (col_apart hs s t) as [E|[E|E]]; [congruence|subst; lia|lia|lia].
Qed.

(** From a port of the column to a corridor beside it. *)
Lemma leave_down p K : end_at d hs p -> low hs p -> K = zl (tab p) - 80 \/ K = zl (tab p) + 680 ->
  exists i j z, stop p i /\ spot ns j K (zb hs (tab p) + 80) None /\ conn i j z /\ 2 * z <= 460.
Proof.
  intros E Lo Ek. pose proof (end_range d hs p E) as Lt. set (t := tab p) in *. pose proof (table_bounds d hs GD t Lt) as Bt.
  destruct (low_stop p E Lo) as (i & Si & Sp). fold t in Sp.
  assert (Ln : line hs (zl t) (zb hs t + 80)) by (exists t; auto). pose proof (line_ys hs _ _ Ln) as Yy.
  assert (G : gap hs (zl t) (zb hs t + 80) (zb hs t + 80)).
  { intros u Lu Eu. pose proof (line_free d hs FD _ _ u Ln Lu Eu). lia. }
  destruct (mid_spot d hs g R (zl t) (zb hs t + 80) (zl_column t) Yy) as (e & Se); [exact (gap_clear hs _ _ _ (zl_column t) G)| |].
  { exists p. split; [exact E|]. split; [reflexivity|]. left. split; [exact Lo|]. fold t. lia. }
  pose proof (spot_mid d hs FD g R e (zl t) _ (zl_column t) Se) as M.
  destruct (corner_at d hs g R _ K _ Ln Ek) as (k & Sk).
  pose proof (port_line d hs FD g R i e (zl t) t _ (zl_column t) Sp Lt eq_refl M ltac:(lia)) as C1.
  destruct (line_conn e k _ _ _ Yy Se Sk) as (z & C2 & Ez).
  exists i, k, ((zb hs t + 80 - zb hs t) / 2 + z). split; [exact Si|]. split; [exact Sk|]. split.
  - eapply conn_trans; [apply C1|exact C2]. intros u Lu Eu. pose proof (line_free d hs FD _ _ u Ln Lu Eu). lia.
  - replace (zb hs t + 80 - zb hs t) with (40 * 2) by lia. rewrite Z.div_mul by lia. lia.
Qed.
Lemma leave_up p K : end_at d hs p -> high p -> K = zl (tab p) - 80 \/ K = zl (tab p) + 680 ->
  exists i j z, stop p i /\ spot ns j K (zt hs (tab p) - 80) None /\ conn i j z /\ 2 * z <= 460.
Proof.
  intros E Hi Ek. pose proof (end_range d hs p E) as Lt. set (t := tab p) in *. pose proof (table_bounds d hs GD t Lt) as Bt.
  destruct (high_stop p E Hi) as (i & Si & Sp). fold t in Sp.
  assert (Ln : line hs (zl t) (zt hs t - 80)) by (exists t; auto). pose proof (line_ys hs _ _ Ln) as Yy.
  assert (G : gap hs (zl t) (zt hs t - 80) (zt hs t - 80)).
  { intros u Lu Eu. pose proof (line_free d hs FD _ _ u Ln Lu Eu). lia. }
  destruct (mid_spot d hs g R (zl t) (zt hs t - 80) (zl_column t) Yy) as (e & Se); [exact (gap_clear hs _ _ _ (zl_column t) G)| |].
  { exists p. split; [exact E|]. split; [reflexivity|]. right. split; [exact Hi|]. fold t. lia. }
  pose proof (spot_mid d hs FD g R e (zl t) _ (zl_column t) Se) as M.
  destruct (corner_at d hs g R _ K _ Ln Ek) as (k & Sk).
  pose proof (up_line d hs FD g R i e (zl t) t _ (zl_column t) Sp Lt eq_refl M ltac:(lia)) as C1.
  destruct (line_conn e k _ _ _ Yy Se Sk) as (z & C2 & Ez).
  exists i, k, ((zt hs t - (zt hs t - 80)) / 2 + z). split; [exact Si|]. split; [exact Sk|]. split.
  - eapply conn_trans; [apply C1|exact C2]. intros u Lu Eu. pose proof (line_free d hs FD _ _ u Ln Lu Eu). lia.
  - replace (zt hs t - (zt hs t - 80)) with (40 * 2) by lia. rewrite Z.div_mul by lia. lia.
Qed.

(** ... and along it to a line above or below the table. *)
Lemma leave p Y0 w K Yo k : end_at d hs p -> outlet p Y0 w -> K = zl (tab p) - 80 \/ K = zl (tab p) + 680 -> spot ns k K Yo None ->
  (zb hs (tab p) + 80 <= Yo \/ Yo <= zt hs (tab p) - 80) ->
  exists i z, stop p i /\ conn i k z /\ 2 * z <= 380 + Z.abs (Y0 - Yo).
Proof.
  intros E Ol Ek Sk B. pose proof (end_range d hs p E) as Lt. pose proof (table_bounds d hs GD (tab p) Lt) as Bt.
  pose proof (column_corridor _ K (zl_column (tab p)) Ek) as Co.
  destruct B as [B|B].
  - destruct (leave_down p K E (outlet_low p Y0 w Ol) Ek) as (i & j & z & Si & Sj & C1 & E1).
    destruct (corr_conn K j k _ _ Co Sj Sk) as (z' & C2 & E2). exists i, (z + z'). split; [exact Si|]. split; [exact (conn_trans g _ _ _ _ _ C1 C2)|].
    destruct Ol as [(_ & -> & _)|(_ & -> & _)]; lia.
  - destruct Ol as [(_ & -> & _)|(Hi & -> & _)].
    + destruct p as [t r|t].
      * destruct (side_corridor _ K E Ek) as (i & j & Si & Sj & C1). destruct (corr_conn K j k _ _ Co Sj Sk) as (z' & C2 & E2).
        exists i, (40 + z'). split; [exact Si|]. split; [exact (conn_trans g _ _ _ _ _ C1 C2)|].
        pose proof (row_inside d hs FD _ E). lia.
      * destruct (leave_up (table_end t) K E I Ek) as (i & j & z & Si & Sj & C1 & E1).
        destruct (corr_conn K j k _ _ Co Sj Sk) as (z' & C2 & E2). exists i, (z + z'). split; [exact Si|]. split; [exact (conn_trans g _ _ _ _ _ C1 C2)|]. lia.
    + destruct (leave_up p K E Hi Ek) as (i & j & z & Si & Sj & C1 & E1).
      destruct (corr_conn K j k _ _ Co Sj Sk) as (z' & C2 & E2). exists i, (z + z'). split; [exact Si|]. split; [exact (conn_trans g _ _ _ _ _ C1 C2)|]. lia.
Qed.


Section Ends.
Variables p q : anchor.
Hypothesis Es : end_at d hs p.
Hypothesis Et : end_at d hs q.
Variables s t : nat.
Hypothesis Ss : stop p s.
Hypothesis St : stop q t.

(** Leaving the column through the corridor beside it. *)
Lemma mid_adjacent c e1 h1 X1 Y1 x e2 Y2 y V w : mid e1 c Y1 -> joined es e1 h1 -> spot ns h1 X1 Y1 None -> X1 = c - 80 \/ X1 = c + 680 ->
  steps h1 s x -> mid e2 c Y2 -> steps e2 t y -> Z.abs (Y1 - Y2) + 20 <= 2 * V -> 2 * w = 2 * x + 380 + 2 * V + 2 * y -> better p q w.
Proof.
  intros M1 J1 H1 Ex W1 M2 W2 L E.
  pose proof (beside d hs FD g R h1 e1 e2 c X1 Y1 Y2 M1 M2 Ex H1 (joined_sym _ _ J1)) as C.
  pose proof (half_le (Z.abs (Y1 - Y2)) ltac:(lia)). apply (better_mid p q s t h1 e2 x y _ w Ss St W1 W2 C). lia.
Qed.

Lemma mid_far c e1 h1 X1 Y1 x e2 h2 X2 Y2 y V w : mid e1 c Y1 -> joined es e1 h1 -> spot ns h1 X1 Y1 None -> X1 <> c + 300 ->
  mid e2 c Y2 -> joined es e2 h2 -> spot ns h2 X2 Y2 None -> X2 <> c + 300 -> steps h1 s x -> steps h2 t y ->
  X1 <> c - 80 -> X1 <> c + 680 -> X2 <> c - 80 -> X2 <> c + 680 ->
  Z.abs (Y1 - Y2) + 20 <= 2 * V -> 2 * w = 2 * x + Z.abs (X1 - (c + 300)) + 2 * V + Z.abs (X2 - (c + 300)) + 2 * y -> better p q w.
Proof.
  intros M1 J1 H1 N1 M2 J2 H2 N2 W1 W2 A1 A2 B1 B2 L E.
  assert (O : c = 860 \/ exists c', outer c c').
  { destruct (md_col _ _ _ _ _ _ M1) as [-> | [-> | ->]]; [right; exists 1620; left; auto|now left|right; exists 100; right; auto]. }
  destruct O as [-> |(c' & O)].
  - destruct (far_middle d hs FD g R e1 h1 Y1 X1 None M1 J1 H1 N1 A1 A2) as (_ & _ & F1).
    destruct (far_middle d hs FD g R e2 h2 Y2 X2 None M2 J2 H2 N2 B1 B2) as (_ & _ & F2).
    assert (G : gap hs 860 Y1 Y2) by (intros u Lu Eu; left; auto).
    pose proof (mid_line d hs FD g R e1 e2 860 Y1 Y2 M1 M2 G) as C. pose proof (half_le (Z.abs (Y1 - Y2)) ltac:(lia)).
    apply (better_mid p q s t e1 e2 _ _ _ w Ss St (steps_next _ _ _ _ J1 W1) (steps_next _ _ _ _ J2 W2) C).
    pose proof (cost_h e1 h1 _ _ _ _ _ (md_spot _ _ _ _ _ _ M1) H1). pose proof (cost_h e2 h2 _ _ _ _ _ (md_spot _ _ _ _ _ _ M2) H2). lia.
  - destruct (far_outer d hs FD g R e1 h1 c c' Y1 X1 None O M1 J1 H1 N1 A1 A2) as (_ & _ & _ & L1 & K1).
    destruct (far_outer d hs FD g R e2 h2 c c' Y2 X2 None O M2 J2 H2 N2 B1 B2) as (_ & _ & _ & L2 & K2).
    set (K := if c =? 100 then 1540 else 780).
    assert (Ek : K = c' - 80 \/ K = c' + 680) by (destruct O as [[-> ->]|[-> ->]]; [left|right]; reflexivity).
    destruct (corner_at d hs g R c' K Y1 L1 Ek) as (k1 & S1). destruct (corner_at d hs g R c' K Y2 L2 Ek) as (k2 & S2).
    destruct (line_conn h1 k1 X1 K Y1 (md_ys _ _ _ _ _ _ M1) H1 S1) as (z1 & C1 & E1).
    destruct (line_conn k2 h2 K X2 Y2 (md_ys _ _ _ _ _ _ M2) S2 H2) as (z2 & C2 & E2).
    assert (Co : corridor K) by (unfold K; destruct (c =? 100); unfold corridor; auto).
    destruct (corr_conn K k1 k2 Y1 Y2 Co S1 S2) as (z3 & C3 & E3).
    apply (better_mid p q s t h1 h2 x y _ w Ss St W1 W2 (conn_trans g _ _ _ _ _ C1 (conn_trans g _ _ _ _ _ C3 C2))).
    clear - O K1 K2 E1 E2 E3 L E. destruct O as [[-> ->]|[-> ->]]; [change (100 =? 100) with true in *|change (1620 =? 100) with false in *]; cbn iota in *; unfold K in *; lia.
Qed.

(** From a port of the column out of it. *)
Lemma mid_port_adjacent c Y0 w0 e2 h2 X2 Y2 y V w : outlet p Y0 w0 -> zl (tab p) = c -> mid e2 c Y2 -> spot ns h2 X2 Y2 None ->
  X2 = c - 80 \/ X2 = c + 680 -> steps h2 t y -> Z.abs (Y0 - Y2) + 20 <= 2 * V -> 2 * w = 2 * V + 380 + 2 * y -> better p q w.
Proof.
  intros Ol Ec M2 H2 Ex W2 L E. subst c. pose proof (end_range d hs p Es) as Lt.
  destruct (leave p Y0 w0 X2 Y2 h2 Es Ol Ex H2) as (i & z & Si & C1 & Lz); [pose proof (md_gap _ _ _ _ _ _ M2 _ Lt eq_refl); lia|].
  apply (better_start p q i t h2 y z w Si St W2 C1). lia.
Qed.

Lemma mid_port_straight c Y0 w0 e2 Y2 y V w : outlet p Y0 w0 -> zl (tab p) = c -> mid e2 c Y2 -> steps e2 t y -> zb hs (tab p) < Y2 ->
  (forall u, (u < length hs)%nat -> zl u = c -> zb hs u <= zb hs (tab p) \/ Y2 <= zt hs u - 80) ->
  Z.abs (Y0 - Y2) + 20 <= 2 * V -> 2 * w = 2 * V + 2 * y -> better p q w.
Proof.
  intros Ol Ec M2 W2 Ly B L E. pose proof (end_range d hs p Es) as Lt. pose proof (table_bounds d hs GD (tab p) Lt) as Bt.
  destruct (low_stop p Es (outlet_low p Y0 w0 Ol)) as (i & Si & Sp). rewrite Ec in Sp.
  pose proof (port_line d hs FD g R i e2 c (tab p) Y2 (md_col _ _ _ _ _ _ M2) Sp Lt Ec M2 Ly B) as C.
  pose proof (half_le (Y2 - zb hs (tab p)) ltac:(lia)). apply (better_start p q i t e2 y _ w Si St W2 C).
  destruct Ol as [(_ & -> & _)|(_ & -> & _)]; lia.
Qed.

(** Over a corridor to a node in the next column. *)
Lemma mid_port_hub c Y0 w0 K h2 c2 Y2 Yo y w : outlet p Y0 w0 -> zl (tab p) = c -> mid h2 c2 Y2 -> steps h2 t y ->
  K = c - 80 \/ K = c + 680 -> K = c2 - 80 \/ K = c2 + 680 -> line hs c Yo \/ line hs c2 Yo -> zb hs (tab p) + 80 <= Yo -> Yo <= Y2 ->
  gap hs c2 Y2 Yo -> 760 + Z.abs (Y0 - Y2) + 2 * y < 2 * w -> better p q w.
Proof.
  intros Ol Ec M2 W2 K1 K2 Ln L1 L2 G E. subst c. pose proof (end_range d hs p Es) as Lt. pose proof (table_bounds d hs GD (tab p) Lt) as Bt.
  assert (Sk : exists k, spot ns k K Yo None).
  { destruct Ln as [Ln|Ln]; [exact (corner_at d hs g R _ K Yo Ln K1)|exact (corner_at d hs g R _ K Yo Ln K2)]. }
  assert (Yy : ys hs Yo) by (destruct Ln as [Ln|Ln]; exact (line_ys hs _ _ Ln)).
  destruct Sk as (k & Sk). destruct (leave p Y0 w0 K Yo k Es Ol K1 Sk ltac:(lia)) as (i & z & Si & C1 & Lz).
  destruct (hub_conn h2 k c2 K Y2 Yo M2 K2 Sk Yy G) as (z' & C3 & Lz').
  apply (better_start p q i t h2 y _ w Si St W2 (conn_trans g _ _ _ _ _ C1 (conn_sym g _ _ _ C3))).
  destruct Ol as [(_ & -> & _)|(_ & -> & _)]; lia.
Qed.

(** Across the middle column along the line [Yo]. *)
Lemma mid_port_across c c' Y0 w0 h2 X2 Y2 Yo y w : outer c c' -> outlet p Y0 w0 -> zl (tab p) = c -> spot ns h2 X2 Y2 None -> steps h2 t y ->
  line hs 860 Yo -> line hs c' Y2 -> (zb hs (tab p) + 80 <= Yo \/ Yo <= zt hs (tab p) - 80) ->
  380 + Z.abs (Y0 - Yo) + 760 + Z.abs (Yo - Y2) + Z.abs (X2 - (if c =? 100 then 1540 else 780)) + 2 * y < 2 * w -> better p q w.
Proof.
  intros O Ol Ec H2 W2 Ln Ln' Out E. set (K := if c =? 100 then 780 else 1540). set (K2 := if c =? 100 then 1540 else 780) in *.
  assert (Ek : K = zl (tab p) - 80 \/ K = zl (tab p) + 680) by (rewrite Ec; destruct O as [[-> ->]|[-> ->]]; [right|left]; reflexivity).
  assert (Em : K = 860 - 80 \/ K = 860 + 680) by (destruct O as [[-> ->]|[-> ->]]; [left|right]; reflexivity).
  assert (Em2 : K2 = 860 - 80 \/ K2 = 860 + 680) by (destruct O as [[-> ->]|[-> ->]]; [right|left]; reflexivity).
  assert (Ec2 : K2 = c' - 80 \/ K2 = c' + 680) by (destruct O as [[-> ->]|[-> ->]]; [left|right]; reflexivity).
  assert (Ek2 : Z.abs (K - K2) = 760) by (destruct O as [[-> ->]|[-> ->]]; reflexivity).
  destruct (corner_at d hs g R _ K Yo Ln Em) as (k & Sk). destruct (corner_at d hs g R _ K2 Yo Ln Em2) as (k2 & Sk2).
  destruct (corner_at d hs g R _ K2 Y2 Ln' Ec2) as (k3 & Sk3).
  destruct (leave p Y0 w0 K Yo k Es Ol Ek Sk Out) as (i & z1 & Si & C2 & E1).
  destruct (line_conn k k2 K K2 Yo (line_ys hs _ _ Ln) Sk Sk2) as (z2 & C3 & E2).
  destruct (corr_conn K2 k2 k3 _ _ (column_corridor 860 K2 ltac:(unfold column; auto) Em2) Sk2 Sk3) as (z3 & C4 & E3).
  destruct (line_conn k3 h2 K2 X2 Y2 (line_ys hs _ _ Ln') Sk3 H2) as (z4 & C5 & E4).
  apply (better_start p q i t h2 y _ w Si St W2 (conn_trans g _ _ _ _ _ C2 (conn_trans g _ _ _ _ _ C3 (conn_trans g _ _ _ _ _ C4 C5)))).
  clearbody K K2. clear - E E1 E2 E3 E4 Ek2. lia.
Qed.

Lemma mid_port_out c Y0 w0 e2 h2 X2 Y2 y V w : outlet p Y0 w0 -> zl (tab p) = c ->
  mid e2 c Y2 -> joined es e2 h2 -> spot ns h2 X2 Y2 None -> X2 <> c + 300 -> steps h2 t y ->
  Z.abs (Y0 - Y2) + 20 <= 2 * V -> 2 * w = 2 * V + Z.abs (X2 - (c + 300)) + 2 * y -> better p q w.
Proof.
  intros Ol Ec M2 J2 H2 N2 W2 L E. pose proof (end_range d hs p Es) as Lt. pose proof (table_bounds d hs GD (tab p) Lt) as Bt.
  assert (B0 : zt hs (tab p) <= Y0 <= zb hs (tab p)) by (clear - Ol Bt; destruct Ol as [(_ & -> & _)|(_ & -> & _)]; lia).
  destruct (classic (X2 = c - 80 \/ X2 = c + 680)) as [Ad|NA].
  { apply (mid_port_adjacent c Y0 w0 e2 h2 X2 Y2 y V w); auto. lia. }
  assert (B1 : X2 <> c - 80) by tauto. assert (B2 : X2 <> c + 680) by tauto.
  assert (St' : zb hs (tab p) < Y2 -> (forall u, (u < length hs)%nat -> zl u = c -> zb hs u <= zb hs (tab p) \/ Y2 <= zt hs u - 80) -> better p q w).
  { intros Ly B. pose proof (cost_h e2 h2 _ _ _ _ _ (md_spot _ _ _ _ _ _ M2) H2) as Ch.
    apply (mid_port_straight c Y0 w0 e2 Y2 (Z.of_N (cost e2 h2) + y) V w Ol Ec M2 (steps_next _ _ _ _ J2 W2) Ly B L). lia. }
  assert (O : c = 860 \/ exists c', outer c c').
  { destruct (md_col _ _ _ _ _ _ M2) as [Q|[Q|Q]]; [right; exists 1620; left; auto|now left|right; exists 100; right; auto]. }
  destruct O as [Q|(c' & O)].
  - rewrite Q in *. clear Q. destruct (far_middle d hs FD g R e2 h2 Y2 X2 None M2 J2 H2 N2 B1 B2) as (_ & Ex & F2).
    pose proof (F2 (tab p) Lt Ec) as Fs.
    destruct (classic (forall u, (u < length hs)%nat -> zl u = 860 -> zb hs u <= zb hs (tab p) \/ Y2 <= zt hs u - 80)) as [B|B]; [apply St'; [lia|exact B]|].
    destruct (unblocked (tab p) 860 Y2 B Lt Ec (md_gap _ _ _ _ _ _ M2)) as (T & LT & ET & BT & BT').
    assert (X : exists c2 K, X2 = c2 + 300 /\ (c2 = 100 \/ c2 = 1620) /\ (K = 860 - 80 \/ K = 860 + 680) /\ (K = c2 - 80 \/ K = c2 + 680)).
    { destruct Ex as [-> | ->]; [exists 100, 780|exists 1620, 1540]; repeat split; auto; lia. }
    destruct X as (c2 & K & Ex2 & Cc2 & K1 & K2). assert (M3 : mid h2 c2 Y2) by (apply (spot_mid d hs FD g R); [unfold column; tauto|now rewrite <- Ex2]).
    pose proof (table_bounds d hs GD T LT) as BB.
    (* a table of that column in the row of [p] *)
    assert (Up' : exists s', (s' < length hs)%nat /\ zl s' = c2 /\ zb hs s' <= Y2).
    { set (r := (tab p / 3)%nat). destruct (row_zl r) as (Z0 & Z1 & Z2). destruct (row_div r) as (D0 & D1 & D2).
      assert (Lr : (tab p < T)%nat).
      { destruct (Nat.lt_trichotomy (tab p) T) as [Q|[Q|Q]]; [exact Q|rewrite Q in *; lia|pose proof (col_order hs T (tab p) LT Lt ltac:(congruence) Q); lia]. }
      assert (Lr' : (3 * r + 2 < T)%nat).
      { pose proof (idx_mid (tab p) Ec) as I1. pose proof (idx_mid T ET) as I2. fold r in I1. clear - I1 I2 Lr. lia. }
      assert (Ez : forall u, (u / 3)%nat = r -> zt hs u = zt hs (tab p)) by (intros u Eu; apply zt_same; exact Eu).
      destruct Cc2 as [-> | ->]; [exists (3 * r)%nat|exists (3 * r + 2)%nat]; (split; [lia|]); (split; [assumption|]);
        match goal with |- zb hs ?u <= _ => pose proof (md_gap _ _ _ _ _ _ M3 u ltac:(lia) ltac:(assumption)) as Gu; rewrite (Ez u ltac:(assumption)) in Gu end;
        clear - Gu Fs Bt; lia. }
    destruct (nearest_above d hs FD c2 Y2 (md_gap _ _ _ _ _ _ M3) Up') as (T' & LT' & ET' & BT2 & GT & _).
    assert (Ax : Z.abs (X2 - (860 + 300)) = 760) by (destruct Ex as [-> | ->]; reflexivity).
    apply (mid_port_hub 860 Y0 w0 K h2 c2 Y2 (Z.max (zt hs T - 80) (zb hs T' + 80)) y w); auto.
    + destruct (Z.max_spec (zt hs T - 80) (zb hs T' + 80)) as [[_ ->]|[_ ->]]; [right; exists T'; auto|left; exists T; auto].
    + lia.
    + lia.
    + apply (gap_between c2 Y2 (zb hs T' + 80)); [exact GT|lia].
    + clear - Ax L E. lia.
  - destruct (far_outer d hs FD g R e2 h2 c c' Y2 X2 None O M2 J2 H2 N2 B1 B2) as (_ & Nl & _ & Ln & Kx).
    assert (Ax : X2 <> 1160 -> Z.abs (X2 - (c + 300)) = Z.abs (X2 - (if c =? 100 then 1540 else 780)) + 1140).
    { intros N. clear - O Kx N. destruct O as [[-> ->]|[-> ->]]; [change (100 =? 100) with true in *|change (1620 =? 100) with false in *]; cbn iota in *; lia. }
    pose proof (md_gap _ _ _ _ _ _ M2 (tab p) Lt Ec) as Gs.
    destruct (Z.lt_ge_cases (zb hs (tab p)) Y2) as [Ly|Ly].
    + destruct (classic (forall u, (u < length hs)%nat -> zl u = c -> zb hs u <= zb hs (tab p) \/ Y2 <= zt hs u - 80)) as [B|B]; [now apply St'|].
      destruct (unblocked (tab p) c Y2 B Lt Ec (md_gap _ _ _ _ _ _ M2)) as (T & LT & ET & BT & BT').
      pose proof (table_bounds d hs GD T LT) as BB.
      destruct (full_row d hs FD c c' T Y2 O LT ET BT' Ln) as (L1 & L2 & t1 & Lt1 & Et1 & Zt1). pose proof (table_bounds d hs GD t1 Lt1) as B1'.
      destruct (Z.eq_dec X2 1160) as [Ex|Nx].
      * assert (M3 : mid h2 860 Y2) by (apply (spot_mid d hs FD g R); [unfold column; auto|change (860 + 300) with 1160; rewrite <- Ex; exact H2]).
        pose proof (md_gap _ _ _ _ _ _ M3 t1 Lt1 Et1) as G1.
        assert (Bt1 : zb hs t1 <= Y2) by (clear - G1 BT BT' Zt1 BB B1'; lia).
        destruct (nearest_above d hs FD 860 Y2 (md_gap _ _ _ _ _ _ M3)) as (T' & LT' & ET' & BT2 & GT & Max); [eauto|].
        pose proof (Max t1 Lt1 Et1 Bt1) as Mt.
        apply (mid_port_hub c Y0 w0 (if c =? 100 then 780 else 1540) h2 860 Y2 (zb hs T' + 80) y w); auto.
        -- destruct O as [[-> ->]|[-> ->]]; [right|left]; reflexivity.
        -- destruct O as [[-> ->]|[-> ->]]; [left|right]; reflexivity.
        -- right. exists T'. auto.
        -- clear - Mt Zt1 B1' BT. lia.
        -- assert (Ax' : Z.abs (X2 - (c + 300)) = 760) by (rewrite Ex; destruct O as [[-> ->]|[-> ->]]; reflexivity). clear - L E Ly Ax'. lia.
      * specialize (Ax Nx). apply (mid_port_across c c' Y0 w0 h2 X2 Y2 (zt hs T - 80) y w); auto; [left; clear - BT; lia|]. clear - Ax L E Ly BT BT' BB B0. lia.
    + assert (Gs' : Y2 <= zt hs (tab p) - 80) by (clear - Gs Ly; lia).
      destruct (middle_reaches d hs FD g e2 c c' Y2 (tab p) O M2 Nl Ln Lt Ec Gs') as (T & LT & ET & BT & BT2 & BT3).
      assert (Nx : X2 <> 1160).
      { intros Ex. assert (M3 : mid h2 860 Y2) by (apply (spot_mid d hs FD g R); [unfold column; auto|change (860 + 300) with 1160; rewrite <- Ex; exact H2]).
        pose proof (md_gap _ _ _ _ _ _ M3 T LT ET) as G1. clear - G1 BT BT2. lia. }
      specialize (Ax Nx). apply (mid_port_across c c' Y0 w0 h2 X2 Y2 (zb hs T + 80) y w); auto; [exists T; auto|]. clear - Ax L E Ly BT2 BT3 Bt B0. lia.
Qed.
End Ends.

(** Between two ports below tables of one column. *)
Lemma row_last t k : S k = nth t hs 0%nat -> rowY hs (row_end t k) = zb hs t - 35.
Proof. intros E. cbn [rowY]. rewrite zb_rows, <- E. lia. Qed.
Lemma rows_port_port ts ks tt kt w : end_at d hs (row_end ts ks) -> end_at d hs (row_end tt kt) ->
  S ks = nth ts hs 0%nat -> S kt = nth tt hs 0%nat -> zl ts = zl tt -> zb hs ts < zb hs tt ->
  zb hs tt - zb hs ts + 160 <= 2 * w -> better (row_end ts ks) (row_end tt kt) w.
Proof.
  intros Es Et Ls Lt Ec L E. pose proof (end_range d hs _ Es) as Ls'. pose proof (end_range d hs _ Et) as Lt'. cbn [tab] in *.
  assert (B : zb hs ts + 160 <= zt hs tt).
  { pose proof (table_bounds d hs GD ts Ls'). pose proof (table_bounds d hs GD tt Lt'). destruct (col_apart hs ts tt Ec) as [Q|[Q|Q]]; [subst; lia|exact Q|lia]. }
  pose proof (table_bounds d hs GD tt Lt') as Bt.
  destruct (side_corridor _ (zl ts - 80) Es (or_introl eq_refl)) as (i & j & Si & Sj & C1).
  destruct (side_corridor _ (zl ts - 80) Et ltac:(cbn [tab]; rewrite Ec; now left)) as (i' & j' & Si' & Sj' & C2).
  destruct (corner_at d hs g R (zl ts) (zl ts - 80) (zb hs ts + 80)) as (k & Sk); [exists ts; auto|now left|].
  pose proof (column_corridor _ (zl ts - 80) (zl_column ts) (or_introl eq_refl)) as Co.
  pose proof (corr_vline d hs FD g R _ _ _ _ _ _ _ Co Sj Sk) as C3. pose proof (corr_vline d hs FD g R _ _ _ _ _ _ _ Co Sk Sj') as C4.
  rewrite (row_last ts ks Ls) in C3. rewrite (row_last tt kt Lt) in C4.
  exists i, i', (40 + (Z.abs (zb hs ts - 35 - (zb hs ts + 80)) / 2 + (Z.abs (zb hs ts + 80 - (zb hs tt - 35)) / 2 + 40))).
  split; [exact Si|]. split; [exact Si'|]. split.
  - eapply conn_trans; [exact C1|]. eapply conn_trans; [exact C3|]. eapply conn_trans; [exact C4|]. now apply conn_sym.
  - replace (Z.abs (zb hs ts - 35 - (zb hs ts + 80))) with 115 by lia. change (115 / 2) with 57.
    destruct (zb_ten hs ts) as (a & Ea). destruct (zb_ten hs tt) as (b & Eb). rewrite Ea, Eb in *.
    replace (Z.abs (10 * a + 80 - (10 * b - 35))) with ((5 * b - 5 * a - 58) * 2 + 1) by lia.
    rewrite Z.div_add_l by lia. change (1 / 2) with 0. lia.
Qed.

(** ** Turning in a column *)


Definition beyond (x y z : Z) : Prop := (x < y /\ z < y) \/ (y < x /\ y < z).

Lemma inside_spot c a b : inside c a b -> exists Y o, spot ns a (c + 300) Y o.
Proof. intros [x Y o A|x y e Y o A _ _]; eauto. Qed.
Lemma inside_app c a b e : inside c a b -> inside c b e -> inside c a e.
Proof. intros A B. induction A as [a Y o A|a b' e' Y o A J I IH]; [exact B|]. econstructor; eauto. Qed.
Lemma inside_sym c a b : inside c a b -> inside c b a.
Proof.
  intros A. induction A as [a Y o A|a b e Y o A J I IH]; [econstructor; exact A|].
  destruct (inside_spot c b e I) as (Yb & ob & B). eapply inside_app; [exact IH|]. econstructor; [exact B|exact (joined_sym _ _ J)|]. econstructor; exact A.
Qed.

(** Ends for which a walk between their vertical ports, with a turn, is not the cheapest. *)
Definition fair (p q : anchor) : Prop := forall c s t Y1 w1 Y2 w2 w, column c -> inside c s t ->
  spot ns s (c + 300) Y1 (Some w1) -> spot ns t (c + 300) Y2 (Some w2) -> outlet p Y1 w1 -> outlet q Y2 w2 ->
  zl (tab p) = c -> zl (tab q) = c -> Z.abs (Y1 - Y2) + 20 <= 2 * w ->
  (w1 = Down -> w2 = Down -> tab p <> tab q -> Z.abs (Y1 - Y2) + 160 <= 2 * w) -> better p q w.

Lemma fair_rows p q : end_at d hs p -> end_at d hs q -> ~ high p -> ~ high q -> p <> q -> fair p q.
Proof.
  intros Ep Eq Np Nq Ne c s t Y1 w1 Y2 w2 w C _ _ _ O1 O2 Z1 Z2 _ V.
  destruct O1 as [(K1 & E1 & F1)|(K1 & _)]; [|contradiction]. destruct O2 as [(K2 & E2 & F2)|(K2 & _)]; [|contradiction].
  destruct p as [ts ks|ts]; [|exfalso; apply Np; exact I]. destruct q as [tt kt|tt]; [|exfalso; apply Nq; exact I]. cbn [low tab] in *.
  assert (Nt : ts <> tt) by (intros Q; apply Ne; subst tt; f_equal; lia). specialize (V F1 F2 Nt).
  pose proof (end_range d hs _ Ep) as Ls. pose proof (end_range d hs _ Eq) as Lt. cbn [tab] in *.
  pose proof (table_bounds d hs GD ts Ls) as Bs. pose proof (table_bounds d hs GD tt Lt) as Bt.
  destruct (col_apart hs ts tt) as [Q|[Q|Q]]; [congruence|contradiction| |].
  - apply rows_port_port; auto; [congruence|lia|lia].
  - apply better_sym. apply rows_port_port; auto; [congruence|lia|lia].
Qed.

Lemma turn_mid p q s t a b c c0 Ya Yb Yc oa ob oc x y w :
  end_at d hs p -> end_at d hs q -> fair p q -> stop p s -> stop q t ->
  column c0 -> spot ns a (c0 + 300) Ya oa -> spot ns b (c0 + 300) Yb ob -> spot ns c (c0 + 300) Yc oc ->
  joined es a b -> joined es b c -> beyond Ya Yb Yc -> steps a s x -> steps c t y ->
  w = x + Z.of_N (cost a b) + Z.of_N (cost b c) + y -> better p q w.
Proof.
  intros Es Et Fr Ss St C A B D J1 J2 Bd W1 W2 E.
  pose proof (cost_v a b _ _ _ _ _ A B) as E1. pose proof (cost_v b c _ _ _ _ _ B D) as E2.
  pose proof (column_even d hs FD g R a c0 Ya oa C A) as Ev1. pose proof (column_even d hs FD g R b c0 Yb ob C B) as Ev2. pose proof (column_even d hs FD g R c c0 Yc oc C D) as Ev3.
  pose proof (half_even Ya Yb Ev1 Ev2) as H1. pose proof (half_even Yb Yc Ev2 Ev3) as H2. rewrite <- E1 in H1. rewrite <- E2 in H2.
  assert (Far : 10 <= Z.abs (Ya - Yb) /\ 10 <= Z.abs (Yb - Yc)).
  { destruct Ev1 as (? & ->), Ev2 as (? & ->), Ev3 as (? & ->). clear - Bd. unfold beyond in Bd. lia. }
  destruct (run p a s x W1 c0 Ya oa C A Ss Es) as (v1 & Y1 & V1 & Q1). destruct (run q c t y W2 c0 Yc oc C D St Et) as (v2 & Y2 & V2 & Q2).
  assert (V : Z.abs (Y1 - Y2) + 20 <= 2 * (v1 + Z.of_N (cost a b) + Z.of_N (cost b c) + v2)).
  { clear - V1 V2 H1 H2 Far Bd. unfold beyond in Bd. lia. }
  assert (V' : Z.abs (Y2 - Y1) + 20 <= 2 * (v1 + Z.of_N (cost a b) + Z.of_N (cost b c) + v2)) by (clear - V; lia).
  destruct Q1 as [(Ex & Z1 & I1 & w1 & O1 & P1 & Ar1)|(e1 & h1 & X1 & x' & M1 & Jh1 & Sh1 & N1 & Wh1 & Ex)];
  destruct Q2 as [(Ey & Z2 & I2 & w2 & O2 & P2 & Ar2)|(e2 & h2 & X2 & y' & M2 & Jh2 & Sh2 & N2 & Wh2 & Ey)].
  - apply (Fr c0 s t Y1 w1 Y2 w2 w); auto.
    + apply inside_sym in I1. eapply inside_app; [exact I1|]. econstructor; [exact A|exact J1|]. econstructor; [exact B|exact J2|exact I2].
    + clear - V E Ex Ey. lia.
    + intros -> -> Nt. pose proof (end_range d hs p Es) as Ls. pose proof (end_range d hs q Et) as Lt.
      assert (EY1 : Y1 = zb hs (tab p)) by (destruct O1 as [(_ & Q & _)|(_ & _ & Q)]; [exact Q|discriminate]).
      assert (EY2 : Y2 = zb hs (tab q)) by (destruct O2 as [(_ & Q & _)|(_ & _ & Q)]; [exact Q|discriminate]).
      pose proof (table_bounds d hs GD (tab p) Ls) as Bs. pose proof (table_bounds d hs GD (tab q) Lt) as Bt.
      destruct (col_apart hs (tab p) (tab q)) as [Q|[Q|Q]]; [congruence|contradiction| |].
      * destruct Ar2 as [Ar|[(_ & Ar)|(Q' & _)]]; [|clear - E Ex Ey H1 H2 V1 Ar Q Bt EY1 EY2; lia|discriminate].
        rewrite Ar in D. destruct (spot_index d hs g R c t _ _ _ _ D P2) as [-> ->]. rewrite EY2 in P2.
        pose proof (below_port (tab q) t b c0 Yb ob C Lt Z2 P2 J2 B) as Bl. clear - E Ex Ey H1 H2 V1 V2 Bl Ar Q Bt EY1 EY2. lia.
      * destruct Ar1 as [Ar|[(_ & Ar)|(Q' & _)]]; [|clear - E Ex Ey H1 H2 V2 Ar Q Bs EY1 EY2; lia|discriminate].
        rewrite Ar in A. destruct (spot_index d hs g R a s _ _ _ _ A P1) as [-> ->]. rewrite EY1 in P1.
        pose proof (below_port (tab p) s b c0 Yb ob C Ls Z1 P1 (joined_sym _ _ J1) B) as Bl. clear - E Ex Ey H1 H2 V1 V2 Bl Ar Q Bs EY1 EY2. lia.
  - apply (mid_port_out p q Es t St c0 Y1 w1 e2 h2 X2 Y2 y' _ w O1 Z1 M2 Jh2 Sh2 N2 Wh2 V). clear - E Ex Ey; lia.
  - apply better_sym. apply (mid_port_out q p Et s Ss c0 Y2 w2 e1 h1 X1 Y1 x' _ w O2 Z2 M1 Jh1 Sh1 N1 Wh1 V'). clear - E Ex Ey; lia.
  - destruct (classic (X1 = c0 - 80 \/ X1 = c0 + 680)) as [A1|A1].
    { pose proof (cost_h e2 h2 _ _ _ _ _ (md_spot _ _ _ _ _ _ M2) Sh2) as Ch.
      apply (mid_adjacent p q s t Ss St c0 e1 h1 X1 Y1 x' e2 Y2 _ _ w M1 Jh1 Sh1 A1 Wh1 M2 (steps_next _ _ _ _ Jh2 Wh2) V). clear - E Ex Ey Ch A1; lia. }
    destruct (classic (X2 = c0 - 80 \/ X2 = c0 + 680)) as [A2|A2].
    { pose proof (cost_h e1 h1 _ _ _ _ _ (md_spot _ _ _ _ _ _ M1) Sh1) as Ch. apply better_sym.
      apply (mid_adjacent q p t s St Ss c0 e2 h2 X2 Y2 y' e1 Y1 _ _ w M2 Jh2 Sh2 A2 Wh2 M1 (steps_next _ _ _ _ Jh1 Wh1) V'). clear - E Ex Ey Ch A2; lia. }
    assert (B1 : X1 <> c0 - 80) by tauto. assert (B2 : X1 <> c0 + 680) by tauto. assert (B3 : X2 <> c0 - 80) by tauto. assert (B4 : X2 <> c0 + 680) by tauto.
    apply (mid_far p q s t Ss St c0 e1 h1 X1 Y1 x' e2 h2 X2 Y2 y' _ w M1 Jh1 Sh1 N1 M2 Jh2 Sh2 N2 Wh1 Wh2 B1 B2 B3 B4 V). clear - E Ex Ey; lia.
Qed.

Lemma turn_corridor p q s t a b c K Ya Yb Yc oa ob oc x y w :
  stop p s -> stop q t -> corridor K -> spot ns a K Ya oa -> spot ns b K Yb ob -> spot ns c K Yc oc ->
  beyond Ya Yb Yc -> steps a s x -> steps c t y ->
  w = x + Z.of_N (cost a b) + Z.of_N (cost b c) + y -> better p q w.
Proof.
  intros Ss St C A B D Bd W1 W2 E. pose proof (cost_v a b _ _ _ _ _ A B) as E1. pose proof (cost_v b c _ _ _ _ _ B D) as E2.
  pose proof (corr_vline d hs FD g R K a c _ _ _ _ C A D) as Cn. apply (better_mid p q s t a c x y _ w Ss St W1 W2 Cn).
  destruct (spot_five a _ _ _ A) as (_ & k1 & F1). destruct (spot_five b _ _ _ B) as (_ & k2 & F2). destruct (spot_five c _ _ _ D) as (_ & k3 & F3).
  rewrite E, E1, E2. clear - Bd F1 F2 F3. unfold beyond in Bd.
  pose proof (half_le (Z.abs (Ya - Yb)) ltac:(lia)). pose proof (half_le (Z.abs (Yb - Yc)) ltac:(lia)). pose proof (half_le (Z.abs (Ya - Yc)) ltac:(lia)). lia.
Qed.

Lemma turn_even p q s t a b c Y Xa Xb Xc oa ob oc x y w :
  stop p s -> stop q t -> ys hs Y -> spot ns a Xa Y oa -> spot ns b Xb Y ob -> spot ns c Xc Y oc ->
  beyond Xa Xb Xc -> steps a s x -> steps c t y ->
  w = x + Z.of_N (cost a b) + Z.of_N (cost b c) + y -> better p q w.
Proof.
  intros Ss St Yy A B D Bd W1 W2 E. pose proof (cost_h a b _ _ _ _ _ A B) as E1. pose proof (cost_h b c _ _ _ _ _ B D) as E2.
  destruct (even_spot d hs FD g R a Xa Y oa Yy A) as (-> & _). destruct (even_spot d hs FD g R c Xc Y oc Yy D) as (-> & _).
  destruct (line_conn a c Xa Xc Y Yy A D) as (z & Cn & Ez).
  apply (better_mid p q s t a c x y z w Ss St W1 W2 Cn). clear - E E1 E2 Ez Bd. unfold beyond in Bd. lia.
Qed.

(** ** Turning on the line of an end *)

(** Ports on upper and lower sides do not interrupt a horizontal line. *)
Lemma step_over a b X1 X2 Y o u : spot ns a X1 Y o -> spot ns b X2 Y u -> X1 < X2 ->
  (o = None \/ o = Some Right) -> (u = None \/ u = Some Left) -> misses hs X1 Y X2 Y ->
  (forall c X w, spot ns c X Y w -> X1 < X < X2 -> w = Some Up \/ w = Some Down) -> joined es a b.
Proof.
  intros A B L Co Cu M N. apply (rt_edges d hs g R). apply neighbor_edge_iff.
  pose proof A as (n & Hn & Ha & Oa). pose proof B as (m & Hm & Hb & Ob).
  exists n, Right, m. split; [exact Hn|]. fold (shrunk d). apply near_complete.
  - apply in_enum. rewrite Nat.sub_0_r. split; [lia|exact Hm].
  - apply (proj2 (spot_candidate g a b _ _ _ _ _ _ Right A B n m Hn Hm)). auto.
  - destruct (spot_ok d hs GD g R _ _ _ _ A) as (Ba & Ba' & _), (spot_ok d hs GD g R _ _ _ _ B) as (Bb & Bb' & _).
    apply (shrunk_iff d hs GD _ _ X1 Y X2 Y); auto.
    intros t Lt Q. apply (spot_outside d hs GD g R a X1 Y o t A Lt). lia.
  - intros b' m' I C. apply in_enum in I as [_ I]. rewrite Nat.sub_0_r in I. fold ns in I.
    destruct (nth_spot d hs g R b' m' I) as (X' & Y' & S & H').
    pose proof (proj1 (spot_candidate g a b' _ _ _ _ _ _ Right A S n m' Hn I) C) as ((E & L') & _ & Fu). symmetry in E. rewrite E in *. clear E.
    destruct (Z.eq_dec X' X2) as [->|Ne].
    + left. destruct (spot_index d hs g R b' b _ _ _ _ S B) as [-> _]. fold ns in Hm. rewrite Hm in I. congruence.
    + right. cbn [before]. destruct Hb as [Hb _], H' as [H' _]. rewrite (hv_lt _ _ _ _ Hb H'). cbn [opposite] in Fu.
      destruct (Z.ltb_spec X2 X') as [Q|Q]; [reflexivity|]. exfalso. destruct (N b' X' _ S ltac:(lia)) as [Z|Z]; rewrite Z in Fu; destruct Fu; discriminate.
Qed.
Lemma hline_over k : forall a b X1 X2 Y o u, X2 - X1 <= Z.of_nat k -> spot ns a X1 Y o -> spot ns b X2 Y u -> X1 < X2 ->
  (o = None \/ o = Some Right) -> (u = None \/ u = Some Left) -> misses hs X1 Y X2 Y ->
  (forall c X w, spot ns c X Y w -> X1 < X < X2 -> w = None \/ w = Some Up \/ w = Some Down) -> conn a b ((X2 - X1) / 2).
Proof.
  induction k as [|k IH]; intros a b X1 X2 Y o u B A E L Co Cu M N; [lia|].
  destruct (classic (exists c X, spot ns c X Y None /\ X1 < X < X2)) as [(c & X & Sc & Bc)|No].
  - eapply conn_le; [eapply conn_trans|apply half_add with (x := X - X1) (y := X2 - X); lia].
    + eapply (IH a c X1 X Y); eauto; try lia.
      * intros t Lt. specialize (M t Lt). lia.
      * intros c' Y' w' S' B'. eapply N; eauto; lia.
    + eapply (IH c b X X2 Y); eauto; try lia.
      * intros t Lt. specialize (M t Lt). lia.
      * intros c' Y' w' S' B'. eapply N; eauto; lia.
  - eapply conn_le; [eapply (conn_edge d hs GD g R a b); eauto|].
    + eapply (step_over a b X1 X2 Y o u); eauto. intros c X w Sc Bc. destruct (N c X w Sc Bc) as [->|Z]; [|exact Z]. exfalso. apply No. eauto.
    + apply Z.div_le_mono; lia.
Qed.

Lemma odd_mid_none a c e X1 X2 X Y oa oc o : odd hs Y -> spot ns a X1 Y oa -> spot ns c X2 Y oc -> faces oa Right -> faces oc Left -> misses hs X1 Y X2 Y ->
  spot ns e X Y o -> X1 < X < X2 -> o = None \/ o = Some Up \/ o = Some Down.
Proof.
  intros O A C Fa Fc M P B.
  assert (Ka : corridor X1 \/ column X1 \/ column (X1 - 600)).
  { destruct (odd_spot d hs FD g R a X1 Y oa O A) as [(_ & K)|[(_ & K)|[(_ & K)|K]]]; [now left|right; left|right; right|]; try exact (rel_column d hs _ _ K).
    exfalso. destruct Fa as [Fa|Fa], K as [K|K]; congruence. }
  assert (Kc : corridor X2 \/ column X2 \/ column (X2 - 600)).
  { destruct (odd_spot d hs FD g R c X2 Y oc O C) as [(_ & K)|[(_ & K)|[(_ & K)|K]]]; [now left|right; left|right; right|]; try exact (rel_column d hs _ _ K).
    exfalso. destruct Fc as [Fc|Fc], K as [K|K]; congruence. }
  destruct (odd_spot d hs FD g R e X Y o O P) as [(E & _)|[(_ & K)|[(_ & K)|K]]]; [now left| | |now right]; exfalso; pose proof (rel_column d hs _ _ K) as Cc.
  - apply (rel_not_free d hs FD X Y K). apply (misses_free_inv hs X1 X2 Y X M); unfold corridor, column in *; [lia|]. clear - Cc Kc B. lia.
  - apply (rel_not_free d hs FD _ Y K). apply (misses_free_inv hs X1 X2 Y (X - 600) M); unfold corridor, column in *; [|lia]. clear - Cc Ka B. lia.
Qed.

Lemma misses_sub X1 X2 Z1 Z2 Y : misses hs X1 Y X2 Y -> X1 <= Z1 -> Z1 <= Z2 -> Z2 <= X2 -> misses hs Z1 Y Z2 Y.
Proof. intros M A B C t Lt. specialize (M t Lt). lia. Qed.

(** Nodes in the rightmost corridor have one to their left. *)
Lemma right_corridor c Y : spot ns c 2300 Y None -> exists a, spot ns a 1540 Y None.
Proof.
  intros C. destruct (spot_kind d hs FD g R c _ _ _ C) as [(_ & _ & Q & _)|[(_ & _ & _ & c0 & Rl & Ry)|[(_ & q & Q & E & _)|[(_ & _ & Q)|[(_ & _ & Q)|(u & _ & _ & [(_ & _ & Q)|(_ & _ & Q)])]]]]]; try discriminate.
  - apply corner_line in Q as (c' & Ln & H). pose proof (line_column hs c' Y Ln) as Cc.
    apply (corner_at d hs g R c' 1540 Y Ln). unfold column in Cc. lia.
  - pose proof (rel_column d hs c0 Y Rl) as Cc. destruct Ry as [(_ & _ & Q & _)|Ry]; [unfold column in Cc; lia|].
    destruct Cc as [-> | [-> | ->]].
    + destruct Rl as (e & Ee & Ze & ->). apply (rt_junction d hs g R). split; [|apply corridor_clear; unfold corridor; auto].
      right. exists Right, (100 + 600), (rowY hs e). split; [rewrite <- Ze; now apply row_right|].
      destruct Ry as (_ & (i & Li & Hx) & _ & Bl). split; [reflexivity|]. pose proof (zl_cases i) as Zi. split; [exists i; split; [exact Li|lia]|]. split; [lia|].
      intros u Lu H1 H2. pose proof (Bl u Lu H1 H2). pose proof (zl_cases u). lia.
    + exact (rel_next_right d hs g R _ _ Rl).
    + exact (rel_next_left d hs g R _ _ Rl).
  - unfold column in Q. lia.
Qed.

(** Following the rightmost corridor, and the one before it beside. *)
Lemma run_right q c t y : steps c t y -> forall Y a, spot ns c 2300 Y None -> spot ns a 1540 Y None -> stop q t ->
  exists f n a' Yf X v y' o, spot ns f 2300 Yf None /\ spot ns a' 1540 Yf None /\ conn a a' v /\ conn c f v /\
     joined es f n /\ spot ns n X Yf o /\ X < 2300 /\ steps n t y' /\ 2 * y = 2 * v + (2300 - X) + 2 * y'.
Proof.
  intros W. induction W as [t|c b t y J W IH]; intros Y a C A St.
  - exfalso. destruct St as (o & _ & Sp). destruct (spot_place g t _ _ _ _ _ _ Sp C) as (_ & _ & Q). discriminate.
  - destruct (joined_spots c b J) as (X1 & Y1 & Xb & Yb & o1 & ob & C' & B).
    destruct (spot_place g c _ _ _ _ _ _ C' C) as (-> & -> & ->). clear C'.
    destruct (Z.eq_dec Xb 2300) as [->|Nx].
    + assert (ob = None) as -> by (eapply (corridor_none d hs GD g R); [|exact B]; unfold corridor; auto).
      destruct (right_corridor b Yb B) as (ab & Ab). pose proof (cost_v c b _ _ _ _ _ C B) as Cv.
      destruct (IH Yb ab B Ab St) as (f & n & a' & Yf & X & v & y' & o & Sf & Sa & Ca & Cf & Jf & Sn & Lx & Wn & E).
      exists f, n, a', Yf, X, (Z.of_N (cost c b) + v), y', o. split; [exact Sf|]. split; [exact Sa|]. split.
      { eapply conn_trans; [|exact Ca]. rewrite Cv. eapply (corr_vline d hs FD g R 1540); eauto. unfold corridor; auto. }
      split; [eapply conn_trans; [now apply edge_conn|exact Cf]|]. split; [exact Jf|]. split; [exact Sn|]. split; [exact Lx|]. split; [exact Wn|]. lia.
    + destruct (edge_straight d hs g R c b _ _ _ _ _ _ J C B) as [(E & N)|[(E & _)|(E & _)]]; [|congruence|congruence]. subst Yb.
      exists c, b, a, Y, Xb, 0, y, ob. split; [exact C|]. split; [exact A|]. split; [apply conn_refl|]. split; [apply conn_refl|]. split; [exact J|]. split; [exact B|].
      assert (L : Xb < 2300).
      { destruct (Z.lt_trichotomy Xb 2300) as [L|[L|L]]; [exact L|congruence|]. exfalso. destruct (spot_kind d hs FD g R b _ _ _ B) as [(_ & Q & _)|[(_ & Q & _)|[(_ & q' & Q & -> & _)|[(_ & Q & _)|[(_ & Q & _)|(u & _ & -> & _)]]]]].
        - unfold corridor in Q. lia.
        - unfold corridor in Q. lia.
        - unfold column in Q. lia.
        - apply rel_column in Q. unfold column in Q. lia.
        - apply rel_column in Q. unfold column in Q. lia.
        - pose proof (zl_cases (tab u)). lia. }
      split; [exact L|]. split; [exact W|]. pose proof (cost_h c b _ _ _ _ _ C B). lia.
Qed.

(** A port on the right of the right column: where a walk ends, or it returns. *)
Lemma right_port_end p a s x Y : end_at d hs p -> stop p s -> steps a s x -> spot ns a 2220 Y (Some Right) ->
  (a = s /\ x = 0 /\ zl (tab p) = 1620 /\ rowY hs p = Y) \/
  (exists b x', spot ns b 2300 Y None /\ steps b s x' /\ x = 40 + x').
Proof.
  intros E St W A. inversion W as [a' Ea|a' b s' x' J W' Ea Es' Ex]; subst.
  - left. split; [reflexivity|]. split; [reflexivity|]. destruct St as (o & I & Sp). destruct (spot_place g s _ _ _ _ _ _ Sp A) as (EX & EY & EO).
    injection EO as ->. unfold side_x, side_y in *. split; [lia|exact EY].
  - right. destruct (joined_spots a b J) as (X1 & Y1 & Xb & Yb & o1 & ob & A' & B).
    destruct (right_port_next d hs FD g R a b _ _ _ _ _ A B J) as (-> & -> & ->). exists b, x'. split; [exact B|]. split; [exact W'|].
    pose proof (cost_h a b _ _ _ _ _ A B). lia.
Qed.

(** Over to the far side and back. *)
Lemma turn_across p q s t a b c Y x y w : end_at d hs q -> stop p s -> stop q t -> odd hs Y ->
  spot ns a 1540 Y None -> spot ns b 780 Y None -> spot ns c 2300 Y None -> joined es a b -> joined es b c ->
  steps a s x -> steps c t y -> 2 * w = 2 * x + 760 + 1520 + 2 * y -> better p q w.
Proof.
  intros Et Ss St O A B C J1 J2 W1 W2 E.
  pose proof (cost_h b a _ _ _ _ _ B A) as Cba. pose proof (cost_h c b _ _ _ _ _ C B) as Ccb.
  pose proof (steps_next b a s x (joined_sym _ _ J1) W1) as Wb. pose proof (steps_next c b s _ (joined_sym _ _ J2) Wb) as Wc.
  destruct (run_right q c t y W2 Y a C A St) as (f & n & a' & Yf & X & v & y' & o & Sf & Sa & Ca & Cf & Jf & Sn & Lx & Wn & Ey).
  assert (Go : forall z, conn a' n z -> z <= 1000 -> better p q w).
  { intros z Cz Lz. apply (better_mid p q s t a n x y' _ w Ss St W1 Wn (conn_trans g _ _ _ _ _ Ca Cz)). clear - E Ey Lz Lx. lia. }
  destruct (edge_h d hs GD g R n f X 2300 Yf o None (joined_sym _ _ Jf) Sn Sf Lx) as (On & _ & _).
  destruct (classic (ys hs Yf)) as [Yy|Of].
  - destruct (even_spot d hs FD g R n X Yf o Yy Sn) as (-> & Q).
    destruct (line_conn a' n 1540 X Yf Yy Sa Sn) as (z & Cz & Ez). apply (Go z Cz). clear - Q Ez. lia.
  - destruct (odd_spot d hs FD g R n X Yf o Of Sn) as [(-> & K)|[(-> & K)|[(-> & K)|K]]].
    + destruct K as [-> | [-> | [-> | ->]]].
      * exfalso. destruct (odd_edge d hs FD g R n f 20 2300 Yf None None Of (joined_sym _ _ Jf) Sn Sf Lx) as [M|(Q & _)]; [|discriminate].
        assert (F : forall c0, column c0 -> free hs c0 Yf).
        { intros c0 Cc. apply (misses_free_inv hs 20 2300 Yf c0 M); unfold column in Cc; lia. }
        destruct (odd_2300 d hs FD g R f Yf Of Sf) as [Q|[(Q & _)|(Q & _)]]; apply (rel_not_free d hs FD _ _ Q), F, (rel_column d hs _ _ Q).
      * destruct (odd_edge d hs FD g R n f 780 2300 Yf None None Of (joined_sym _ _ Jf) Sn Sf Lx) as [M|(_ & _ & _ & _ & R0 & _ & R1 & F1)].
        -- apply (Go 380); [|lia]. apply conn_sym. change 380 with ((1540 - 780) / 2).
           eapply (hline_over 760 n a' 780 1540 Yf None None); eauto; try lia; [apply (misses_sub 780 2300); [exact M|lia|lia|lia]|].
           intros e Xe w' Se Be. eapply (odd_mid_none n f e 780 2300 Xe Yf); eauto; try solve [now left]; lia.
        -- pose proof (odd_across d hs FD g R n a' Yf Of Sn Sa R0 R1 F1) as J. pose proof (cost_h n a' _ _ _ _ _ Sn Sa) as Cn.
           apply (Go _ (conn_sym g _ _ _ (edge_conn n a' J))). clear - Cn. lia.
      * destruct (spot_index d hs g R a' n _ _ _ _ Sa Sn) as [-> _]. apply (Go 0 (conn_refl g n)). lia.
      * exfalso. clear - Lx. lia.
    + destruct On as [Q|Q]; discriminate.
    + destruct (right_port_next d hs FD g R n f _ _ _ _ _ Sn Sf (joined_sym _ _ Jf)) as (Q & _).
      assert (X = 2220) as -> by (clear - Q; lia).
      destruct (right_port_end q n t y' Yf Et St Wn Sn) as [(_ & Ey' & Zt & Er)|(b' & y2 & Sb & Wb' & Ey')].
      * destruct (side_corridor q 1540 Et ltac:(left; rewrite Zt; reflexivity)) as (i & j & Si & Sj & C1). rewrite Er in Sj.
        destruct (spot_index d hs g R a' j _ _ _ _ Sa Sj) as [-> _].
        apply better_sym. apply (better_start q p i s a x _ w Si Ss W1 (conn_trans g _ _ _ _ _ C1 (conn_sym g _ _ _ Ca))). clear - E Ey Ey'. lia.
      * destruct (spot_index d hs g R b' f _ _ _ _ Sb Sf) as [-> _].
        apply (better_mid p q s t c f _ y2 v w Ss St Wc Wb' Cf). clear - E Ey Ey' Cba Ccb. lia.
    + exfalso. destruct On as [On|On], K as [K|K]; congruence.
Qed.

Lemma turn_odd p q s t a b c Y Xa Xb Xc oa ob oc x y w :
  end_at d hs p -> end_at d hs q -> stop p s -> stop q t -> odd hs Y ->
  spot ns a Xa Y oa -> spot ns b Xb Y ob -> spot ns c Xc Y oc -> joined es a b -> joined es b c ->
  beyond Xa Xb Xc -> Z.abs (Xa - Xb) <= Z.abs (Xb - Xc) -> steps a s x -> steps c t y ->
  w = x + Z.of_N (cost a b) + Z.of_N (cost b c) + y -> better p q w.
Proof.
  intros Es Et Ss St O A B C J1 J2 Bd Nr W1 W2 E.
  pose proof (cost_h a b _ _ _ _ _ A B) as E1. pose proof (cost_h b c _ _ _ _ _ B C) as E2.
  destruct (Z.eq_dec Xa Xc) as [Q|Nq].
  { rewrite Q in A. destruct (spot_index d hs g R a c _ _ _ _ A C) as [-> _].
    apply (better_mid p q s t c c x y 0 w Ss St W1 W2 (conn_refl g c)). clear - E E1 E2 Bd. unfold beyond in Bd. lia. }
  destruct Bd as [[B1 B2]|[B1 B2]].
  - (* c < a < b *)
    assert (Lt : Xc < Xa) by (clear - B1 B2 Nr Nq; lia).
    destruct (edge_h d hs GD g R c b Xc Xb Y oc ob (joined_sym _ _ J2) C B B2) as (Fc & Fb & _).
    destruct (edge_h d hs GD g R a b Xa Xb Y oa ob J1 A B B1) as (Fa & _).
    destruct (odd_edge d hs FD g R c b Xc Xb Y oc ob O (joined_sym _ _ J2) C B B2) as [M|(-> & Xe & -> & -> & R0 & R2 & R1 & F1)].
    + assert (oa = None) as ->.
      { destruct (odd_mid_none c b a Xc Xb Xa Y oc ob oa O C B Fc Fb M A ltac:(lia)) as [Z|Z]; [exact Z|].
        exfalso. destruct Fa as [Fa|Fa], Z as [Z|Z]; congruence. }
      assert (Cn : conn c a ((Xa - Xc) / 2)).
      { eapply (hline_over (Z.to_nat (Xa - Xc))); eauto; [lia|apply (misses_sub Xc Xb); [exact M|lia|lia|lia]|].
        intros e X o Sq Bq. eapply (odd_mid_none c b e Xc Xb X Y); eauto. lia. }
      pose proof (half_le (Xa - Xc) ltac:(lia)). apply (better_mid p q s t a c x y _ w Ss St W1 W2 (conn_sym g _ _ _ Cn)). clear - E E1 E2 H B1 B2 Lt. lia.
    + destruct (odd_spot d hs FD g R a Xa Y oa O A) as [(-> & K)|[(-> & K)|[(-> & K)|K]]].
      * exfalso. assert (Q : Xa = 1540 /\ Xb = 2300) by (clear - K Xe B1 Lt; unfold corridor in K; lia). destruct Q as [-> ->].
        destruct (odd_edge d hs FD g R a b 1540 2300 Y None None O J1 A B B1) as [M|(Q & _)]; [|discriminate].
        apply (rel_not_free d hs FD _ _ R2). apply (misses_free_inv hs 1540 2300 Y 1620 M); lia.
      * exfalso. destruct (left_port_next d hs FD g R a b _ _ _ _ _ A B J1) as (Q & _). clear - Q B1. lia.
      * destruct (right_port_next d hs FD g R a b _ _ _ _ _ A B J1) as (Q & _).
        assert (Q' : Xb = 2300 /\ Xa = 2220).
        { destruct Xe as [-> | ->]; [exfalso; apply R1; replace 860 with (Xa - 600) by (clear - Q; lia); exact K|clear - Q; lia]. }
        destruct Q' as [-> ->].
        destruct (right_port_end p a s x Y Es Ss W1 A) as [(_ & Ex & Zt & Er)|(b' & x2 & Sb & Wb' & Ex)].
        -- destruct (side_corridor p 1540 Es ltac:(left; rewrite Zt; reflexivity)) as (i & j & Si & Sj & C1). rewrite Er in Sj.
           pose proof (odd_across d hs FD g R c j Y O C Sj R0 R1 F1) as J. pose proof (edge_conn c j J) as C2. pose proof (cost_h c j _ _ _ _ _ C Sj) as E3.
           apply (better_start p q i t c y _ w Si St W2 (conn_trans g _ _ _ _ _ C1 (conn_sym g _ _ _ C2))). clear - E E1 E2 E3 Ex. lia.
        -- destruct (spot_index d hs g R b' b _ _ _ _ Sb B) as [-> _].
           apply (better_mid p q s t b c x2 y _ w Ss St Wb' W2 (edge_conn b c J2)). clear - E E1 E2 Ex. lia.
      * exfalso. destruct Fa as [Fa|Fa], K as [K|K]; congruence.
  - (* b < a < c *)
    assert (Lt : Xa < Xc) by (clear - B1 B2 Nr Nq; lia).
    destruct (edge_h d hs GD g R b c Xb Xc Y ob oc J2 B C B2) as (Fb & Fc & _).
    destruct (edge_h d hs GD g R b a Xb Xa Y ob oa (joined_sym _ _ J1) B A B1) as (_ & Fa & _).
    destruct (odd_edge d hs FD g R b c Xb Xc Y ob oc O J2 B C B2) as [M|(-> & Xe & -> & -> & R0 & R2 & R1 & F1)].
    + assert (oa = None) as ->.
      { destruct (odd_mid_none b c a Xb Xc Xa Y ob oc oa O B C Fb Fc M A ltac:(lia)) as [Z|Z]; [exact Z|].
        exfalso. destruct Fa as [Fa|Fa], Z as [Z|Z]; congruence. }
      assert (Cn : conn a c ((Xc - Xa) / 2)).
      { eapply (hline_over (Z.to_nat (Xc - Xa))); eauto; [lia|apply (misses_sub Xb Xc); [exact M|lia|lia|lia]|].
        intros e X o Sq Bq. eapply (odd_mid_none b c e Xb Xc X Y); eauto. lia. }
      pose proof (half_le (Xc - Xa) ltac:(lia)). apply (better_mid p q s t a c x y _ w Ss St W1 W2 Cn). clear - E E1 E2 H B1 B2 Lt. lia.
    + destruct (odd_spot d hs FD g R a Xa Y oa O A) as [(-> & K)|[(-> & K)|[(-> & K)|K]]].
      * assert (Q : Xa = 1540 /\ Xc = 2300) by (clear - K Xe B1 Lt; unfold corridor in K; lia). destruct Q as [-> ->].
        apply (turn_across p q s t a b c Y x y w); auto. clear - E E1 E2. lia.
      * exfalso. destruct (left_port_next d hs FD g R a b _ _ _ _ _ A B J1) as (Q & _). assert (Xa = 860) as -> by (clear - Q; lia). contradiction.
      * exfalso. destruct (right_port_next d hs FD g R a b _ _ _ _ _ A B J1) as (Q & _). clear - Q B1. lia.
      * exfalso. destruct Fa as [Fa|Fa], K as [K|K]; congruence.
Qed.


(** ** Turning anywhere *)

Definition turns (Xa Ya Xb Yb Xc Yc : Z) : Prop :=
  (Ya = Yb /\ Yc = Yb /\ beyond Xa Xb Xc) \/ (Xa = Xb /\ Xc = Xb /\ beyond Ya Yb Yc).

Theorem turn_better p q s t a b c Xa Ya Xb Yb Xc Yc oa ob oc x y w :
  end_at d hs p -> end_at d hs q -> fair p q -> stop p s -> stop q t ->
  spot ns a Xa Ya oa -> spot ns b Xb Yb ob -> spot ns c Xc Yc oc -> joined es a b -> joined es b c ->
  turns Xa Ya Xb Yb Xc Yc -> steps a s x -> steps c t y ->
  w = x + Z.of_N (cost a b) + Z.of_N (cost b c) + y -> better p q w.
Proof.
  intros Es Et Fr Ss St A B C J1 J2 [(-> & -> & Bd)|(-> & -> & Bd)] W1 W2 E.
  - destruct (classic (ys hs Yb)) as [Yy|O]; [eapply (turn_even p q s t a b c); eauto|].
    destruct (Z.le_ge_cases (Z.abs (Xa - Xb)) (Z.abs (Xb - Xc))) as [L|L].
    + eapply (turn_odd p q s t a b c); eauto.
    + apply better_sym. eapply (turn_odd q p t s c b a Yb Xc Xb Xa); eauto.
      * now apply joined_sym.
      * now apply joined_sym.
      * clear - Bd. unfold beyond in *. tauto.
      * clear - L. lia.
      * rewrite <- (cost_sym b c J2), <- (cost_sym a b J1). clear - E. lia.
  - assert (Co : corridor Xb -> better p q w) by (intros Q; eapply (turn_corridor p q s t a b c Xb); eauto).
    assert (Md : forall c0, column c0 -> Xb = c0 + 300 -> better p q w).
    { intros c0 Cc ->. eapply (turn_mid p q s t a b c c0); eauto. }
    destruct (spot_kind d hs FD g R b _ _ _ B) as [(_ & Q & _)|[(_ & Q & _)|[(_ & q' & Q & Q' & _)|[(_ & _ & Q)|[(_ & _ & Q)|(u & _ & Q & _)]]]]]; auto.
    + now apply (Md q').
    + exfalso. subst ob. destruct (left_port_next d hs FD g R b c _ _ _ _ _ B C J2) as (Z & _). clear - Z. lia.
    + exfalso. subst ob. destruct (right_port_next d hs FD g R b c _ _ _ _ _ B C J2) as (Z & _). clear - Z. lia.
    + apply (Md (zl (tab u))); [apply zl_column|exact Q].
Qed.
End Doc.
