(** Tall diagrams: a line that comes back to a corridor. *)
From Coq Require Import String List Arith NArith ZArith Bool Lia SpecFloat Classical_Prop Sorting.Sorted.
From Verif Require Import Base F32 Geometry Mir Erd Heap Route Layout Parser Cli SpecMir SpecF32 SpecGeom SpecLayout SpecRoute SpecGraph SpecRender SpecLink SpecEnds SpecThrough SpecGap
  F32Facts GeomFacts SearchFacts MirFacts GridFacts LayoutFacts RenderFacts PipelineFacts GraphFacts PathFacts LatticeFacts
  ConnectFacts HubFacts DrawFacts OrderFacts RowFacts LineFacts MidFacts FarFacts TurnFacts CalmFacts LinkFacts EndFacts ThroughFacts MiddleFacts GapFacts DriftFacts.
Import ListNotations.
Local Open Scope Z_scope.

Section Doc.
Variable n : nat.
Hypothesis Hn : (1 <= n)%nat.
Let far := (3 * n + 0)%nat.
Let hs := repeat 3%nat (3 * n + 3).
Variable d : document.
Hypothesis ED : end_doc d hs.
Variable g : route_graph.
Hypothesis R : routes d hs g.
Hypothesis Ends : forall a, end_at d hs a -> exists p q x ports, In (p, q) (drift_places n far) /\ (x = p \/ x = q) /\
  has_ports hs (end_of x) ports /\ has_ports hs a ports.
Hypothesis Es : end_at d hs (row_end 0 1).
Hypothesis Et : end_at d hs (row_end far 1).
Let ns := rg_nodes g.
Let es := rg_edges g.
Let cost := rg_cost ns.
Let GD := ed_grid d hs ED.
Let A := 205.
Let B := 205 + 370 * Z.of_nat n.

Lemma places_of cc Y : rel d hs cc Y -> Y = A \/ Y = B \/ (cc = 1620 /\ exists r, (r <= n)%nat /\ (Y = 205 + 370 * Z.of_nat r \/ Y = 275 + 370 * Z.of_nat r)).
Proof. exact (rel_places n 0 Hn ltac:(lia) d Ends cc Y). Qed.
Lemma no_free cc r k : cc = 100 \/ cc = 860 -> (r <= n)%nat -> 2 <= k <= 208 -> ~ free hs cc (100 + 370 * Z.of_nat r + k).
Proof.
  intros C L Lk F. assert (T : exists t, (t <= 2)%nat /\ zl (3 * r + t) = cc) by (destruct C as [-> | ->]; [exists 0%nat|exists 1%nat]; rewrite zl_at; lia).
  destruct T as (t & Lt & <-). specialize (F (3 * r + t)%nat). unfold hs in F. rewrite repeat_length, drift_zt, drift_zb in F by lia.
  rewrite (proj1 (div3 r t ltac:(lia))) in F. lia.
Qed.
Lemma rel_blocked cc c' Y : rel d hs cc Y -> c' = 100 \/ c' = 860 -> ~ free hs c' Y.
Proof.
  intros Rl C. destruct (places_of _ _ Rl) as [-> |[-> |(_ & r & Lr & [-> | ->])]].
  - exact (no_free c' 0 105 C ltac:(lia) ltac:(lia)).
  - replace B with (100 + 370 * Z.of_nat n + 105) by (unfold B; lia). apply no_free; auto; lia.
  - replace (205 + 370 * Z.of_nat r) with (100 + 370 * Z.of_nat r + 105) by lia. apply no_free; auto; lia.
  - replace (275 + 370 * Z.of_nat r) with (100 + 370 * Z.of_nat r + 175) by lia. apply no_free; auto; lia.
Qed.

Lemma line_form Y : ys hs Y -> exists k, 0 <= k <= Z.of_nat n + 1 /\ Y = 20 + 370 * k.
Proof.
  intros (i & L & E). unfold hs in *. rewrite repeat_length in L. rewrite drift_zt, drift_zb in E by exact L.
  assert (i / 3 < S n)%nat by (apply Nat.div_lt_upper_bound; lia).
  destruct E as [-> | ->]; [exists (Z.of_nat (i / 3))|exists (Z.of_nat (i / 3) + 1)]; lia.
Qed.
Lemma line_free cc Y : ys hs Y -> free hs cc Y.
Proof.
  intros Yy t L _. destruct (line_form Y Yy) as (k & _ & ->). unfold hs in *. rewrite repeat_length in L. rewrite drift_zt, drift_zb by exact L. lia.
Qed.
Lemma line_corner Y : ys hs Y -> corner hs 780 Y.
Proof.
  intros (i & L & E). unfold hs in *. rewrite repeat_length in L. rewrite drift_zt, drift_zb in E by exact L.
  assert (Li : (i / 3 <= n)%nat) by (assert (i / 3 < S n)%nat by (apply Nat.div_lt_upper_bound; lia); lia).
  exists (3 * (i / 3) + 0)%nat. rewrite repeat_length. split; [lia|]. rewrite zl_at, drift_zt, drift_zb, (proj1 (div3 (i / 3) 0 ltac:(lia))) by lia. lia.
Qed.

(** No step leads across the first gap. *)
Lemma over_780 a b X1 Y1 X2 Y2 o u : joined es a b -> spot ns a X1 Y1 o -> spot ns b X2 Y2 u -> X1 < 780 -> X2 <= 780.
Proof.
  intros J Sa Sb L. destruct (edge_straight d hs g R a b _ _ _ _ _ _ J Sa Sb) as [[<- Ne]|[(<- & _)|(<- & _)]]; try lia.
  destruct (Z.le_gt_cases X2 780) as [Le|Gt]; [exact Le|exfalso]. assert (Lt : X1 < X2) by lia.
  destruct (edge_h d hs GD g R a b X1 X2 Y1 _ _ J Sa Sb Lt) as (Fo & Fu & Pk).
  destruct (classic (ys hs Y1)) as [Yy|O].
  - destruct (corner_spot d hs g R 780 Y1 (line_corner Y1 Yy)) as (c & Sc).
    destruct (even_spot d hs ED g R a X1 Y1 o Yy Sa) as [-> _]. destruct (even_spot d hs ED g R b X2 Y1 u Yy Sb) as [-> _].
    destruct Pk as [[P _]|[P _]].
    + specialize (P c 780 None Sc L ltac:(now left) (proj2 (even_free d hs ED g R a c X1 780 Y1 Yy Sa Sc L ltac:(lia)))). lia.
    + specialize (P c 780 None Sc ltac:(lia) ltac:(now left) (proj2 (even_free d hs ED g R c b 780 X2 Y1 Yy Sc Sb ltac:(lia) (or_introl (line_free 860 Y1 Yy))))). lia.
  - destruct (odd_edge d hs ED g R a b X1 X2 Y1 o u O J Sa Sb Lt) as [M|(-> & _)]; [|lia].
    destruct (odd_spot d hs ED g R a X1 Y1 o O Sa) as [(-> & C)|[(-> & _)|[(-> & Rl)|[-> | ->]]]]; try (destruct Fo; discriminate).
    + assert (X1 = 20) as -> by (unfold corridor in C; lia). pose proof (misses_free_inv hs 20 X2 Y1 100 M ltac:(lia) ltac:(lia)) as F.
      destruct (odd_20 d hs ED g R a Y1 O Sa) as [Rl|[(Rl & _)|(Rl & _)]]; exact (rel_blocked _ 100 Y1 Rl ltac:(lia) F).
    + destruct (right_port_next d hs ED g R a b _ _ _ _ _ Sa Sb J) as (-> & _). pose proof (rel_column d hs _ _ Rl) as C. unfold column in C. lia.
Qed.

(** The levels of the nodes up to there. *)
Definition level (Y : Z) : Prop := Y = A \/ Y = B \/ (exists z, Y = 10 * z) \/ Y < A \/ B < Y.
Lemma levels a X Y o : spot ns a X Y o -> X <= 780 -> level Y /\ (o = Some Up \/ o = Some Down -> exists z, Y = 10 * z).
Proof.
  intros Sa L. destruct (spot_kind d hs ED g R a X Y o Sa) as [(-> & C & _ & E)|[(-> & C & O & cc & Rl & Ry)|[(-> & cc & _ & _ & E & _)|[(O & Rl & ->)|[(O & Rl & ->)|(e & _ & _ & H)]]]]].
  - split; [right; right; left; exact (ys_even hs Y E)|intros [|]; discriminate].
  - split; [|intros [|]; discriminate].
    assert (Q : X = 20 \/ X = 780) by (unfold corridor in C; lia). destruct (Z.lt_ge_cases A Y) as [L1|L1]; [|unfold level; lia].
    destruct (Z.lt_ge_cases Y B) as [L2|L2]; [|unfold level; lia].
    right. right. left. exact (between_even n 0 Hn ltac:(lia) d ED g R Ends X a Y Q Sa (conj L1 L2)).
  - split; [right; right; left; exact (ys_even hs Y E)|intros [|]; discriminate].
  - split; [|intros [|]; discriminate]. destruct (places_of _ _ Rl) as [-> |[-> |(Q & _)]]; unfold level; lia.
  - split; [|intros [|]; discriminate]. destruct (places_of _ _ Rl) as [-> |[-> |(Q & _)]]; unfold level; lia.
  - assert (Z : exists z, Y = 10 * z) by (destruct H as [(_ & -> & _)|(_ & -> & _)]; [apply zb_ten|apply zt_ten]). split; [right; right; left; exact Z|auto].
Qed.

(** What is gained on the way down. *)
Definition gain (Y : Z) : Z := if Y <=? A then 0 else if Y <? B then Y - A - 1 else B - A - 2.
Lemma gain_step Y1 Y2 : level Y1 -> level Y2 -> gain Y2 - gain Y1 <= 2 * (Z.abs (Y1 - Y2) / 2).
Proof.
  intros L1 L2. pose proof (floor_half n 0 Hn ltac:(lia) (Z.abs (Y1 - Y2))) as F. pose proof (Z.div_pos (Z.abs (Y1 - Y2)) 2 ltac:(lia) ltac:(lia)) as P.
  assert (Ev : (exists z, Y1 = 10 * z) -> (exists z, Y2 = 10 * z) -> 2 * (Z.abs (Y1 - Y2) / 2) = Z.abs (Y1 - Y2)).
  { intros (y & ->) (z & ->). replace (Z.abs _) with (Z.abs (5 * y - 5 * z) * 2) by lia. rewrite Z.div_mul; lia. }
  unfold gain, level in *. assert (A < B) by (unfold A, B; lia).
  destruct (Z.leb_spec Y1 A), (Z.leb_spec Y2 A), (Z.ltb_spec Y1 B), (Z.ltb_spec Y2 B); try lia.
  rewrite Ev; [lia| |]; [destruct L1 as [|[|[E|[|]]]]|destruct L2 as [|[|[E|[|]]]]]; try lia; exact E.
Qed.
Definition bonus (Y : Z) (o : option orientation) : Z := match o with None => 0 | Some _ => if Y =? B then 80 else 0 end.

Lemma low_step a b X1 Y1 X2 Y2 o u : joined es a b -> spot ns a X1 Y1 o -> spot ns b X2 Y2 u -> X1 <= 780 -> X2 <= 780 ->
  gain Y2 + bonus Y2 u - (gain Y1 + bonus Y1 o) <= 2 * Z.of_N (cost a b).
Proof.
  intros J Sa Sb L1 L2. destruct (levels a X1 Y1 o Sa L1) as [K1 _]. destruct (levels b X2 Y2 u Sb L2) as [K2 U].
  assert (Bo : 0 <= bonus Y1 o) by (unfold bonus; destruct o; [destruct (Y1 =? B)|]; lia).
  assert (Plain : gain Y2 - gain Y1 <= 2 * Z.of_N (cost a b)).
  { destruct (edge_straight d hs g R a b _ _ _ _ _ _ J Sa Sb) as [[<- Ne]|[(<- & _)|(<- & _)]]; [pose proof (N2Z.is_nonneg (cost a b)); lia| |];
      (pose proof (TurnFacts.cost_v d hs ED g R a b _ _ _ _ _ Sa Sb) as Cv; fold ns cost in Cv; rewrite Cv; exact (gain_step Y1 Y2 K1 K2)). }
  assert (J' : joined es b a) by (destruct J; [right|left]; assumption).
  unfold bonus at 1. destruct u as [u|]; [|lia]. destruct (Z.eqb_spec Y2 B) as [E|E]; [|lia].
  assert (Wide : (X1 = X2 - 80 \/ X1 = X2 + 80) /\ Y1 = Y2).
  { destruct u.
    - destruct (U ltac:(now left)) as (z & Ez). unfold B in E. lia.
    - destruct (U ltac:(now right)) as (z & Ez). unfold B in E. lia.
    - destruct (left_port_next d hs ED g R b a _ _ _ _ _ Sb Sa J') as (-> & -> & _). lia.
    - destruct (right_port_next d hs ED g R b a _ _ _ _ _ Sb Sa J') as (-> & -> & _). lia. }
  destruct Wide as [Wd ->]. pose proof (TurnFacts.cost_h d hs ED g R a b _ _ _ _ _ Sa Sb) as Ch. fold ns cost in Ch. lia.
Qed.
Lemma low_walk a b l : walk es a b l -> (forall i X Y o, In i l -> spot ns i X Y o -> X <= 780) ->
  forall X1 Y1 o X2 Y2 u, spot ns a X1 Y1 o -> spot ns b X2 Y2 u ->
  gain Y2 + bonus Y2 u - (gain Y1 + bonus Y1 o) <= 2 * Z.of_N (walk_cost cost l).
Proof.
  induction 1 as [a|a b c l J W IH]; intros Low X1 Y1 o X2 Y2 u Sa Sb.
  - destruct (spot_place g a _ _ _ _ _ _ Sa Sb) as (-> & -> & ->). cbn. lia.
  - destruct (TurnFacts.joined_spots d hs g R a b J) as (X3 & Y3 & X4 & Y4 & o3 & o4 & _ & Sm).
    specialize (IH ltac:(intros i X Y w I; apply Low; now right) _ _ _ _ _ _ Sm Sb).
    destruct l as [|x l]; [inversion W|]. assert (x = b) as -> by (inversion W; reflexivity). rewrite walk_cost_cons.
    pose proof (low_step a b _ _ _ _ _ _ J Sa Sm (Low a _ _ _ ltac:(now left) Sa) (Low b _ _ _ ltac:(right; now left) Sm)). lia.
Qed.

Lemma first_rows t : (t = 0)%nat \/ t = far -> ~ low hs (row_end t 1).
Proof. intros T Lw. cbn [low] in Lw. unfold hs in Lw. rewrite nth_repeat3 in Lw; unfold far in T; lia. Qed.
Lemma start_at a : TurnFacts.stop hs g (row_end 0 1) a -> exists X o, (X = 100 \/ X = 700) /\ (o = Left \/ o = Right) /\ spot ns a X A (Some o).
Proof.
  intros S. pose proof (row_first n 0 Hn ltac:(lia)) as Q. fold hs in Q. destruct (row_stop d hs g 0 1 a Es S) as [H|[H|(Lw & _)]]; [| |destruct (first_rows 0%nat ltac:(lia) Lw)];
    rewrite Q in H; [exists 100, Left|exists 700, Right]; (split; [lia|]; split; [auto|exact H]).
Qed.
Lemma stop_at a : TurnFacts.stop hs g (row_end far 1) a -> exists X o, (X = 100 \/ X = 700) /\ (o = Left \/ o = Right) /\ spot ns a X B (Some o).
Proof.
  intros S. pose proof (row_far n 0 Hn ltac:(lia)) as Q. fold far hs in Q. destruct (row_stop d hs g far 1 a Et S) as [H|[H|(Lw & _)]]; [| |destruct (first_rows far ltac:(lia) Lw)];
    rewrite Q in H; assert (Z : zl far = 100) by (unfold far; rewrite zl_at; lia); rewrite Z in H; [exists 100, Left|exists 700, Right]; (split; [lia|]; split; [auto|exact H]).
Qed.

Lemma low_long a b l : TurnFacts.stop hs g (row_end 0 1) a -> TurnFacts.stop hs g (row_end far 1) b -> walk es a b l ->
  (forall i X Y o, In i l -> spot ns i X Y o -> X <= 780) -> 158 + 370 * Z.of_nat n <= 2 * Z.of_N (walk_cost cost l).
Proof.
  intros Sa Sb W Low. destruct (start_at a Sa) as (X1 & o & C1 & Oo & Pa). destruct (stop_at b Sb) as (X2 & u & C2 & Ou & Pb).
  inversion W as [x E1 E2|x i y l' J W' E1 E2]; subst.
  - destruct (spot_place g b _ _ _ _ _ _ Pa Pb) as (_ & Q & _). unfold A, B in Q. lia.
  - destruct (TurnFacts.joined_spots d hs g R a i J) as (X3 & Y3 & X4 & Y4 & o3 & o4 & _ & Si).
    assert (N : (X4 = X1 - 80 \/ X4 = X1 + 80) /\ Y4 = A /\ o4 = None).
    { destruct Oo as [-> | ->]; [destruct (left_port_next d hs ED g R a i _ _ _ _ _ Pa Si J) as (-> & -> & ->)|destruct (right_port_next d hs ED g R a i _ _ _ _ _ Pa Si J) as (-> & -> & ->)]; auto. }
    destruct N as (Wd & -> & ->). pose proof (TurnFacts.cost_h d hs ED g R a i _ _ _ _ _ Pa Si) as Ch. fold ns cost in Ch.
    pose proof (low_walk i b l' W' ltac:(intros j X Y w I; apply Low; now right) _ _ _ _ _ _ Si Pb) as Lo.
    destruct l' as [|x l']; [inversion W'|]. assert (x = i) as -> by (inversion W'; reflexivity). rewrite walk_cost_cons.
    assert (G1 : gain A = 0) by (unfold gain; rewrite Z.leb_refl; reflexivity).
    assert (G2 : gain B = B - A - 2).
    { unfold gain. destruct (Z.leb_spec B A); [unfold A, B in *; lia|]. rewrite Z.ltb_irrefl. reflexivity. }
    rewrite G1, G2 in Lo. unfold bonus in Lo. rewrite Z.eqb_refl in Lo. unfold A, B in Lo. lia.
Qed.

(** A walk that leaves the gap to the right goes through it before and after. *)
Lemma walk_pair a b l : walk es a b l -> forall k x y, nth_error l k = Some x -> nth_error l (S k) = Some y -> joined es x y.
Proof.
  induction 1 as [a|a b c l J W IH]; intros k x y H1 H2; [destruct k; discriminate|].
  destruct k as [|k]; [|exact (IH k x y H1 H2)]. cbn in H1, H2. injection H1 as <-.
  destruct l as [|z l]; [discriminate|]. injection H2 as <-. assert (z = b) as -> by (inversion W; reflexivity). exact J.
Qed.
Lemma come_from a b l X0 Y0 o0 : walk es a b l -> spot ns a X0 Y0 o0 -> X0 <= 780 ->
  forall j v X Y o, nth_error l j = Some v -> spot ns v X Y o -> 780 < X -> exists i w Z, (i < j)%nat /\ nth_error l i = Some w /\ exists u, spot ns w 780 Z u.
Proof.
  intros W Sa L0. induction j as [|j IH]; intros v X Y o Nv Sv Gt.
  - assert (v = a) as -> by (inversion W; subst; cbn in Nv; congruence). destruct (spot_place g a _ _ _ _ _ _ Sa Sv) as (-> & _). lia.
  - destruct (nth_error l j) as [v'|] eqn:N'; [|apply nth_error_None in N'; assert (nth_error l (S j) <> None) as Q by congruence; apply nth_error_Some in Q; lia].
    pose proof (walk_pair a b l W j v' v N' Nv) as J. destruct (TurnFacts.joined_spots d hs g R v' v J) as (X3 & Y3 & X4 & Y4 & o3 & o4 & S' & _).
    destruct (Z.lt_total X3 780) as [L|[E|L]].
    + pose proof (over_780 v' v _ _ _ _ _ _ J S' Sv L). lia.
    + subst X3. exists j, v', Y3. split; [lia|]. split; [exact N'|]. eauto.
    + destruct (IH v' X3 Y3 o3 eq_refl S' L) as (i & w & Z & Li & H). exists i, w, Z. split; [lia|exact H].
Qed.
Lemma go_to a b l X0 Y0 o0 : walk es a b l -> spot ns b X0 Y0 o0 -> X0 <= 780 ->
  forall k j v X Y o, (length l <= j + k)%nat -> nth_error l j = Some v -> spot ns v X Y o -> 780 < X -> exists i w Z, (j < i)%nat /\ nth_error l i = Some w /\ exists u, spot ns w 780 Z u.
Proof.
  intros W Sb L0. induction k as [|k IH]; intros j v X Y o Len Nv Sv Gt.
  - assert (nth_error l j <> None) as Q by congruence. apply nth_error_Some in Q. lia.
  - destruct (nth_error l (S j)) as [v'|] eqn:N'.
    + pose proof (walk_pair a b l W j v v' Nv N') as J. assert (J' : joined es v' v) by (destruct J; [right|left]; assumption).
      destruct (TurnFacts.joined_spots d hs g R v' v J') as (X3 & Y3 & X4 & Y4 & o3 & o4 & S' & _).
      destruct (Z.lt_total X3 780) as [L|[E|L]].
      * pose proof (over_780 v' v _ _ _ _ _ _ J' S' Sv L). lia.
      * subst X3. exists (S j), v', Y3. split; [lia|]. split; [exact N'|]. eauto.
      * destruct (IH (S j) v' X3 Y3 o3 ltac:(lia) N' S' L) as (i & w & Z & Li & H). exists i, w, Z. split; [lia|exact H].
    + apply nth_error_None in N'. assert (nth_error l j <> None) as Q by congruence. apply nth_error_Some in Q.
      pose proof (walk_last es a b l W) as La. replace (length l - 1)%nat with j in La by lia. rewrite Nv in La. injection La as ->.
      destruct (spot_place g b _ _ _ _ _ _ Sb Sv) as (-> & _). lia.
Qed.

Lemma twice a b l ps : TurnFacts.stop hs g (row_end 0 1) a -> TurnFacts.stop hs g (row_end far 1) b -> walk es a b l -> places g l ps ->
  2 * Z.of_N (walk_cost cost l) < 158 + 370 * Z.of_nat n -> ~ one_run 780 ps.
Proof.
  intros Sa Sb W Pl Lt. destruct (classic (exists i X Y o, In i l /\ spot ns i X Y o /\ 780 < X)) as [(v & X & Y & o & I & Sv & Gt)|No].
  2:{ assert (H : forall i X Y o, In i l -> spot ns i X Y o -> X <= 780).
      { intros i X Y o I S. destruct (Z.le_gt_cases X 780); [assumption|]. exfalso. apply No. exists i, X, Y, o. split; [exact I|]. split; [exact S|lia]. }
      pose proof (low_long a b l Sa Sb W H). lia. }
  apply In_nth_error in I as (j & Nv). destruct (start_at a Sa) as (X1 & o1 & C1 & _ & Pa). destruct (stop_at b Sb) as (X2 & o2 & C2 & _ & Pb).
  destruct (come_from a b l _ _ _ W Pa ltac:(lia) j v X Y o Nv Sv Gt) as (i & w & Z & Li & Ni & u & Su).
  destruct (go_to a b l _ _ _ W Pb ltac:(lia) (length l) j v X Y o ltac:(lia) Nv Sv Gt) as (k & w' & Z' & Lk & Nk & u' & Su').
  assert (At : forall q x X Y o, nth_error l q = Some x -> spot ns x X Y o -> exists r, nth_error ps q = Some r /\ hpoint r X Y).
  { intros q x X3 Y3 o3 Nq (nd & Nd & Hp & _). destruct (forall2_nth_l _ _ _ Pl q x Nq) as (r & Nr & (nd' & Nd' & <-)). exists (rn_loc nd'). split; [exact Nr|].
    unfold ns in Nd. rewrite Nd in Nd'. injection Nd' as <-. exact Hp. }
  destruct (At i w _ _ _ Ni Su) as (ri & Ri & Hi). destruct (At j v _ _ _ Nv Sv) as (rj & Rj & Hj). destruct (At k w' _ _ _ Nk Su') as (rk & Rk & Hk).
  intros (l1 & l2 & l3 & Ys & -> & F & Out & _).
  assert (Gi : (length l1 <= i)%nat).
  { destruct (le_lt_dec (length l1) i) as [|L]; [assumption|]. rewrite nth_error_app1 in Ri by exact L. exfalso. exact (Out ri Z (or_introl (nth_error_In _ _ Ri)) Hi). }
  assert (Gk : (k < length l1 + length l2)%nat).
  { destruct (le_lt_dec (length l1 + length l2) k) as [L|]; [|assumption]. rewrite !nth_error_app2 in Rk by lia. exfalso. exact (Out rk Z' (or_intror (nth_error_In _ _ Rk)) Hk). }
  rewrite nth_error_app2, nth_error_app1 in Rj by lia. destruct (forall2_in_l _ _ _ _ F (nth_error_In _ _ Rj)) as (Yj & _ & Hj').
  destruct (ConnectFacts.hpoint_unique _ _ _ _ _ Hj Hj') as [E _]. lia.
Qed.

End Doc.

(** A line that goes down one corridor, leaves it and comes back to it. *)
Theorem tall_not_once : exists m vb g d e ps i, fits (table_rows m) /\ layout_module m = Ret (vb, g, d) /\ In e (d_edges d) /\ e_path e = Some ps /\
  ~ one_run (2 * table_left i + 680) ps.
Proof.
  assert (L : exists k, k = 800%nat) by eauto. destruct L as (n & En). assert (Hn : (1 <= n)%nat) by lia. set (m := drift n (3 * n + 0)).
  assert (F : fits (table_rows m)) by (apply drift_fits; lia).
  destruct (layout_returns m F) as (vb & g & d & L & _). assert (Ll : links [] (m_entries m) (drift_places n (3 * n + 0))) by (apply drift_links; lia).
  destruct (rows_walk m vb g d _ F L Ll) as (d2 & ED & R & Ends & H). assert (Eh : table_rows m = repeat 3%nat (3 * n + 3)) by (apply drift_rows).
  exists m, vb, g, d. rewrite Eh in *. destruct (forall2_nth_l _ _ _ H 0%nat _ eq_refl) as (e & Ne & He).
  destruct (He _ _ _ _ eq_refl) as (ps & a & b & w & Ep & Es & Et & Sa & Sb & W & Best & Once & Pl).
  assert (Loops : forall r, (1 <= r < n)%nat -> end_at d2 (repeat 3%nat (3 * n + 3)) (row_end (3 * r + 2) 1)).
  { intros r Lr. assert (I : In (Row (3 * r + 2) 1, Row (3 * r + 2) 2) (drift_places n (3 * n + 0))).
    { right. apply in_map_iff. exists r. split; [reflexivity|]. apply in_seq. lia. }
    destruct (forall2_in_l _ _ _ _ H I) as (e' & _ & He'). destruct (He' _ _ _ _ eq_refl) as (ps' & a' & b' & w' & _ & E' & _). exact E'. }
  exists e, ps, 0%nat. split; [exact F|]. split; [exact L|]. split; [exact (nth_error_In _ _ Ne)|]. split; [exact Ep|]. change (2 * table_left 0 + 680) with 780.
  apply (twice n Hn d2 ED g R Ends Es Et a b w ps Sa Sb W Pl).
  pose proof (detour n 0 Hn ltac:(lia) d2 ED g R Loops Es Et (Z.of_N (walk_cost (rg_cost (rg_nodes g)) w))) as Up. cbn [Nat.eqb] in Up.
  destruct (Z.lt_ge_cases (840 + 184 * Z.of_nat n) (Z.of_N (walk_cost (rg_cost (rg_nodes g)) w))) as [Lt|Ge]; [exfalso; exact (Best (Up Lt))|lia].
Qed.
