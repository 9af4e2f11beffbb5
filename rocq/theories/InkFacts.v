(** Lines in one gap, and what is seen of them. *)
From Coq Require Import String Ascii List Arith ZArith Reals Lia Lra Sorting.Sorted.
From Verif Require Import Base F32 Geometry Mir Erd Route Layout Parser Cli SpecF32 SpecMir SpecLayout SpecGraph SpecLink SpecGap SpecInk
  F32Facts LatticeFacts ConnectFacts RowFacts LinkFacts DrawFacts GapFacts OuterFacts MoreFacts.
From Verif Require RepeatFacts.
Import ListNotations.
Local Open Scope Z_scope.

(** ** The strokes of a line along a vertical *)

Lemma piece_join K Y1 Y2 Y3 x y : (Y1 <= Y2 <= Y3 \/ Y3 <= Y2 <= Y1) ->
  on_piece (K, Y1) (K, Y3) x y <-> on_piece (K, Y1) (K, Y2) x y \/ on_piece (K, Y2) (K, Y3) x y.
Proof.
  intros [[A B]|[A B]]; unfold on_piece; cbn [fst snd].
  - rewrite !(Z.min_l Y1), !(Z.max_r Y1), (Z.min_l Y2), (Z.max_r Y2) by lia. apply IZR_le in A, B. destruct (Rle_or_lt y (IZR Y2)); split; intros Q; try lra.
  - rewrite !(Z.min_r Y1), !(Z.max_l Y1), (Z.min_r Y2), (Z.max_l Y2) by lia. apply IZR_le in A, B. destruct (Rle_or_lt y (IZR Y2)); split; intros Q; try lra.
Qed.

(** Upwards or downwards. *)
Definition sign (s : Z) : Prop := s = 1 \/ s = -1.
(** The line from [P] to [Q] covers the same as the strokes. *)
Definition has_strokes (sts : list stroke) (straight curved : list stroke) : Prop :=
  (forall x y, (exists a b, In (Straight a b) sts /\ on_piece a b x y) <-> (exists a b, In (Straight a b) straight /\ on_piece a b x y)) /\
  (forall a c b, In (Curved a c b) sts <-> In (Curved a c b) curved).

Lemma direction_down K Y Y' s : sign s -> s * Y < s * Y' -> direction (K, Y) (K, Y') = (0, s).
Proof. intros S L. unfold direction. cbn [fst snd]. rewrite Z.sub_diag. f_equal. destruct S as [-> | ->]; lia. Qed.
Lemma direction_side X X' Y : direction (X, Y) (X', Y) = (Z.sgn (X' - X), 0).
Proof. unfold direction. cbn [fst snd]. now rewrite Z.sub_diag. Qed.

Lemma straight_cons a b sts st cu : has_strokes sts st cu -> has_strokes (Straight a b :: sts) (Straight a b :: st) cu.
Proof.
  intros [A B]. split.
  - intros x y. specialize (A x y). split; intros (u & v & [E|I] & O).
    + injection E as <- <-. exists a, b. split; [now left|exact O].
    + destruct A as [A _]. destruct (A ltac:(eauto)) as (u' & v' & I' & O'). exists u', v'. split; [now right|exact O'].
    + injection E as <- <-. exists a, b. split; [now left|exact O].
    + destruct A as [_ A]. destruct (A ltac:(eauto)) as (u' & v' & I' & O'). exists u', v'. split; [now right|exact O'].
  - intros u c v. rewrite <- B. split; [intros [E|I]; [discriminate|exact I]|now right].
Qed.
Lemma curved_cons a c b sts st cu : has_strokes sts st cu -> has_strokes (Curved a c b :: sts) st (Curved a c b :: cu).
Proof.
  intros [A B]. split.
  - intros x y. rewrite <- A. split; intros (u & v & I & O); exists u, v; (split; [|exact O]); [destruct I as [E|I]; [discriminate|exact I]|now right].
  - intros u e v. cbn [In]. now rewrite B.
Qed.
Lemma straight_merge K Y1 Y2 Y3 st sts cu : (Y1 <= Y2 <= Y3 \/ Y3 <= Y2 <= Y1) -> has_strokes sts (Straight (K, Y2) (K, Y3) :: st) cu ->
  has_strokes (Straight (K, Y1) (K, Y2) :: sts) (Straight (K, Y1) (K, Y3) :: st) cu.
Proof.
  intros L H. apply (straight_cons (K, Y1) (K, Y2)) in H as [A B]. split; [|exact B]. intros x y. rewrite A. clear A B.
  pose proof (piece_join K Y1 Y2 Y3 x y L) as J. split.
  - intros (u & v & [E|[E|I]] & O).
    + injection E as <- <-. exists (K, Y1), (K, Y3). split; [now left|]. tauto.
    + injection E as <- <-. exists (K, Y1), (K, Y3). split; [now left|]. tauto.
    + exists u, v. split; [now right|exact O].
  - intros (u & v & [E|I] & O).
    + injection E as <- <-. apply J in O as [O|O]; [exists (K, Y1), (K, Y2)|exists (K, Y2), (K, Y3)]; (split; [|exact O]); cbn; auto.
    + exists u, v. split; [right; now right|exact O].
Qed.

Lemma trace_next a b c zs : trace_rest a (b :: c :: zs) =
  (if ((fst (direction a b) =? fst (direction b c)) && (snd (direction a b) =? snd (direction b c)))%bool
   then [LineTo b] else [LineTo (behind b (direction a b)); CurveTo b (ahead b (direction b c))]) ++ trace_rest b (c :: zs).
Proof. reflexivity. Qed.

(** The part on the vertical, from [P] on. *)
Lemma col_strokes K X2 Y2 s : sign s -> X2 <> K -> forall Ys Y0 Y1 P l,
  StronglySorted (fun a b => s * a < s * b) (Y0 :: Y1 :: Ys) -> Y1 :: Ys = l ++ [Y2] ->
  s * P <= s * Y2 - 12 -> (forall Y, In Y (Y1 :: Ys) -> s * P <= s * Y /\ (Y = Y2 \/ s * Y <= s * Y2 - 12)) ->
  has_strokes (strokes (K, P) (trace_rest (K, Y0) (map (pair K) (Y1 :: Ys) ++ [(X2, Y2)])))
    [Straight (K, P) (K, Y2 - 12 * s); Straight (K + 12 * Z.sgn (X2 - K), Y2) (X2, Y2)]
    [Curved (K, Y2 - 12 * s) (K, Y2) (K + 12 * Z.sgn (X2 - K), Y2)].
Proof.
  intros Sg N. induction Ys as [|Y' Ys IH]; intros Y0 Y1 P l So E HP HY; assert (L : s * Y0 < s * Y1) by (inversion So as [|? ? _ F]; subst; inversion F; auto).
  - destruct l as [|z [|? ?]]; injection E as ->; try discriminate. cbn [map app]. rewrite trace_next, (direction_down K Y0 Y2 s Sg L), direction_side. cbn [fst snd].
    replace (s =? 0) with false by (symmetry; apply Z.eqb_neq; destruct Sg; lia). rewrite Bool.andb_false_r. cbn [app strokes trace_rest behind ahead fst snd].
    unfold behind, ahead. cbn [fst snd]. replace (K - 12 * 0) with K by lia. replace (Y2 + 12 * 0) with Y2 by lia.
    apply straight_cons, curved_cons, straight_cons. split; [intros x y|intros a c b]; reflexivity.
  - destruct l as [|z l]; injection E as <- E; [discriminate|].
    assert (So' : StronglySorted (fun a b => s * a < s * b) (Y1 :: Y' :: Ys)) by (inversion So; auto).
    assert (L' : s * Y1 < s * Y') by (inversion So' as [|? ? _ F]; subst; inversion F; auto).
    assert (I2 : In Y2 (Y' :: Ys)) by (rewrite E; apply in_or_app; right; now left).
    assert (N1 : s * Y1 < s * Y2).
    { inversion So' as [|? ? _ F]; subst. rewrite Forall_forall in F. exact (F Y2 I2). }
    destruct (HY Y1 (or_introl eq_refl)) as [H1 H2]. assert (H3 : s * Y1 <= s * Y2 - 12) by (destruct H2 as [->|H2]; lia).
    cbn [map app]. rewrite trace_next, (direction_down K Y0 Y1 s Sg L), (direction_down K Y1 Y' s Sg L'). cbn [fst snd]. rewrite !Z.eqb_refl. cbn [andb app strokes].
    apply straight_merge; [destruct Sg as [-> | ->]; lia|].
    apply (IH Y1 Y' Y1 l So' E H3). intros Y I. destruct (HY Y (or_intror I)) as [_ H4]. split; [|exact H4].
    inversion So' as [|? ? _ F]; subst. rewrite Forall_forall in F. specialize (F Y I). cbn beta in F. lia.
Qed.

(** The points of a line along a vertical. *)
Definition apart (Y0 Y : Z) : Prop := Y = Y0 \/ 25 <= Z.abs (Y - Y0).
Definition zalong (K : Z) (zs : list (Z * Z)) (X1 Y1 X2 Y2 : Z) : Prop :=
  exists Ys, zs = (X1, Y1) :: map (pair K) Ys ++ [(X2, Y2)] /\ (exists l, Ys = Y1 :: l) /\ (exists l, Ys = l ++ [Y2]) /\
    (StronglySorted Z.lt Ys \/ StronglySorted Z.gt Ys) /\ Forall (fun Y => apart Y1 Y /\ apart Y2 Y) Ys.

Lemma zalong_strokes K zs X1 Y1 X2 Y2 s : zalong K zs X1 Y1 X2 Y2 -> X1 <> K -> X2 <> K -> sign s -> s * Y1 < s * Y2 ->
  has_strokes (drawn zs)
    [Straight (X1, Y1) (K + 12 * Z.sgn (X1 - K), Y1); Straight (K, Y1 + 12 * s) (K, Y2 - 12 * s); Straight (K + 12 * Z.sgn (X2 - K), Y2) (X2, Y2)]
    [Curved (K + 12 * Z.sgn (X1 - K), Y1) (K, Y1) (K, Y1 + 12 * s); Curved (K, Y2 - 12 * s) (K, Y2) (K + 12 * Z.sgn (X2 - K), Y2)] /\ s * Y1 + 25 <= s * Y2.
Proof.
  intros (Ys & -> & (l & ->) & (l' & E) & So & Ap) N1 N2 Sg L.
  destruct l' as [|z l']; [injection E as -> ->; lia|]. injection E as <- E. destruct l as [|Y' Ys]; [destruct l'; discriminate|].
  assert (So' : StronglySorted (fun a b => s * a < s * b) (Y1 :: Y' :: Ys)).
  { assert (G : forall P Q : Z -> Z -> Prop, (forall x y, P x y -> Q x y) -> forall l0, StronglySorted P l0 -> StronglySorted Q l0).
    { intros P Q PQ. induction 1 as [|x l0 S0 IH F]; constructor; auto. revert F. apply Forall_impl. intros y. apply PQ. }
    assert (I2 : In Y2 (Y' :: Ys)) by (rewrite E; apply in_or_app; right; now left).
    destruct Sg as [-> | ->], So as [So|So]; try (revert So; apply G; lia); exfalso; inversion So as [|? ? _ F]; subst; rewrite Forall_forall in F; specialize (F Y2 I2); lia. }
  assert (L' : s * Y1 < s * Y') by (inversion So' as [|? ? _ F]; subst; inversion F; auto).
  rewrite Forall_forall in Ap.
  assert (Ab : forall Y, In Y (Y' :: Ys) -> s * Y1 < s * Y).
  { intros Y I. inversion So' as [|? ? _ F]; subst. rewrite Forall_forall in F. exact (F Y I). }
  assert (Be : forall Y, In Y (Y' :: Ys) -> s * Y <= s * Y2).
  { intros Y I. rewrite E in So', I. clear - So' I. apply in_app_or in I as [I|[<-|[]]]; [|lia]. inversion So' as [|? ? So'' _]; subst. clear So'.
    induction l' as [|z l' IH]; [destruct I|]. cbn in So''. inversion So'' as [|? ? S0 F]; subst. destruct I as [<-|I]; [|exact (IH I S0)].
    rewrite Forall_forall in F. specialize (F Y2 ltac:(apply in_or_app; right; now left)). cbn beta in F. lia. }
  assert (I2 : In Y2 (Y' :: Ys)) by (rewrite E; apply in_or_app; right; now left).
  assert (D : s * Y1 + 25 <= s * Y2).
  { destruct (Ap Y2 (or_intror I2)) as [[H|H] _]; destruct Sg as [-> | ->]; lia. }
  split; [|exact D]. unfold drawn, trace. cbn [map app strokes]. rewrite trace_next, direction_side, (direction_down K Y1 Y' s Sg L'). cbn [fst snd].
  replace (0 =? s) with false by (symmetry; apply Z.eqb_neq; destruct Sg; lia). rewrite Bool.andb_false_r. cbn [app strokes behind ahead fst snd].
  unfold behind at 1 2, ahead at 1 2. cbn [fst snd]. replace (K + 12 * 0) with K by lia. replace (Y1 - 12 * 0) with Y1 by lia.
  replace (K - 12 * Z.sgn (K - X1)) with (K + 12 * Z.sgn (X1 - K)) by lia.
  apply straight_cons, curved_cons. apply (col_strokes K X2 Y2 s Sg N2 Ys Y1 Y' (Y1 + 12 * s) l' So' E).
  - destruct Sg as [-> | ->]; lia.
  - intros Y I. destruct (Ap Y (or_intror I)) as [H1 H2]. pose proof (Ab Y I) as H3. pose proof (Be Y I) as H4.
    destruct Sg as [-> | ->]; destruct H1 as [H1|H1], H2 as [H2|H2]; lia.
Qed.
Lemma zalong_ends K zs X1 Y1 X2 Y2 : zalong K zs X1 Y1 X2 Y2 -> forall z, ends_at zs z <-> z = (X1, Y1) \/ z = (X2, Y2).
Proof.
  intros (Ys & -> & _) z. split.
  - intros [(l & E)|(l & E)]; [injection E as <- _; now left|].
    change (((X1, Y1) :: map (pair K) Ys) ++ [(X2, Y2)] = l ++ [z]) in E. apply app_inj_tail in E as [_ <-]. now right.
  - intros [-> | ->]; [left; eexists; reflexivity|right]. exists ((X1, Y1) :: map (pair K) Ys). reflexivity.
Qed.

(** ** Lines on the same vertical *)

Lemma two_lines {A} (P : A -> Prop) a b : (exists x, In x [a; b] /\ P x) <-> P a \/ P b.
Proof. split; [intros (x & [<-|[<-|[]]] & H); auto|intros [H|H]; eexists; (split; [|exact H]); cbn; auto]. Qed.
Lemma three_strokes a b a' b' a'' b'' x y :
  (exists u v, In (Straight u v) [Straight a b; Straight a' b'; Straight a'' b''] /\ on_piece u v x y) <-> on_piece a b x y \/ on_piece a' b' x y \/ on_piece a'' b'' x y.
Proof.
  split.
  - intros (u & v & [E|[E|[E|[]]]] & O); injection E as <- <-; auto.
  - intros [O|[O|O]]; do 2 eexists; (split; [|exact O]); cbn; auto.
Qed.
Lemma piece_cross K A A' B B' s x y : sign s -> s * A + 25 <= s * B -> s * A + 25 <= s * B' -> s * A' + 25 <= s * B -> s * A' + 25 <= s * B' ->
  on_piece (K, A + 12 * s) (K, B - 12 * s) x y \/ on_piece (K, A' + 12 * s) (K, B' - 12 * s) x y ->
  on_piece (K, A + 12 * s) (K, B' - 12 * s) x y \/ on_piece (K, A' + 12 * s) (K, B - 12 * s) x y.
Proof.
  intros Sg. unfold on_piece. cbn [fst snd]. destruct Sg as [-> | ->]; intros H1 H2 H3 H4.
  - replace (12 * 1) with 12 by lia. rewrite !(Z.min_l (A + 12)), !(Z.min_l (A' + 12)), !(Z.max_r (A + 12)), !(Z.max_r (A' + 12)) by lia.
    assert (G1 : A + 12 <= B - 12) by lia. assert (G2 : A + 12 <= B' - 12) by lia. assert (G3 : A' + 12 <= B - 12) by lia. assert (G4 : A' + 12 <= B' - 12) by lia.
    clear H1 H2 H3 H4. revert G1 G2 G3 G4. generalize (A + 12) (A' + 12) (B - 12) (B' - 12). clear A A' B B'. intros A A' B B' H1 H2 H3 H4. apply IZR_le in H1, H2, H3, H4.
    destruct (Rle_or_lt y (IZR B')); destruct (Rle_or_lt y (IZR B)); destruct (Rle_or_lt (IZR A) y); destruct (Rle_or_lt (IZR A') y); intros [Q|Q]; try lra; solve [left; lra|right; lra].
  - replace (A + 12 * -1) with (A - 12) by lia. replace (A' + 12 * -1) with (A' - 12) by lia. replace (B - 12 * -1) with (B + 12) by lia. replace (B' - 12 * -1) with (B' + 12) by lia.
    rewrite !(Z.min_r (A - 12)), !(Z.min_r (A' - 12)), !(Z.max_l (A - 12)), !(Z.max_l (A' - 12)) by lia.
    assert (G1 : B + 12 <= A - 12) by lia. assert (G2 : B' + 12 <= A - 12) by lia. assert (G3 : B + 12 <= A' - 12) by lia. assert (G4 : B' + 12 <= A' - 12) by lia.
    clear H1 H2 H3 H4. revert G1 G2 G3 G4. generalize (A - 12) (A' - 12) (B + 12) (B' + 12). clear A A' B B'. intros A A' B B' H1 H2 H3 H4. apply IZR_le in H1, H2, H3, H4.
    destruct (Rle_or_lt (IZR B') y); destruct (Rle_or_lt (IZR B) y); destruct (Rle_or_lt y (IZR A)); destruct (Rle_or_lt y (IZR A')); intros [Q|Q]; try lra; solve [left; lra|right; lra].
Qed.

Lemma crossed K XA YA XA' YA' XB YB XB' YB' p1 p2 p3 p4 s : sign s ->
  zalong K p1 XA YA XB YB -> zalong K p2 XA' YA' XB' YB' -> zalong K p3 XA YA XB' YB' -> zalong K p4 XA' YA' XB YB ->
  XA <> K -> XA' <> K -> XB <> K -> XB' <> K -> s * YA < s * YB -> s * YA < s * YB' -> s * YA' < s * YB -> s * YA' < s * YB' -> look_alike [p1; p2] [p3; p4].
Proof.
  intros Sg A1 A2 A3 A4 N1 N2 N3 N4 L1 L2 L3 L4.
  destruct (zalong_strokes _ _ _ _ _ _ s A1 N1 N3 Sg L1) as [[P1 C1] D1]. destruct (zalong_strokes _ _ _ _ _ _ s A2 N2 N4 Sg L4) as [[P2 C2] D4].
  destruct (zalong_strokes _ _ _ _ _ _ s A3 N1 N4 Sg L2) as [[P3 C3] D2]. destruct (zalong_strokes _ _ _ _ _ _ s A4 N2 N3 Sg L3) as [[P4 C4] D3].
  split; [|split].
  - intros x y. rewrite !two_lines. unfold covers. rewrite P1, P2, P3, P4, !three_strokes.
    pose proof (piece_cross K YA YA' YB YB' s x y Sg D1 D2 D3 D4). pose proof (piece_cross K YA YA' YB' YB s x y Sg D2 D1 D4 D3). tauto.
  - intros a c b. rewrite !two_lines. unfold rounds. rewrite !C1, !C2, !C3, !C4. cbn [In]. tauto.
  - intros z. rewrite !two_lines. rewrite (zalong_ends _ _ _ _ _ _ A1), (zalong_ends _ _ _ _ _ _ A2), (zalong_ends _ _ _ _ _ _ A3), (zalong_ends _ _ _ _ _ _ A4). tauto.
Qed.

(** ** Heights along a line *)

Lemma rows_level hs t u (a b : Z) : (zt hs t = zt hs u /\ (t / 3 = u / 3)%nat \/ zb hs t + 160 <= zt hs u \/ zb hs u + 160 <= zt hs t) ->
  zt hs t + 35 <= zt hs t + 35 * a <= zb hs t - 35 -> zt hs u + 35 <= zt hs u + 35 * b <= zb hs u - 35 -> apart (zt hs t + 35 * a) (zt hs u + 35 * b).
Proof. intros [(E & _)|H] A B; unfold apart; [rewrite E in *|]; lia. Qed.
Lemma level_apart d hs g i k a X Y o : end_doc d hs -> routes d hs g -> anchor_ok hs (row_end i k) -> spot (rg_nodes g) a X Y o -> apart (rowY hs (row_end i k)) Y.
Proof.
  intros FD R K A. set (c := row_end i k) in *. pose proof (ed_grid d hs FD) as GD. pose proof (rows_apart hs) as RA.
  assert (M : forall u, exists m, rowY hs u = zt hs (tab u) + 35 * m).
  { intros [t r|t]; cbn [rowY tab]; [exists (2 * Z.of_nat r + 1)|eexists; reflexivity]. lia. }
  assert (Ro : forall u, anchor_ok hs u -> apart (rowY hs c) (rowY hs u)).
  { intros u Ku. pose proof (row_within d hs FD c K) as W1. pose proof (row_within d hs FD u Ku) as W2.
    destruct (M c) as (m1 & E1), (M u) as (m2 & E2). rewrite E1, E2 in *. apply rows_level; auto. }
  pose proof (row_within d hs FD c K) as W.
  assert (Ed : forall t, (t < length hs)%nat -> forall y, y = zt hs t - 80 \/ y = zb hs t + 80 \/ y = zt hs t \/ y = zb hs t -> apart (rowY hs c) y).
  { intros t Lt y Hy. destruct K as [Lc _]. specialize (RA (tab c) t). pose proof (table_bounds d hs GD t Lt). pose proof (table_bounds d hs GD _ Lc). unfold apart.
    destruct RA as [(E & _)|[RA|RA]]; try lia. pose proof (zb_rows hs t). pose proof (zb_rows hs (tab c)).
    destruct Hy as [-> | [-> | [-> | ->]]]; try lia; cbn [c rowY tab] in *; lia. }
  destruct (spot_kind d hs FD g R a X Y o A) as [(_ & _ & _ & (t & Lt & Q))|[(_ & _ & _ & u & (e & E & _ & ->) & _)|[(_ & u & _ & _ & (t & Lt & Q) & _)|[(_ & (e & E & _ & ->) & _)|[(_ & (e & E & _ & ->) & _)|(e & E & _ & H)]]]]].
  - apply (Ed t Lt). tauto.
  - apply Ro, (end_ok d hs e E).
  - apply (Ed t Lt). tauto.
  - apply Ro, (end_ok d hs e E).
  - apply Ro, (end_ok d hs e E).
  - destruct (end_ok d hs e E) as [Lt _]. destruct H as [(_ & -> & _)|(_ & -> & _)]; apply (Ed _ Lt); tauto.
Qed.

Definition gap_line (i j : nat) : Z := table_left i + table_left j + 300.
(** The side of the table [i] towards the table [j]. *)
Definition near_side (i j : nat) : Z := if (i mod 3 <? j mod 3)%nat then 2 * (table_left i + 300) else 2 * table_left i.

Lemma along_zalong K ps X1 Y1 X2 Y2 zs : along K ps X1 Y1 X2 Y2 -> Forall2 (fun p z => hpoint p (fst z) (snd z)) ps zs ->
  (forall p X Y, In p ps -> hpoint p X Y -> apart Y1 Y /\ apart Y2 Y) -> zalong K zs X1 Y1 X2 Y2.
Proof.
  intros (p & inner & q & Ys & -> & Hp & Hq & F & A & B & So) H Ap. exists Ys.
  inversion H as [|? z ? zs' Hz H']; subst. apply Forall2_app_inv_l in H' as (z1 & z2 & H1 & H2 & ->).
  inversion H2 as [|? z' ? ? Hz' H3]; subst. inversion H3; subst. destruct z as [X Y], z' as [X' Y']. cbn [fst snd] in *.
  destruct (hpoint_unique _ _ _ _ _ Hp Hz) as [<- <-]. destruct (hpoint_unique _ _ _ _ _ Hq Hz') as [<- <-].
  split; [|split; [exact A|split; [exact B|split; [exact So|]]]].
  - f_equal. f_equal. clear - F H1. revert z1 H1. induction F as [|r Y inner0 Ys0 Hr F IH]; intros z1 H1; inversion H1 as [|? [X0 Y0] ? ? H0 H4]; subst; [reflexivity|].
    cbn [map]. cbn [fst snd] in H0. destruct (hpoint_unique _ _ _ _ _ Hr H0) as [<- <-]. f_equal. now apply IH.
  - apply Forall_forall. intros Y0 I. destruct (forall2_in_r _ _ _ _ F I) as (r & Ir & Hr). apply (Ap r K Y0); [|exact Hr]. right. apply in_or_app. now left.
Qed.
Lemma levels_apart m vb g d ls n e i k j l ps : fits (table_rows m) -> layout_module m = Ret (vb, g, d) -> links [] (m_entries m) ls ->
  nth_error ls n = Some (Row i k, Row j l) -> nth_error (d_edges d) n = Some e -> e_path e = Some ps ->
  forall p X Y, In p ps -> hpoint p X Y -> apart (row_middle (table_rows m) i k) Y /\ apart (row_middle (table_rows m) j l) Y.
Proof.
  intros F L Ll Hn He Ep p X Y I Hp. destruct (rows_walk m vb g d ls F L Ll) as (d2 & ED & R & _ & H).
  destruct (forall2_nth_l _ _ _ H n _ Hn) as (e' & He' & Q). rewrite He in He'. injection He' as <-.
  destruct (Q i k j l eq_refl) as (ps' & a & b & w & Ep' & E1 & E2 & _ & _ & _ & _ & _ & Pl). rewrite Ep in Ep'. injection Ep' as <-.
  destruct (forall2_in_r _ _ _ _ Pl I) as (u & _ & nd & Hu & <-).
  assert (S0 : spot (rg_nodes g) u X Y (rn_orient nd)) by (exists nd; auto).
  split; [exact (level_apart d2 _ g i k u X Y _ ED R (end_ok d2 _ _ E1) S0)|exact (level_apart d2 _ g j l u X Y _ ED R (end_ok d2 _ _ E2) S0)].
Qed.

Lemma line_in_gap m vb g d ls i k j l zs : fits (table_rows m) -> layout_module m = Ret (vb, g, d) -> links [] (m_entries m) ls ->
  line_of d ls (Row i k, Row j l) zs -> neighbours i j ->
  zalong (gap_line i j) zs (near_side i j) (row_middle (table_rows m) i k) (near_side j i) (row_middle (table_rows m) j l).
Proof.
  intros F L Ll (n & e & Hn & He & ps & Ep & Z) (C & N).
  pose proof (neighbours_in_gap m vb g d ls F L Ll) as H. destruct (forall2_nth_l _ _ _ H n _ Hn) as (e' & He' & Q).
  rewrite He in He'. injection He' as <-. destruct (Q i k j l eq_refl N) as (ps' & Ep' & R1 & R2). rewrite Ep in Ep'. injection Ep' as <-.
  apply (along_zalong _ ps); [|exact Z|exact (levels_apart m vb g d ls n e i k j l ps F L Ll Hn He Ep)].
  unfold gap_line, near_side. destruct C as [C|C].
  - destruct (R1 C) as (K & EK & A). rewrite (proj2 (Nat.ltb_lt _ _)), (proj2 (Nat.ltb_ge _ _)) by lia.
    replace (table_left i + table_left j + 300) with K by lia. exact A.
  - destruct (R2 C) as (K & EK & A). rewrite (proj2 (Nat.ltb_ge _ _)), (proj2 (Nat.ltb_lt _ _)) by lia.
    replace (table_left i + table_left j + 300) with K by lia. exact A.
Qed.
Lemma left_column i i' : (i mod 3 = i' mod 3)%nat -> table_left i = table_left i'.
Proof. intros E. unfold table_left. now rewrite E. Qed.
Lemma near_same i i' j j' : (i mod 3 = i' mod 3)%nat -> (j mod 3 = j' mod 3)%nat -> near_side i j = near_side i' j'.
Proof. intros E E'. unfold near_side. now rewrite E, E', (left_column i i' E). Qed.
Lemma gap_same i i' j j' : (i mod 3 = i' mod 3)%nat -> (j mod 3 = j' mod 3)%nat -> gap_line i j = gap_line i' j'.
Proof. intros E E'. unfold gap_line. now rewrite (left_column i i' E), (left_column j j' E'). Qed.
Lemma near_off i j : neighbours i j -> near_side i j <> gap_line i j /\ near_side j i <> gap_line i j.
Proof.
  intros (C & _). unfold near_side, gap_line. assert (Z : forall u, table_left u = 50 + 380 * Z.of_nat (u mod 3)) by reflexivity. rewrite !Z.
  destruct C as [C|C]; rewrite C; destruct (Nat.ltb_spec (i mod 3) (S (i mod 3))); destruct (Nat.ltb_spec (S (i mod 3)) (i mod 3)); try lia;
    destruct (Nat.ltb_spec (j mod 3) (S (j mod 3))); destruct (Nat.ltb_spec (S (j mod 3)) (j mod 3)); lia.
Qed.

Theorem crossed_alike m m' vb g d vb' g' d' ls ls' i k i' k' j l j' l' p1 p2 p3 p4 :
  fits (table_rows m) -> table_rows m' = table_rows m -> layout_module m = Ret (vb, g, d) -> layout_module m' = Ret (vb', g', d') ->
  links [] (m_entries m) ls -> links [] (m_entries m') ls' ->
  line_of d ls (Row i k, Row j l) p1 -> line_of d ls (Row i' k', Row j' l') p2 ->
  line_of d' ls' (Row i k, Row j' l') p3 -> line_of d' ls' (Row i' k', Row j l) p4 ->
  (i mod 3 = i' mod 3)%nat -> (j mod 3 = j' mod 3)%nat -> neighbours i j -> neighbours i j' -> neighbours i' j -> neighbours i' j' ->
  (let y := row_middle (table_rows m) in (y i k < y j l /\ y i k < y j' l' /\ y i' k' < y j l /\ y i' k' < y j' l') \/
     (y j l < y i k /\ y j' l' < y i k /\ y j l < y i' k' /\ y j' l' < y i' k')) ->
  look_alike [p1; p2] [p3; p4].
Proof.
  intros F E L L' Ll Ll' H1 H2 H3 H4 Ci Cj N1 N2 N3 N4 O. cbv zeta in O.
  assert (F' : fits (table_rows m')) by (rewrite E; exact F).
  pose proof (line_in_gap m vb g d ls i k j l p1 F L Ll H1 N1) as A1. pose proof (line_in_gap m vb g d ls i' k' j' l' p2 F L Ll H2 N4) as A2.
  pose proof (line_in_gap m' vb' g' d' ls' i k j' l' p3 F' L' Ll' H3 N2) as A3. pose proof (line_in_gap m' vb' g' d' ls' i' k' j l p4 F' L' Ll' H4 N3) as A4.
  rewrite E in A3, A4. pose proof (near_off i j N1) as [O1 O2].
  rewrite <- (gap_same i i' j j' Ci Cj), <- (near_same i i' j j' Ci Cj), <- (near_same j j' i i' Cj Ci) in A2.
  rewrite <- (gap_same i i j j' eq_refl Cj), <- (near_same i i j j' eq_refl Cj), <- (near_same j j' i i Cj eq_refl) in A3.
  rewrite <- (gap_same i i' j j Ci eq_refl), <- (near_same i i' j j Ci eq_refl), <- (near_same j j i i' eq_refl Ci) in A4.
  destruct O as [O|O]; [refine (crossed _ _ _ _ _ _ _ _ _ p1 p2 p3 p4 1 (or_introl eq_refl) A1 A2 A3 A4 O1 O1 O2 O2 _ _ _ _)
                       |refine (crossed _ _ _ _ _ _ _ _ _ p1 p2 p3 p4 (-1) (or_intror eq_refl) A1 A2 A3 A4 O1 O1 O2 O2 _ _ _ _)]; lia.
Qed.

(** ** Lines in the same gap *)

Lemma zalong_covers K zs X1 Y1 X2 Y2 y : zalong K zs X1 Y1 X2 Y2 -> X1 <> K -> X2 <> K ->
  (IZR (Z.min Y1 Y2 + 12) <= y <= IZR (Z.max Y1 Y2 - 12))%R -> covers zs (IZR K) y.
Proof.
  intros A N1 N2 B. destruct (Z.lt_total Y1 Y2) as [H|[H|H]].
  - rewrite Z.min_l, Z.max_r in B by lia. destruct (zalong_strokes _ _ _ _ _ _ 1 A N1 N2 (or_introl eq_refl)) as [[C _] D]; [lia|].
    apply C, three_strokes. right. left. unfold on_piece. cbn [fst snd]. rewrite !Z.min_id, !Z.max_id, Z.min_l, Z.max_r by lia. split; [lra|exact B].
  - subst Y2. rewrite Z.min_id, Z.max_id in B. exfalso. assert (Q : (IZR (Y1 + 12) <= IZR (Y1 - 12))%R) by lra. apply le_IZR in Q. lia.
  - rewrite Z.min_r, Z.max_l in B by lia. destruct (zalong_strokes _ _ _ _ _ _ (-1) A N1 N2 (or_intror eq_refl)) as [[C _] D]; [lia|].
    apply C, three_strokes. right. left. unfold on_piece. cbn [fst snd]. rewrite !Z.min_id, !Z.max_id, Z.min_r, Z.max_l by lia.
    replace (Y1 + 12 * -1) with (Y1 - 12) by lia. replace (Y2 - 12 * -1) with (Y2 + 12) by lia. split; [lra|exact B].
Qed.
Theorem gap_shared m vb g d ls i k j l i' k' j' l' p1 p2 :
  fits (table_rows m) -> layout_module m = Ret (vb, g, d) -> links [] (m_entries m) ls ->
  line_of d ls (Row i k, Row j l) p1 -> line_of d ls (Row i' k', Row j' l') p2 -> neighbours i j -> neighbours i' j' ->
  (i mod 3 = i' mod 3 /\ j mod 3 = j' mod 3 \/ i mod 3 = j' mod 3 /\ j mod 3 = i' mod 3)%nat ->
  exists x, forall y, (let h := row_middle (table_rows m) in
    IZR (Z.min (h i k) (h j l) + 12) <= y <= IZR (Z.max (h i k) (h j l) - 12) /\
    IZR (Z.min (h i' k') (h j' l') + 12) <= y <= IZR (Z.max (h i' k') (h j' l') - 12))%R ->
  covers p1 x y /\ covers p2 x y.
Proof.
  intros F L Ll H1 H2 N1 N2 C.
  pose proof (line_in_gap m vb g d ls i k j l p1 F L Ll H1 N1) as A1. pose proof (line_in_gap m vb g d ls i' k' j' l' p2 F L Ll H2 N2) as A2.
  pose proof (near_off i j N1) as [O1 O2]. pose proof (near_off i' j' N2) as [O3 O4].
  assert (G : gap_line i' j' = gap_line i j).
  { destruct C as [(C1 & C2)|(C1 & C2)]; [symmetry; now apply gap_same|]. unfold gap_line. rewrite (left_column i j' C1), (left_column j i' C2). lia. }
  rewrite G in A2, O3, O4. exists (IZR (gap_line i j)). intros y (B1 & B2).
  split; [exact (zalong_covers _ _ _ _ _ _ y A1 O1 O2 B1)|exact (zalong_covers _ _ _ _ _ _ y A2 O3 O4 B2)].
Qed.

(** ** Samples *)

Definition parallel : module := three 2 4 1 [rel_fields "a" "a" "b" "c"; rel_fields "a" "b" "b" "d"].
Definition swapped : module := three 2 4 1 [rel_fields "a" "a" "b" "d"; rel_fields "a" "b" "b" "c"].
Lemma parallel_links : links [] (m_entries parallel) [(Row 0 1, Row 1 3); (Row 0 2, Row 1 4)]. Proof. links_tac. Qed.
Lemma swapped_links : links [] (m_entries swapped) [(Row 0 1, Row 1 4); (Row 0 2, Row 1 3)]. Proof. links_tac. Qed.

Lemma path_halves m vb g d e : fits (table_rows m) -> layout_module m = Ret (vb, g, d) -> In e (d_edges d) -> exists zs, path_through e zs.
Proof.
  intros F L I. destruct (layout_routes m vb g d F L) as (d0 & M & V & D & R).
  destruct (module_cheapest m vb g d F L e I) as (s & t & w & ps & _ & _ & Ep & Pl & _).
  destruct (RepeatFacts.places_spots _ _ g R w ps Pl) as (zs & _ & H). exists zs, ps. auto.
Qed.
Lemma lines_exist m r1 r2 : fits (table_rows m) -> links [] (m_entries m) [r1; r2] ->
  exists vb g d p1 p2, layout_module m = Ret (vb, g, d) /\ lines d [p1; p2] /\ line_of d [r1; r2] r1 p1 /\ line_of d [r1; r2] r2 p2.
Proof.
  intros F Ll. destruct (layout_returns m F) as (vb & g & d & L & _). pose proof (neighbours_in_gap m vb g d _ F L Ll) as H.
  inversion H as [|? e1 ? t _ H']; subst. inversion H' as [|? e2 ? t' _ H'']; subst. inversion H''; subst.
  match goal with Q : _ = d_edges d |- _ => symmetry in Q; rename Q into E end.
  destruct (path_halves m vb g d e1 F L ltac:(rewrite E; now left)) as (p1 & E1). destruct (path_halves m vb g d e2 F L ltac:(rewrite E; right; now left)) as (p2 & E2).
  exists vb, g, d, p1, p2. split; [exact L|]. unfold lines, line_of. rewrite E. split; [constructor; [exact E1|constructor; [exact E2|constructor]]|].
  split; [exists 0%nat, e1|exists 1%nat, e2]; auto.
Qed.

Theorem relations_hidden : exists m m' vb g d vb' g' d' ls ls' pss pss',
  fits (table_rows m) /\ definitions (m_entries m) = definitions (m_entries m') /\
  layout_module m = Ret (vb, g, d) /\ layout_module m' = Ret (vb', g', d') /\ links [] (m_entries m) ls /\ links [] (m_entries m') ls' /\
  lines d pss /\ lines d' pss' /\ look_alike pss pss' /\
  exists p q, In (p, q) ls /\ ~ In (p, q) ls' /\ ~ In (q, p) ls'.
Proof.
  assert (F : fits (table_rows parallel)) by (unfold fits; vm_compute; discriminate).
  assert (F' : fits (table_rows swapped)) by (unfold fits; vm_compute; discriminate).
  destruct (lines_exist parallel _ _ F parallel_links) as (vb & g & d & p1 & p2 & L & Ls & H1 & H2).
  destruct (lines_exist swapped _ _ F' swapped_links) as (vb' & g' & d' & p3 & p4 & L' & Ls' & H3 & H4).
  exists parallel, swapped, vb, g, d, vb', g', d'. do 2 eexists. exists [p1; p2], [p3; p4].
  split; [exact F|]. split; [reflexivity|]. split; [exact L|]. split; [exact L'|]. split; [exact parallel_links|]. split; [exact swapped_links|].
  split; [exact Ls|]. split; [exact Ls'|]. split.
  - assert (N : neighbours 0 1) by (split; cbn; lia).
    refine (crossed_alike parallel swapped vb g d vb' g' d' _ _ 0 1 0 2 1 3 1 4 p1 p2 p3 p4 F eq_refl L L' parallel_links swapped_links H1 H2 H3 H4 eq_refl eq_refl N N N N _).
    left. vm_compute. auto.
  - exists (Row 0 1), (Row 1 3). split; [now left|]. split; intros [Q|[Q|[]]]; discriminate.
Qed.
