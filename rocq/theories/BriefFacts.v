(** Lengths and corners of lines. *)
From Coq Require Import String Ascii List Arith ZArith Lia Sorting.Sorted.
From Verif Require Import Base F32 Geometry Mir Erd Route Layout Parser Cli SpecF32 SpecMir SpecLayout SpecGraph SpecLink SpecGap SpecInk SpecShort
  F32Facts LatticeFacts ConnectFacts RowFacts LinkFacts DrawFacts GapFacts OuterFacts MoreFacts InkFacts.
Import ListNotations.
Local Open Scope Z_scope.

Definition is_curve (s : stroke) : bool := match s with Curved _ _ _ => true | Straight _ _ => false end.

(** ** Corners *)

Lemma col_curves K X2 Y2 s : sign s -> X2 <> K -> forall Ys Y0 Y1 P l,
  StronglySorted (fun a b => s * a < s * b) (Y0 :: Y1 :: Ys) -> Y1 :: Ys = l ++ [Y2] ->
  length (filter is_curve (strokes (K, P) (trace_rest (K, Y0) (map (pair K) (Y1 :: Ys) ++ [(X2, Y2)])))) = 1%nat.
Proof.
  intros Sg N. induction Ys as [|Y' Ys IH]; intros Y0 Y1 P l So E; assert (L : s * Y0 < s * Y1) by (inversion So as [|? ? _ F]; subst; inversion F; auto).
  - destruct l as [|z [|? ?]]; injection E as ->; try discriminate. cbn [map app]. rewrite trace_next, (direction_down K Y0 Y2 s Sg L), direction_side. cbn [fst snd].
    replace (s =? 0) with false by (symmetry; apply Z.eqb_neq; destruct Sg; lia). rewrite Bool.andb_false_r. reflexivity.
  - destruct l as [|z l]; injection E as <- E; [discriminate|].
    assert (So' : StronglySorted (fun a b => s * a < s * b) (Y1 :: Y' :: Ys)) by (inversion So; auto).
    assert (L' : s * Y1 < s * Y') by (inversion So' as [|? ? _ F]; subst; inversion F; auto).
    cbn [map app]. rewrite trace_next, (direction_down K Y0 Y1 s Sg L), (direction_down K Y1 Y' s Sg L'). cbn [fst snd]. rewrite !Z.eqb_refl. cbn [andb app strokes filter is_curve].
    exact (IH Y1 Y' Y1 l So' E).
Qed.
Lemma sorted_sign Ys : StronglySorted Z.lt Ys \/ StronglySorted Z.gt Ys -> exists s, sign s /\ StronglySorted (fun a b => s * a < s * b) Ys.
Proof.
  assert (G : forall P Q : Z -> Z -> Prop, (forall x y, P x y -> Q x y) -> forall l0, StronglySorted P l0 -> StronglySorted Q l0).
  { intros P Q PQ. induction 1 as [|x l0 S0 IH F]; constructor; auto. revert F. apply Forall_impl. intros y. apply PQ. }
  intros [S0|S0]; [exists 1|exists (-1)]; (split; [unfold sign; auto|]); revert S0; apply G; lia.
Qed.
Lemma zalong_corners K zs X1 Y1 X2 Y2 : zalong K zs X1 Y1 X2 Y2 -> X1 <> K -> X2 <> K -> Y1 <> Y2 -> corners zs = 2%nat.
Proof.
  intros (Ys & -> & (l & ->) & (l' & E) & So & _) N1 N2 Ny. unfold corners.
  destruct l' as [|z l']; [injection E as -> ->; lia|]. injection E as <- E. destruct l as [|Y' Ys]; [destruct l'; discriminate|].
  destruct (sorted_sign _ So) as (s & Sg & So'). assert (L' : s * Y1 < s * Y') by (inversion So' as [|? ? _ F]; subst; inversion F; auto).
  unfold drawn, trace. cbn [map app strokes]. rewrite trace_next, direction_side, (direction_down K Y1 Y' s Sg L'). cbn [fst snd].
  replace (0 =? s) with false by (symmetry; apply Z.eqb_neq; destruct Sg; lia). rewrite Bool.andb_false_r. cbn [app strokes filter].
  cbn [length]. f_equal. unfold ahead at 1. cbn [fst snd]. replace (K + 12 * 0) with K by lia. exact (col_curves K X2 Y2 s Sg N2 Ys Y1 Y' _ l' So' E).
Qed.
Lemma zalong_straight K zs X1 Y1 X2 : zalong K zs X1 Y1 X2 Y1 -> (X1 < K < X2 \/ X2 < K < X1) -> corners zs = 0%nat.
Proof.
  intros (Ys & -> & (l & ->) & (l' & E) & So & _) B. destruct (sorted_sign _ So) as (s & Sg & So').
  assert (l = []).
  { destruct l' as [|z l']; [now injection E|]. injection E as <- E. inversion So' as [|? ? _ F]; subst. rewrite Forall_forall in F.
    specialize (F Y1 ltac:(apply in_or_app; right; now left)). lia. }
  subst l. unfold corners, drawn, trace. cbn [map app strokes]. rewrite trace_next, !direction_side. cbn [fst snd].
  replace (Z.sgn (K - X1)) with (Z.sgn (X2 - K)) by lia. rewrite !Z.eqb_refl. reflexivity.
Qed.

(** ** Lengths *)

Lemma way_least zs : forall a b, leads a b zs -> Z.abs (fst a - fst b) + Z.abs (snd a - snd b) <= way zs.
Proof.
  induction zs as [|z zs IH]; intros a b [H (l & E)]; [discriminate|]. injection H as ->. destruct zs as [|z' zs].
  - destruct l as [|? [|? ?]]; injection E as ->; try discriminate. cbn. lia.
  - destruct l as [|? l]; [discriminate|]. injection E as _ E. specialize (IH z' b ltac:(split; [reflexivity|eauto])). cbn [way] in *. lia.
Qed.
Lemma col_way K X2 Y2 : forall Ys Y1 l, (StronglySorted Z.lt (Y1 :: Ys) \/ StronglySorted Z.gt (Y1 :: Ys)) -> Y1 :: Ys = l ++ [Y2] ->
  way (map (pair K) (Y1 :: Ys) ++ [(X2, Y2)]) = Z.abs (Y1 - Y2) + Z.abs (K - X2).
Proof.
  induction Ys as [|Y' Ys IH]; intros Y1 l So E.
  - destruct l as [|z [|? ?]]; injection E as ->; try discriminate. cbn. lia.
  - destruct l as [|z l]; injection E as <- E; [discriminate|].
    assert (So' : StronglySorted Z.lt (Y' :: Ys) \/ StronglySorted Z.gt (Y' :: Ys)) by (destruct So as [So|So]; inversion So; auto).
    specialize (IH Y' l So' E). cbn [map app way fst snd] in *. rewrite IH.
    assert (O : (Y1 < Y' /\ Y' <= Y2) \/ (Y1 > Y' /\ Y' >= Y2)).
    { assert (I2 : In Y2 (Y' :: Ys)) by (rewrite E; apply in_or_app; right; now left).
      destruct So as [So|So]; [left|right]; inversion So as [|? ? So1 F1]; subst; inversion So1 as [|? ? _ F2]; subst; rewrite Forall_forall in F1, F2;
        (split; [apply F1; now left|]); destruct I2 as [<-|I2]; try lia; specialize (F2 Y2 I2); lia. }
    lia.
Qed.
Lemma zalong_way K zs X1 Y1 X2 Y2 : zalong K zs X1 Y1 X2 Y2 -> way zs = Z.abs (X1 - K) + Z.abs (Y1 - Y2) + Z.abs (K - X2).
Proof.
  intros (Ys & -> & (l & ->) & (l' & E) & So & _). pose proof (col_way K X2 Y2 l Y1 l' So E) as W.
  change (map (pair K) (Y1 :: l) ++ [(X2, Y2)]) with ((K, Y1) :: map (pair K) l ++ [(X2, Y2)]) in *.
  change (way ((X1, Y1) :: (K, Y1) :: map (pair K) l ++ [(X2, Y2)])) with (Z.abs (X1 - K) + Z.abs (Y1 - Y1) + way ((K, Y1) :: map (pair K) l ++ [(X2, Y2)])).
  rewrite W. lia.
Qed.
Lemma zalong_leads K zs X1 Y1 X2 Y2 : zalong K zs X1 Y1 X2 Y2 -> leads (X1, Y1) (X2, Y2) zs.
Proof. intros (Ys & -> & _). split; [reflexivity|]. exists ((X1, Y1) :: map (pair K) Ys). reflexivity. Qed.

(** ** Lines of modules *)

Theorem gap_shortest m vb g d ls i k j l zs : fits (table_rows m) -> layout_module m = Ret (vb, g, d) -> links [] (m_entries m) ls ->
  line_of d ls (Row i k, Row j l) zs -> neighbours i j ->
  (exists a b, row_port (table_rows m) i k a /\ row_port (table_rows m) j l b /\ leads a b zs) /\
  (forall a b zs', row_port (table_rows m) i k a -> row_port (table_rows m) j l b -> leads a b zs' -> way zs <= way zs').
Proof.
  intros F L Ll H N. pose proof (line_in_gap m vb g d ls i k j l zs F L Ll H N) as A. pose proof (zalong_way _ _ _ _ _ _ A) as W.
  assert (T : forall u, table_left u = 50 + 380 * Z.of_nat (u mod 3)) by reflexivity.
  destruct N as (C & _). unfold gap_line, near_side in *. split.
  - exists (near_side i j, row_middle (table_rows m) i k), (near_side j i, row_middle (table_rows m) j l).
    split; [|split; [|exact (zalong_leads _ _ _ _ _ _ A)]]; left; cbn [fst snd]; unfold near_side; (split; [|reflexivity]); clear; (destruct (_ <? _)%nat; [right; lia|now left]).
  - intros a b zs' Ha Hb Le. apply way_least in Le. rewrite W. clear W A.
    destruct C as [C|C]; [rewrite (proj2 (Nat.ltb_lt (i mod 3) (j mod 3))), (proj2 (Nat.ltb_ge (j mod 3) (i mod 3))) by lia
                         |rewrite (proj2 (Nat.ltb_ge (i mod 3) (j mod 3))), (proj2 (Nat.ltb_lt (j mod 3) (i mod 3))) by lia];
      rewrite ?T, ?C in *; destruct Ha as [([Ha|Ha] & Ya)|(_ & ->)], Hb as [([Hb|Hb] & Yb)|(_ & ->)]; cbn [fst snd] in *; rewrite ?T, ?C in *; lia.
Qed.
Theorem gap_corners m vb g d ls i k j l zs : fits (table_rows m) -> layout_module m = Ret (vb, g, d) -> links [] (m_entries m) ls ->
  line_of d ls (Row i k, Row j l) zs -> neighbours i j ->
  corners zs = if row_middle (table_rows m) i k =? row_middle (table_rows m) j l then 0%nat else 2%nat.
Proof.
  intros F L Ll H N. pose proof (line_in_gap m vb g d ls i k j l zs F L Ll H N) as A. destruct (near_off i j N) as [O1 O2].
  destruct (Z.eqb_spec (row_middle (table_rows m) i k) (row_middle (table_rows m) j l)) as [E|E]; [|exact (zalong_corners _ _ _ _ _ _ A O1 O2 E)].
  rewrite <- E in A. apply (zalong_straight _ _ _ _ _ A). clear A O1 O2. assert (T : forall u, table_left u = 50 + 380 * Z.of_nat (u mod 3)) by reflexivity.
  destruct N as (C & _). unfold gap_line, near_side.
  destruct C as [C|C]; [rewrite (proj2 (Nat.ltb_lt (i mod 3) (j mod 3))), (proj2 (Nat.ltb_ge (j mod 3) (i mod 3))) by lia
                       |rewrite (proj2 (Nat.ltb_ge (i mod 3) (j mod 3))), (proj2 (Nat.ltb_lt (j mod 3) (i mod 3))) by lia]; rewrite !T, C; lia.
Qed.

Lemma ends_ok m vb g d ls n i k j l : fits (table_rows m) -> layout_module m = Ret (vb, g, d) -> links [] (m_entries m) ls ->
  nth_error ls n = Some (Row i k, Row j l) -> anchor_ok (table_rows m) (row_end i k) /\ anchor_ok (table_rows m) (row_end j l) /\ exists d2, end_doc d2 (table_rows m).
Proof.
  intros F L Ll Hn. destruct (rows_walk m vb g d ls F L Ll) as (d2 & ED & R & _ & H).
  destruct (forall2_nth_l _ _ _ H n _ Hn) as (e & _ & Q). destruct (Q i k j l eq_refl) as (ps & a & b & w & _ & E1 & E2 & _).
  split; [exact (end_ok d2 _ _ E1)|]. split; [exact (end_ok d2 _ _ E2)|eauto].
Qed.
Theorem column_short m vb g d ls i k j l zs : fits (table_rows m) -> layout_module m = Ret (vb, g, d) -> links [] (m_entries m) ls ->
  line_of d ls (Row i k, Row j l) zs -> (i mod 3 = j mod 3)%nat -> (i / 3 < j / 3 + 10 /\ j / 3 < i / 3 + 10)%nat -> (i, k) <> (j, l) ->
  way zs = 160 + Z.abs (row_middle (table_rows m) i k - row_middle (table_rows m) j l) /\ corners zs = 2%nat.
Proof.
  intros F L Ll (n & e & Hn & He & ps & Ep & Z) C N Ne.
  pose proof (column_beside m vb g d ls F L Ll) as H. destruct (forall2_nth_l _ _ _ H n _ Hn) as (e' & He' & Q).
  rewrite He in He'. injection He' as <-. destruct (Q i k j l eq_refl N C Ne) as (ps' & Ep' & R1). rewrite Ep in Ep'. injection Ep' as <-.
  pose proof (levels_apart m vb g d ls n e i k j l ps F L Ll Hn He Ep) as Ap.
  assert (Ny : row_middle (table_rows m) i k <> row_middle (table_rows m) j l).
  { destruct (ends_ok m vb g d ls n i k j l F L Ll Hn) as (K1 & K2 & d2 & ED).
    pose proof (row_within d2 _ ED _ K1) as W1. pose proof (row_within d2 _ ED _ K2) as W2. cbn [tab] in W1, W2.
    change (rowY (table_rows m) (row_end i k) <> rowY (table_rows m) (row_end j l)). intros E.
    destruct (rows_apart (table_rows m) i j) as [(Et & Eq)|[Q'|Q']]; [|lia|lia].
    assert (i = j) by (rewrite (Nat.div_mod i 3), (Nat.div_mod j 3) by lia; congruence). subst j. cbn [rowY] in E. apply Ne. f_equal. lia. }
  destruct R1 as [A|A]; apply (along_zalong _ _ _ _ _ _ zs) in A; auto; (split; [rewrite (zalong_way _ _ _ _ _ _ A); lia|apply (zalong_corners _ _ _ _ _ _ A); lia]).
Qed.
