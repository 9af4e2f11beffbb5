(** The number of corners of lines. *)
From Coq Require Import String Ascii List Arith ZArith Lia Sorting.Sorted.
From Verif Require Import Base F32 Geometry Mir Erd Route Layout Parser Cli SpecF32 SpecMir SpecLayout SpecRoute SpecGraph SpecRender SpecLink SpecGap SpecInk SpecShort SpecEnds
  F32Facts GeomFacts RenderFacts PathFacts LatticeFacts ConnectFacts HubFacts RowFacts LinkFacts DrawFacts EndFacts GapFacts OuterFacts MoreFacts InkFacts BriefFacts.
Import ListNotations.
Local Open Scope Z_scope.

(** ** Points and corners *)

(** The points that are not in the middle of a vertical. *)
Fixpoint breaks (a : Z * Z) (zs : list (Z * Z)) : nat :=
  match zs with
  | b :: (c :: _) as zs' => ((if ((fst a =? fst b)%Z && (fst b =? fst c)%Z)%bool then 0 else 1) + breaks b zs')%nat
  | _ => 0%nat
  end.
Lemma breaks_next a b c zs : breaks a (b :: c :: zs) = ((if ((fst a =? fst b)%Z && (fst b =? fst c)%Z)%bool then 0 else 1) + breaks b (c :: zs))%nat.
Proof. reflexivity. Qed.
Lemma breaks_one a b zs : (breaks a (b :: zs) <= 1 + breaks b zs)%nat.
Proof. destruct zs as [|c zs]; [cbn; lia|]. rewrite breaks_next. destruct (_ && _)%bool; lia. Qed.

Lemma orderly_rest a zs : orderly (a :: zs) -> orderly zs.
Proof.
  intros [S T]. split.
  - intros l1 p q l2 ->. exact (S (a :: l1) p q l2 eq_refl).
  - intros l1 p q r l2 ->. exact (T (a :: l1) p q r l2 eq_refl).
Qed.
Lemma rest_corners : forall zs a pen, orderly (a :: zs) -> (length (filter is_curve (strokes pen (trace_rest a zs))) <= breaks a zs)%nat.
Proof.
  induction zs as [|b zs IH]; intros a pen Od; [cbn; lia|]. destruct zs as [|c zs]; [cbn; lia|].
  rewrite trace_next, breaks_next. pose proof (orderly_rest _ _ Od) as Od'.
  destruct (Z.eqb_spec (fst a) (fst b)) as [E1|E1]; cbn [andb]; [destruct (Z.eqb_spec (fst b) (fst c)) as [E2|E2]|].
  - destruct Od as [St Tu]. destruct (St [] a b _ eq_refl) as [N1 _]. destruct (St [a] b c _ eq_refl) as [N2 _]. specialize (Tu [] a b c _ eq_refl).
    assert (D : direction a b = direction b c).
    { unfold direction in *. destruct a as [x1 y1], b as [x2 y2], c as [x3 y3]. cbn [fst snd] in *. subst x2 x3. rewrite Z.sub_diag in *. f_equal.
      assert (y1 <> y2) by congruence. assert (y2 <> y3) by congruence. assert (Z.sgn (y3 - y2) <> Z.sgn (y1 - y2)) by (intros Q; apply Tu; now f_equal). lia. }
    rewrite D, !Z.eqb_refl. cbn [andb app strokes filter is_curve]. exact (IH b b Od').
  - destruct (_ && _)%bool; cbn [app strokes filter is_curve length]; [specialize (IH b b Od')|specialize (IH b (ahead b (direction b c)) Od')]; lia.
  - destruct (_ && _)%bool; cbn [app strokes filter is_curve length]; [specialize (IH b b Od')|specialize (IH b (ahead b (direction b c)) Od')]; lia.
Qed.
Lemma corners_breaks a zs : orderly (a :: zs) -> (corners (a :: zs) <= breaks a zs)%nat.
Proof. intros Od. exact (rest_corners zs a a Od). Qed.

(** A run along a vertical has at most two. *)
Lemma run_breaks K rest : forall r x, fst x = K -> Forall (fun z => fst z = K) r -> (breaks x (r ++ rest) <= 1 + breaks (last r x) rest)%nat.
Proof.
  induction r as [|y r IH]; intros x Ex F; [cbn [app last]; lia|]. inversion F as [|? ? Ey F']; subst.
  destruct r as [|z r]; [exact (breaks_one x y rest)|]. inversion F' as [|? ? Ez _]; subst.
  cbn [app]. rewrite breaks_next, Ey, Ez, Z.eqb_refl. cbn [andb Nat.add]. specialize (IH y ltac:(congruence) F').
  change (last (y :: z :: r) x) with (last (z :: r) x). replace (last (z :: r) x) with (last (z :: r) y); [exact IH|].
  clear. revert z. induction r as [|w r IH]; intros z; [reflexivity|]. exact (IH w).
Qed.
Lemma stage_breaks K a r rest : Forall (fun z => fst z = K) r -> exists b, (breaks a (r ++ rest) <= (match r with [] => 0 | _ => 2 end) + breaks b rest)%nat.
Proof.
  intros F. destruct r as [|x r]; [exists a; cbn [app]; lia|]. exists (last r x). inversion F as [|? ? Ex F']; subst.
  cbn [app]. pose proof (breaks_one a x (r ++ rest)). pose proof (run_breaks _ rest r x eq_refl F'). lia.
Qed.
Lemma passes_breaks K1 M K2 ps X1 Y1 X2 Y2 zs : passes K1 M K2 ps X1 Y1 X2 Y2 -> Forall2 (fun p z => hpoint p (fst z) (snd z)) ps zs -> orderly zs ->
  (corners zs <= 6 /\ ((forall p Y, In p ps -> ~ hpoint p M Y) -> corners zs <= 4))%nat.
Proof.
  intros (p & u & l1 & l2 & l3 & v & q & -> & Hp & Hu & Hv & Hq & F1 & F2 & F3) H Od.
  inversion H as [|? a ? zs1 Ha H1]; subst. change (u :: l1 ++ l2 ++ (l3 ++ [v]) ++ [q]) with ((u :: l1) ++ l2 ++ (l3 ++ [v]) ++ [q]) in H1. apply Forall2_app_inv_l in H1 as (r1 & zs2 & G1 & H2 & ->).
  apply Forall2_app_inv_l in H2 as (r2 & zs3 & G2 & H3 & ->). apply Forall2_app_inv_l in H3 as (r3 & zs4 & G3 & H4 & ->).
  inversion H4 as [|? b ? ? Hb H5]; subst. inversion H5. subst.
  assert (On : forall K ps zs, Forall (fun r => exists Y, hpoint r K Y) ps -> Forall2 (fun p z => hpoint p (fst z) (snd z)) ps zs -> Forall (fun z => fst z = K) zs).
  { clear. intros K ps zs F G. induction G as [|p z ps zs Hz G IH]; constructor; inversion F as [|? ? (Y & HY) F']; subst; auto.
    now destruct (hpoint_unique _ _ _ _ _ Hz HY) as [-> _]. }
  assert (O1 : Forall (fun z => fst z = K1) r1) by (apply (On K1 (u :: l1)); [constructor; eauto|exact G1]).
  assert (O2 : Forall (fun z => fst z = M) r2) by (apply (On M l2); assumption).
  assert (O3 : Forall (fun z => fst z = K2) r3) by (apply (On K2 (l3 ++ [v])); [apply Forall_app; split; [exact F3|constructor; eauto]|exact G3]).
  destruct (stage_breaks K1 a r1 (r2 ++ r3 ++ [b]) O1) as (a1 & B1). destruct (stage_breaks M a1 r2 (r3 ++ [b]) O2) as (a2 & B2).
  destruct (stage_breaks K2 a2 r3 [b] O3) as (a3 & B3). pose proof (corners_breaks a _ Od) as C.
  change (breaks a3 [b]) with 0%nat in B3. split.
  - destruct r1, r2, r3; lia.
  - intros No. assert (l2 = []) as ->.
    { destruct l2 as [|w l2]; [reflexivity|]. inversion F2 as [|? ? (Y & HY) _]; subst. exfalso. refine (No w Y _ HY). right. apply in_or_app. right. now left. }
    inversion G2. subst r2. destruct r1, r3; lia.
Qed.

(** ** Lines of modules *)

Lemma line_orderly m vb g d ls i k j l n e zs : fits (table_rows m) -> layout_module m = Ret (vb, g, d) -> links [] (m_entries m) ls ->
  nth_error ls n = Some (Row i k, Row j l) -> nth_error (d_edges d) n = Some e -> path_through e zs -> (i, k) <> (j, l) -> orderly zs.
Proof.
  intros F L Ll Hn He (ps & Ep & Z) Ne. pose proof (rows_calm m vb g d ls F L Ll) as H. destruct (forall2_nth_l _ _ _ H n _ Hn) as (e' & He' & Q).
  rewrite He in He'. injection He' as <-. destruct (Q i k j l eq_refl ltac:(congruence)) as (ps' & Ep' & _ & Nr). rewrite Ep in Ep'. injection Ep' as <-.
  pose proof (nth_error_In _ _ He) as I.
  destruct (module_rectilinear m vb g d L e I) as (_ & _ & ps' & _ & _ & Ep' & _ & Rl & _). rewrite Ep in Ep'. injection Ep' as <-.
  apply (path_orderly ps zs); [|exact Rl|exact Nr].
  assert (In' : forall x, In x ps -> exists z, near x z).
  { intros x Ix. destruct (paths_inside m vb g d F L e ps x I Ep Ix) as (X & Y & Hx & BX & BY & _).
    exists (X, Y). unfold near. cbn [fst snd]. unfold fits in F. unfold M24. split; [exact Hx|lia]. }
  clear - Z In'. induction Z as [|p z ps zs Hz Z IH]; constructor; [|apply IH; intros; apply In'; now right].
  destruct (In' p ltac:(now left)) as (z' & N). now rewrite <- (near_unique p z' z N Hz).
Qed.

Lemma inner_plain hs p : inner_row hs p -> plain_place hs p.
Proof. destruct p as [i|i k]; cbn; [intros []|auto]. Qed.

Lemma columns_cases i j : (i mod 3 = j mod 3 \/ (j mod 3 = S (i mod 3) \/ i mod 3 = S (j mod 3)) \/ (i mod 3 = 0 /\ j mod 3 = 2) \/ (i mod 3 = 2 /\ j mod 3 = 0))%nat.
Proof. pose proof (Nat.mod_upper_bound i 3). pose proof (Nat.mod_upper_bound j 3). lia. Qed.

Lemma middle_free m vb g d ls e ps : fits (table_rows m) -> layout_module m = Ret (vb, g, d) -> links [] (m_entries m) ls ->
  (forall p q, In (p, q) ls -> (exists i k, p = Row i k /\ S k <> nth i (table_rows m) 0%nat) /\ (exists i k, q = Row i k /\ S k <> nth i (table_rows m) 0%nat)) ->
  In e (d_edges d) -> e_path e = Some ps -> forall p Y, In p ps -> ~ hpoint p 1160 Y.
Proof.
  intros F L Ll Pl Ie Ep p Y Ip Hp. destruct (rows_walk m vb g d ls F L Ll) as (d2 & ED & R & Ends & H).
  destruct (forall2_in_r _ _ _ _ H Ie) as ((x & y) & Ixy & Hw). destruct (Pl x y Ixy) as [(i & k & -> & _) (j & l & -> & _)].
  destruct (Hw i k j l eq_refl) as (ps' & a & b & w & Ep' & Es & Et & Sa & Sb & W & Best & Once & Ps). rewrite Ep in Ep'. injection Ep' as <-.
  destruct (forall2_in_r _ _ _ _ Ps Ip) as (v & _ & nd & Nv & Lv).
  assert (Flat : forall a, end_at d2 (table_rows m) a -> ~ low (table_rows m) a /\ ~ high a).
  { intros a0 Ea. destruct (Ends a0 Ea) as (p0 & q0 & x & ports & Ipq & Ex & Px & Pe). destruct (Pl p0 q0 Ipq) as [P1 P2].
    assert (Q : exists i k, x = Row i k /\ S k <> nth i (table_rows m) 0%nat) by (destruct Ex as [-> | ->]; assumption).
    destruct Q as (i0 & k0 & -> & Nk). split.
    - intros Lw. pose proof (ports_low _ _ _ _ Pe Px Lw) as Lx. exact (Nk Lx).
    - intros Hi. exact (ports_high _ _ _ _ Pe Px Hi). }
  assert (S0 : spot (rg_nodes g) v 1160 Y (rn_orient nd)) by (exists nd; rewrite Lv; auto).
  destruct (spot_kind d2 (table_rows m) ED g R v 1160 Y _ S0) as [(_ & C & _)|[(_ & C & _)|[(_ & c & _ & _ & _ & _ & (a0 & Ea & _ & [(Lw & _)|(Hi & _)]))|[(_ & Rl & _)|[(_ & Rl & _)|(a0 & Ea & _ & [(Lw & _)|(Hi & _)])]]]]].
  - unfold corridor in C. lia.
  - unfold corridor in C. lia.
  - exact (proj1 (Flat a0 Ea) Lw).
  - exact (proj2 (Flat a0 Ea) Hi).
  - apply rel_column in Rl. unfold column in Rl. lia.
  - apply rel_column in Rl. unfold column in Rl. lia.
  - exact (proj1 (Flat a0 Ea) Lw).
  - exact (proj2 (Flat a0 Ea) Hi).
Qed.

Section Lines.
Variables (m : module) (vb : rect) (g : route_graph) (d : document) (ls : list (place * place)).
Hypothesis F : fits (table_rows m).
Hypothesis L : layout_module m = Ret (vb, g, d).
Hypothesis Ll : links [] (m_entries m) ls.
Hypothesis Small : (length (table_rows m) <= 102)%nat.
Variables (i k j l : nat) (zs : list (Z * Z)).
Hypothesis Hl : line_of d ls (Row i k, Row j l) zs.
Hypothesis Ne : (i, k) <> (j, l).
Hypothesis Near : (i mod 3 = 0 /\ j mod 3 = 2 \/ i mod 3 = 2 /\ j mod 3 = 0 \/ i / 3 < j / 3 + 10 /\ j / 3 < i / 3 + 10)%nat.

Lemma few_cases : (forall p q, In (p, q) ls -> plain_place (table_rows m) p /\ plain_place (table_rows m) q) ->
  (corners zs <= 6 /\ ((forall e ps p Y, In e (d_edges d) -> e_path e = Some ps -> In p ps -> ~ hpoint p 1160 Y) -> corners zs <= 4))%nat.
Proof.
  intros Pl. destruct (columns_cases i j) as [C|[C|C]].
  - assert (N : (i / 3 < j / 3 + 10 /\ j / 3 < i / 3 + 10)%nat) by (destruct Near as [N|[N|N]]; lia).
    destruct (column_short m vb g d ls i k j l zs F L Ll Hl C N Ne) as [_ ->]. lia.
  - assert (N : (i / 3 < j / 3 + 10 /\ j / 3 < i / 3 + 10)%nat) by (destruct Near as [N|[N|N]]; lia).
    rewrite (gap_corners m vb g d ls i k j l zs F L Ll Hl (conj C N)). destruct (_ =? _); lia.
  - destruct Hl as (n & e & Hn & He & Pt). pose proof (line_orderly m vb g d ls i k j l n e zs F L Ll Hn He Pt Ne) as Od.
    destruct Pt as (ps & Ep & Z). pose proof (outer_columns m vb g d ls F L Ll Small Pl) as H. destruct (forall2_nth_l _ _ _ H n _ Hn) as (e' & He' & Q).
    rewrite He in He'. injection He' as <-. destruct (Q i k j l eq_refl) as (ps' & Ep' & Q1 & Q2). rewrite Ep in Ep'. injection Ep' as <-.
    change (2 * table_left 1 + 300) with 1160 in *.
    assert (G : forall K1 K2 X1 Y1 X2 Y2, passes K1 1160 K2 ps X1 Y1 X2 Y2 -> (corners zs <= 6 /\
      ((forall e ps p Y, In e (d_edges d) -> e_path e = Some ps -> In p ps -> ~ hpoint p 1160 Y) -> corners zs <= 4))%nat).
    { intros K1 K2 X1 Y1 X2 Y2 P. destruct (passes_breaks _ _ _ _ _ _ _ _ zs P Z Od) as [G1 G2]. split; [exact G1|]. intros No. apply G2. intros p Y.
      exact (No e ps p Y (nth_error_In _ _ He) Ep). }
    destruct C as [C|C]; [exact (G _ _ _ _ _ _ (Q1 C))|exact (G _ _ _ _ _ _ (Q2 C))].
Qed.

Theorem few_corners : (forall p q, In (p, q) ls -> plain_place (table_rows m) p /\ plain_place (table_rows m) q) -> (corners zs <= 6)%nat.
Proof. intros Pl. exact (proj1 (few_cases Pl)). Qed.
Theorem inner_corners : (forall p q, In (p, q) ls -> inner_row (table_rows m) p /\ inner_row (table_rows m) q) -> (corners zs <= 4)%nat.
Proof.
  intros In'. apply (proj2 (few_cases (fun p q I => conj (inner_plain _ _ (proj1 (In' p q I))) (inner_plain _ _ (proj2 (In' p q I)))))).
  intros e ps p Y Ie Ep Ip. refine (middle_free m vb g d ls e ps F L Ll _ Ie Ep p Y Ip). intros x y I. destruct (In' x y I) as [A B].
  split; [destruct x as [|a b]; [destruct A|exists a, b; auto]|destruct y as [|a b]; [destruct B|exists a, b; auto]].
Qed.
End Lines.

(** Under the table in the middle. *)
Definition dip : module := three 4 2 4 [rel_fields "a" "a" "c" "b"].
Lemma dip_links : links [] (m_entries dip) [(Row 0 1, Row 2 2)].
Proof. do 3 apply links_def. cbn [app]. apply links_rel; [row_tac|row_tac|]. constructor. Qed.
