(** How lines look in other diagrams of the same tables. *)
From Coq Require Import String Ascii List Arith NArith ZArith Bool Lia Reals Lra Sorting.Sorted.
From Verif Require Import Base F32 Geometry Mir Erd Route Layout Parser Cli SpecF32 SpecMir SpecLayout SpecRoute SpecGraph SpecRender SpecLink SpecGap SpecInk SpecShort SpecEnds SpecSide
  F32Facts GeomFacts RenderFacts PathFacts LatticeFacts ConnectFacts HubFacts RowFacts LinkFacts DrawFacts EndFacts GapFacts OuterFacts MoreFacts InkFacts BriefFacts CircleFacts.
Import ListNotations.
Local Open Scope Z_scope.

(** ** Single lines *)

Lemma one_line {A} (P : A -> Prop) a : (exists x, In x [a] /\ P x) <-> P a.
Proof. split; [intros (x & [<-|[]] & H); auto|intros H; exists a; cbn; auto]. Qed.
Lemma alike_single p q : (forall x y, covers p x y <-> covers q x y) -> (forall a c b, rounds p a c b <-> rounds q a c b) -> (forall z, ends_at p z <-> ends_at q z) -> look_alike [p] [q].
Proof. intros H1 H2 H3. split; [|split]; intros; rewrite !one_line; auto. Qed.
Lemma piece_sym a b x y : on_piece a b x y <-> on_piece b a x y.
Proof. unfold on_piece. rewrite (Z.min_comm (fst a)), (Z.max_comm (fst a)), (Z.min_comm (snd a)), (Z.max_comm (snd a)). tauto. Qed.

Lemma sign_of Y1 Y2 : Y1 <> Y2 -> exists s, sign s /\ s * Y1 < s * Y2.
Proof. intros N. destruct (Z.lt_total Y1 Y2) as [H|[H|H]]; [exists 1|contradiction|exists (-1)]; (split; [unfold sign; auto|lia]). Qed.
Lemma bent_alike K p q X1 Y1 X2 Y2 : zalong K p X1 Y1 X2 Y2 -> zalong K q X1 Y1 X2 Y2 -> X1 <> K -> X2 <> K -> Y1 <> Y2 -> look_alike [p] [q].
Proof.
  intros A B N1 N2 Ny. destruct (sign_of Y1 Y2 Ny) as (s & Sg & L).
  destruct (zalong_strokes _ _ _ _ _ _ s A N1 N2 Sg L) as [[P1 C1] _]. destruct (zalong_strokes _ _ _ _ _ _ s B N1 N2 Sg L) as [[P2 C2] _].
  apply alike_single.
  - intros x y. unfold covers. now rewrite P1, P2.
  - intros a c b. unfold rounds. now rewrite !C1, !C2.
  - intros z. now rewrite (zalong_ends _ _ _ _ _ _ A), (zalong_ends _ _ _ _ _ _ B).
Qed.
Lemma bent_turned K p q X1 Y1 X2 Y2 : zalong K p X1 Y1 X2 Y2 -> zalong K q X2 Y2 X1 Y1 -> X1 <> K -> X2 <> K -> Y1 <> Y2 -> look_alike [p] [q].
Proof.
  intros A B N1 N2 Ny. destruct (sign_of Y1 Y2 Ny) as (s & Sg & L).
  destruct (zalong_strokes _ _ _ _ _ _ s A N1 N2 Sg L) as [[P1 C1] _].
  destruct (zalong_strokes _ _ _ _ _ _ (- s) B N2 N1 ltac:(destruct Sg as [-> | ->]; unfold sign; auto) ltac:(lia)) as [[P2 C2] _].
  replace (Y2 + 12 * - s) with (Y2 - 12 * s) in * by lia. replace (Y1 - 12 * - s) with (Y1 + 12 * s) in * by lia.
  apply alike_single.
  - intros x y. unfold covers. rewrite P1, P2, !three_strokes.
    rewrite (piece_sym (X1, Y1)), (piece_sym (K, Y1 + 12 * s)), (piece_sym _ (X2, Y2)). tauto.
  - intros a c b. unfold rounds. rewrite !C1, !C2. cbn [In].
    assert (S : forall u v w u' v' w' : Z * Z, Curved u v w = Curved u' v' w' <-> Curved w v u = Curved w' v' u') by (intros; split; intros E; injection E as -> -> ->; reflexivity).
    rewrite (S _ _ _ a c b), (S _ _ _ b c a). 
    pose proof (S (K + 12 * Z.sgn (X2 - K), Y2) (K, Y2) (K, Y2 - 12 * s) a c b). pose proof (S (K + 12 * Z.sgn (X2 - K), Y2) (K, Y2) (K, Y2 - 12 * s) b c a).
    pose proof (S (K, Y1 + 12 * s) (K, Y1) (K + 12 * Z.sgn (X1 - K), Y1) a c b). pose proof (S (K, Y1 + 12 * s) (K, Y1) (K + 12 * Z.sgn (X1 - K), Y1) b c a). tauto.
  - intros z. rewrite (zalong_ends _ _ _ _ _ _ A), (zalong_ends _ _ _ _ _ _ B). tauto.
Qed.
Lemma level_points K zs X1 Y X2 : zalong K zs X1 Y X2 Y -> zs = [(X1, Y); (K, Y); (X2, Y)].
Proof.
  intros (Ys & -> & (l & ->) & (l' & E) & So & _). destruct (sorted_sign _ So) as (s & Sg & So').
  assert (l = []).
  { destruct l' as [|z l']; [now injection E|]. injection E as <- E. inversion So' as [|? ? _ F]; subst. rewrite Forall_forall in F.
    specialize (F Y ltac:(apply in_or_app; right; now left)). lia. }
  subst l. reflexivity.
Qed.
Lemma level_drawn K X1 Y X2 : (X1 < K < X2 \/ X2 < K < X1) -> drawn [(X1, Y); (K, Y); (X2, Y)] = [Straight (X1, Y) (K, Y); Straight (K, Y) (X2, Y)].
Proof.
  intros B. unfold drawn, trace. cbn [map app strokes]. rewrite trace_next, !direction_side. cbn [fst snd].
  replace (Z.sgn (K - X1)) with (Z.sgn (X2 - K)) by lia. rewrite !Z.eqb_refl. reflexivity.
Qed.
Lemma gap_alike K p q X1 Y1 X2 Y2 : (X1 < K < X2 \/ X2 < K < X1) -> zalong K p X1 Y1 X2 Y2 -> zalong K q X1 Y1 X2 Y2 \/ zalong K q X2 Y2 X1 Y1 -> look_alike [p] [q].
Proof.
  intros O A B. destruct (Z.eq_dec Y1 Y2) as [<-|Ny]; [|destruct B as [B|B]; [apply (bent_alike _ _ _ _ _ _ _ A B)|apply (bent_turned _ _ _ _ _ _ _ A B)]; lia].
  apply level_points in A. subst p. destruct B as [B|B]; apply level_points in B; subst q; [apply alike_single; intros; reflexivity|].
  apply alike_single.
  - intros x y. unfold covers. rewrite !level_drawn by lia.
    split; intros (a & b & [E|[E|[]]] & H); injection E as <- <-; apply piece_sym in H; do 2 eexists; (split; [|exact H]); cbn; auto.
  - intros a c b. unfold rounds. rewrite !level_drawn by lia. cbn [In]. split; intros [[E|[E|[]]]|[E|[E|[]]]]; discriminate.
  - intros z. unfold ends_at. split; intros [(l & E)|(l & E)].
    1, 3: injection E as <- _; right; eexists [_; _]; reflexivity.
    all: destruct l as [|? [|? [|? [|? ?]]]]; try discriminate; injection E as _ _ <-; left; eexists; reflexivity.
Qed.

(** ** Lines of modules *)

Theorem neighbours_alike m m' vb g d vb' g' d' ls ls' i k j l zs zs' : fits (table_rows m) -> table_rows m' = table_rows m ->
  layout_module m = Ret (vb, g, d) -> layout_module m' = Ret (vb', g', d') -> links [] (m_entries m) ls -> links [] (m_entries m') ls' ->
  line_of d ls (Row i k, Row j l) zs -> line_of d' ls' (Row i k, Row j l) zs' \/ line_of d' ls' (Row j l, Row i k) zs' -> neighbours i j -> look_alike [zs] [zs'].
Proof.
  intros F E L L' Ll Ll' H H' N. assert (F' : fits (table_rows m')) by (rewrite E; exact F).
  assert (N' : neighbours j i) by (destruct N as [C D]; split; [tauto|lia]).
  pose proof (line_in_gap m vb g d ls i k j l zs F L Ll H N) as A.
  apply (gap_alike (gap_line i j) zs zs' _ _ _ _) with (2 := A).
  - clear - N. assert (T : forall u, table_left u = 50 + 380 * Z.of_nat (u mod 3)) by reflexivity.
    destruct N as (C & _). unfold gap_line, near_side.
    destruct C as [C|C]; [rewrite (proj2 (Nat.ltb_lt (i mod 3) (j mod 3))), (proj2 (Nat.ltb_ge (j mod 3) (i mod 3))) by lia
                         |rewrite (proj2 (Nat.ltb_ge (i mod 3) (j mod 3))), (proj2 (Nat.ltb_lt (j mod 3) (i mod 3))) by lia]; rewrite !T, C; lia.
  - destruct H' as [H'|H']; [left; pose proof (line_in_gap m' vb' g' d' ls' i k j l zs' F' L' Ll' H' N) as B; rewrite E in B; exact B|right].
    pose proof (line_in_gap m' vb' g' d' ls' j l i k zs' F' L' Ll' H' N') as B. rewrite E in B. unfold gap_line in *.
    replace (table_left i + table_left j + 300) with (table_left j + table_left i + 300) by lia. exact B.
Qed.

Lemma mirror_zalong c K zs X1 Y1 X2 Y2 : zalong K zs X1 Y1 X2 Y2 -> zalong (c - K) (map (fun z => (c - fst z, snd z)) zs) (c - X1) Y1 (c - X2) Y2.
Proof.
  intros (Ys & -> & A & B & So & F). exists Ys. split; [|auto]. cbn [map]. rewrite map_app. cbn [map fst snd]. do 2 f_equal. rewrite map_map. reflexivity.
Qed.

(** The line is beside the column of its tables. *)
Lemma line_beside m vb g d ls i k j l zs : fits (table_rows m) -> layout_module m = Ret (vb, g, d) -> links [] (m_entries m) ls ->
  line_of d ls (Row i k, Row j l) zs -> (i mod 3 = j mod 3)%nat -> (i / 3 < j / 3 + 10 /\ j / 3 < i / 3 + 10)%nat -> (i, k) <> (j, l) ->
  row_middle (table_rows m) i k <> row_middle (table_rows m) j l /\
  (zalong (2 * table_left i - 80) zs (2 * table_left i) (row_middle (table_rows m) i k) (2 * table_left i) (row_middle (table_rows m) j l) \/
   zalong (2 * table_left i + 680) zs (2 * table_left i + 600) (row_middle (table_rows m) i k) (2 * table_left i + 600) (row_middle (table_rows m) j l)).
Proof.
  intros F L Ll (n & e & Hn & He & ps & Ep & Z) C N Ne.
  pose proof (column_beside m vb g d ls F L Ll) as H. destruct (forall2_nth_l _ _ _ H n _ Hn) as (e' & He' & Q).
  rewrite He in He'. injection He' as <-. destruct (Q i k j l eq_refl N C Ne) as (ps' & Ep' & R1). rewrite Ep in Ep'. injection Ep' as <-.
  pose proof (levels_apart m vb g d ls n e i k j l ps F L Ll Hn He Ep) as Ap. split.
  - destruct (ends_ok m vb g d ls n i k j l F L Ll Hn) as (K1 & K2 & d2 & ED).
    pose proof (row_within d2 _ ED _ K1) as W1. pose proof (row_within d2 _ ED _ K2) as W2. cbn [tab] in W1, W2.
    change (rowY (table_rows m) (row_end i k) <> rowY (table_rows m) (row_end j l)). intros E.
    destruct (rows_apart (table_rows m) i j) as [(Et & Eq)|[Q'|Q']]; [|lia|lia].
    assert (i = j) by (rewrite (Nat.div_mod i 3), (Nat.div_mod j 3) by lia; congruence). subst j. cbn [rowY] in E. apply Ne. f_equal. lia.
  - destruct R1 as [A|A]; apply (along_zalong _ _ _ _ _ _ zs) in A; auto.
Qed.
Theorem column_alike m m' vb g d vb' g' d' ls ls' i k j l zs zs' : fits (table_rows m) -> table_rows m' = table_rows m ->
  layout_module m = Ret (vb, g, d) -> layout_module m' = Ret (vb', g', d') -> links [] (m_entries m) ls -> links [] (m_entries m') ls' ->
  line_of d ls (Row i k, Row j l) zs -> line_of d' ls' (Row i k, Row j l) zs' \/ line_of d' ls' (Row j l, Row i k) zs' ->
  (i mod 3 = j mod 3)%nat -> (i / 3 < j / 3 + 10 /\ j / 3 < i / 3 + 10)%nat -> (i, k) <> (j, l) -> look_alike [zs] [zs'] \/ look_alike [zs] [mirrored i zs'].
Proof.
  intros F E L L' Ll Ll' H H' C N Ne. assert (F' : fits (table_rows m')) by (rewrite E; exact F).
  destruct (line_beside m vb g d ls i k j l zs F L Ll H C N Ne) as [Ny A].
  assert (T : table_left j = table_left i) by (unfold table_left; now rewrite C).
  set (x := table_left i) in *. set (y1 := row_middle (table_rows m) i k) in *. set (y2 := row_middle (table_rows m) j l) in *.
  assert (B : (zalong (2 * x - 80) zs' (2 * x) y1 (2 * x) y2 \/ zalong (2 * x - 80) zs' (2 * x) y2 (2 * x) y1) \/
              (zalong (2 * x + 680) zs' (2 * x + 600) y1 (2 * x + 600) y2 \/ zalong (2 * x + 680) zs' (2 * x + 600) y2 (2 * x + 600) y1)).
  { destruct H' as [H'|H'].
    - destruct (line_beside m' vb' g' d' ls' i k j l zs' F' L' Ll' H' C N Ne) as [_ B]. rewrite E in B. destruct B as [B|B]; auto.
    - destruct (line_beside m' vb' g' d' ls' j l i k zs' F' L' Ll' H' (eq_sym C) ltac:(lia) ltac:(congruence)) as [_ B]. rewrite E, T in B. destruct B as [B|B]; auto. }
  assert (M : forall K X Y Y', zalong K zs' X Y X Y' -> zalong (2 * (2 * x + 300) - K) (mirrored i zs') (2 * (2 * x + 300) - X) Y (2 * (2 * x + 300) - X) Y')
    by (intros; unfold mirrored; now apply mirror_zalong).
  clearbody x y1 y2. clear - A B M Ny. assert (Ny' := not_eq_sym Ny).
  replace (2 * x + 680) with (2 * (2 * x + 300) - (2 * x - 80)) in * by lia. replace (2 * x + 600) with (2 * (2 * x + 300) - 2 * x) in * by lia.
  destruct A as [A|A], B as [[B|B]|[B|B]].
  1: left; apply (bent_alike _ _ _ _ _ _ _ A B); lia.
  1: left; apply (bent_turned _ _ _ _ _ _ _ A B); lia.
  1, 2: right; apply M in B; rewrite !Z.sub_sub_distr, !Z.sub_diag, !Z.add_0_l in B; first [apply (bent_alike _ _ _ _ _ _ _ A B)|apply (bent_turned _ _ _ _ _ _ _ A B)]; lia.
  1, 2: right; apply M in B; first [apply (bent_alike _ _ _ _ _ _ _ A B)|apply (bent_turned _ _ _ _ _ _ _ A B)]; lia.
  1: left; apply (bent_alike _ _ _ _ _ _ _ A B); lia.
  1: left; apply (bent_turned _ _ _ _ _ _ _ A B); lia.
Qed.

(** ** Samples *)

(** The line beside the second column changes sides. *)
Definition beside (rs : list module_entry) : module :=
  mkModule None ([EDef (one "a"); EDef (one "b"); EDef (one "c"); EDef (one "d");
    EDef (mkEntity (lit "e") [mkField (lit "x") TInt None; mkField (lit "y") TInt None; mkField (lit "z") TInt None; mkField (lit "w") TInt None]);
    rel_fields "b" "x" "e" "w"] ++ rs).
Definition right_line : list (Z * Z) := [(1460, 205); (1540, 205); (1540, 320); (1540, 715); (1460, 715)].
Definition left_lines : list (list (Z * Z)) :=
  [[(860, 205); (780, 205); (780, 320); (780, 505); (780, 620); (780, 715); (860, 715)]; [(700, 505); (780, 505); (780, 320); (780, 205); (700, 205)]].
Ltac row_link := eapply refers_row; [split; [reflexivity|split; [cbn; auto 20|
  let j := fresh in let L := fresh in let H := fresh in intros j ? L H; do 8 (destruct j as [|j]; [first [exfalso; lia|discriminate|injection H as <-; cbn; intuition discriminate]|]); destruct j; discriminate]]|is_last_field].
Lemma beside_links : links [] (m_entries (beside [])) [(Row 1 1, Row 4 4)].
Proof. unfold beside. cbn [m_entries app]. repeat apply links_def. cbn [app]. apply links_rel; [row_link|row_link|]. constructor. Qed.
Lemma moved_links : links [] (m_entries (beside [rel_fields "d" "x" "a" "x"])) [(Row 1 1, Row 4 4); (Row 3 1, Row 0 1)].
Proof. unfold beside. cbn [m_entries app]. repeat apply links_def. cbn [app]. do 2 (apply links_rel; [row_link|row_link|]). constructor. Qed.
Ltac drawn_tac := apply lines_given; [unfold fits; vm_compute; discriminate|repeat constructor; vm_compute; discriminate|vm_compute; reflexivity].
Lemma beside_drawn : exists vb g d, layout_module (beside []) = Ret (vb, g, d) /\ lines d [right_line]. Proof. drawn_tac. Qed.
Lemma moved_drawn : exists vb g d, layout_module (beside [rel_fields "d" "x" "a" "x"]) = Ret (vb, g, d) /\ lines d left_lines. Proof. drawn_tac. Qed.

Lemma ends_only z a l b : ends_at (a :: l ++ [b]) z -> z = a \/ z = b.
Proof. intros [(l' & E)|(l' & E)]; [left; congruence|right]. change ((a :: l) ++ [b] = l' ++ [z]) in E. apply app_inj_tail in E. now destruct E. Qed.
Theorem changes_sides : exists n es r vb g d vb' g' d' ls ls' i k j l zs zs', fits (table_rows (mkModule n es)) /\
  layout_module (mkModule n es) = Ret (vb, g, d) /\ layout_module (mkModule n (es ++ [ERel r])) = Ret (vb', g', d') /\
  links [] es ls /\ links [] (es ++ [ERel r]) ls' /\ line_of d ls (Row i k, Row j l) zs /\ line_of d' ls' (Row i k, Row j l) zs' /\
  (i mod 3 = j mod 3)%nat /\ (i / 3 < j / 3 + 10 /\ j / 3 < i / 3 + 10)%nat /\ ~ look_alike [zs] [zs'].
Proof.
  destruct beside_drawn as (vb & g & d & L & Ln). destruct moved_drawn as (vb' & g' & d' & L' & Ln').
  exists None, (m_entries (beside [])), (mkRelation (PField (lit "d") (lit "x")) (PField (lit "a") (lit "x"))), vb, g, d, vb', g', d'.
  do 2 eexists. exists 1%nat, 1%nat, 4%nat, 4%nat. do 2 eexists. split; [unfold fits; vm_compute; discriminate|]. split; [exact L|]. split; [exact L'|]. split; [exact beside_links|]. split; [exact moved_links|].
  split; [apply (line_given d _ _ 0 _ _ Ln); reflexivity|]. split; [apply (line_given d' _ _ 0 _ _ Ln'); reflexivity|]. split; [reflexivity|]. split; [cbn; lia|].
  intros (_ & _ & H). specialize (H (1460, 205)). rewrite !one_line in H. destruct H as [H _].
  specialize (H ltac:(left; eexists; reflexivity)). 
  change (ends_at ((860, 205) :: [(780, 205); (780, 320); (780, 505); (780, 620); (780, 715)] ++ [(860, 715)]) (1460, 205)) in H. apply ends_only in H. destruct H; discriminate.
Qed.

(** A line between the outer columns and the line of the relation with its ends exchanged. *)
Definition forth : module := three 3 0 3 [rel_fields "a" "a" "c" "b"].
Definition back : module := three 3 0 3 [rel_fields "c" "b" "a" "a"].
Lemma forth_links : links [] (m_entries forth) [(Row 0 1, Row 2 2)]. Proof. links_tac. Qed.
Lemma back_links : links [] (m_entries back) [(Row 2 2, Row 0 1)]. Proof. links_tac. Qed.
Lemma forth_drawn : exists vb g d, layout_module forth = Ret (vb, g, d) /\ lines d [[(700, 205); (780, 205); (780, 250); (780, 275); (1540, 275); (1620, 275)]]. Proof. drawn_tac. Qed.
Lemma back_drawn : exists vb g d, layout_module back = Ret (vb, g, d) /\ lines d [[(1620, 275); (1540, 275); (1540, 250); (780, 250); (780, 205); (700, 205)]]. Proof. drawn_tac. Qed.
Theorem turned_differs : exists n es r vb g d vb' g' d' ls ls' p q zs zs', fits (table_rows (mkModule n (es ++ [ERel r]))) /\
  layout_module (mkModule n (es ++ [ERel r])) = Ret (vb, g, d) /\ layout_module (mkModule n (es ++ [ERel (mkRelation (rel_end r) (rel_start r))])) = Ret (vb', g', d') /\
  links [] (es ++ [ERel r]) ls /\ links [] (es ++ [ERel (mkRelation (rel_end r) (rel_start r))]) ls' /\ line_of d ls (p, q) zs /\ line_of d' ls' (q, p) zs' /\ ~ look_alike [zs] [zs'].
Proof.
  destruct forth_drawn as (vb & g & d & L & Ln). destruct back_drawn as (vb' & g' & d' & L' & Ln').
  exists None, (firstn 3 (m_entries forth)), (mkRelation (PField (lit "a") (lit "a")) (PField (lit "c") (lit "b"))), vb, g, d, vb', g', d'.
  do 2 eexists. exists (Row 0 1), (Row 2 2). do 2 eexists. split; [unfold fits; vm_compute; discriminate|]. split; [exact L|]. split; [exact L'|]. split; [exact forth_links|]. split; [exact back_links|].
  split; [apply (line_given d _ _ 0 _ _ Ln); reflexivity|]. split; [apply (line_given d' _ _ 0 _ _ Ln'); reflexivity|].
  intros (_ & H & _). specialize (H (780, 263) (780, 275) (792, 275)). rewrite !one_line in H. destruct H as [H _].
  specialize (H ltac:(left; vm_compute; tauto)). destruct H as [H|H]; vm_compute in H; intuition discriminate.
Qed.
