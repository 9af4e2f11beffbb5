(** How close lines come to the borders of tables and to the ends of other lines. *)
From Coq Require Import String List Arith NArith ZArith Bool Lia.
From Verif Require Import Base F32 Geometry Mir Erd Route Layout Parser Cli SpecMir SpecF32 SpecGeom SpecLayout SpecRoute SpecGraph SpecCrash SpecBorder
  F32Facts SearchFacts LayoutFacts PipelineFacts GraphFacts PathFacts DrawFacts LatticeFacts ConnectFacts HubFacts OrderFacts RowFacts MidFacts
  TurnFacts CalmFacts LinkFacts SmoothFacts ClipFacts OuterFacts RepeatFacts MoreFacts.
Import ListNotations.
Local Open Scope Z_scope.

Section Doc.
Variables (d : document) (hs : list nat).
Hypothesis FD : end_doc d hs.
Let GD := ed_grid d hs FD.
Variable g : route_graph.
Hypothesis R : routes d hs g.
Let ns := rg_nodes g.
Let es := rg_edges g.

Lemma ys_off Y y : ys hs Y -> border hs y -> 10 <= Z.abs (Y - y).
Proof.
  intros (j & Lj & H) (i & k & Li & K & ->).
  assert (E : 2 * (table_top hs i + 35 * Z.of_nat k) = zt hs i + 70 * Z.of_nat k) by (unfold zt; lia). rewrite E.
  pose proof (zb_rows hs i) as Ri. pose proof (zb_rows hs j) as Rj. pose proof (table_bounds d hs GD i Li) as Bi. pose proof (table_bounds d hs GD j Lj) as Bj.
  destruct (rows_apart hs i j) as [(T & _)|[T|T]]; clear - T H Ri Rj K Bi Bj; lia.
Qed.
Lemma row_off_borders a y : end_at d hs a -> ~ high a -> border hs y -> 35 <= Z.abs (rowY hs a - y).
Proof.
  intros E Nh (i & k & Li & K & ->). pose proof (row_inside d hs FD a E) as In. pose proof (end_range d hs a E) as Lt.
  assert (E1 : 2 * (table_top hs i + 35 * Z.of_nat k) = zt hs i + 70 * Z.of_nat k) by (unfold zt; lia). rewrite E1.
  pose proof (zb_rows hs i) as Ri. pose proof (zb_rows hs (tab a)) as Ra.
  destruct a as [t c|t]; [|exfalso; apply Nh; exact I]. cbn [tab rowY] in *.
  destruct (rows_apart hs i t) as [(T & _)|[T|T]]; clear - T In Ri Ra K; lia.
Qed.

Hypothesis Rows : forall a, end_at d hs a -> ~ high a.

Lemma horizontal_off a b X1 X2 Y o u y : joined es a b -> spot ns a X1 Y o -> spot ns b X2 Y u -> X1 <> X2 -> border hs y -> 10 <= Z.abs (Y - y).
Proof.
  intros J A B Ne By.
  assert (Fo : o <> Some Up /\ o <> Some Down).
  { destruct (Z.lt_trichotomy X1 X2) as [L|[E|L]]; [|contradiction|].
    - destruct (edge_h d hs GD g R a b X1 X2 Y o u J A B L) as ([-> | ->] & _); split; discriminate.
    - destruct (edge_h d hs GD g R b a X2 X1 Y u o ltac:(destruct J; [right|left]; assumption) B A L) as (_ & [-> | ->] & _); split; discriminate. }
  destruct (spot_kind d hs FD g R a X1 Y o A) as [(_ & _ & _ & Hy)|[(_ & _ & _ & c & (e & E & _ & ->) & _)|[(_ & c & _ & _ & Hy & _)|[(_ & (e & E & _ & ->) & _)|[(_ & (e & E & _ & ->) & _)|(e & E & _ & H)]]]]].
  - exact (ys_off Y y Hy By).
  - pose proof (row_off_borders e y E (Rows e E) By). lia.
  - exact (ys_off Y y Hy By).
  - pose proof (row_off_borders e y E (Rows e E) By). lia.
  - pose proof (row_off_borders e y E (Rows e E) By). lia.
  - destruct H as [(_ & _ & ->)|(_ & _ & ->)]; exfalso; [apply (proj2 Fo)|apply (proj1 Fo)]; reflexivity.
Qed.
Lemma vertical_off a b X Y1 Y2 o u x : joined es a b -> spot ns a X Y1 o -> spot ns b X Y2 u -> table_side hs x -> 80 <= Z.abs (X - x).
Proof.
  intros J A B (i & Li & Hx).
  assert (Fo : o <> Some Left /\ o <> Some Right).
  { destruct (edge_straight d hs g R a b X Y1 X Y2 o u J A B) as [[_ Ne]|[(_ & _ & [-> | ->] & _)|(_ & _ & [-> | ->] & _)]]; [contradiction| | | |]; split; discriminate. }
  assert (Z : zl i = 2 * table_left i) by reflexivity. pose proof (zl_cases i) as Ci.
  assert (C : corridor X \/ column (X - 300)).
  { destruct (spot_kind d hs FD g R a X Y1 o A) as [(_ & C & _)|[(_ & C & _)|[(_ & c & C & -> & _)|[(_ & _ & ->)|[(_ & _ & ->)|(e & E & -> & H)]]]]]; auto.
    - right. now replace (c + 300 - 300) with c by lia.
    - exfalso. now apply (proj1 Fo).
    - exfalso. now apply (proj2 Fo).
    - right. replace (zl (tab e) + 300 - 300) with (zl (tab e)) by lia. apply zl_column. }
  unfold corridor, column in C. clear - C Ci Hx Z. lia.
Qed.

Lemma route_off a b l ps : walk es a b l -> places g l ps -> off_borders hs ps.
Proof.
  intros W Pl l1 p q l2 X1 Y1 X2 Y2 -> Hp Hq.
  destruct (forall2_split_r _ _ _ _ _ _ Pl) as (k' & i & j & z' & -> & (n & Hn & <-) & (n' & Hn' & <-) & _).
  pose proof (walk_joined g a b _ W k' i j z' eq_refl) as J.
  assert (A : spot ns i X1 Y1 (rn_orient n)) by (exists n; auto). assert (B : spot ns j X2 Y2 (rn_orient n')) by (exists n'; auto).
  split.
  - intros <- y By. refine (horizontal_off i j X1 X2 Y1 _ _ y J A B _ By). intros <-.
    destruct (edge_straight d hs g R i j X1 Y1 X1 Y1 _ _ J A B) as [[_ Ne]|[(_ & L & _)|(_ & L & _)]]; [now apply Ne|lia|lia].
  - intros <- x Hx. exact (vertical_off i j X1 Y1 Y2 _ _ x J A B Hx).
Qed.
End Doc.

Theorem fields_off_borders m vb g d e ps : fits (table_rows m) -> (forall r, In (ERel r) (m_entries m) -> fields_joined r) ->
  layout_module m = Ret (vb, g, d) -> In e (d_edges d) -> e_path e = Some ps -> off_borders (table_rows m) ps.
Proof.
  intros F Hr L I Ep. destruct (module_cheapest m vb g d F L e I) as (s & t & l & ps' & _ & _ & Ep' & Pl & (_ & _ & a & b & _ & _ & _ & _ & W) & _).
  rewrite Ep in Ep'. injection Ep' as <-. destruct (layout_routes m vb g d F L) as (d0 & M & V & D & Rt).
  exact (route_off _ _ (module_ends m d0 M F) g Rt (module_rows m d0 M F Hr) a b l ps W Pl).
Qed.

(** ** Ends of lines *)

Lemma walk_end es a b l : walk es a b l -> exists l', l = l' ++ [b].
Proof. induction 1 as [a|a b c l J W (l' & ->)]; [exists []; reflexivity|exists (a :: l'); reflexivity]. Qed.

Lemma forall2_head {A B} (P : A -> B -> Prop) a l b k : Forall2 P (a :: l) (b :: k) -> P a b.
Proof. now inversion 1. Qed.
Lemma forall2_last {A B} (P : A -> B -> Prop) a l b k : Forall2 P (l ++ [a]) (k ++ [b]) -> P a b.
Proof.
  intros F. apply Forall2_app_inv_l in F as (k1 & k2 & F1 & F2 & E). inversion F2 as [|x y r s P1 F3]; subst. inversion F3; subst.
  apply app_inj_tail in E as [_ ->]. exact P1.
Qed.

Section Ends.
Variables (d : document) (hs : list nat).
Hypothesis FD : end_doc d hs.
Let GD := ed_grid d hs FD.

Lemma anchors_apart k a b o u : end_at d hs a -> end_at d hs b -> In o (anchor_sides hs a) -> In u (anchor_sides hs b) ->
  (k = 35 \/ (k = 70 /\ ~ high a /\ ~ high b)) ->
  let X := side_x (tab a) o in let Y := side_y hs a o in let X' := side_x (tab b) u in let Y' := side_y hs b u in
  (X = X' /\ Y = Y') \/ k <= Z.abs (X - X') \/ k <= Z.abs (Y - Y').
Proof.
  intros Ea Eb Io Iu K. cbn zeta.
  pose proof (row_inside d hs FD a Ea) as Na. pose proof (row_inside d hs FD b Eb) as Nb.
  apply (sides_in hs a o (end_ok d hs a Ea)) in Io. apply (sides_in hs b u (end_ok d hs b Eb)) in Iu.
  pose proof (zl_cases (tab a)) as Ca. pose proof (zl_cases (tab b)) as Cb.
  destruct (Z.eq_dec (zl (tab a)) (zl (tab b))) as [E|E].
  2:{ right. left. unfold side_x. destruct o, u; lia. }
  destruct (col_apart hs (tab a) (tab b) E) as [T|[T|T]].
  - destruct a as [t c|t], b as [t' c'|t']; cbn [tab rowY low high] in *; subst t'; unfold side_x, side_y; cbn [tab rowY] in *;
      destruct Io as [-> | [-> | [[-> Lo] | [-> Lo]]]], Iu as [-> | [-> | [[-> Lu] | [-> Lu]]]]; try lia;
      destruct K as [-> | (-> & Ha & Hb)]; try (exfalso; tauto); lia.
  - right. right. unfold side_y. destruct o, u; lia.
  - right. right. unfold side_y. destruct o, u; lia.
Qed.

Variable g : route_graph.
Hypothesis R : routes d hs g.

Lemma stand_anchor tp a n : stands_for g tp a -> nth_error (rg_nodes g) a = Some n ->
  exists e, end_at d hs e /\ In (port_orientation tp) (anchor_sides hs e) /\ hpoint (rn_loc n) (side_x (tab e) (port_orientation tp)) (side_y hs e (port_orientation tp)).
Proof.
  intros (m & Hm & _ & O) Hn. rewrite Hm in Hn. injection Hn as ->. destruct (nth_spot d hs g R a n Hm) as (X & Y & A & H).
  rewrite O in A. destruct (spot_ok d hs GD g R a X Y _ A) as (_ & _ & P). destruct (port_row d hs FD _ X Y P) as (e & E & I & -> & ->). eauto.
Qed.

Lemma line_end s t l ps p : best_route g s t l -> places g l ps -> end_of_line ps p ->
  exists e o, end_at d hs e /\ In o (anchor_sides hs e) /\ hpoint p (side_x (tab e) o) (side_y hs e o).
Proof.
  intros ((x & y & a & b & _ & _ & Sx & Sy & W) & _) Pl [(l' & ->)|(l' & ->)].
  - destruct (walk_head _ _ _ _ W) as (k & ->). destruct (forall2_head _ _ _ _ _ Pl) as (n & Hn & <-).
    destruct (stand_anchor x a n Sx Hn) as (e & H). eauto.
  - destruct (walk_end _ _ _ _ W) as (k & ->). destruct (forall2_last _ _ _ _ _ Pl) as (n & Hn & <-).
    destruct (stand_anchor y b n Sy Hn) as (e & H). eauto.
Qed.
End Ends.

Theorem ends_apart m vb g d e e' ps ps' p p' : fits (table_rows m) -> layout_module m = Ret (vb, g, d) ->
  In e (d_edges d) -> In e' (d_edges d) -> e_path e = Some ps -> e_path e' = Some ps' -> end_of_line ps p -> end_of_line ps' p' ->
  same_or_apart 35 p p'.
Proof.
  intros F L I I' Ep Ep' H H'. destruct (layout_routes m vb g d F L) as (d0 & M & V & D & Rt). pose proof (module_ends m d0 M F) as ED.
  destruct (module_cheapest m vb g d F L e I) as (s & t & l & ps1 & _ & _ & E1 & Pl & B). rewrite Ep in E1. injection E1 as <-.
  destruct (module_cheapest m vb g d F L e' I') as (s' & t' & l' & ps1 & _ & _ & E1 & Pl' & B'). rewrite Ep' in E1. injection E1 as <-.
  destruct (line_end _ _ ED g Rt s t l ps p B Pl H) as (a & o & Ea & Io & Ha). destruct (line_end _ _ ED g Rt s' t' l' ps' p' B' Pl' H') as (b & u & Eb & Iu & Hb).
  do 4 eexists. split; [exact Ha|]. split; [exact Hb|]. exact (anchors_apart _ _ ED 35 a b o u Ea Eb Io Iu (or_introl eq_refl)).
Qed.

Theorem field_ends_apart m vb g d e e' ps ps' p p' : fits (table_rows m) -> (forall r, In (ERel r) (m_entries m) -> fields_joined r) ->
  layout_module m = Ret (vb, g, d) -> In e (d_edges d) -> In e' (d_edges d) -> e_path e = Some ps -> e_path e' = Some ps' ->
  end_of_line ps p -> end_of_line ps' p' -> same_or_apart 70 p p'.
Proof.
  intros F Hr L I I' Ep Ep' H H'. destruct (layout_routes m vb g d F L) as (d0 & M & V & D & Rt). pose proof (module_ends m d0 M F) as ED.
  destruct (module_cheapest m vb g d F L e I) as (s & t & l & ps1 & _ & _ & E1 & Pl & B). rewrite Ep in E1. injection E1 as <-.
  destruct (module_cheapest m vb g d F L e' I') as (s' & t' & l' & ps1 & _ & _ & E1 & Pl' & B'). rewrite Ep' in E1. injection E1 as <-.
  destruct (line_end _ _ ED g Rt s t l ps p B Pl H) as (a & o & Ea & Io & Ha). destruct (line_end _ _ ED g Rt s' t' l' ps' p' B' Pl' H') as (b & u & Eb & Iu & Hb).
  do 4 eexists. split; [exact Ha|]. split; [exact Hb|]. pose proof (module_rows m d0 M F Hr) as Rw.
  exact (anchors_apart _ _ ED 70 a b o u Ea Eb Io Iu (or_intror (conj eq_refl (conj (Rw a Ea) (Rw b Eb))))).
Qed.

(** ** Samples *)

Definition halved (z : Z * Z) : point := halfpoint (fst z) (snd z).
Lemma half_h z : small z = true -> hpoint (halved z) (fst z) (snd z).
Proof. intros H. pose proof (half_path_h [z] ltac:(cbn; now rewrite H)) as F. now inversion F. Qed.

(** The line from the first table to the third lies on the lower border of the second. *)
Definition along : module := three 3 1 3 [ERel (mkRelation (PEntity (lit "a")) (PEntity (lit "c")))].
Definition along_path : list (Z * Z) := [(700, 240); (780, 240); (1540, 240); (1620, 240)].
Theorem table_lines_on_borders : exists m vb g d e ps, fits (table_rows m) /\ layout_module m = Ret (vb, g, d) /\ In e (d_edges d) /\ e_path e = Some ps /\
  exists i l1 p q l2 X1 X2 Y, (i < length (table_rows m))%nat /\ ps = l1 ++ p :: q :: l2 /\ hpoint p X1 Y /\ hpoint q X2 Y /\
    Y = 2 * (table_top (table_rows m) i + table_height (table_rows m) i) /\ X1 <= 2 * table_left i /\ 2 * (table_left i + 300) <= X2.
Proof.
  assert (F : fits (table_rows along)) by (unfold fits; vm_compute; discriminate).
  destruct (drawn_path _ 0 along_path F) as (vb & g & d & e & L & He & Ep); [vm_compute; reflexivity|].
  exists along, vb, g, d, e, (half_path along_path). split; [exact F|]. split; [exact L|]. split; [exact (nth_error_In _ _ He)|]. split; [exact Ep|].
  exists 1%nat, (half_path [(700, 240)]), (halved (780, 240)), (halved (1540, 240)), (half_path [(1620, 240)]), 780, 1540, 240.
  split; [cbn; lia|]. split; [reflexivity|]. split; [apply (half_h (780, 240)); reflexivity|]. split; [apply (half_h (1540, 240)); reflexivity|].
  split; [vm_compute; reflexivity|]. split; vm_compute; discriminate.
Qed.

(** The line from the first table to the third passes 5 below the second. *)
Definition below : module := three 1 2 1 [rel_fields "a" "a" "b" "a"; rel_fields "a" "a" "c" "a"].
Definition below_b : list (Z * Z) := [(700, 205); (780, 205); (780, 320); (1540, 320); (1540, 205); (1620, 205)].
Lemma below_sample : fits (table_rows below) /\ (forall r, In (ERel r) (m_entries below) -> fields_joined r) /\
  exists vb g d e ps, layout_module below = Ret (vb, g, d) /\ In e (d_edges d) /\ e_path e = Some ps /\
  exists l1 p q l2 y, ps = l1 ++ p :: q :: l2 /\ hpoint p 780 320 /\ hpoint q 1540 320 /\ border (table_rows below) y /\ 320 - y = 10.
Proof.
  assert (F : fits (table_rows below)) by (unfold fits; vm_compute; discriminate). split; [exact F|]. split.
  { intros r [H|[H|[H|[H|[H|[]]]]]]; try discriminate H; injection H as <-; do 4 eexists; (split; [reflexivity|]); (split; [reflexivity|]); discriminate. }
  destruct (drawn_path _ 1 below_b F) as (vb & g & d & e & L & He & Ep); [vm_compute; reflexivity|].
  exists vb, g, d, e, (half_path below_b). split; [exact L|]. split; [exact (nth_error_In _ _ He)|]. split; [exact Ep|].
  exists (half_path [(700, 205); (780, 205)]), (halved (780, 320)), (halved (1540, 320)), (half_path [(1540, 205); (1620, 205)]), 310.
  split; [reflexivity|]. split; [apply (half_h (780, 320)); reflexivity|]. split; [apply (half_h (1540, 320)); reflexivity|]. split; [|reflexivity].
  exists 1%nat, 3%nat. split; [cbn; lia|]. split; [cbn; lia|]. vm_compute. reflexivity.
Qed.

(** The ends at a table of four rows and at its first field. *)
Definition both_ends : module := three 3 3 1 [ERel (mkRelation (PEntity (lit "a")) (PEntity (lit "b"))); rel_fields "a" "a" "b" "a"].
Definition first_line : list (Z * Z) := [(700, 240); (780, 240); (860, 240)].
Definition second_line : list (Z * Z) := [(700, 205); (780, 205); (860, 205)].
Theorem table_ends_closer : exists m vb g d e e' ps ps' p p', fits (table_rows m) /\ layout_module m = Ret (vb, g, d) /\
  In e (d_edges d) /\ In e' (d_edges d) /\ e_path e = Some ps /\ e_path e' = Some ps' /\ end_of_line ps p /\ end_of_line ps' p' /\ ~ same_or_apart 36 p p'.
Proof.
  assert (F : fits (table_rows both_ends)) by (unfold fits; vm_compute; discriminate).
  destruct (drawn_path _ 0 first_line F) as (vb & g & d & e & L & He & Ep); [vm_compute; reflexivity|].
  destruct (drawn_path _ 1 second_line F) as (vb' & g' & d' & e' & L' & He' & Ep'); [vm_compute; reflexivity|].
  rewrite L in L'. injection L' as <- <- <-.
  exists both_ends, vb, g, d, e, e', (half_path first_line), (half_path second_line), (halved (700, 240)), (halved (700, 205)).
  split; [exact F|]. split; [exact L|]. split; [exact (nth_error_In _ _ He)|]. split; [exact (nth_error_In _ _ He')|]. split; [exact Ep|]. split; [exact Ep'|].
  split; [left; eexists; reflexivity|]. split; [left; eexists; reflexivity|]. intros (X & Y & X' & Y' & H & H' & C).
  destruct (hpoint_unique _ _ _ _ _ (half_h (700, 240) eq_refl) H) as [<- <-]. destruct (hpoint_unique _ _ _ _ _ (half_h (700, 205) eq_refl) H') as [<- <-].
  cbn [fst snd] in C. lia.
Qed.

(** Two relations of one field with two neighbouring fields; both end at the right side. *)
Definition two_rows : module := three 2 1 1 [rel_fields "a" "a" "b" "a"; rel_fields "a" "b" "b" "a"].
Definition line_one : list (Z * Z) := [(700, 205); (780, 205); (860, 205)].
Definition line_two : list (Z * Z) := [(700, 275); (780, 275); (780, 205); (860, 205)].
Lemma two_rows_sample : fits (table_rows two_rows) /\ (forall r, In (ERel r) (m_entries two_rows) -> fields_joined r) /\
  exists vb g d e e' ps ps', layout_module two_rows = Ret (vb, g, d) /\ nth_error (d_edges d) 0 = Some e /\ nth_error (d_edges d) 1 = Some e' /\
  e_path e = Some ps /\ e_path e' = Some ps' /\ ps = half_path line_one /\ ps' = half_path line_two.
Proof.
  assert (F : fits (table_rows two_rows)) by (unfold fits; vm_compute; discriminate). split; [exact F|]. split.
  { intros r [H|[H|[H|[H|[H|[]]]]]]; try discriminate H; injection H as <-; do 4 eexists; (split; [reflexivity|]); (split; [reflexivity|]); discriminate. }
  destruct (drawn_path _ 0 line_one F) as (vb & g & d & e & L & He & Ep); [vm_compute; reflexivity|].
  destruct (drawn_path _ 1 line_two F) as (vb' & g' & d' & e' & L' & He' & Ep'); [vm_compute; reflexivity|].
  rewrite L in L'. injection L' as <- <- <-. exists vb, g, d, e, e', (half_path line_one), (half_path line_two). auto 10.
Qed.
