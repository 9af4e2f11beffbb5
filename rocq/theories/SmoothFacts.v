(** Relations between fields are drawn without kinks. *)
From Coq Require Import String List Arith NArith ZArith Bool Lia.
From Verif Require Import Base F32 Geometry Mir Erd Route Layout Svg Render Parser Cli SpecMir SpecF32 SpecGeom SpecLayout SpecRoute SpecGraph SpecRender SpecCrash
  SpecLink SpecSmooth F32Facts SearchFacts LayoutFacts PipelineFacts GraphFacts PathFacts DrawFacts LatticeFacts ConnectFacts HubFacts OrderFacts RowFacts MidFacts
  TurnFacts CalmFacts TableFacts LinkFacts.
Import ListNotations.
Local Open Scope Z_scope.

(** ** Roomy paths are smooth *)

Definition roomy (zs : list (Z * Z)) : Prop := forall l1 p q l2, zs = l1 ++ p :: q :: l2 ->
  (snd p = snd q /\ 25 <= Z.abs (fst p - fst q)) \/ (fst p = fst q /\ 25 <= Z.abs (snd p - snd q)).

Lemma roomy_tail a zs : roomy (a :: zs) -> roomy zs.
Proof. intros H l1 p q l2 E. apply (H (a :: l1) p q l2). now rewrite E. Qed.

Definition far (a b : Z * Z) : Prop :=
  (snd a = snd b /\ 25 <= Z.abs (fst a - fst b)) \/ (fst a = fst b /\ 25 <= Z.abs (snd a - snd b)).

Lemma sgn_cases z : (0 < z /\ Z.sgn z = 1) \/ (z = 0 /\ Z.sgn z = 0) \/ (z < 0 /\ Z.sgn z = -1).
Proof. destruct z; cbn; lia. Qed.
Lemma far_axis a b : far a b ->
  (direction a b = (1, 0) /\ snd a = snd b /\ fst a + 25 <= fst b) \/ (direction a b = (-1, 0) /\ snd a = snd b /\ fst b + 25 <= fst a) \/
  (direction a b = (0, 1) /\ fst a = fst b /\ snd a + 25 <= snd b) \/ (direction a b = (0, -1) /\ fst a = fst b /\ snd b + 25 <= snd a).
Proof.
  unfold far, direction. intros H. pose proof (sgn_cases (fst b - fst a)) as [[? ->]|[[? ->]|[? ->]]];
    pose proof (sgn_cases (snd b - snd a)) as [[? ->]|[[? ->]|[? ->]]]; try (exfalso; lia).
  - left. split; [reflexivity|lia].
  - do 2 right. left. split; [reflexivity|lia].
  - do 3 right. split; [reflexivity|lia].
  - right. left. split; [reflexivity|lia].
Qed.
Lemma direction_of p q x y : (0 < x /\ fst p < fst q \/ x = 0 /\ fst p = fst q \/ x < 0 /\ fst q < fst p) -> Z.sgn x = x ->
  (0 < y /\ snd p < snd q \/ y = 0 /\ snd p = snd q \/ y < 0 /\ snd q < snd p) -> Z.sgn y = y -> direction p q = (x, y).
Proof.
  intros Hx Sx Hy Sy. unfold direction. f_equal.
  - rewrite <- Sx. destruct Hx as [[? ?]|[[-> ?]|[? ?]]]; [rewrite !Z.sgn_pos by lia; reflexivity|replace (fst q - fst p) with 0 by lia; reflexivity|rewrite !Z.sgn_neg by lia; reflexivity].
  - rewrite <- Sy. destruct Hy as [[? ?]|[[-> ?]|[? ?]]]; [rewrite !Z.sgn_pos by lia; reflexivity|replace (snd q - snd p) with 0 by lia; reflexivity|rewrite !Z.sgn_neg by lia; reflexivity].
Qed.
Ltac dir_tac := apply direction_of; unfold ahead, behind; cbn [fst snd]; try reflexivity; lia.

Section Step.
Variables a b pen : Z * Z.
Hypothesis Far : far a b.
Hypothesis Pen : pen = a \/ pen = ahead a (direction a b).

Lemma pen_line : direction pen b = direction a b.
Proof. destruct (far_axis a b Far) as [(E & H)|[(E & H)|[(E & H)|(E & H)]]]; rewrite E in *; destruct Pen as [-> | ->]; dir_tac. Qed.
Lemma pen_short : direction pen (behind b (direction a b)) = direction a b.
Proof. destruct (far_axis a b Far) as [(E & H)|[(E & H)|[(E & H)|(E & H)]]]; rewrite E in *; destruct Pen as [-> | ->]; dir_tac. Qed.
Lemma into_corner : direction (behind b (direction a b)) b = direction a b.
Proof. clear Pen. destruct (far_axis a b Far) as [(E & H)|[(E & H)|[(E & H)|(E & H)]]]; rewrite E in *; dir_tac. Qed.
Lemma out_of_corner : direction b (behind b (direction a b)) = direction b a.
Proof. clear Pen.
  destruct (far_axis a b Far) as [(E & H)|[(E & H)|[(E & H)|(E & H)]]]; rewrite E; unfold direction, behind; cbn [fst snd];
    f_equal; match goal with |- Z.sgn ?x = Z.sgn ?y => destruct (sgn_cases x) as [[? ->]|[[? ->]|[? ->]]]; destruct (sgn_cases y) as [[? ->]|[[? ->]|[? ->]]]; lia end.
Qed.
Lemma corner_ahead : direction a (ahead a (direction a b)) = direction a b.
Proof. clear Pen. destruct (far_axis a b Far) as [(E & H)|[(E & H)|[(E & H)|(E & H)]]]; rewrite E in *; dir_tac. Qed.
Lemma far_dir : axis (direction a b).
Proof. clear Pen. unfold axis. destruct (far_axis a b Far) as [(E & H)|[(E & H)|[(E & H)|(E & H)]]]; rewrite E; auto. Qed.
End Step.

Lemma roomy_far a b zs : roomy (a :: b :: zs) -> far a b.
Proof. intros H. exact (H [] a b zs eq_refl). Qed.
Lemma orderly_tail a zs : orderly (a :: zs) -> orderly zs.
Proof.
  intros [H1 H2]. split.
  - intros l1 p q l2 E. apply (H1 (a :: l1) p q l2). now rewrite E.
  - intros l1 p q r l2 E. apply (H2 (a :: l1) p q r l2). now rewrite E.
Qed.

Lemma rest_smooth : forall zs a b pen, roomy (a :: b :: zs) -> orderly (a :: b :: zs) -> (pen = a \/ pen = ahead a (direction a b)) ->
  smooth_from pen (direction a b) (trace_rest a (b :: zs)).
Proof.
  induction zs as [|c zs IH]; intros a b pen Rm Od Pen; pose proof (roomy_far _ _ _ Rm) as F1.
  - cbn [trace_rest smooth_from]. split; [now apply pen_line|exact I].
  - pose proof (roomy_far _ _ _ (roomy_tail _ _ Rm)) as F2.
    change (trace_rest a (b :: c :: zs)) with
      ((if ((fst (direction a b) =? fst (direction b c)) && (snd (direction a b) =? snd (direction b c)))%bool
           then [LineTo b]
           else [LineTo (behind b (direction a b)); CurveTo b (ahead b (direction b c))]) ++ trace_rest b (c :: zs)).
    destruct ((_ =? _) && (_ =? _))%bool eqn:E.
    + apply andb_prop in E as [E1 E2]. apply Z.eqb_eq in E1, E2.
      assert (Ed : direction a b = direction b c) by (destruct (direction a b), (direction b c); cbn in *; congruence).
      cbn [app smooth_from]. split; [now apply pen_line|]. rewrite Ed. apply IH; [now apply roomy_tail in Rm|now apply orderly_tail in Od|now left].
    + cbn [app smooth_from]. split; [now apply pen_short|]. split; [now apply into_corner|]. rewrite (corner_ahead b c F2).
      split; [now apply far_dir|]. split.
      * rewrite (out_of_corner a b F1). apply (proj2 Od [] a b c zs). reflexivity.
      * apply IH; [now apply roomy_tail in Rm|now apply orderly_tail in Od|now right].
Qed.

Lemma roomy_smooth zs : (2 <= length zs)%nat -> roomy zs -> orderly zs -> smooth (trace zs).
Proof.
  destruct zs as [|a [|b zs]]; cbn [length]; intros L Rm Od; [lia|lia|].
  pose proof (roomy_far _ _ _ Rm) as F1. pose proof (rest_smooth zs a b a Rm Od (or_introl eq_refl)) as Sm.
  cbn [trace]. assert (H : exists p cs', trace_rest a (b :: zs) = LineTo p :: cs').
  { destruct zs as [|c zs]; cbn [trace_rest]; [eauto|]. destruct (_ && _)%bool; cbn [app]; eauto. }
  destruct H as (p & cs' & E). rewrite E in *. exists a, p, cs'. split; [reflexivity|]. cbn [smooth_from] in Sm. destruct Sm as [D Sm].
  rewrite D. split; [now apply far_dir|exact Sm].
Qed.

(** ** Routes are roomy *)

Section Doc.
Variables (d : document) (hs : list nat).
Hypothesis FD : end_doc d hs.
Hypothesis Rows : forall a, end_at d hs a -> ~ high a.
Let GD := ed_grid d hs FD.
Variable g : route_graph.
Hypothesis R : routes d hs g.
Let ns := rg_nodes g.
Let es := rg_edges g.

Lemma ys_apart Y Y' : ys hs Y -> ys hs Y' -> Y <> Y' -> 70 <= Z.abs (Y - Y').
Proof.
  assert (Up : forall i j Y Y', (i < length hs)%nat -> (j < length hs)%nat -> (i / 3 < j / 3)%nat ->
    (Y = zt hs i - 80 \/ Y = zb hs i + 80) -> (Y' = zt hs j - 80 \/ Y' = zb hs j + 80) -> Y <> Y' -> Y + 70 <= Y').
  { intros i j Z Z' Li Lj Lr H H' Ne. pose proof (table_bounds d hs GD i Li) as Bi. pose proof (table_bounds d hs GD j Lj) as Bj.
    pose proof (zb_zt hs i j Lr) as Ba.
    destruct H as [-> | ->]; [lia|]. destruct H' as [-> | ->]; [|lia].
    remember (i / 3)%nat as r eqn:Er. destruct (Nat.eq_dec (j / 3) (S r)) as [E|E].
    - pose proof (next_top hs r j E) as N. destruct (row_div r) as (D0 & D1 & D2). destruct (row_zt hs r) as (T1 & T2).
      pose proof (zb_rows hs (3 * r)) as R0. pose proof (zb_rows hs (3 * r + 1)) as R1. pose proof (zb_rows hs (3 * r + 2)) as R2.
      pose proof (zb_rows hs i) as Ri. pose proof (zt_same hs i (3 * r) ltac:(congruence)) as Ti. clear - N T1 T2 R0 R1 R2 Ri Ti Ba Ne. lia.
    - destruct (row_div (S r)) as (D0 & _ & _).
      pose proof (zb_zt hs i (3 * S r) ltac:(rewrite D0, <- Er; lia)) as B1. pose proof (zb_zt hs (3 * S r) j ltac:(rewrite D0; lia)) as B2.
      pose proof (zb_rows hs (3 * S r)) as B3. clear - B1 B2 B3. lia. }
  intros (i & Li & H) (j & Lj & H') Ne.
  destruct (Nat.lt_trichotomy (i / 3) (j / 3)) as [L|[E|L]].
  - pose proof (Up i j Y Y' Li Lj L H H' Ne). lia.
  - pose proof (zt_same hs i j E) as T. pose proof (zb_rows hs i) as Ri. pose proof (zb_rows hs j) as Rj.
    pose proof (table_bounds d hs GD i Li) as Bi. pose proof (table_bounds d hs GD j Lj) as Bj. clear - T Ri Rj Bi Bj H H' Ne. lia.
  - pose proof (Up j i Y' Y Lj Li L H' H ltac:(congruence)). lia.
Qed.

Lemma row_ys_apart a Y : end_at d hs a -> ys hs Y -> 25 <= Z.abs (rowY hs a - Y).
Proof.
  intros E (i & Li & H). pose proof (row_inside d hs FD a E) as In. pose proof (end_range d hs a E) as Lt.
  pose proof (table_bounds d hs GD i Li) as Bi. pose proof (table_bounds d hs GD _ Lt) as Bt.
  destruct (rows_apart hs i (tab a)) as [(T & _)|[T|T]]; [|clear - In T H Bi Bt; lia|clear - In T H Bi Bt; lia].
  pose proof (zb_rows hs i) as Ri. pose proof (Rows a E) as Nh. destruct a as [t k|t]; [|exfalso; apply Nh; exact I].
  cbn [tab rowY] in *. clear - T Ri In H Bi. lia.
Qed.
Lemma rows_far a b : end_at d hs a -> end_at d hs b -> rowY hs a <> rowY hs b -> 70 <= Z.abs (rowY hs a - rowY hs b).
Proof.
  intros E E' Ne. pose proof (row_inside d hs FD a E) as In. pose proof (row_inside d hs FD b E') as In'.
  pose proof (Rows a E) as Na. pose proof (Rows b E') as Nb.
  destruct (rows_apart hs (tab a) (tab b)) as [(T & _)|[T|T]]; [|clear - In In' T; lia|clear - In In' T; lia].
  destruct a as [t k|t]; [|exfalso; apply Na; exact I]. destruct b as [t' k'|t']; [|exfalso; apply Nb; exact I]. cbn [tab rowY] in *. clear - T Ne. lia.
Qed.

(** The two kinds of nodes in a corridor. *)
Lemma corridor_kind a X Y o : corridor X -> spot ns a X Y o -> ys hs Y \/ exists a, end_at d hs a /\ Y = rowY hs a.
Proof.
  intros C A. pose proof (corridor_none d hs GD g R _ _ _ _ C A) as ->.
  destruct (spot_kind d hs FD g R a X Y None A) as [(_ & _ & Q & _)|[(_ & _ & _ & c & (e & E & _ & ->) & _)|[(_ & c & Cc & -> & Q & _)|[(_ & _ & Q)|[(_ & _ & Q)|(e & _ & _ & [(_ & _ & Q)|(_ & _ & Q)])]]]]];
    try discriminate; [left; apply (corner_xs hs _ _ Q)|right; eauto|left; exact Q].
Qed.

Lemma spot_xs a X Y o : spot ns a X Y o -> corridor X \/ column X \/ column (X - 300) \/ column (X - 600).
Proof.
  intros A. destruct (spot_kind d hs FD g R a X Y o A) as [(_ & C & _)|[(_ & C & _)|[(_ & c & C & -> & _)|[(_ & C & _)|[(_ & C & _)|(e & _ & -> & _)]]]]]; auto.
  - right. right. left. now replace (c + 300 - 300) with c by lia.
  - right. left. exact (rel_column d hs _ _ C).
  - right. right. right. exact (rel_column d hs _ _ C).
  - right. right. left. replace (zl (tab e) + 300 - 300) with (zl (tab e)) by lia. apply zl_column.
Qed.

Lemma vertical_apart a b X Y1 Y2 o u : spot ns a X Y1 o -> spot ns b X Y2 u -> joined es a b -> Y1 < Y2 -> faces o Down -> faces u Up -> 25 <= Y2 - Y1.
Proof.
  intros A B J L Fo Fu.
  assert (Kind : corridor X \/ column (X - 300)).
  { destruct (spot_kind d hs FD g R a X Y1 o A) as [(_ & C & _)|[(_ & C & _)|[(_ & c & C & -> & _)|[(_ & _ & ->)|[(_ & _ & ->)|(e & _ & -> & _)]]]]]; auto.
    - right. now replace (c + 300 - 300) with c by lia.
    - destruct Fo; discriminate.
    - destruct Fo; discriminate.
    - right. replace (zl (tab e) + 300 - 300) with (zl (tab e)) by lia. apply zl_column. }
  destruct Kind as [C|C].
  - destruct (corridor_kind a X Y1 o C A) as [K1|(e & E & ->)]; destruct (corridor_kind b X Y2 u C B) as [K2|(e' & E' & ->)].
    + pose proof (ys_apart Y1 Y2 K1 K2 ltac:(lia)). lia.
    + pose proof (row_ys_apart e' Y1 E' K1). lia.
    + pose proof (row_ys_apart e Y2 E K2). lia.
    + pose proof (rows_far e e' E E' ltac:(lia)). lia.
  - set (c := X - 300) in *. replace X with (c + 300) in A, B by (unfold c; lia).
    destruct (column_spot d hs FD g R b c Y2 u C B) as [(-> & M2)|(e & E & Ze & [(-> & _)|(_ & Hi & _)])];
      [|destruct Fu; discriminate|exfalso; exact (Rows e E Hi)].
    destruct (column_spot d hs FD g R a c Y1 o C A) as [(-> & M1)|(e & E & Ze & [(-> & _ & ->)|(_ & Hi & _)])]; [| |exfalso; exact (Rows e E Hi)].
    + pose proof (ys_apart Y1 Y2 (md_ys _ _ _ _ _ _ M1) (md_ys _ _ _ _ _ _ M2) ltac:(lia)). lia.
    + pose proof (end_range d hs e E) as Lt.
      pose proof (below_port d hs FD g R (tab e) a b c Y2 None C Lt Ze A ltac:(destruct J; [right|left]; assumption) B). lia.
Qed.

Lemma edge_far a b X1 Y1 X2 Y2 o u : joined es a b -> spot ns a X1 Y1 o -> spot ns b X2 Y2 u -> far (X1, Y1) (X2, Y2).
Proof.
  intros J A B. unfold far. cbn [fst snd].
  destruct (edge_straight d hs g R a b _ _ _ _ _ _ J A B) as [(E & N)|[(E & L & F1 & F2)|(E & L & F1 & F2)]].
  - left. split; [exact E|]. pose proof (spot_xs a _ _ _ A) as Ka. pose proof (spot_xs b _ _ _ B) as Kb.
    unfold corridor, column in *. clear - Ka Kb N. lia.
  - right. split; [exact E|]. subst X2. pose proof (vertical_apart a b X1 Y1 Y2 o u A B J L F1 F2). lia.
  - right. split; [exact E|]. subst X2. pose proof (vertical_apart b a X1 Y2 Y1 u o B A ltac:(destruct J; [right|left]; assumption) L F2 F1). lia.
Qed.

Lemma walk_joined a b l : walk es a b l -> forall l1 x y l2, l = l1 ++ x :: y :: l2 -> joined es x y.
Proof.
  intros W. induction W as [a|a b c l J W IH]; intros l1 x y l2 E; [destruct l1 as [|? [|? ?]]; discriminate|].
  destruct l1 as [|z l1]; cbn in E; injection E as E1 E2; [|eapply IH; exact E2].
  destruct (walk_head _ _ _ _ W) as (l' & ->). injection E2 as -> _. now subst x.
Qed.

Lemma route_roomy a b l ps zs : walk es a b l -> places g l ps -> Forall2 near ps zs -> roomy zs.
Proof.
  intros W Pl F l1 p q l2 ->. destruct (forall2_split_r _ _ _ _ _ _ F) as (k & x & y & z & -> & Px & Py & _).
  destruct (forall2_split_r _ _ _ _ _ _ Pl) as (k' & i & j & z' & -> & (n & Hn & <-) & (n' & Hn' & <-) & _).
  pose proof (walk_joined a b _ W k' i j z' eq_refl) as J.
  destruct (nth_spot d hs g R i n Hn) as (X & Y & A & H). destruct (nth_spot d hs g R j n' Hn') as (X' & Y' & B & H').
  rewrite (near_unique _ _ (X, Y) Px H), (near_unique _ _ (X', Y') Py H'). exact (edge_far i j _ _ _ _ _ _ J A B).
Qed.
End Doc.

Theorem fields_smooth m svg : fits (table_rows m) -> (forall r, In (ERel r) (m_entries m) -> fields_joined r) ->
  render_module m = Okay svg ->
  exists ls, links [] (m_entries m) ls /\ (forall ls', links [] (m_entries m) ls' -> ls' = ls) /\
    connected_by (fun pq l => exists zs, connection_along (table_rows m) zs pq l /\ smooth (trace zs)) ls svg.
Proof.
  intros F Hr Rn. apply module_links_by; [exact F|exact Rn|]. intros vb g d e ps zs l a b L I Ep Fz Pl W Od Lz.
  destruct (layout_routes m vb g d F L) as (d0 & M & V & D & Rt).
  apply roomy_smooth; [exact Lz| |exact Od].
  exact (route_roomy _ _ (module_ends m d0 M F) (module_rows m d0 M F Hr) g Rt a b l ps zs W Pl Fz).
Qed.

(** ** Reading whole numbers *)

Lemma pair_whole x y s : Z.abs x <= 8388608 -> Z.abs y <= 8388608 -> s = show_f32 (f32_of_Z x) ++ lit " " ++ show_f32 (f32_of_Z y) ->
  pair_text (2 * x, 2 * y) s.
Proof.
  intros Bx By ->. apply (pair_drawn (mkPoint (f32_of_Z x) (f32_of_Z y)) (2 * x) (2 * y)); [|unfold M24; lia|unfold M24; lia].
  split; cbn [px py]; apply hv_of_Z; assumption.
Qed.

(** ** A path with a kink *)

Definition kinked : module :=
  mkModule None
    [ EDef (mkEntity (lit "a") [mkField (lit "x") TInt None; mkField (lit "y") TInt None; mkField (lit "z") TInt None]);
      EDef (mkEntity (lit "b") []);
      EDef (mkEntity (lit "c") [mkField (lit "x") TInt None]);
      ERel (mkRelation (PEntity (lit "a")) (PEntity (lit "c"))) ].
Definition kinked_words : list str :=
  [ lit "M350 120"; lit "L384 120"; lit "Q390 120 390 126"; lit "L390 119"; lit "Q390 125 396 125"; lit "L764 125";
    lit "Q770 125 770 119"; lit "L770 91"; lit "Q770 85 776 85"; lit "L810 85" ].
Definition kinked_commands : list command :=
  [ MoveTo (2 * 350, 2 * 120); LineTo (2 * 384, 2 * 120); CurveTo (2 * 390, 2 * 120) (2 * 390, 2 * 126);
    LineTo (2 * 390, 2 * 119); CurveTo (2 * 390, 2 * 125) (2 * 396, 2 * 125); LineTo (2 * 764, 2 * 125);
    CurveTo (2 * 770, 2 * 125) (2 * 770, 2 * 119); LineTo (2 * 770, 2 * 91); CurveTo (2 * 770, 2 * 85) (2 * 776, 2 * 85);
    LineTo (2 * 810, 2 * 85) ].

Lemma spells_move x y s : Z.abs x <= 8388608 -> Z.abs y <= 8388608 ->
  s = lit "M" ++ show_f32 (f32_of_Z x) ++ lit " " ++ show_f32 (f32_of_Z y) -> spells (MoveTo (2 * x, 2 * y)) s.
Proof. intros Bx By ->. eexists. split; [reflexivity|]. now apply pair_whole. Qed.
Lemma spells_line x y s : Z.abs x <= 8388608 -> Z.abs y <= 8388608 ->
  s = lit "L" ++ show_f32 (f32_of_Z x) ++ lit " " ++ show_f32 (f32_of_Z y) -> spells (LineTo (2 * x, 2 * y)) s.
Proof. intros Bx By ->. eexists. split; [reflexivity|]. now apply pair_whole. Qed.
Lemma spells_curve x y x' y' s : Z.abs x <= 8388608 -> Z.abs y <= 8388608 -> Z.abs x' <= 8388608 -> Z.abs y' <= 8388608 ->
  s = lit "Q" ++ (show_f32 (f32_of_Z x) ++ lit " " ++ show_f32 (f32_of_Z y)) ++ lit " " ++ show_f32 (f32_of_Z x') ++ lit " " ++ show_f32 (f32_of_Z y') ->
  spells (CurveTo (2 * x, 2 * y) (2 * x', 2 * y')) s.
Proof. intros Bx By Bx' By' ->. do 2 eexists. split; [reflexivity|]. split; now apply pair_whole. Qed.

Theorem tables_kinked : exists m svg cs cmds, fits (table_rows m) /\ render_module m = Okay svg /\
    flat_map (fun n => filter (fun kv => str_eqb (fst kv) (lit "d")) (svg_attrs n)) (elements "path" svg) = [(lit "d", join (lit " ") cs)] /\
    Forall2 spells cmds cs /\ ~ smooth cmds.
Proof.
  exists kinked. destruct (render_module kinked) as [svg|e|p] eqn:E; [|vm_compute in E; discriminate|vm_compute in E; discriminate].
  exists svg, kinked_words, kinked_commands. split; [unfold fits; vm_compute; discriminate|]. split; [reflexivity|]. split.
  - assert (H : match render_module kinked with
      | Okay svg => flat_map (fun n => filter (fun kv => str_eqb (fst kv) (lit "d")) (svg_attrs n)) (elements "path" svg) =
                    [(lit "d", join (lit " ") kinked_words)]
      | _ => False end) by (vm_compute; reflexivity).
    now rewrite E in H.
  - split.
    + repeat constructor; (apply spells_move || apply spells_line || apply spells_curve); try lia; vm_compute; reflexivity.
    + intros (a & p & cs & Q & _ & S1). injection Q as <- <- <-. cbn in S1. destruct S1 as (_ & _ & _ & Q & _). discriminate.
Qed.
