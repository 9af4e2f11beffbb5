(** Relations that cannot turn around. *)
From Coq Require Import String List Arith NArith ZArith Bool Lia Classical_Prop.
From Verif Require Import Base F32 Geometry Mir Erd Route Layout Svg Render Parser Cli SpecMir SpecF32 SpecGeom SpecLayout SpecRoute SpecGraph SpecRender SpecCrash SpecLink SpecEnds SpecStack
  GeomFacts MirFacts PlaceFacts GridFacts LayoutFacts RenderFacts PipelineFacts PathFacts LatticeFacts DrawFacts OrderFacts RowFacts LineFacts MidFacts TurnFacts CalmFacts ColumnFacts TableFacts LinkFacts EndFacts.
From Verif Require ConnectFacts.
Import ListNotations.
Local Open Scope Z_scope.

Lemma tab_place p : tab (end_of p) = place_table p. Proof. now destruct p. Qed.
Lemma zl_mod i j : zl i = zl j -> (i mod 3 = j mod 3)%nat. Proof. unfold zl, table_left. lia. Qed.
Lemma outlet_upright hs p Y o : outlet hs (end_of p) Y o -> p = Table (place_table p) \/ at_bottom hs p.
Proof. destruct p as [i|i k]; [now left|]. intros [(H & _)|(H & _)]; [right; exact H|destruct H]. Qed.

Lemma forall2_both {A B} (P Q : A -> B -> Prop) l l' : Forall2 P l l' -> Forall2 Q l l' -> Forall2 (fun a b => P a b /\ Q a b) l l'.
Proof. induction 1; intros H'; inversion H'; subst; constructor; auto. Qed.

Lemma fair_apart d hs g p q : end_doc d hs -> ConnectFacts.routes d hs g -> end_at d hs (end_of p) -> end_at d hs (end_of q) -> end_of p <> end_of q -> ~ stacked hs p q ->
  fair hs g (end_of p) (end_of q).
Proof.
  intros ED R Ep Eq Ne Ns. assert (Rows : (exists i k j l, p = Row i k /\ q = Row j l) \/ p = Table (place_table p) \/ q = Table (place_table q)).
  { destruct p as [i|i k]; [auto|]. destruct q as [j|j l]; [auto|]. left. eauto 6. }
  destruct Rows as [(i & k & j & l & -> & ->)|T]; [apply (fair_rows d hs ED g R); auto; cbn; auto|].
  intros c s t Y1 w1 Y2 w2 w C _ _ _ O1 O2 Z1 Z2 _ _. exfalso. apply Ns. split.
  - rewrite <- !tab_place. apply zl_mod. congruence.
  - apply outlet_upright in O1. apply outlet_upright in O2. tauto.
Qed.
Lemma unstacked_calm m vb g d ls : fits (table_rows m) -> layout_module m = Ret (vb, g, d) -> links [] (m_entries m) ls ->
  Forall2 (fun pq e => apart (table_rows m) (fst pq) (snd pq) -> ~ stacked (table_rows m) (fst pq) (snd pq) -> calm_path e) ls (d_edges d).
Proof.
  intros F L Ll. destruct (links_edges m vb g d ls F L Ll) as (d0 & M & H). cbn zeta in H.
  destruct (layout_routes m vb g d F L) as (d0' & M' & V & D & R). rewrite M in M'. injection M' as <-.
  pose proof (module_ends m d0 M F) as ED. destruct (draw_split _ _ _ _ D) as (_ & N & F2).
  eapply forall2_weaken; [exact H|]. intros [p q] e _ (Ie & _ & s & t & Gs & Gt & Ps & Pt) Ap Ns. cbn [fst snd] in *.
  destruct (forall2_in_r _ _ _ _ F2 Ie) as (e0 & I0 & (E1 & E2) & _).
  assert (Es : end_at (place_terminal_ports (fst (place_nodes d0))) (table_rows m) (end_of p)) by (exists e0, (e_source e0), s; rewrite <- E1; auto).
  assert (Et : end_at (place_terminal_ports (fst (place_nodes d0))) (table_rows m) (end_of q)) by (exists e0, (e_target e0), t; rewrite <- E2; auto).
  pose proof (proj1 (apart_stop _ _ ED g R p q Es Et) Ap) as Ds.
  apply (edge_calm m vb g d d0 F L M e s t _ _ Ie Gs Gt Ps Pt); [|exact Ds].
  apply (fair_apart _ _ _ _ _ ED R Es Et); [|exact Ns]. intros E.
  assert (X : exists o, In o (anchor_sides (table_rows m) (end_of p))) by (exists Right; apply sides_in; [apply (end_ok _ _ _ Es)|auto]).
  destruct X as (o & Io). apply (Ap (side_x (tab (end_of p)) o, side_y (table_rows m) (end_of p) o)).
  split; apply place_sides; try apply (end_ok _ _ _ Es); try apply (end_ok _ _ _ Et); exists o; [|rewrite <- E]; auto.
Qed.

Theorem settled_calm m vb g d ls : fits (table_rows m) -> layout_module m = Ret (vb, g, d) -> links [] (m_entries m) ls ->
  Forall2 (fun pq e => apart (table_rows m) (fst pq) (snd pq) ->
    ~ (stacked (table_rows m) (fst pq) (snd pq) /\ column_with_last_row (table_rows m) ls (fst pq)) -> calm_path e) ls (d_edges d).
Proof.
  intros F L Ll. pose proof (unstacked_calm m vb g d ls F L Ll) as H1. pose proof (column_calm m vb g d ls F L Ll) as H2.
  eapply forall2_weaken; [exact (forall2_both _ _ _ _ H1 H2)|]. intros pq e _ (Q1 & Q2) Ap N.
  destruct (classic (stacked (table_rows m) (fst pq) (snd pq))) as [S0|S0]; [|exact (Q1 Ap S0)]. apply (Q2 Ap).
  intros p q x I X Z B. apply N. split; [exact S0|]. exists (p, q), x. split; [exact I|]. split; [exact X|]. split; [|exact B].
  rewrite <- !tab_place. now apply zl_mod.
Qed.

(** What the program stops for. *)
Lemma stops_at m ls x : fits (table_rows m) -> links [] (m_entries m) ls -> render_module m = Abort x ->
  exists p q, In (p, q) ls /\ ((x = PShortPath /\ ~ apart (table_rows m) p q) \/ (exists n, x = PTurnaround n) /\ apart (table_rows m) p q /\ stacked (table_rows m) p q /\ column_with_last_row (table_rows m) ls p).
Proof.
  intros F Ll E. destruct (layout_returns m F) as (vb & g & d & L & _).
  pose proof (short_paths m vb g d ls F L Ll) as Sh. pose proof (settled_calm m vb g d ls F L Ll) as Ca.
  unfold render_module in E. rewrite L in E. apply render_abort_iff in E as (_ & _ & e & ps & (l1 & l2 & El & _) & Ep & Bad).
  assert (Ie : In e (d_edges d)) by (rewrite El; apply in_elt).
  assert (B : forall P Q : place * place -> edge_data -> Prop, Forall2 P ls (d_edges d) -> Forall2 Q ls (d_edges d) -> exists pq, In pq ls /\ P pq e /\ Q pq e).
  { intros P Q FP FQ. clear - FP FQ Ie. revert FQ Ie. induction FP as [|a b l l' H FP IH]; intros FQ Ie; [contradiction|]. inversion FQ as [|? ? ? ? H' FQ']; subst.
    destruct Ie as [-> | Ie]; [exists a; split; [now left|auto]|]. destruct (IH FQ' Ie) as (pq & I & K). exists pq. split; [now right|exact K]. }
  destruct (B _ _ Sh Ca) as ([p q] & I & (ps' & Ep' & Lp & Q) & K). cbn [fst snd] in *. rewrite Ep in Ep'. injection Ep' as <-.
  exists p, q. split; [exact I|]. destruct Bad as [[Z Ex]|(Z & i & Rv & Ex)].
  - left. split; [exact Ex|]. apply Q. lia.
  - right. assert (Ap : apart (table_rows m) p q) by (apply NNPP; intros Na; apply Q in Na; lia).
    split; [|split; [exact Ap|]].
    + destruct Ex as [_ Ex]. eauto.
    + apply NNPP. intros Ns. destruct (K Ap Ns) as (ps' & Ep' & _ & NR). rewrite Ep in Ep'. injection Ep' as <-. exact (NR i Rv).
Qed.
Theorem turns_stacked m ls n : fits (table_rows m) -> links [] (m_entries m) ls -> render_module m = Abort (PTurnaround n) ->
  exists p q, In (p, q) ls /\ apart (table_rows m) p q /\ stacked (table_rows m) p q /\ column_with_last_row (table_rows m) ls p.
Proof. intros F Ll E. destruct (stops_at m ls _ F Ll E) as (p & q & I & [(Q & _)|(_ & A & S0)]); [discriminate|eauto]. Qed.
Theorem unstacked_drawn m ls : fits (table_rows m) -> links [] (m_entries m) ls ->
  (forall p q, In (p, q) ls -> ~ (stacked (table_rows m) p q /\ column_with_last_row (table_rows m) ls p)) ->
  ((exists svg, render_module m = Okay svg) <-> forall p q, In (p, q) ls -> apart (table_rows m) p q).
Proof.
  intros F Ll Hs. split.
  - intros (svg & E). exact (drawn_apart m ls svg F Ll E).
  - intros Ap. destruct (render_module m) as [svg|e|x] eqn:E; [eauto|exfalso; exact (modules_never_lack_geometry m e E)|exfalso].
    destruct (stops_at m ls x F Ll E) as (p & q & I & [(_ & N)|(_ & _ & S0)]); [exact (N (Ap p q I))|exact (Hs p q I S0)].
Qed.

(** ** A sample *)

Definition mixed : module :=
  mkModule None
    [ EDef (three "a"); EDef (one "b"); EDef (one "c"); EDef (three "d");
      ERel (mkRelation (PEntity (lit "a")) (PField (lit "b") (lit "x")));
      ERel (mkRelation (PField (lit "c") (lit "x")) (PEntity (lit "d")));
      ERel (mkRelation (PEntity (lit "a")) (PEntity (lit "d"))) ].
Lemma mixed_links : links [] (m_entries mixed) [(Table 0, Row 1 1); (Row 2 1, Table 3); (Table 0, Table 3)].
Proof.
  unfold mixed. cbn [m_entries]. repeat apply links_def. cbn [app].
  apply links_rel; [eapply refers_table; is_latest|eapply refers_row; [is_latest|is_last_field]|].
  apply links_rel; [eapply refers_row; [is_latest|is_last_field]|eapply refers_table; is_latest|].
  apply links_rel; [eapply refers_table; is_latest|eapply refers_table; is_latest|]. constructor.
Qed.
