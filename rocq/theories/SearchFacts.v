(** The search returns a cheapest walk: the invariant of Dijkstra's algorithm. *)
From Coq Require Import List Arith NArith Bool Lia Permutation.
From Verif Require Import Base Heap Route SpecHeap SpecRoute HeapFacts.
Import ListNotations.

Lemma in_filter_map {A B} (f : A -> option B) l y : In y (filter_map f l) <-> exists x, In x l /\ f x = Some y.
Proof.
  induction l as [|a l IH]; cbn; [split; [tauto|intros (x & [] & _)]|].
  destruct (f a) as [b|] eqn:E; cbn; rewrite IH; split.
  - intros [<-|(x & I & H)]; eauto.
  - intros (x & [<-|I] & H); [left; congruence|right; eauto].
  - intros (x & I & H). eauto.
  - intros (x & [<-|I] & H); [congruence|eauto].
Qed.

Lemma neighbors_joined es a b : In b (neighbors es a) <-> joined es a b.
Proof.
  unfold neighbors, joined. rewrite in_app_iff, !in_filter_map. split.
  - intros [(x & I & H)|(x & I & H)]; destruct x as [u v]; rewrite <- in_rev in I; cbn in H.
    + destruct (Nat.eqb_spec u a); [|discriminate]. injection H as <-. subst. auto.
    + destruct (Nat.eqb_spec v a); [|discriminate]. destruct (Nat.eqb u a); [discriminate|].
      injection H as <-. subst. auto.
  - intros [I|I].
    + left. exists (a, b). rewrite <- in_rev. cbn. now rewrite Nat.eqb_refl.
    + destruct (Nat.eqb_spec b a) as [->|N].
      * left. exists (a, a). rewrite <- in_rev. cbn. now rewrite Nat.eqb_refl.
      * right. exists (b, a). rewrite <- in_rev. cbn. rewrite Nat.eqb_refl.
        now apply Nat.eqb_neq in N as ->.
Qed.

(** ** Walks *)

Lemma walk_nonempty es a b l : walk es a b l -> exists r, l = a :: r.
Proof. intros W. destruct W; eauto. Qed.
Lemma walk_snoc es a b c l : walk es a b l -> joined es b c -> walk es a c (l ++ [c]).
Proof.
  intros W J. induction W as [a|a b' c' l J' W IH]; cbn.
  - eapply walk_step; [exact J|constructor].
  - eapply walk_step; eauto.
Qed.
Lemma cost_snoc cost es a b l c : walk es a b l -> walk_cost cost (l ++ [c]) = (walk_cost cost l + cost b c)%N.
Proof.
  intros W. induction W as [a|a b' c' l J' W IH].
  - cbn. lia.
  - destruct (walk_nonempty _ _ _ _ W) as (r & ->). change ((a :: b' :: r) ++ [c]) with (a :: (b' :: r) ++ [c]).
    cbn [walk_cost app] in *. rewrite IH. lia.
Qed.
Lemma walk_snoc_inv es a c l : walk es a c l ->
  (c = a /\ l = [a]) \/ exists b l', walk es a b l' /\ joined es b c /\ l = l' ++ [c].
Proof.
  intros W. induction W as [a|a b c l J W IH]; [auto|]. right. destruct IH as [[-> ->]|(x & l' & W' & J' & ->)].
  - exists a, [a]. repeat split; auto. constructor.
  - exists x, (a :: l'). repeat split; auto. eapply walk_step; eauto.
Qed.
Lemma walk_ind_snoc es a (P : nat -> list nat -> Prop) :
  P a [a] -> (forall b c l, walk es a b l -> P b l -> joined es b c -> P c (l ++ [c])) ->
  forall c l, walk es a c l -> P c l.
Proof.
  intros H0 HS c l. remember (length l) as k eqn:K. revert c l K. induction k as [|k IH]; intros c l K W.
  - destruct (walk_nonempty _ _ _ _ W) as (r & ->). discriminate.
  - destruct (walk_snoc_inv _ _ _ _ W) as [[-> ->]|(b & l' & W' & J & ->)]; [exact H0|].
    apply HS with (b := b); auto. apply IH; auto. rewrite app_length in K. cbn in K. lia.
Qed.

Lemma nget_cons {V} k k' (v : V) m : nget k ((k', v) :: m) = if Nat.eqb k k' then Some v else nget k m.
Proof. reflexivity. Qed.

Section Search.
Context (es : list (nat * nat)) (cost : nat -> nat -> N) (n src goal : nat).
Context (Hes : within n es) (Hsrc : src < n).
Let nbrs := neighbors es.

Lemma nbr_within a b : In b (nbrs a) -> a < n /\ b < n.
Proof. intros I. apply neighbors_joined in I as [I|I]; apply Hes in I; lia. Qed.

(** The path stored in the predecessor map. *)
Inductive chain (P : list (nat * nat)) : nat -> list nat -> Prop :=
| chain_src : nget src P = None -> chain P src [src]
| chain_next v u l : nget v P = Some u -> chain P u l -> chain P v (l ++ [v]).

Definition done (st : astar_state) (u : nat) : Prop := nget u (a_est st) <> None.

Record good_path (st : astar_state) (v : nat) (s : N) (l : list nat) : Prop := {
  gp_chain : chain (a_pred st) v l;
  gp_walk : walk es src v l;
  gp_cost : walk_cost cost l = s;
  gp_nodup : NoDup l;
  gp_done : forall x, In x l -> x = v \/ done st x }.

(** [R u w]: the edge from the expanded node [u] to [w] has been looked at. *)
Record inv (R : nat -> nat -> Prop) (st : astar_state) : Prop := {
  i_heap : heap_ok (a_heap st);
  i_src : nget src (a_scores st) = Some 0%N;
  i_path : forall v s, nget v (a_scores st) = Some s -> exists l, good_path st v s l;
  i_range : forall v s, nget v (a_scores st) = Some s -> v < n;
  i_done : forall u s, nget u (a_est st) = Some s -> nget u (a_scores st) = Some s /\
             forall e, In e (a_heap st) -> (s <= fst e)%N;
  i_open : forall v s, nget v (a_scores st) = Some s -> ~ done st v -> In (s, v) (a_heap st);
  i_entry : forall s v, In (s, v) (a_heap st) -> exists s', nget v (a_scores st) = Some s' /\ (s' <= s)%N;
  i_edge : forall u su w, nget u (a_est st) = Some su -> In w (nbrs u) -> R u w ->
             exists sw, nget w (a_scores st) = Some sw /\ (sw <= su + cost u w)%N;
  i_goal : ~ done st goal }.

(** Every walk is either covered by an expanded node or leaves through an open one. *)
Lemma frontier st : inv (fun _ _ => True) st -> forall v l, walk es src v l ->
  (exists s, nget v (a_est st) = Some s /\ (s <= walk_cost cost l)%N) \/
  (exists y s, nget y (a_scores st) = Some s /\ ~ done st y /\ (s <= walk_cost cost l)%N).
Proof.
  intros I. apply walk_ind_snoc.
  - destruct (nget src (a_est st)) as [s|] eqn:E.
    + left. exists s. split; [reflexivity|]. destruct (i_done _ _ I src s E) as [A _].
      rewrite (i_src _ _ I) in A. injection A as <-. cbn. lia.
    + right. exists src, 0%N. split; [apply I|]. split; [unfold done; congruence|]. cbn. lia.
  - intros b c l W IH J. rewrite (cost_snoc cost es src b l c W).
    destruct IH as [(s & E & L)|(y & s & E & D & L)].
    + destruct (i_edge _ _ I b s c E) as (sw & Ew & Lw); [now apply neighbors_joined|exact Logic.I|].
      destruct (nget c (a_est st)) as [s'|] eqn:Ec.
      * left. exists s'. split; [reflexivity|]. destruct (i_done _ _ I c s' Ec) as [A _].
        rewrite Ew in A. injection A as <-. lia.
      * right. exists c, sw. split; [exact Ew|]. split; [unfold done; congruence|]. lia.
    + right. exists y, s. split; [exact E|]. split; [exact D|]. lia.
Qed.

(** Following the predecessors. *)
Lemma walk_back_chain P v l : chain P v l -> forall f acc, length l <= f ->
  walk_back f P v acc = Ret (removelast l ++ acc).
Proof.
  intros C. induction C as [E|v u l E C IH]; intros f acc L.
  - destruct f as [|f]; [cbn in L; lia|]. cbn [walk_back]. now rewrite E.
  - rewrite app_length in L. cbn in L. destruct f as [|f]; [lia|]. cbn [walk_back]. rewrite E, IH by lia.
    rewrite removelast_last. assert (X : exists l', l = l' ++ [u]).
    { inversion C; subst; [exists []|]; eauto. }
    destruct X as (l' & ->). now rewrite removelast_last, <- app_assoc.
Qed.

Lemma chain_stable P v u w l : chain P w l -> ~ In v l -> chain ((v, u) :: P) w l.
Proof.
  intros C. induction C as [E|x y l E C IH]; intros N.
  - apply chain_src. rewrite nget_cons. destruct (Nat.eqb_spec src v) as [->|_]; [destruct N; now left|exact E].
  - apply chain_next with (u := y).
    + rewrite nget_cons. destruct (Nat.eqb_spec x v) as [->|_]; [|exact E].
      destruct N. apply in_or_app. right. now left.
    + apply IH. intros I. apply N, in_or_app. now left.
Qed.

(** ** One relaxation *)

(** Expanding [x] with score [sx] would exceed the range at the edge to [w]. *)
Definition overflows (x w : nat) : Prop :=
  joined es x w /\ exists l, cheapest es cost src x (walk_cost cost l) l /\
    (u32_max < walk_cost cost l + cost x w)%N /\ at_least es cost src goal (walk_cost cost l).


Lemma relax_step (R R' : nat -> nat -> Prop) x sx st w :
  inv R st -> nget x (a_est st) = Some sx -> In w (nbrs x) ->
  (forall u v, R' u v -> R u v \/ (u = x /\ v = w)) ->
  (forall u s, nget u (a_est st) = Some s -> (s <= sx)%N) ->
  (astar_relax cost x sx st w = Panic PCostOverflow /\ (u32_max < sx + cost x w)%N) \/
  exists st', astar_relax cost x sx st w = Ret st' /\ inv R' st' /\ a_est st' = a_est st /\
    length (a_heap st') <= S (length (a_heap st)) /\ nget x (a_scores st') = Some sx.
Proof.
  intros I Ex Iw HR Hmax. unfold astar_relax, cost_add.
  destruct (N.leb_spec (sx + cost x w) u32_max) as [B|B]; [|left; split; [reflexivity|lia]].
  right. cbn [bind]. set (ns := (sx + cost x w)%N).
  pose proof (i_done _ _ I x sx Ex) as [Sx Hx].
  assert (upd : (nget w (a_scores st) = None \/ exists old, nget w (a_scores st) = Some old /\ (ns < old)%N) ->
    exists st', Ret (mkA (heap_push (a_heap st) (ns, w)) ((w, ns) :: a_scores st) (a_est st) ((w, x) :: a_pred st)) = Ret st' /\
      inv R' st' /\ a_est st' = a_est st /\ length (a_heap st') <= S (length (a_heap st)) /\ nget x (a_scores st') = Some sx).
  { intros Up. eexists. split; [reflexivity|].
    destruct (push_ok (a_heap st) (ns, w) (i_heap _ _ I)) as [PH PP].
    assert (Nd : ~ done st w).
    { intros D. unfold done in D. destruct (nget w (a_est st)) as [s|] eqn:E; [|congruence].
      destruct (i_done _ _ I w s E) as [A _]. pose proof (Hmax w s E).
      destruct Up as [Up|(old & Up & L)]; rewrite A in Up; [discriminate|]. injection Up as <-. unfold ns in L. lia. }
    assert (Nx : x <> w).
    { intros ->. apply Nd. unfold done. congruence. }
    assert (Ns : w <> src).
    { intros ->. destruct Up as [Up|(old & Up & L)]; rewrite (i_src _ _ I) in Up; [discriminate|].
      injection Up as <-. lia. }
    split; [|cbn [a_est a_heap a_scores a_pred]; split; [reflexivity|]; split].
    - split; cbn [a_est a_heap a_scores a_pred].
      + exact PH.
      + rewrite nget_cons. destruct (Nat.eqb_spec src w) as [E|_]; [congruence|]. apply I.
      + intros v s Hv. rewrite nget_cons in Hv. destruct (Nat.eqb_spec v w) as [->|N].
        * injection Hv as <-. destruct (i_path _ _ I x sx Sx) as (l & G). exists (l ++ [w]).
          assert (Nl : ~ In w l).
          { intros Il. destruct (gp_done _ _ _ _ G w Il) as [->|D]; [congruence|contradiction]. }
          split; cbn [a_est a_heap a_scores a_pred].
          -- apply chain_next with (u := x); [now rewrite nget_cons, Nat.eqb_refl|].
             apply chain_stable; [apply G|exact Nl].
          -- eapply walk_snoc; [apply G|]. now apply neighbors_joined.
          -- rewrite (cost_snoc cost es src x l w (gp_walk _ _ _ _ G)). now rewrite (gp_cost _ _ _ _ G).
          -- rewrite <- (rev_involutive (l ++ [w])), rev_app_distr. apply NoDup_rev. cbn.
             constructor; [now rewrite <- in_rev|]. apply NoDup_rev, G.
          -- intros y Iy. apply in_app_or in Iy as [Iy|[<-|[]]]; [|now left]. right.
             destruct (gp_done _ _ _ _ G y Iy) as [->|D]; unfold done in *; cbn [a_est]; [congruence|exact D].
        * destruct (i_path _ _ I v s Hv) as (l & G). exists l. split; cbn [a_est a_heap a_scores a_pred]; try apply G.
          apply chain_stable; [apply G|]. intros Il. destruct (gp_done _ _ _ _ G w Il); [congruence|contradiction].
      + intros v s Hv. rewrite nget_cons in Hv. destruct (Nat.eqb_spec v w) as [->|N]; [|exact (i_range _ _ I v s Hv)].
        now apply nbr_within in Iw.
      + intros u s Hu. destruct (i_done _ _ I u s Hu) as [A B']. split.
        * rewrite nget_cons. destruct (Nat.eqb_spec u w) as [->|N]; [|exact A]. destruct Nd. unfold done. congruence.
        * intros e He. apply (Permutation_in _ PP) in He as [<-|He]; [|exact (B' e He)].
          cbn [fst]. pose proof (Hmax u s Hu). unfold ns. lia.
      + intros v s Hv D. apply (Permutation_in _ (Permutation_sym PP)). rewrite nget_cons in Hv.
        destruct (Nat.eqb_spec v w) as [->|N]; [injection Hv as <-; now left|]. right.
        apply (i_open _ _ I v s Hv). exact D.
      + intros s v He. apply (Permutation_in _ PP) in He as [He|He].
        * injection He as <- <-. exists ns. rewrite nget_cons, Nat.eqb_refl. split; [reflexivity|lia].
        * destruct (i_entry _ _ I s v He) as (s' & E & L). rewrite nget_cons.
          destruct (Nat.eqb_spec v w) as [->|N]; [|eauto]. exists ns. split; [reflexivity|].
          destruct Up as [Up|(old & Up & Lo)]; rewrite E in Up; [discriminate|]. injection Up as <-. lia.
      + intros u su v Hu Iv HR'. apply HR in HR' as [HR'|[-> ->]].
        * destruct (i_edge _ _ I u su v Hu Iv HR') as (sw & E & L). rewrite nget_cons.
          destruct (Nat.eqb_spec v w) as [->|N]; [|eauto]. exists ns. split; [reflexivity|].
          destruct Up as [Up|(old & Up & Lo)]; rewrite E in Up; [discriminate|]. injection Up as <-. lia.
        * rewrite Ex in Hu. injection Hu as <-. exists ns. rewrite nget_cons, Nat.eqb_refl.
          split; [reflexivity|]. unfold ns. lia.
      + apply (i_goal _ _ I).
    - apply Permutation_length in PP. cbn [length] in PP. lia.
    - rewrite nget_cons. destruct (Nat.eqb_spec x w); [congruence|exact Sx]. }
  destruct (nget w (a_scores st)) as [old|] eqn:Ew.
  - destruct (N.leb_spec old ns) as [L|L]; [|apply upd; right; exists old; auto].
    exists st. split; [reflexivity|]. split; [|auto].
    destruct I as [I1 I2 I3 I4 I5 I6 I7 I8 I9]. split; auto.
    intros u su v Hu Iv HR'. apply HR in HR' as [HR'|[-> ->]]; [eauto|].
    rewrite Ex in Hu. injection Hu as <-. exists old. auto.
  - apply upd. now left.
Qed.

Lemma relax_all x sx : forall todo seen st,
  inv (fun u v => u <> x \/ In v seen) st -> nget x (a_est st) = Some sx ->
  (forall w, In w todo -> In w (nbrs x)) -> (forall w, In w (nbrs x) -> In w (seen ++ todo)) ->
  (forall u s, nget u (a_est st) = Some s -> (s <= sx)%N) ->
  (exists w, In w todo /\ foldM (astar_relax cost x sx) todo st = Panic PCostOverflow /\ (u32_max < sx + cost x w)%N) \/
  exists st', foldM (astar_relax cost x sx) todo st = Ret st' /\ inv (fun _ _ => True) st' /\ a_est st' = a_est st /\
    length (a_heap st') <= length todo + length (a_heap st).
Proof.
  induction todo as [|w todo IH]; intros seen st I Ex Ht Hall Hmax.
  - right. exists st. split; [reflexivity|]. split; [|auto].
    destruct I as [I1 I2 I3 I4 I5 I6 I7 I8 I9]. split; auto. intros u su v Hu Iv _.
    apply (I8 u su v Hu Iv). destruct (Nat.eq_dec u x) as [->|N]; [right|now left].
    specialize (Hall v Iv). now rewrite app_nil_r in Hall.
  - cbn [foldM].
    destruct (relax_step (fun u v => u <> x \/ In v seen) (fun u v => u <> x \/ In v (seen ++ [w])) x sx st w)
      as [[E B]|(st' & E & I' & Ee & L & Sx)]; auto.
    + apply Ht. now left.
    + intros u v [N|Iv]; [left; now left|]. destruct (Nat.eq_dec u x) as [->|N]; [|left; now left].
      apply in_app_or in Iv as [Iv|[<-|[]]]; [left; now right|now right].
    + left. exists w. split; [now left|]. rewrite E. auto.
    + rewrite E. cbn [bind]. destruct (IH (seen ++ [w]) st') as [(w' & Iw & F & B)|(st2 & F & I2 & E2 & L2)]; auto.
      * now rewrite Ee.
      * intros v Iv. apply Ht. now right.
      * intros v Iv. rewrite <- app_assoc. now apply Hall.
      * now rewrite Ee.
      * left. exists w'. split; [now right|]. rewrite F. auto.
      * right. exists st2. split; [exact F|]. split; [exact I2|]. split; [congruence|]. cbn [length]. lia.
Qed.

(** ** The main loop *)

Definition remaining (st : astar_state) : nat :=
  list_sum (map (fun v => match nget v (a_est st) with Some _ => 0 | None => length (nbrs v) end) (seq 0 n)).

Lemma remaining_expand (f g : nat -> nat) x l :
  (forall v, v <> x -> f v = g v) -> f x = 0 -> In x l -> NoDup l ->
  list_sum (map f l) + g x = list_sum (map g l).
Proof.
  intros H F. induction l as [|a l IH]; intros I N; [destruct I|]. inversion N as [|? ? Na Nl]; subst. cbn.
  change (fold_right Nat.add 0) with list_sum.
  destruct I as [->|I].
  - rewrite F. assert (E : map f l = map g l).
    { apply map_ext_in. intros b Ib. apply H. intros ->. contradiction. }
    rewrite E. lia.
  - rewrite (H a) by (intros ->; contradiction). specialize (IH I Nl). lia.
Qed.

Inductive search_result : res (option (N * list nat)) -> Prop :=
| found c l : cheapest es cost src goal c l -> search_result (Ret (Some (c, l)))
| not_found : (forall l, ~ walk es src goal l) -> search_result (Ret None)
| too_long x w : overflows x w -> search_result (Panic PCostOverflow).


Lemma walk_range a b l : walk es a b l -> a < n -> forall x, In x l -> x < n.
Proof.
  intros W. induction W as [a|a b c l J W IH]; intros A x Ix.
  - now destruct Ix as [<-|[]].
  - destruct Ix as [<-|Ix]; [exact A|]. apply IH; [|exact Ix].
    destruct J as [J|J]; apply Hes in J; lia.
Qed.

Lemma search_ok fuel : forall st, inv (fun _ _ => True) st ->
  length (a_heap st) + remaining st < fuel ->
  search_result (astar_loop fuel nbrs cost goal n st).
Proof.
  induction fuel as [|fuel IH]; intros st I F; [lia|]. cbn [astar_loop].
  pose proof (pop_ok (a_heap st) (i_heap _ _ I)) as P.
  destruct (heap_pop (a_heap st)) as [[[s x] h]|].
  2:{ apply not_found. intros l W. destruct (frontier st I goal l W) as [(s & E & _)|(y & s & E & D & _)].
      - apply (i_goal _ _ I). unfold done. congruence.
      - pose proof (i_open _ _ I y s E D) as X. rewrite P in X. destruct X. }
  destruct P as (PP & PH & PM).
  assert (Ix : In (s, x) (a_heap st)) by (apply (Permutation_in _ (Permutation_sym PP)); now left).
  destruct (i_entry _ _ I s x Ix) as (sx & Sx & Lx).
  pose proof (Permutation_length PP) as PL. cbn [length] in PL.
  (* the popped entry of an open node is its score, the least of all *)
  assert (open : ~ done st x -> s = sx /\ forall y sy, nget y (a_scores st) = Some sy -> ~ done st y -> (sx <= sy)%N).
  { intros D. pose proof (PM _ (i_open _ _ I x sx Sx D)) as M. cbn [fst] in M. split; [lia|].
    intros y sy Ey Dy. pose proof (PM _ (i_open _ _ I y sy Ey Dy)) as M2. cbn [fst] in M2. lia. }
  assert (least : ~ done st x -> at_least es cost src x sx /\ at_least es cost src goal sx).
  { intros D. destruct (open D) as [_ O]. split; intros l W.
    - destruct (frontier st I x l W) as [(s' & E & L)|(y & sy & E & Dy & L)]; [destruct D; unfold done; congruence|].
      specialize (O y sy E Dy). lia.
    - destruct (frontier st I goal l W) as [(s' & E & L)|(y & sy & E & Dy & L)].
      + destruct (i_goal _ _ I). unfold done. congruence.
      + specialize (O y sy E Dy). lia. }
  destruct (i_path _ _ I x sx Sx) as (l & G).
  destruct (Nat.eqb_spec x goal) as [Eg|Ng].
  - rewrite Eg in *. assert (length l <= n).
    { rewrite <- (seq_length n 0). apply NoDup_incl_length; [apply G|].
      intros y Iy. apply in_seq. pose proof (walk_range _ _ _ (gp_walk _ _ _ _ G) Hsrc y Iy). lia. }
    rewrite (walk_back_chain _ _ _ (gp_chain _ _ _ _ G)) by lia. cbn [bind]. rewrite Sx.
    assert (El : removelast l ++ [goal] = l).
    { destruct (gp_chain _ _ _ _ G); [reflexivity|]. now rewrite removelast_last. }
    rewrite El. apply found. split; [apply G|]. split; [apply G|]. split; [apply G|].
    apply least, (i_goal _ _ I).
  - rewrite Sx. destruct (nget x (a_est st)) as [old|] eqn:Eo.
    + destruct (i_done _ _ I x old Eo) as [A B]. rewrite Sx in A. injection A as <-.
      assert (Hs : (sx <=? s)%N = true) by (apply N.leb_le; exact Lx). rewrite Hs. cbn [negb].
      apply IH.
      * destruct I as [I1 I2 I3 I4 I5 I6 I7 I8 I9]. split; cbn [a_est a_heap a_scores a_pred]; auto.
        -- intros v sv Ev. destruct (I3 v sv Ev) as (lv & [G1 G2 G3 G4 G5]). exists lv. now split.
        -- intros u su Eu. destruct (I5 u su Eu) as [A' B']. split; [exact A'|]. intros e He. apply B'.
           apply (Permutation_in _ (Permutation_sym PP)). now right.
        -- intros v sv Ev D. pose proof (I6 v sv Ev D) as Iv. apply (Permutation_in _ PP) in Iv as [Iv|Iv]; [|exact Iv].
           injection Iv as <- <-. destruct D. unfold done. cbn [a_est]. congruence.
        -- intros s' v Iv. apply I7. apply (Permutation_in _ (Permutation_sym PP)). now right.
      * unfold remaining in *. cbn [a_heap a_est]. lia.
    + assert (D : ~ done st x) by (unfold done; congruence).
      destruct (open D) as [-> O]. destruct (least D) as [L1 L2].
      set (st1 := mkA h (a_scores st) ((x, sx) :: a_est st) (a_pred st)).
      assert (I1 : inv (fun u v => u <> x \/ In v []) st1).
      { destruct I as [I1 I2 I3 I4 I5 I6 I7 I8 I9]. unfold st1. split; cbn [a_est a_heap a_scores a_pred]; auto.
        - intros v sv Ev. destruct (I3 v sv Ev) as (lv & [G1 G2 G3 G4 G5]). exists lv. split; auto.
          intros y Iy. destruct (G5 y Iy) as [E|E]; [now left|right]. unfold done in *. cbn [a_est].
          rewrite nget_cons. destruct (Nat.eqb y x); congruence.
        - intros u su Eu. rewrite nget_cons in Eu. destruct (Nat.eqb_spec u x) as [->|N].
          + injection Eu as <-. split; [exact Sx|]. intros e He.
            apply (PM e). apply (Permutation_in _ (Permutation_sym PP)). now right.
          + destruct (I5 u su Eu) as [A' B']. split; [exact A'|]. intros e He. apply B'.
            apply (Permutation_in _ (Permutation_sym PP)). now right.
        - intros v sv Ev Dv. unfold done in Dv. cbn [a_est] in Dv. rewrite nget_cons in Dv.
          destruct (Nat.eqb_spec v x) as [->|N]; [destruct Dv; discriminate|].
          assert (Dv' : ~ done st v) by (unfold done; auto).
          pose proof (I6 v sv Ev Dv') as Iv. apply (Permutation_in _ PP) in Iv as [Iv|Iv]; [|exact Iv].
          injection Iv as E1 E2. congruence.
        - intros s' v Iv. apply I7. apply (Permutation_in _ (Permutation_sym PP)). now right.
        - intros u su w Eu Iw [N|[]]. rewrite nget_cons in Eu. destruct (Nat.eqb_spec u x); [congruence|].
          exact (I8 u su w Eu Iw Logic.I).
        - unfold done. cbn [a_est]. rewrite nget_cons. destruct (Nat.eqb_spec goal x); [congruence|]. exact I9. }
      assert (Mx : forall u s0, nget u (a_est st1) = Some s0 -> (s0 <= sx)%N).
      { intros u s0 Eu. unfold st1 in Eu. cbn [a_est] in Eu. rewrite nget_cons in Eu.
        destruct (Nat.eqb_spec u x) as [->|N]; [injection Eu as <-; lia|].
        destruct (i_done _ _ I u s0 Eu) as [_ B']. exact (B' (sx, x) Ix). }
      destruct (relax_all x sx (nbrs x) [] st1 I1) as [(w & Iw & E & B)|(st' & E & I' & Ee & Lh)]; auto.
      * unfold st1. cbn [a_est]. now rewrite nget_cons, Nat.eqb_refl.
      * fold st1. rewrite E. cbn [bind]. apply too_long with (x := x) (w := w).
        split; [now apply neighbors_joined|]. exists l. rewrite (gp_cost _ _ _ _ G).
        split; [|split; [exact B|exact L2]]. split; [apply G|]. split; [apply G|]. split; [apply G|exact L1].
      * fold st1. rewrite E. cbn [bind]. apply IH; [exact I'|].
        unfold remaining. rewrite Ee. unfold st1. cbn [a_est].
        pose proof (remaining_expand
          (fun v => match nget v ((x, sx) :: a_est st) with Some _ => 0 | None => length (nbrs v) end)
          (fun v => match nget v (a_est st) with Some _ => 0 | None => length (nbrs v) end) x (seq 0 n)) as Q.
        cbv beta in Q. rewrite Eo in Q.
        assert (Q' := Q (fun v N => ltac:(rewrite nget_cons; apply Nat.eqb_neq in N as ->; reflexivity))).
        specialize (Q' ltac:(now rewrite nget_cons, Nat.eqb_refl)).
        specialize (Q' ltac:(apply in_seq; pose proof (i_range _ _ I x sx Sx); lia) (seq_NoDup n 0)).
        unfold remaining in F. unfold st1 in Lh. cbn [a_heap] in Lh. lia.
Qed.

Lemma count_sum (f : nat * nat -> nat -> bool) (l : list (nat * nat)) (vs : list nat) :
  (forall e, In e l -> length (filter (f e) vs) <= 1) ->
  list_sum (map (fun v => length (filter (fun e => f e v) l)) vs) <= length l.
Proof.
  induction l as [|e l IH]; intros H.
  - clear. induction vs; cbn; auto.
  - assert (E : list_sum (map (fun v => length (filter (fun e0 => f e0 v) (e :: l))) vs) =
                length (filter (f e) vs) + list_sum (map (fun v => length (filter (fun e0 => f e0 v) l)) vs)).
    { clear. induction vs as [|v vs IH]; [reflexivity|]. cbn [map]. cbn [list_sum fold_right].
      change (fold_right Nat.add 0) with list_sum. rewrite IH. cbn [filter]. destruct (f e v); cbn [length]; lia. }
    rewrite E. cbn [length]. pose proof (H e (or_introl eq_refl)). specialize (IH (fun e' I => H e' (or_intror I))). lia.
Qed.

Lemma filter_map_length {A B} (f : A -> option B) (g : A -> bool) l :
  (forall x, (exists y, f x = Some y) <-> g x = true) -> length (filter_map f l) = length (filter g l).
Proof.
  intros H. induction l as [|a l IH]; [reflexivity|]. cbn. destruct (f a) as [b|] eqn:E.
  - assert (G : g a = true) by (apply H; eauto). rewrite G. cbn. now rewrite IH.
  - destruct (g a) eqn:G; [|exact IH]. apply H in G as (y & G). congruence.
Qed.

Lemma eqb_once a vs : NoDup vs -> forall p : bool, length (filter (fun v => Nat.eqb a v && p) vs) <= 1.
Proof.
  intros N p. induction vs as [|v vs IH]; [cbn; lia|]. inversion N as [|? ? Nv Nl]; subst. cbn [filter].
  destruct (Nat.eqb_spec a v) as [->|Na]; [|cbn [andb]; apply IH, Nl].
  assert (E : filter (fun v0 => Nat.eqb v v0 && p) vs = []).
  { clear -Nv. induction vs as [|b vs IH]; [reflexivity|]. cbn. destruct (Nat.eqb_spec v b) as [->|_].
    - destruct Nv. now left.
    - apply IH. intros I. apply Nv. now right. }
  rewrite E. destruct (true && p); cbn; lia.
Qed.

Lemma degree_sum : list_sum (map (fun v => length (nbrs v)) (seq 0 n)) <= 2 * length es.
Proof.
  set (f1 := fun (e : nat * nat) v => Nat.eqb (fst e) v && true).
  set (f2 := fun (e : nat * nat) v => Nat.eqb (snd e) v && negb (Nat.eqb (fst e) v)).
  assert (E : forall v, length (nbrs v) = length (filter (fun e => f1 e v) (rev es)) + length (filter (fun e => f2 e v) (rev es))).
  { intros v. unfold nbrs, neighbors. rewrite app_length. f_equal; apply filter_map_length; intros [a b]; unfold f1, f2; cbn [fst snd].
    - rewrite andb_true_r. destruct (Nat.eqb a v); split; [auto|eauto|intros (y & E); discriminate|discriminate].
    - destruct (Nat.eqb b v && negb (Nat.eqb a v)); split; [auto|eauto|intros (y & E); discriminate|discriminate]. }
  assert (S1 : list_sum (map (fun v => length (filter (fun e => f1 e v) (rev es))) (seq 0 n)) <= length (rev es)).
  { apply count_sum. intros e _. unfold f1. apply eqb_once, seq_NoDup. }
  assert (S2 : list_sum (map (fun v => length (filter (fun e => f2 e v) (rev es))) (seq 0 n)) <= length (rev es)).
  { apply count_sum. intros e _. unfold f2.
    transitivity (length (filter (fun v => Nat.eqb (snd e) v && true) (seq 0 n))); [|apply eqb_once, seq_NoDup].
    generalize (seq 0 n). intros vs. induction vs as [|v vs IH]; [reflexivity|]. cbn [filter].
    destruct (Nat.eqb (snd e) v); cbn [andb]; [|exact IH].
    destruct (negb (Nat.eqb (fst e) v)); cbn [length]; lia. }
  rewrite rev_length in S1, S2.
  assert (E2 : list_sum (map (fun v => length (nbrs v)) (seq 0 n)) =
     list_sum (map (fun v => length (filter (fun e => f1 e v) (rev es))) (seq 0 n)) +
     list_sum (map (fun v => length (filter (fun e => f2 e v) (rev es))) (seq 0 n))).
  { generalize (seq 0 n). intros vs. induction vs as [|v vs IH]; [reflexivity|]. cbn [map list_sum fold_right].
    change (fold_right Nat.add 0) with list_sum. rewrite IH, E. lia. }
  lia.
Qed.

Theorem search_correct :
  search_result (astar_loop (2 * length es + 2) nbrs cost goal n (mkA [(0%N, src)] [(src, 0%N)] [] [])).
Proof.
  apply search_ok.
  - split; cbn [a_est a_heap a_scores a_pred].
    + intros c Hc x p Hx. destruct c as [|[|c]]; [lia|discriminate|discriminate].
    + now rewrite nget_cons, Nat.eqb_refl.
    + intros v s Hv. rewrite nget_cons in Hv. destruct (Nat.eqb_spec v src) as [->|]; [|discriminate].
      injection Hv as <-. exists [src]. split; cbn.
      * now apply chain_src.
      * constructor.
      * reflexivity.
      * constructor; [easy|constructor].
      * intros x [->|[]]. now left.
    + intros v s Hv. rewrite nget_cons in Hv. destruct (Nat.eqb_spec v src) as [->|]; [exact Hsrc|discriminate].
    + intros u s E. discriminate.
    + intros v s Hv _. rewrite nget_cons in Hv. destruct (Nat.eqb_spec v src) as [->|]; [|discriminate].
      injection Hv as <-. now left.
    + intros s v [E|[]]. injection E as <- <-. exists 0%N. rewrite nget_cons, Nat.eqb_refl. split; [reflexivity|lia].
    + intros u su w E. discriminate.
    + intros D. now apply D.
  - unfold remaining. cbn [a_est a_heap length]. pose proof degree_sum as Dg.
    change (fun v => match nget v [] with Some _ => 0 | None => length (nbrs v) end) with (fun v => length (nbrs v)).
    lia.
Qed.
End Search.
