(** The printed document is well-formed, and reading it gives the drawing back. *)
From Coq Require Import String List Arith NArith ZArith Bool Lia Sorting.Sorted.
From Verif Require Import Base F32 Color Geometry Mir Erd Route Layout Svg Render Cli Chumsky Parser SpecGeom SpecMir
  SpecRender SpecDecimal DecimalFacts RenderFacts SvgFacts PictureFacts PipelineFacts SpecXml.
Import ListNotations.

Scheme element_ind2 := Minimality for element Sort Prop
  with content_ind2 := Minimality for content Sort Prop.
Combined Scheme reading_ind from element_ind2, content_ind2.

(** ** A text is read in one way only *)

Definition stops (P : char -> Prop) (r : str) : Prop := match r with [] => True | c :: _ => ~ P c end.

Lemma span_unique (P : char -> Prop) a : forall b r r', Forall P a -> Forall P b -> stops P r -> stops P r' ->
  a ++ r = b ++ r' -> a = b /\ r = r'.
Proof.
  induction a as [|x a IH]; intros [|y b] r r' A B R R' E; cbn in E.
  - auto.
  - subst r. inversion B; subst. now destruct R.
  - subst r'. inversion A; subst. now destruct R'.
  - injection E as -> E. inversion A; inversion B; subst. destruct (IH b r r') as [-> ->]; auto.
Qed.

Lemma blanks_all s : blanks s <-> Forall (fun c => In c [32; 9; 13; 10]%N) s.
Proof. unfold blanks. now rewrite Forall_forall. Qed.
Lemma name_all s : is_name s -> Forall name_char s.
Proof. intros (c & s' & -> & C & F). constructor; [now left|exact F]. Qed.

Lemma entity_split n c n' c' s s' : In (n, c) entities -> In (n', c') entities ->
  n ++ lit ";" ++ s = n' ++ lit ";" ++ s' -> n = n' /\ c = c' /\ s = s'.
Proof.
  intros I I' E. cbn in I, I'.
  repeat (destruct I as [I|I]; [injection I as <- <-|]); try destruct I;
  repeat (destruct I' as [I'|I']; [injection I' as <- <-|]); try destruct I';
  cbn in E; try discriminate E; injection E as E; auto.
Qed.

Lemma data_unique q s t : char_data q s t -> (forall c, In c q -> c <> 38%N) ->
  forall s' t' r r', char_data q s' t' ->
  stops (fun c => c <> 60%N /\ ~ In c q) r -> stops (fun c => c <> 60%N /\ ~ In c q) r' ->
  s ++ r = s' ++ r' -> s = s' /\ t = t'.
Proof.
  intros D Q. induction D as [|c s t X L A N D IH|n c s t I D IH]; intros s' t' r r' D' R R' E.
  - destruct D' as [|c s' t' X L A N D'|n c s' t' I D']; [auto| |]; cbn in E; subst r; cbn in R.
    + tauto.
    + destruct R. split; [discriminate|]. intros H. now apply (Q _ H).
  - destruct D' as [|c' s' t' X' L' A' N' D'|n c' s' t' I' D']; cbn in E.
    + subst r'. cbn in R'. tauto.
    + injection E as -> E. destruct (IH _ _ _ _ D' R R' E) as [-> ->]. auto.
    + injection E as -> E. congruence.
  - destruct D' as [|c' s' t' X' L' A' N' D'|n' c' s' t' I' D']; cbn in E.
    + subst r'. cbn in R'. destruct R'. split; [discriminate|]. intros H. now apply (Q _ H).
    + injection E as <- E. congruence.
    + injection E as E.
      assert (E2 : n ++ lit ";" ++ (s ++ r) = n' ++ lit ";" ++ (s' ++ r')) by (rewrite <- !app_assoc in E; exact E).
      destruct (entity_split _ _ _ _ _ _ I I' E2) as (-> & -> & E3).
      destruct (IH _ _ _ _ D' R R' E3) as [-> ->]. auto.
Qed.

Definition closes (r : str) : Prop := exists c r', r = c :: r' /\ (c = 47%N \/ c = 62%N).

Lemma closes_not_blank r : closes r -> stops (fun c => In c [32; 9; 13; 10]%N) r.
Proof. intros (c & r' & -> & C) H. cbn in H. unfold char in *. intuition lia. Qed.
Lemma name_not_blank k r : is_name k -> stops (fun c => In c [32; 9; 13; 10]%N) (k ++ r).
Proof. intros (c & r' & -> & C & F) H. unfold name_start in C. cbn in H. unfold char in *. intuition lia. Qed.
Lemma name_not_closing k r r' : is_name k -> closes r -> r = k ++ r' -> False.
Proof.
  intros (c & t & -> & C & F) (c' & u & -> & C') E. injection E as -> E. unfold name_start in C. unfold char in *.
  intuition lia.
Qed.

Lemma attributes_unique s l : attributes s l -> forall s' l' r r', attributes s' l' -> closes r -> closes r' ->
  s ++ r = s' ++ r' -> s = s' /\ l = l'.
Proof.
  induction 1 as [w W|w k q v t s l W0 W K Q V A IH]; intros s' l' r r' A' R R' E.
  - destruct A' as [w' W'|w' k' q' v' t' s' l' W0' W' K' Q' V' A'].
    + apply blanks_all in W, W'. destruct (span_unique _ _ _ _ _ W W' (closes_not_blank _ R) (closes_not_blank _ R') E).
      auto.
    + apply blanks_all in W, W'. rewrite <- !app_assoc in E.
      destruct (span_unique _ _ _ _ _ W W' (closes_not_blank _ R) (name_not_blank _ _ K') E) as [_ E'].
      destruct (name_not_closing _ _ _ K' R E').
  - destruct A' as [w' W'|w' k' q' v' t' s' l' W0' W' K' Q' V' A'].
    + apply blanks_all in W, W'. rewrite <- !app_assoc in E. symmetry in E.
      destruct (span_unique _ _ _ _ _ W' W (closes_not_blank _ R') (name_not_blank _ _ K) E) as [_ E'].
      destruct (name_not_closing _ _ _ K R' E').
    + apply blanks_all in W, W'. rewrite <- !app_assoc in E.
      destruct (span_unique _ _ _ _ _ W W' (name_not_blank _ _ K) (name_not_blank _ _ K') E) as [<- E1].
      assert (Eq : forall r, stops name_char (lit "=" ++ r)).
      { intros u H. cbn in H. unfold name_char, name_start in H. unfold char in *. intuition lia. }
      destruct (span_unique _ _ _ _ _ (name_all _ K) (name_all _ K') (Eq _) (Eq _) E1) as [<- E2].
      injection E2 as <- E2.
      assert (QQ : forall c, In c [q] -> c <> 38%N).
      { intros c [<-|[]]. cbn in Q. unfold char in *. intuition lia. }
      assert (ST : forall r, stops (fun c => c <> 60%N /\ ~ In c [q]) (q :: r)).
      { intros u H. apply H. now left. }
      destruct (data_unique _ _ _ V QQ _ _ _ _ V' (ST (s ++ r)) (ST (s' ++ r'))) as [<- <-].
      { exact E2. }
      apply app_inv_head in E2. injection E2 as E2.
      destruct (IH _ _ _ _ A' R R' E2) as [<- <-]. auto.
Qed.

Lemma element_head s x : element s x -> exists c s', s = 60%N :: c :: s' /\ name_start c.
Proof. intros H. destruct H as [n ? ? N|n ? ? ? ? ? N]; destruct N as (x0 & n' & -> & C & _); cbn; eauto. Qed.
Lemma data_head q s t c s' : char_data q s t -> s = c :: s' -> c <> 60%N.
Proof.
  intros H E. destruct H as [|c0 s0 t0 X L A N D|n c0 s0 t0 I D]; [discriminate| |]; injection E as <- E; [exact L|discriminate].
Qed.
Lemma content_head s l : content s l -> no_chars_first l -> s = [] \/ exists s', s = 60%N :: s'.
Proof.
  intros H N. destruct H as [|s x r l X H|s t r l T H M]; [auto| |destruct N].
  destruct (element_head _ _ X) as (c & s' & -> & _). right. cbn. eauto.
Qed.

Definition end_tag (r : str) : Prop := exists r', r = lit "</" ++ r'.

Lemma slash_no_name : ~ name_start 47%N.
Proof. unfold name_start, char. lia. Qed.
Lemma text_nonempty s t : text_run s t -> exists c s', s = c :: s' /\ c <> 60%N.
Proof.
  intros (N & D & _). destruct s as [|c s']; [congruence|]. exists c, s'. split; [reflexivity|]. eapply data_head; eauto.
Qed.

Lemma reading_unique :
  (forall s x, element s x -> forall s' x' r r', element s' x' -> s ++ r = s' ++ r' -> s = s' /\ x = x') /\
  (forall s l, content s l -> forall s' l' r r', content s' l' -> end_tag r -> end_tag r' ->
     s ++ r = s' ++ r' -> s = s' /\ l = l').
Proof.
  assert (C1 : forall r, closes (lit "/>" ++ r)) by (intros r; eexists _, _; split; [reflexivity|now left]).
  assert (C2 : forall r, closes (lit ">" ++ r)) by (intros r; eexists _, _; split; [reflexivity|now right]).
  assert (BN : forall c, In c [32; 9; 13; 10]%N -> ~ name_char c).
  { intros c I H. cbn in I. unfold name_char, name_start in H. unfold char in *. intuition lia. }
  assert (NA : forall s r a, attributes s a -> closes r -> stops name_char (s ++ r)).
  { intros s r a A R. destruct A as [w W|w k q v t s l W0 W].
    - destruct w as [|c w].
      + destruct R as (c & r2 & -> & C). cbn. intros H. unfold name_char, name_start in H. unfold char in *. intuition lia.
      + cbn. apply BN, W. now left.
    - destruct w as [|c w]; [congruence|]. cbn. apply BN, W. now left. }
  apply reading_ind.
  - intros n s a N A D s' x' r r' X E.
    destruct X as [n' s' a' N' A' D'|n' s' a' c' l' w' N' A' D' T' W']; rewrite <- !app_assoc in E; injection E as E.
    + destruct (span_unique _ _ _ _ _ (name_all _ N) (name_all _ N') (NA _ _ _ A (C1 _)) (NA _ _ _ A' (C1 _)) E) as [<- E1].
      destruct (attributes_unique _ _ A _ _ _ _ A' (C1 _) (C1 _) E1) as [<- <-]. auto.
    + destruct (span_unique _ _ _ _ _ (name_all _ N) (name_all _ N') (NA _ _ _ A (C1 _)) (NA _ _ _ A' (C2 _)) E) as [<- E1].
      destruct (attributes_unique _ _ A _ _ _ _ A' (C1 _) (C2 _) E1) as [<- <-].
      apply app_inv_head in E1. discriminate.
  - intros n s a c l w N A D T IH W s' x' r r' X E.
    destruct X as [n' s' a' N' A' D'|n' s' a' c' l' w' N' A' D' T' W']; rewrite <- !app_assoc in E; injection E as E.
    + destruct (span_unique _ _ _ _ _ (name_all _ N) (name_all _ N') (NA _ _ _ A (C2 _)) (NA _ _ _ A' (C1 _)) E) as [<- E1].
      destruct (attributes_unique _ _ A _ _ _ _ A' (C2 _) (C1 _) E1) as [<- <-].
      apply app_inv_head in E1. discriminate.
    + destruct (span_unique _ _ _ _ _ (name_all _ N) (name_all _ N') (NA _ _ _ A (C2 _)) (NA _ _ _ A' (C2 _)) E) as [<- E1].
      destruct (attributes_unique _ _ A _ _ _ _ A' (C2 _) (C2 _) E1) as [<- <-].
      apply app_inv_head in E1. injection E1 as E1.
      assert (ET : forall r, end_tag (lit "</" ++ r)) by (intros u; now exists u).
      destruct (IH _ _ _ _ T' (ET _) (ET _) E1) as [<- <-].
      apply app_inv_head in E1. injection E1 as E1. apply app_inv_head in E1.
      assert (BB : forall r, stops (fun c => In c [32; 9; 13; 10]%N) (lit ">" ++ r)).
      { intros u H. cbn in H. unfold char in *. intuition lia. }
      apply blanks_all in W, W'. destruct (span_unique _ _ _ _ _ W W' (BB _) (BB _) E1) as [<- _]. auto.
  - intros s' l' r r' T' (u & ->) (u' & ->) E.
    destruct T' as [|s' x' t' l' X' T'|s' t t' l' X' T' M']; [auto| |].
    + destruct (element_head _ _ X') as (c & s2 & -> & C). injection E as <- E. now destruct slash_no_name.
    + destruct (text_nonempty _ _ X') as (c & s2 & -> & C). injection E as <- E. congruence.
  - intros s x t l X IHX T IHT s' l' r r' T' R R' E.
    destruct T' as [|s' x' t' l' X' T'|s' t1 t' l' X' T' M'].
    + destruct (element_head _ _ X) as (c & s2 & -> & C). destruct R' as (u & ->). injection E as -> E. now destruct slash_no_name.
    + rewrite <- !app_assoc in E. destruct (IHX _ _ _ _ X' E) as [<- <-]. apply app_inv_head in E.
      destruct (IHT _ _ _ _ T' R R' E) as [<- <-]. auto.
    + destruct (element_head _ _ X) as (c & s2 & -> & C). destruct (text_nonempty _ _ X') as (c' & s3 & -> & C').
      injection E as <- E. congruence.
  - intros s t1 t l X T IHT M s' l' r r' T' R R' E.
    destruct T' as [|s' x' t' l' X' T'|s' t1' t' l' X' T' M'].
    + destruct (text_nonempty _ _ X) as (c & s2 & -> & C). destruct R' as (u & ->). injection E as -> E. congruence.
    + destruct (element_head _ _ X') as (c & s2 & -> & C). destruct (text_nonempty _ _ X) as (c' & s3 & -> & C').
      injection E as -> E. congruence.
    + rewrite <- !app_assoc in E.
      assert (ST : forall t l r, content t l -> no_chars_first l -> end_tag r ->
                stops (fun c => c <> 60%N /\ ~ In c []) (t ++ r)).
      { intros u k v U K (v' & ->). destruct (content_head _ _ U K) as [->|(u' & ->)]; intros [H _]; now apply H. }
      destruct (data_unique [] _ _ (proj1 (proj2 X)) ltac:(intros c []) _ _ _ _ (proj1 (proj2 X'))
                  (ST _ _ _ T M R) (ST _ _ _ T' M' R') E) as [<- <-].
      apply app_inv_head in E. destruct (IHT _ _ _ _ T' R R' E) as [<- <-]. auto.
Qed.

Theorem reads_once s x y : element s x -> element s y -> x = y.
Proof. intros X Y. now destruct (proj1 reading_unique s x X s y [] [] Y eq_refl). Qed.

(** ** What is printed is well-formed *)

Definition tidy_char (c : char) : Prop := (32 <= c <= 126)%N /\ ~ In c unsafe_chars.
Definition tidy (v : str) : Prop := Forall tidy_char v.

Lemma tidy_by v : forallb (fun c => N.leb 32 c && N.leb c 126 && negb (existsb (N.eqb c) unsafe_chars)) v = true -> tidy v.
Proof.
  rewrite forallb_forall. intros H. apply Forall_forall. intros c I. specialize (H c I).
  rewrite !andb_true_iff, negb_true_iff in H. destruct H as [[A B] C]. apply N.leb_le in A, B.
  split; [now split|]. intros U. assert (existsb (N.eqb c) unsafe_chars = true); [|congruence].
  apply existsb_exists. exists c. split; [exact U|apply N.eqb_refl].
Qed.
Lemma tidy_app u v : tidy u -> tidy v -> tidy (u ++ v).
Proof. intros. now apply Forall_app. Qed.
Lemma tidy_number s : (forall c, In c s -> number_char c) -> tidy s.
Proof.
  intros H. apply Forall_forall. intros c I. destruct (H c I) as [[A B]|J].
  - split; [|cbn]; unfold char in *; [lia|]. intuition lia.
  - assert (T : tidy (lit "-.NaNinf")) by now apply tidy_by. unfold tidy in T. rewrite Forall_forall in T. auto.
Qed.
Lemma tidy_f32 x : tidy (show_f32 x).
Proof. apply tidy_number, show_f32_chars. Qed.
Lemma tidy_nat n : tidy (show_nat n).
Proof. apply tidy_number. intros c I. left. eapply digits_in; [apply show_N_ok|exact I]. Qed.
Lemma tidy_color c : valid_color c -> tidy (show_color c).
Proof.
  destruct c as [[r g b]|[|]]; [|intros; now apply tidy_by|intros; now apply tidy_by].
  intros (R & G & B). cbn in R, G, B. unfold show_color, show_rgb. cbn [red green blue].
  assert (X : forall n, (n < 256)%N -> tidy (hex2 n)).
  { intros n L. destruct (hex2_pair n L) as (x & y & -> & i & j & A1 & A2 & _).
    assert (D : tidy hex_digits) by now apply tidy_by. unfold tidy in D. rewrite Forall_forall in D.
    constructor; [|constructor; [|constructor]]; apply D; eapply nth_error_In; eauto. }
  apply tidy_app; [now apply tidy_by|]. repeat apply tidy_app; now apply X.
Qed.
Lemma tidy_join s l : tidy s -> Forall tidy l -> tidy (join s l).
Proof.
  intros S0 F. induction F as [|x l H F IH]; [now apply tidy_by|].
  destruct l as [|y l]; [exact H|]. change (tidy (x ++ s ++ join s (y :: l))). repeat apply tidy_app; auto.
Qed.

(** Attributes are sorted by name. *)
Definition before (a b : str * str) : Prop := str_leb (fst a) (fst b) = true /\ fst a <> fst b.

Lemma leb_refl a : str_leb a a = true.
Proof. induction a as [|x a IH]; simpl; [reflexivity|]. now rewrite N.compare_refl. Qed.
Lemma leb_total a : forall b, str_leb a b = false -> str_leb b a = true.
Proof.
  induction a as [|x a IH]; intros [|y b]; simpl; try congruence; intros H.
  rewrite N.compare_antisym. destruct (N.compare x y); simpl; try congruence. auto.
Qed.
Lemma leb_trans a : forall b c, str_leb a b = true -> str_leb b c = true -> str_leb a c = true.
Proof.
  induction a as [|x a IH]; intros [|y b] [|z c]; simpl; try congruence; intros H1 H2.
  destruct (N.compare_spec x y) as [->|L|L]; try congruence.
  - destruct (N.compare_spec y z) as [->|L'|L']; try congruence. eauto.
  - destruct (N.compare_spec y z) as [->|L'|L']; try congruence.
    + destruct (N.compare_spec x z); unfold char in *; first [lia|reflexivity].
    + destruct (N.compare_spec x z); unfold char in *; first [lia|reflexivity].
Qed.
Lemma leb_antisym a : forall b, str_leb a b = true -> str_leb b a = true -> a = b.
Proof.
  induction a as [|x a IH]; intros [|y b]; simpl; try congruence; intros H1 H2.
  rewrite N.compare_antisym in H2. destruct (N.compare_spec x y) as [->|L|L]; simpl in *; try congruence.
  f_equal. auto.
Qed.

Definition neat_attrs (a : attrs) : Prop :=
  StronglySorted before a /\ Forall (fun kv => is_name (fst kv) /\ tidy (snd kv)) a.

Lemma before_set x k v m : fst x <> k -> str_leb (fst x) k = true -> Forall (before x) m -> Forall (before x) (attr_set k v m).
Proof.
  intros N L F. apply Forall_forall. intros [k' v'] I. apply attr_set_in in I as [[-> ->]|I]; [now split|].
  rewrite Forall_forall in F. auto.
Qed.
Lemma sorted_set k v m : StronglySorted before m -> StronglySorted before (attr_set k v m).
Proof.
  induction 1 as [|[k' v'] m S IH F]; [repeat constructor|]. cbn [attr_set].
  destruct (str_eqb k k') eqn:E.
  - apply str_eqb_iff in E as ->. now constructor.
  - assert (N : k <> k') by (intros ->; now rewrite (proj2 (str_eqb_iff _ _) eq_refl) in E).
    destruct (str_leb k k') eqn:L.
    + constructor; [now constructor|]. constructor; [now split|].
      apply Forall_forall. intros [k2 v2] I. rewrite Forall_forall in F. destruct (F _ I) as [A B]. cbn in A, B.
      split; cbn; [eapply leb_trans; eauto|]. intros ->. apply N. now apply leb_antisym.
    + constructor; [exact IH|]. apply before_set; cbn; [congruence|now apply leb_total|exact F].
Qed.
Lemma neat_attrs_set k v m : is_name k -> tidy v -> neat_attrs m -> neat_attrs (attr_set k v m).
Proof.
  intros K V [S F]. split; [now apply sorted_set|]. apply Forall_forall. intros [k' v'] I.
  apply attr_set_in in I as [[-> ->]|I]; [now split|]. rewrite Forall_forall in F. auto.
Qed.

Inductive neat : svg_node -> Prop :=
| neat_text k a s : is_name k -> neat_attrs a -> neat (Elem k a [TextNode s])
| neat_group k a c : is_name k -> neat_attrs a -> (forall e, In e c -> neat e) -> neat (Elem k a c).
Definition leaf (e : svg_node) : Prop := exists k a, e = Elem k a [] /\ is_name k /\ neat_attrs a.

Lemma leaf_new k : is_name (lit k) -> leaf (elem k).
Proof. intros N. exists (lit k), []. repeat split; auto; constructor. Qed.
Lemma leaf_set k v e : is_name (lit k) -> tidy v -> leaf e -> leaf (set k v e).
Proof. intros N V (n & a & -> & K & A). exists n, (attr_set (lit k) v a). auto using neat_attrs_set. Qed.
Lemma leaf_neat e : leaf e -> neat e.
Proof. intros (n & a & -> & K & A). apply neat_group; auto. intros e []. Qed.
Lemma leaf_text e s : leaf e -> neat (append (TextNode s) e).
Proof. intros (n & a & -> & K & A). now apply neat_text. Qed.
Lemma leaf_append e x : leaf e -> neat x -> neat (append x e).
Proof. intros (n & a & -> & K & A) X. apply neat_group; auto. intros y [<-|[]]. exact X. Qed.
Lemma neat_set k v e : is_name (lit k) -> tidy v -> neat e -> neat (set k v e).
Proof. intros N V H. destruct H; cbn [set]; [apply neat_text|apply neat_group]; auto using neat_attrs_set. Qed.
Lemma leaf_opt {A} (f : A -> svg_node -> svg_node) o e :
  (forall x e, o = Some x -> leaf e -> leaf (f x e)) -> leaf e -> leaf (set_opt f o e).
Proof. destruct o; simpl; auto. Qed.
Lemma neat_opt {A} (f : A -> svg_node -> svg_node) o e :
  (forall x e, o = Some x -> neat e -> neat (f x e)) -> neat e -> neat (set_opt f o e).
Proof. destruct o; simpl; auto. Qed.

Definition name_start_b (c : char) : bool :=
  (N.leb 65 c && N.leb c 90) || (N.leb 97 c && N.leb c 122) || N.eqb c 58 || N.eqb c 95.
Definition name_char_b (c : char) : bool :=
  name_start_b c || (N.leb 48 c && N.leb c 57) || N.eqb c 45 || N.eqb c 46.
Lemma name_start_ok c : name_start_b c = true -> name_start c.
Proof.
  unfold name_start_b, name_start. rewrite !orb_true_iff, !andb_true_iff, !N.leb_le, !N.eqb_eq. tauto.
Qed.
Lemma name_by s : match s with c :: s' => name_start_b c && forallb name_char_b s' | [] => false end = true -> is_name s.
Proof.
  destruct s as [|c s]; [discriminate|]. rewrite andb_true_iff, forallb_forall. intros [C F].
  exists c, s. repeat split; [now apply name_start_ok|]. apply Forall_forall. intros x I. specialize (F x I).
  unfold name_char_b in F. unfold name_char. rewrite !orb_true_iff, !andb_true_iff, !N.leb_le, !N.eqb_eq in F.
  pose proof (name_start_ok x). tauto.
Qed.

Lemma tidy_stroke : tidy (show_color stroke_color).
Proof. apply tidy_color. now compute. Qed.
Lemma tidy_background : tidy (show_color background_color).
Proof. apply tidy_color. now compute. Qed.

Ltac tidy_tac :=
  lazymatch goal with
  | |- tidy (show_f32 _) => apply tidy_f32
  | |- tidy (show_nat _) => apply tidy_nat
  | |- tidy (show_color stroke_color) => exact tidy_stroke
  | |- tidy (show_color background_color) => exact tidy_background
  | |- tidy (show_color _) => apply tidy_color; auto; fail
  | |- tidy (join _ _) => assumption
  | |- tidy (lit _) => apply tidy_by; reflexivity
  | |- tidy sp => apply tidy_by; reflexivity
  | |- tidy (_ ++ _) => apply tidy_app; tidy_tac
  | |- tidy (clip_id _) => apply tidy_app; tidy_tac
  | |- tidy clip_prefix => apply tidy_by; reflexivity
  | |- tidy (match ?x with _ => _ end) => destruct x; apply tidy_by; reflexivity
  | |- tidy (_ ?x) => destruct x; apply tidy_by; reflexivity
  end.
Ltac leaf_tac :=
  repeat first
    [ match goal with
      | |- leaf (elem _) => apply leaf_new
      | |- leaf ?x => is_var x; assumption
      | |- leaf (setf _ _ _) => apply leaf_set
      | |- leaf (setc _ _ _) => apply leaf_set
      | |- leaf (set _ _ _) => apply leaf_set
      | |- leaf (set_opt _ _ _) => apply leaf_opt; [intros|]
      | |- is_name _ => apply name_by; reflexivity
      | |- neat ?x => is_var x; assumption
      | |- neat (append (TextNode _) _) => apply leaf_text
      | |- neat (setc _ _ _) => apply neat_set
      | |- neat (setf _ _ _) => apply neat_set
      | |- neat (set _ _ _) => apply neat_set
      | |- neat (set_opt _ _ _) => apply neat_opt; [intros|]
      end
    | tidy_tac ].

Lemma neat_round_rect o s : leaf (round_rect o s).
Proof. unfold round_rect. leaf_tac. Qed.
Lemma neat_clip d ic : Forall neat (clip_elem d ic).
Proof.
  unfold clip_elem. destruct (get_node _ _) as [n|]; [|constructor].
  destruct (n_kind n); try constructor. destruct (n_origin n) as [o|]; [|constructor].
  destruct (n_size n) as [s|]; [|constructor]. constructor; [|constructor].
  apply leaf_append; [leaf_tac|]. apply leaf_neat, neat_round_rect.
Qed.
Lemma neat_draw_text t o a : opt_valid (t_color t) -> neat (draw_text t o a).
Proof. intros V. unfold draw_text. leaf_tac. Qed.

Lemma neat_field f r i cl : colors_ok (KField f) -> tidy (lit "url(#" ++ cl ++ lit ")") ->
  Forall neat (field_elements i f r cl).
Proof.
  intros (V1 & V2 & V3 & V4 & V5) T. unfold field_elements.
  apply Forall_app; split; [|apply Forall_app; split; [|apply Forall_app; split]].
  - unfold field_background. destruct (fs_bg f) as [c|] eqn:E; [|constructor].
    constructor; [|constructor]. apply leaf_neat, leaf_set; [now apply name_by|exact T|]. leaf_tac.
  - unfold field_border. destruct (Nat.ltb 0 i); [|constructor]. constructor; [|constructor]. apply leaf_neat. leaf_tac.
  - unfold field_texts. constructor; [now apply neat_draw_text|].
    destruct (fs_subtitle f) as [t|]; [|constructor]. constructor; [|constructor]. apply neat_draw_text. auto.
  - unfold field_badge. destruct (fs_badge f) as [b|]; [|constructor].
    destruct (V5 b eq_refl) as [V6 V7]. apply Forall_app. split.
    + destruct (b_bg b) as [c|] eqn:E; [|constructor]. constructor; [|constructor]. apply leaf_neat. leaf_tac.
    + constructor; [|constructor]. apply neat_draw_text. exact V6.
Qed.
Lemma neat_record d ic : byte_colors d -> Forall neat (record_elems d ic).
Proof.
  intros B. unfold record_elems. destruct (get_node d (snd ic)) as [n|] eqn:G; [|constructor].
  destruct (n_kind n) as [|rs|] eqn:K; try constructor.
  destruct (n_origin n) as [o|]; [|constructor]. destruct (n_size n) as [s|]; [|constructor].
  pose proof (byte_colors_get _ _ _ B G) as C. rewrite K in C. destruct C as [C1 C2].
  constructor.
  - unfold record_background. apply leaf_neat. leaf_tac. apply neat_round_rect.
  - apply Forall_flat_map. apply Forall_forall. intros [j id] _. unfold field_elems; cbn [fst snd].
    destruct (get_node d id) as [m|] eqn:G'; [|constructor].
    destruct (n_kind m) as [| |f] eqn:K'; try constructor. destruct (node_rect m); [|constructor].
    apply neat_field; [|tidy_tac].
    pose proof (byte_colors_get _ _ _ B G') as C. now rewrite K' in C.
Qed.
Lemma tidy_line p : tidy (svg_line p).
Proof. unfold svg_line, coordinates. tidy_tac. Qed.
Lemma tidy_curve c p : tidy (svg_curve c p).
Proof. unfold svg_curve, coordinates. tidy_tac. Qed.
Lemma tidy_draws_rest a ps l : draws_rest a ps l -> Forall tidy l.
Proof.
  induction 1 as [a b|a b c ps l l' P D IH]; [constructor; [apply tidy_line|constructor]|].
  apply Forall_app. split; [|exact IH].
  destruct P; (apply Forall_cons; [apply tidy_line|]); [constructor|].
  apply Forall_cons; [apply tidy_curve|constructor].
Qed.
Lemma neat_end_circle p : neat (end_circle p).
Proof. unfold end_circle. apply leaf_neat. leaf_tac. Qed.
Lemma neat_edge e : Forall neat (edge_elems e).
Proof.
  unfold edge_elems.
  destruct (draw_edge_cases e) as [(P & E)|(ps & P & [(L & E)|[(i & L & Rv & F & E)|(cs & p & L & N & D & Hd & E)]])];
    rewrite E; try apply Forall_nil.
  assert (J : tidy (join sp cs)).
  { apply tidy_join; [now apply tidy_by|].
    destruct D as (p0 & ps' & l' & -> & D & ->). apply Forall_cons; [|now apply tidy_draws_rest in D].
    unfold svg_move, coordinates. tidy_tac. }
  apply Forall_cons; [apply leaf_neat; leaf_tac|].
  apply Forall_cons; [apply neat_end_circle|apply Forall_cons; [apply neat_end_circle|apply Forall_nil]].
Qed.
Lemma neat_debug g d : Forall neat (debug_info g d).
Proof.
  unfold debug_info. apply Forall_app; split; [|apply Forall_app; split; [|apply Forall_app; split]].
  - apply Forall_flat_map, Forall_forall. intros e _.
    destruct (nth_error _ _); [|constructor]. destruct (nth_error _ _); [|constructor].
    assert (J : tidy (join sp (arrow_points (rn_loc r) (rn_loc r0)))).
    { apply tidy_join; [now apply tidy_by|].
      unfold arrow_points, pt_str. destruct (orthogonal_direction _ _); repeat apply Forall_cons; try apply Forall_nil;
        repeat apply tidy_app; tidy_tac. }
    apply Forall_cons; [apply leaf_neat; leaf_tac|]. apply Forall_cons; [apply leaf_neat; leaf_tac|apply Forall_nil].
  - apply Forall_flat_map, Forall_forall. intros e _. unfold debug_circle, debug_label.
    apply Forall_cons; [apply leaf_neat; leaf_tac|apply Forall_cons; [leaf_tac|apply Forall_nil]].
  - apply Forall_flat_map, Forall_forall. intros e _. destruct (e_path e) as [ps|]; [|constructor].
    apply Forall_map, Forall_forall. intros x _. unfold debug_circle. apply leaf_neat; leaf_tac.
  - apply Forall_flat_map, Forall_forall. intros id _. destruct (get_node d id) as [n|]; [|constructor].
    destruct (node_rect n); [|constructor]. constructor; [|constructor]. unfold debug_label. leaf_tac.
Qed.

Lemma neat_root vb : neat_attrs (root_attrs vb).
Proof.
  assert (L : leaf (set_opt (fun r => set "viewBox" (view_box_attr r)) vb svg_document)).
  { unfold svg_document. leaf_tac. unfold view_box_attr. tidy_tac. }
  destruct L as (k & a & E & _ & A). unfold root_attrs. rewrite E. exact A.
Qed.
Lemma neat_picture vb g d : byte_colors d -> neat (picture vb g d).
Proof.
  intros B. unfold picture. apply neat_group; [now apply name_by|apply neat_root|]. apply Forall_forall.
  apply Forall_cons; [apply leaf_neat; unfold background_rect; leaf_tac|].
  apply Forall_cons.
  - apply neat_group; [now apply name_by|split; constructor|]. apply Forall_forall, Forall_flat_map, Forall_forall.
    intros ic _. apply neat_clip.
  - apply Forall_app; split; [|apply Forall_app; split].
    + apply Forall_flat_map, Forall_forall. intros ic _. now apply neat_record.
    + apply Forall_flat_map, Forall_forall. intros e _. apply neat_edge.
    + unfold debug_part. destruct g; [apply neat_debug|constructor].
Qed.

(** ** Printing *)

Lemma tidy_no c v : tidy v -> In c unsafe_chars -> existsb (N.eqb c) v = false.
Proof.
  intros T U. apply not_true_iff_false. intros E. apply existsb_exists in E as (x & I & E). apply N.eqb_eq in E as ->.
  unfold tidy in T. rewrite Forall_forall in T. now destruct (T _ I).
Qed.
Lemma tidy_data v : tidy v -> char_data [34%N] v v.
Proof.
  induction 1 as [|c v [C U] F IH]; [constructor|]. constructor; [| | | |exact IH].
  - unfold xml_char. unfold char in *. lia.
  - intros ->. apply U. cbn. auto.
  - intros ->. apply U. cbn. auto 6.
  - intros [<-|[]]. apply U. cbn. auto.
Qed.
Lemma attributes_written a : neat_attrs a -> attributes (concat (map show_attr a)) a.
Proof.
  intros [_ F]. induction F as [|[k v] a [K V] F IH]; [constructor; intros c []|].
  cbn [map concat]. unfold show_attr. cbn in K, V.
  rewrite (tidy_no apos v V), (tidy_no quote v V) by (cbn; auto). rewrite <- !app_assoc.
  apply (attribute (lit " ") k 34%N v v); auto.
  - discriminate.
  - intros c [<-|[]]. now left.
  - now left.
  - now apply tidy_data.
Qed.
Lemma neat_keys a : neat_attrs a -> NoDup (map fst a).
Proof.
  intros [S _]. induction S as [|x a S IH F]; [constructor|]. cbn. constructor; [|exact IH].
  rewrite in_map_iff. intros (y & E & I). rewrite Forall_forall in F. destruct (F _ I) as [_ N]. congruence.
Qed.

Lemma data_app q s t s' t' : char_data q s t -> char_data q s' t' -> char_data q (s ++ s') (t ++ t').
Proof.
  induction 1 as [|c s t X L A N D IH|n c s t I D IH]; intros D'; [exact D'| |].
  - cbn. constructor; auto.
  - rewrite <- !app_assoc. cbn [app]. apply (cd_entity q n c (s ++ s')); auto.
Qed.
Lemma newline_data : char_data [] newline newline.
Proof. constructor; [unfold xml_char; auto|discriminate|discriminate|auto|constructor]. Qed.
Lemma newline_run : text_run newline newline.
Proof.
  split; [discriminate|]. split; [exact newline_data|]. intros (a & b & E).
  destruct a as [|x [|y a]]; cbn in E; discriminate.
Qed.
Lemma line_run fmt t : printed fmt t -> text_run (newline ++ fmt t ++ newline) (newline ++ t ++ newline).
Proof.
  intros [D N]. split; [discriminate|]. split.
  - apply data_app; [exact newline_data|]. apply data_app; [exact D|exact newline_data].
  - intros (a & b & E). destruct a as [|x a]; [discriminate|]. apply N.
    assert (E1 : fmt t ++ [10%N] = a ++ lit "]]>" ++ b) by (cbn in E; now injection E).
    destruct b as [|y b] using rev_ind.
    + assert (E2 : fmt t ++ [10%N] = (a ++ lit "]]") ++ [62%N]) by (rewrite E1, <- app_assoc; reflexivity).
      apply app_inj_tail in E2 as [_ E2]. discriminate.
    + rewrite !app_assoc in E1. apply app_inj_tail in E1 as [E1 _]. exists a, b. now rewrite E1, <- app_assoc.
Qed.

Lemma kids_written fmt c :
  (forall e, In e c -> exists x, element (show_svg fmt e) x /\ shows x e) ->
  exists l, content (concat (map (fun x => [10%N] ++ show_svg fmt x) c) ++ newline) l /\ shows_all l c.
Proof.
  induction c as [|e c IH]; intros H.
  - exists [Chars newline]. split; [|constructor]. apply (content_text newline newline [] []); [exact newline_run|constructor|exact I].
  - destruct IH as (l & C & A); [intros x I; apply H; now right|].
    destruct (H e (or_introl eq_refl)) as (x & X & S). exists (Chars newline :: x :: l). split; [|now constructor].
    cbn [map concat]. rewrite <- !app_assoc. apply content_text; [exact newline_run| |].
    + now apply content_element.
    + destruct S; exact I.
Qed.

Lemma neat_written fmt e : neat e -> (forall t, In t (texts e) -> printed fmt t) ->
  exists x, element (show_svg fmt e) x /\ shows x e.
Proof.
  induction 1 as [k a s K A|k a c K A F IH]; intros T.
  - exists (Element k a [Chars (newline ++ s ++ newline)]). split; [|constructor].
    pose proof (line_run fmt s (T s (or_introl eq_refl))) as R.
    cbn [show_svg map concat]. rewrite app_nil_r.
    assert (C : content ((newline ++ fmt s ++ newline) ++ []) [Chars (newline ++ s ++ newline)]).
    { apply content_text; [exact R|constructor|exact I]. }
    rewrite app_nil_r in C.
    pose proof (element_full k _ a _ _ [] K (attributes_written a A) (neat_keys a A) C ltac:(intros ? [])) as E.
    rewrite <- !app_assoc in E. rewrite <- !app_assoc. exact E.
  - destruct c as [|e0 c0].
    + exists (Element k a []). split; [|constructor]. cbn [show_svg].
      apply element_empty; auto using attributes_written, neat_keys.
    + destruct (kids_written fmt (e0 :: c0)) as (l & C & S).
      { intros e I. apply (IH e I). intros t J. apply T. cbn [texts]. apply in_flat_map. eauto. }
      exists (Element k a l). split; [|apply shows_group; [discriminate|exact S]].
      pose proof (element_full k _ a _ _ [] K (attributes_written a A) (neat_keys a A) C ltac:(intros ? [])) as E.
      rewrite <- !app_assoc in E. cbn [show_svg]. exact E.
Qed.

Lemma root_namespace vb : In (lit "xmlns", lit "http://www.w3.org/2000/svg") (root_attrs vb).
Proof. destruct vb; cbn; auto. Qed.

Theorem drawing_reads_back fmt vb g d svg : byte_colors d -> render vb g d = Okay svg ->
  (forall t, In t (texts svg) -> printed fmt t) ->
  exists a l, element (show_svg fmt svg) (Element (lit "svg") a l) /\
    In (lit "xmlns", lit "http://www.w3.org/2000/svg") a /\ shows (Element (lit "svg") a l) svg.
Proof.
  intros B R T. apply render_okay in R as [_ ->]. destruct (neat_written fmt _ (neat_picture vb g d B) T) as (x & X & S).
  pose proof (root_namespace vb) as N. unfold picture in *. inversion S; subst; eauto.
Qed.

(** ** Formatters *)

Lemma no_gt s : ~ In 62%N s -> ~ exists a b, s = a ++ lit "]]>" ++ b.
Proof. intros N (a & b & ->). apply N. apply in_app_iff. right. cbn. auto. Qed.
Lemma escaped_printed t : Forall xml_char t -> printed escaped t.
Proof.
  intros F. split.
  - induction F as [|c t C F IH]; [constructor|]. cbn [escaped].
    destruct (N.eqb c 38) eqn:E1; [|destruct (N.eqb c 60) eqn:E2; [|destruct (N.eqb c 62) eqn:E3]];
      rewrite ?N.eqb_eq, ?N.eqb_neq in *; subst.
    + apply (cd_entity [] (lit "amp") 38%N (escaped t) t); [cbn; auto|exact IH].
    + apply (cd_entity [] (lit "lt") 60%N (escaped t) t); [cbn; auto|exact IH].
    + apply (cd_entity [] (lit "gt") 62%N (escaped t) t); [cbn; auto|exact IH].
    + constructor; auto.
  - apply no_gt. clear F. induction t as [|c t IH]; [auto|]. cbn [escaped]. rewrite in_app_iff. intros [H|H]; [|auto].
    destruct (N.eqb c 38); [cbn in H; intuition discriminate|].
    destruct (N.eqb c 60); [cbn in H; intuition discriminate|].
    destruct (N.eqb c 62) eqn:E; [cbn in H; intuition discriminate|].
    destruct H as [H|[]]. subst c. discriminate.
Qed.
Lemma harmless_printed t : Forall xml_char t -> harmless t -> printed (fun s => s) t.
Proof.
  intros F (A & B & C). split; [|now apply no_gt].
  induction F as [|c t X F IH]; [constructor|]. constructor; auto.
  - intros ->. apply A. now left.
  - intros ->. apply B. now left.
  - apply IH; intros H; [apply A|apply B|apply C]; now right.
Qed.

(** ** What is not well-formed *)

Lemma entity_chars n c : In (n, c) entities -> Forall xml_char n.
Proof.
  intros I. cbn in I. repeat (destruct I as [I|I]; [injection I as <- <-; repeat constructor; unfold xml_char, char; cbn; lia|]).
  destruct I.
Qed.
Lemma data_chars q s t : char_data q s t -> Forall xml_char s.
Proof.
  induction 1 as [|c s t X L A N D IH|n c s t I D IH]; [constructor|now constructor|].
  apply Forall_app. split; [repeat constructor; unfold xml_char, char; cbn; lia|].
  apply Forall_app. split; [now apply entity_chars in I|]. apply Forall_app.
  split; [repeat constructor; unfold xml_char, char; cbn; lia|exact IH].
Qed.
Lemma name_chars n : is_name n -> Forall xml_char n.
Proof.
  intros N. apply name_all in N. eapply Forall_impl; [|exact N]. intros c C.
  unfold name_char, name_start in C. unfold xml_char. unfold char in *. lia.
Qed.
Lemma blank_chars w : blanks w -> Forall xml_char w.
Proof.
  intros N. apply Forall_forall. intros c C. apply N in C. cbn in C. unfold xml_char. unfold char in *. lia.
Qed.

(** A property of strings that holds for the pieces and is closed under concatenation. *)
Section Pieces.
  Variable Q : str -> Prop.
  Hypothesis Qapp : forall a b, Q a -> Q b -> Q (a ++ b).
  Hypothesis Qname : forall n, is_name n -> Q n.
  Hypothesis Qopen : forall n, is_name n -> Q (lit "<" ++ n).
  Hypothesis Qclose : forall n, is_name n -> Q (lit "</" ++ n).
  Hypothesis Qblank : forall w, blanks w -> Q w.
  Hypothesis Qdata : forall q s t, char_data q s t -> Q s.
  Hypothesis Qlit : forall s, In s [lit "="; lit "/>"; lit ">"; [34%N]; [39%N]] -> Q s.

  Lemma pieces_attributes s l : attributes s l -> Q s.
  Proof.
    induction 1 as [w W|w k q v t s l W0 W K O V A IH]; [auto|].
    assert (Q [q]) by (apply Qlit; cbn in O; cbn; destruct O as [<-|[<-|[]]]; auto 9).
    assert (Q (lit "=")) by (apply Qlit; now left).
    repeat apply Qapp; eauto.
  Qed.
  Lemma pieces : (forall s x, element s x -> Q s) /\ (forall s l, content s l -> Q s).
  Proof.
    apply reading_ind.
    - intros n s a N A D. rewrite app_assoc. apply Qapp; [auto|]. apply Qapp; [now apply pieces_attributes in A|].
      apply Qlit. cbn. auto.
    - intros n s a c l w N A D T IH W.
      replace (lit "<" ++ n ++ s ++ lit ">" ++ c ++ lit "</" ++ n ++ w ++ lit ">")
        with ((lit "<" ++ n) ++ s ++ lit ">" ++ c ++ (lit "</" ++ n) ++ w ++ lit ">") by (rewrite <- !app_assoc; reflexivity).
      assert (Q (lit ">")) by (apply Qlit; cbn; auto).
      pose proof (pieces_attributes _ _ A). do 6 (apply Qapp; [auto|]). auto.
    - apply Qblank. intros c [].
    - intros s x r l X QX T QT. now apply Qapp.
    - intros s t r l (N & D & _) T QT M. apply Qapp; eauto.
  Qed.
End Pieces.

Theorem element_chars s x : element s x -> Forall xml_char s.
Proof.
  intros X. assert (L : forall s, forallb (fun c => N.leb 32 c && N.leb c 126) s = true -> Forall xml_char s).
  { intros u H. rewrite forallb_forall in H. apply Forall_forall. intros c I. specialize (H c I).
    rewrite andb_true_iff, !N.leb_le in H. unfold xml_char. unfold char in *. lia. }
  revert s x X. apply (pieces (Forall xml_char)).
  - intros. now apply Forall_app.
  - exact name_chars.
  - intros n N. apply Forall_app. split; [now apply L|now apply name_chars].
  - intros n N. apply Forall_app. split; [now apply L|now apply name_chars].
  - exact blank_chars.
  - exact data_chars.
  - intros s I. cbn in I. repeat (destruct I as [<-|I]; [now apply L|]). destruct I.
Qed.

(** "<" is followed by a name or a slash. *)
Definition opens_tag (s : str) : Prop :=
  forall a b, s = a ++ 60%N :: b -> exists c b', b = c :: b' /\ (name_start c \/ c = 47%N).

Lemma opens_none s : ~ In 60%N s -> opens_tag s.
Proof. intros N a b ->. destruct N. apply in_app_iff. right. now left. Qed.
Lemma opens_app s t : opens_tag s -> opens_tag t -> opens_tag (s ++ t).
Proof.
  intros A B a b E. apply app_eq_app in E as (m & [[-> E]|[-> E]]).
  - destruct m as [|c m]; cbn in E.
    + apply (B [] b). now rewrite E.
    + injection E as <- ->. destruct (A a m eq_refl) as (c & b' & -> & C). exists c, (b' ++ t). auto.
  - apply (B m b). exact E.
Qed.
Lemma name_no_lt n : is_name n -> ~ In 60%N n.
Proof.
  intros N I. apply name_all in N. rewrite Forall_forall in N. specialize (N _ I).
  unfold name_char, name_start in N. unfold char in *. lia.
Qed.
Lemma data_no_lt q s t : char_data q s t -> ~ In 60%N s.
Proof.
  induction 1 as [|c s t X L A N D IH|n c s t I D IH]; [auto|intros [H|H]; auto|].
  rewrite !in_app_iff. intros [H|[H|[H|H]]]; [|revert H| |auto].
  - cbn in H. intuition discriminate.
  - cbn in I. repeat (destruct I as [I|I]; [injection I as <- <-; cbn; intuition discriminate|]). destruct I.
  - cbn in H. intuition discriminate.
Qed.
Theorem element_opens s x : element s x -> opens_tag s.
Proof.
  revert s x. apply (pieces opens_tag).
  - exact opens_app.
  - intros n N. now apply opens_none, name_no_lt.
  - intros n (c & n' & -> & C & F). intros a b E. destruct a as [|x a].
    + injection E as <-. eauto.
    + injection E as _ E. exfalso. apply (name_no_lt (c :: n')); [exists c, n'; auto|]. rewrite E.
      apply in_app_iff. right. now left.
  - intros n N. intros a b E. destruct a as [|x a]; [injection E as <-; eauto|].
    injection E as _ E. exfalso. destruct a as [|y a]; [discriminate|]. injection E as _ E.
    apply (name_no_lt n N). rewrite E. apply in_app_iff. right. now left.
  - intros w W. apply opens_none. intros I. apply W in I. cbn in I. intuition discriminate.
  - intros q s t D. apply opens_none. now apply data_no_lt in D.
  - intros s I. apply opens_none. cbn in I. repeat (destruct I as [<-|I]; [cbn; intuition discriminate|]). destruct I.
Qed.

(** ** The program *)

Lemma words_are (P : str -> Prop) m :
  (forall s, In s [lit "int"; lit "uuid"; lit "text"; lit "timestamp"; lit "PK"; lit "FK"] -> P s) ->
  names_are P m -> forall t, In t (module_texts m) -> P t.
Proof.
  intros L H t I. unfold module_texts in I. apply in_flat_map in I as (e & E & I). destruct (H e E) as [A B].
  destruct I as [<-|I]; [exact A|]. apply in_flat_map in I as (f & F & I).
  destruct I as [<-|[<-|I]]; [now apply B|destruct (f_type f); apply L; cbn; auto 9|].
  destruct (f_key f) as [[]|]; cbn in I; [destruct I as [<-|[]]; apply L; cbn; auto 9|destruct I as [<-|[]]; apply L; cbn; auto 9|destruct I].
Qed.
Lemma readable_words s : In s [lit "int"; lit "uuid"; lit "text"; lit "timestamp"; lit "PK"; lit "FK"] ->
  readable s /\ harmless s.
Proof.
  intros I. assert (L : forallb (fun c => N.leb 65 c && N.leb c 122) s = true).
  { cbn in I. repeat (destruct I as [<-|I]; [reflexivity|]). destruct I. }
  rewrite forallb_forall in L.
  assert (K : forall c, In c s -> (65 <= c <= 122)%N) by (intros c J; specialize (L c J); now rewrite andb_true_iff, !N.leb_le in L).
  split; [apply Forall_forall; intros c J; specialize (K c J); unfold xml_char; unfold char in *; lia|].
  repeat split; intros J; specialize (K _ J); unfold char in *; lia.
Qed.

Theorem module_reads_back fmt m svg : render_module m = Okay svg ->
  (forall t, In t (module_texts m) -> printed fmt t) ->
  exists x, element (show_svg fmt svg) x /\ shows x svg.
Proof.
  intros R T. rewrite <- (module_texts_rendered m svg R) in T. unfold render_module in R.
  destruct (layout_module m) as [[[vb g] d]|] eqn:L; [|discriminate].
  destruct (drawing_reads_back fmt (Some vb) None d svg (layout_colors _ _ _ _ L) R T) as (a & l & E & _ & S). eauto.
Qed.

Lemma main_draws fmt src r m : parse src = Ret r -> pr_ast r = Some m -> ending (main fmt src) = Ret tt ->
  exists svg, render_module m = Okay svg /\ stdout (main fmt src) = show_svg fmt svg.
Proof.
  intros P A. unfold main. rewrite P, A. destruct (render_module m); try discriminate. intros _. eauto.
Qed.

Theorem program_reads_back src r m : parse src = Ret r -> pr_ast r = Some m ->
  (names_are readable m -> ending (main escaped src) = Ret tt ->
   exists svg x, render_module m = Okay svg /\ element (stdout (main escaped src)) x /\ shows x svg) /\
  (names_are (fun s => readable s /\ harmless s) m -> ending (main (fun s => s) src) = Ret tt ->
   exists svg x, render_module m = Okay svg /\ element (stdout (main (fun s => s) src)) x /\ shows x svg).
Proof.
  intros P A. split; intros N E; destruct (main_draws _ _ _ _ P A E) as (svg & R & ->).
  - destruct (module_reads_back escaped m svg R) as (x & X & S); [|eauto].
    intros t I. apply escaped_printed. revert t I. apply words_are; [|exact N]. intros s I. now apply readable_words.
  - destruct (module_reads_back (fun s => s) m svg R) as (x & X & S); [|eauto].
    intros t I. pose proof (words_are (fun s => readable s /\ harmless s) m readable_words N t I) as [H1 H2].
    now apply harmless_printed.
Qed.

Fixpoint bad_tag (s : str) : bool :=
  match s with
  | [] => false
  | c :: s' => (N.eqb c 60 && match s' with d :: _ => N.eqb d 32 | [] => false end) || bad_tag s'
  end.
Lemma bad_tag_opens s : bad_tag s = true -> ~ opens_tag s.
Proof.
  intros B O. assert (E : exists a b, s = a ++ 60%N :: 32%N :: b).
  { clear O. induction s as [|c s IH]; [discriminate|]. cbn in B. apply orb_true_iff in B as [B|B].
    - apply andb_true_iff in B as [B1 B2]. destruct s as [|d s]; [discriminate|]. apply N.eqb_eq in B1, B2. subst.
      exists [], s. reflexivity.
    - destruct (IH B) as (a & b & ->). exists (c :: a), b. reflexivity. }
  destruct E as (a & b & ->). destruct (O a _ eq_refl) as (c & b' & E & C). injection E as <- <-.
  unfold name_start in C. unfold char in *. lia.
Qed.
Lemma not_char s c : existsb (N.eqb c) s = true -> ~ xml_char c -> forall x, ~ element s x.
Proof.
  intros E N x X. apply element_chars in X. apply existsb_exists in E as (y & I & E). apply N.eqb_eq in E as ->.
  rewrite Forall_forall in X. auto.
Qed.

Definition control_name : str := lit "erd { `\u0001` { x int } }".
Lemma control_name_unreadable :
  exists m, accepted control_name m /\ ending (main escaped control_name) = Ret tt /\
    forall x, ~ element (stdout (main escaped control_name)) x.
Proof.
  eexists. split; [eexists; split; [vm_compute; reflexivity|repeat split]|]. split; [vm_compute; reflexivity|].
  apply (not_char _ 1%N); [vm_compute; reflexivity|]. unfold xml_char. unfold char in *. lia.
Qed.
Definition angle_name : str := lit "erd { `a < b` { x int } }".
Lemma angle_name_unreadable :
  exists m, accepted angle_name m /\ ending (main (fun s => s) angle_name) = Ret tt /\
    forall x, ~ element (stdout (main (fun s => s) angle_name)) x.
Proof.
  eexists. split; [eexists; split; [vm_compute; reflexivity|repeat split]|]. split; [vm_compute; reflexivity|].
  intros x X. apply element_opens in X. revert X. apply bad_tag_opens. vm_compute. reflexivity.
Qed.
