(** Facts about the combinators of Chumsky.v. *)
From Coq Require Import String List Arith Bool Lia.
From Verif Require Import Base Chumsky.
Import ListNotations.

(** Longest prefix of elements satisfying [f], and what follows it. *)
Fixpoint take_while {A} (f : A -> bool) (l : list A) : list A :=
  match l with
  | x :: l' => if f x then x :: take_while f l' else []
  | [] => []
  end.
Fixpoint drop_while {A} (f : A -> bool) (l : list A) : list A :=
  match l with
  | x :: l' => if f x then drop_while f l' else l
  | [] => []
  end.

Lemma take_drop {A} (f : A -> bool) l : take_while f l ++ drop_while f l = l.
Proof. induction l as [|x l IH]; simpl; auto. destruct (f x); simpl; congruence. Qed.

Lemma take_while_all {A} (f : A -> bool) l : Forall (fun x => f x = true) (take_while f l).
Proof. induction l as [|x l IH]; simpl; auto. destruct (f x) eqn:E; auto. Qed.

(** [r] does not begin with an element satisfying [f]. *)
Definition not_starts {A} (f : A -> bool) (r : list A) : Prop :=
  match r with [] => True | x :: _ => f x = false end.

Lemma drop_while_not {A} (f : A -> bool) l : not_starts f (drop_while f l).
Proof. induction l as [|x l IH]; simpl; auto. destruct (f x) eqn:E; simpl; auto. Qed.

Lemma take_while_app {A} (f : A -> bool) u r :
  Forall (fun x => f x = true) u -> not_starts f r ->
  take_while f (u ++ r) = u /\ drop_while f (u ++ r) = r.
Proof.
  induction 1 as [|x u Hx Hu IH]; simpl; intros Hr.
  - destruct r as [|y r]; simpl in *; auto. rewrite Hr. auto.
  - rewrite Hx. destruct (IH Hr) as [-> ->]. auto.
Qed.

Section Facts.
  Context {I : Type}.
  Implicit Types s : stream I.

  (** [s'] is [s] after consuming some (at least one) items. *)
  Definition moved s s' : Prop :=
    exists u, s_rest s = u ++ s_rest s' /\ s_off s' = s_off s + length u.
  Definition advanced s s' : Prop :=
    exists u, u <> [] /\ s_rest s = u ++ s_rest s' /\ s_off s' = s_off s + length u.

  Lemma moved_refl s : moved s s.
  Proof. exists []. simpl. split; auto. Qed.
  Lemma advanced_moved s s' : advanced s s' -> moved s s'.
  Proof. intros (u & _ & H). exists u; auto. Qed.
  Lemma moved_trans s1 s2 s3 : moved s1 s2 -> moved s2 s3 -> moved s1 s3.
  Proof.
    intros (u & Hu & Ou) (v & Hv & Ov). exists (u ++ v). rewrite Hu, Hv, app_assoc, app_length.
    split; auto; lia.
  Qed.
  Lemma moved_advanced s1 s2 s3 : moved s1 s2 -> advanced s2 s3 -> advanced s1 s3.
  Proof.
    intros (u & Hu & Ou) (v & Nv & Hv & Ov). exists (u ++ v). rewrite Hu, Hv, app_assoc, app_length.
    repeat split; auto; try lia. destruct u, v; simpl; congruence.
  Qed.
  Lemma advanced_moved' s1 s2 s3 : advanced s1 s2 -> moved s2 s3 -> advanced s1 s3.
  Proof.
    intros (u & Nu & Hu & Ou) (v & Hv & Ov). exists (u ++ v). rewrite Hu, Hv, app_assoc, app_length.
    repeat split; auto; try lia. destruct u, v; simpl; congruence.
  Qed.
  Lemma advanced_length s s' : advanced s s' ->
    length (s_rest s') < length (s_rest s) /\ s_off s < s_off s'.
  Proof.
    intros (u & Nu & Hu & Ou). rewrite Hu, app_length. destruct u; simpl in *; [congruence|]. lia.
  Qed.
  Lemma moved_total s s' : moved s s' ->
    s_off s' + length (s_rest s') = s_off s + length (s_rest s).
  Proof. intros (u & Hu & Ou). rewrite Hu, app_length. lia. Qed.

  (** Parsers that never abort and move forward ([mov]) or strictly forward
      ([adv]); parsers that never fail; parsers without secondary errors. *)
  Definition mov {A} (p : parser I A) : Prop :=
    forall s, match p s with POk _ _ s' => moved s s' | PErr => True | PAbort _ => False end.
  Definition adv {A} (p : parser I A) : Prop :=
    forall s, match p s with POk _ _ s' => advanced s s' | PErr => True | PAbort _ => False end.
  Definition quiet {A} (p : parser I A) : Prop :=
    forall s, match p s with POk e _ _ => e = [] | _ => True end.
  Definition total {A} (p : parser I A) : Prop := forall s, p s <> PErr.

  Lemma adv_mov {A} (p : parser I A) : adv p -> mov p.
  Proof. intros H s. specialize (H s). destruct (p s); auto. now apply advanced_moved. Qed.

  Lemma adv_filter_map {O} (f : I -> option O) : adv (p_filter_map f).
  Proof.
    intros [[|x l] o]; simpl; auto. unfold p_filter_map; simpl.
    destruct (f x); auto. exists [x]; simpl. repeat split; auto; try congruence; lia.
  Qed.
  Lemma quiet_filter_map {O} (f : I -> option O) : quiet (p_filter_map f).
  Proof. intros [[|x l] o]; unfold p_filter_map; simpl; auto. destruct (f x); auto. Qed.
  Lemma adv_filter f : adv (p_filter f).
  Proof. apply adv_filter_map. Qed.
  Lemma quiet_filter f : quiet (p_filter f).
  Proof. apply quiet_filter_map. Qed.

  Lemma mov_just eqb xs : mov (p_just eqb xs).
  Proof.
    induction xs as [|x xs IH]; intros [l o]; simpl.
    - apply moved_refl.
    - destruct l as [|y l]; auto. destruct (eqb x y); auto.
      specialize (IH (mkStream l (S o))). destruct (p_just eqb xs _); auto.
      eapply moved_trans; [|exact IH]. exists [y]; simpl. split; auto; lia.
  Qed.
  Lemma adv_just eqb x xs : adv (p_just eqb (x :: xs)).
  Proof.
    intros [l o]; simpl. destruct l as [|y l]; auto. destruct (eqb x y); auto.
    pose proof (mov_just eqb xs (mkStream l (S o))) as IH. destruct (p_just eqb xs _); auto.
    eapply advanced_moved'; [|exact IH]. exists [y]; simpl. repeat split; auto; try congruence; lia.
  Qed.
  Lemma quiet_just eqb xs : quiet (p_just eqb xs).
  Proof.
    induction xs as [|x xs IH]; intros [l o]; simpl; auto.
    destruct l as [|y l]; auto. destruct (eqb x y); auto. apply IH.
  Qed.

  Ltac run_p p s := let H := fresh in destruct (p s) eqn:H.

  Lemma mov_map {A B} (f : A -> B) (p : parser I A) : mov p -> mov (p_map f p).
  Proof. intros H s. specialize (H s). unfold p_map. destruct (p s); auto. Qed.
  Lemma adv_map {A B} (f : A -> B) (p : parser I A) : adv p -> adv (p_map f p).
  Proof. intros H s. specialize (H s). unfold p_map. destruct (p s); auto. Qed.
  Lemma quiet_map {A B} (f : A -> B) (p : parser I A) : quiet p -> quiet (p_map f p).
  Proof. intros H s. specialize (H s). unfold p_map. destruct (p s); auto. Qed.
  Lemma total_map {A B} (f : A -> B) (p : parser I A) : total p -> total (p_map f p).
  Proof. intros H s. specialize (H s). unfold p_map. destruct (p s); congruence. Qed.

  Lemma mov_try_map {A B} (f : A -> option B) (p : parser I A) : mov p -> mov (p_try_map f p).
  Proof. intros H s. specialize (H s). unfold p_try_map. destruct (p s); auto. destruct (f o); auto. Qed.
  Lemma adv_try_map {A B} (f : A -> option B) (p : parser I A) : adv p -> adv (p_try_map f p).
  Proof. intros H s. specialize (H s). unfold p_try_map. destruct (p s); auto. destruct (f o); auto. Qed.

  Lemma mov_then {A B} (p : parser I A) (q : parser I B) : mov p -> mov q -> mov (p_then p q).
  Proof.
    intros Hp Hq s. unfold p_then. specialize (Hp s). destruct (p s) as [e a s1| |]; auto.
    specialize (Hq s1). destruct (q s1); auto. eapply moved_trans; eauto.
  Qed.
  Lemma adv_then_l {A B} (p : parser I A) (q : parser I B) : adv p -> mov q -> adv (p_then p q).
  Proof.
    intros Hp Hq s. unfold p_then. specialize (Hp s). destruct (p s) as [e a s1| |]; auto.
    specialize (Hq s1). destruct (q s1); auto. eapply advanced_moved'; eauto.
  Qed.
  Lemma adv_then_r {A B} (p : parser I A) (q : parser I B) : mov p -> adv q -> adv (p_then p q).
  Proof.
    intros Hp Hq s. unfold p_then. specialize (Hp s). destruct (p s) as [e a s1| |]; auto.
    specialize (Hq s1). destruct (q s1); auto. eapply moved_advanced; eauto.
  Qed.
  Lemma quiet_then {A B} (p : parser I A) (q : parser I B) : quiet p -> quiet q -> quiet (p_then p q).
  Proof.
    intros Hp Hq s. unfold p_then. specialize (Hp s). destruct (p s) as [e a s1| |]; auto.
    specialize (Hq s1). destruct (q s1); auto. subst. auto.
  Qed.

  Lemma mov_or {A} (p q : parser I A) : mov p -> mov q -> mov (p_or p q).
  Proof.
    intros Hp Hq s. unfold p_or. specialize (Hp s). specialize (Hq s).
    destruct (p s) as [[|e es] a s1| |]; auto.
    destruct (q s) as [e' b s2| |]; auto. destruct (Nat.ltb _ _); auto.
  Qed.
  Lemma adv_or {A} (p q : parser I A) : adv p -> adv q -> adv (p_or p q).
  Proof.
    intros Hp Hq s. unfold p_or. specialize (Hp s). specialize (Hq s).
    destruct (p s) as [[|e es] a s1| |]; auto.
    destruct (q s) as [e' b s2| |]; auto. destruct (Nat.ltb _ _); auto.
  Qed.

  Lemma adv_choice {A} (ps : list (parser I A)) : Forall (fun p => adv p) ps -> adv (p_choice ps).
  Proof.
    induction 1 as [|p ps Hp _ IH]; intros s; simpl; auto.
    specialize (Hp s). destruct (p s); auto. apply IH.
  Qed.
  Lemma quiet_choice {A} (ps : list (parser I A)) : Forall (fun p => quiet p) ps -> quiet (p_choice ps).
  Proof.
    induction 1 as [|p ps Hp _ IH]; intros s; simpl; auto.
    specialize (Hp s). destruct (p s); auto. apply IH.
  Qed.

  Lemma mov_or_not {A} (p : parser I A) : mov p -> mov (p_or_not p).
  Proof. intros H s. specialize (H s). unfold p_or_not. destruct (p s); auto. apply moved_refl. Qed.
  Lemma quiet_or_not {A} (p : parser I A) : quiet p -> quiet (p_or_not p).
  Proof. intros H s. specialize (H s). unfold p_or_not. destruct (p s); auto. Qed.
  Lemma total_or_not {A} (p : parser I A) : total (p_or_not p).
  Proof. intros s. unfold p_or_not. destruct (p s); congruence. Qed.

  Lemma rep_loop_mov {A} (p : parser I A) (Hp : adv p) :
    forall fuel old errs acc s,
      length (s_rest s) < fuel ->
      match old with Some o => o <= s_off s | None => True end ->
      match p_rep_loop p fuel old errs acc s with
      | POk _ _ s' => moved s s'
      | _ => False
      end.
  Proof.
    induction fuel as [|fuel IH]; intros old errs acc s Hf Ho; [lia|]. simpl.
    pose proof (Hp s) as H. destruct (p s) as [e a s'| |]; auto.
    - pose proof (advanced_length _ _ H) as [Hl Hoff].
      assert ((match old with Some o => Nat.eqb o (s_off s') | None => false end) = false) as ->.
      { destruct old; auto. apply Nat.eqb_neq. lia. }
      specialize (IH (Some (s_off s')) (errs ++ e) (acc ++ [a]) s').
      destruct (p_rep_loop p fuel _ _ _ s').
      + eapply moved_trans; [apply advanced_moved; eauto|]. apply IH; lia.
      + apply IH; lia.
      + apply IH; lia.
    - apply moved_refl.
  Qed.
  Lemma mov_repeated {A} (p : parser I A) : adv p -> mov (p_repeated p).
  Proof.
    intros Hp s. unfold p_repeated.
    pose proof (rep_loop_mov p Hp (S (S (length (s_rest s)))) None [] [] s).
    destruct (p_rep_loop _ _ _ _ _ _); auto; apply H; auto; lia.
  Qed.
  Lemma total_repeated {A} (p : parser I A) : adv p -> total (p_repeated p).
  Proof.
    intros Hp s. unfold p_repeated.
    pose proof (rep_loop_mov p Hp (S (S (length (s_rest s)))) None [] [] s).
    destruct (p_rep_loop _ _ _ _ _ _); try congruence. destruct H; auto; lia.
  Qed.
  Lemma quiet_rep_loop {A} (p : parser I A) (Hp : quiet p) :
    forall fuel old acc s, match p_rep_loop p fuel old [] acc s with POk e _ _ => e = [] | _ => True end.
  Proof.
    induction fuel as [|fuel IH]; intros old acc s; simpl; auto.
    pose proof (Hp s) as H. destruct (p s) as [e a s'| |]; auto.
    destruct (match old with Some o => _ | None => _ end); auto. subst e. simpl. apply IH.
  Qed.
  Lemma quiet_repeated {A} (p : parser I A) : quiet p -> quiet (p_repeated p).
  Proof. intros Hp s. apply quiet_rep_loop; auto. Qed.

  Lemma mov_exactly {A} n (p : parser I A) : adv p -> mov (p_exactly n p).
  Proof.
    intros Hp. induction n as [|n IH]; simpl.
    - intros s. apply moved_refl.
    - apply mov_map, mov_then; auto. now apply adv_mov.
  Qed.
  Lemma mov_validate {A B} (f : A -> nat -> B * list perror) (p : parser I A) :
    mov p -> mov (p_validate f p).
  Proof. intros H s. specialize (H s). unfold p_validate. destruct (p s); auto. destruct (f o _); auto. Qed.
  Lemma adv_map_with_span {A B} (f : A -> nat * nat -> B) (p : parser I A) :
    adv p -> adv (p_map_with_span f p).
  Proof. intros H s. specialize (H s). unfold p_map_with_span. destruct (p s); auto. Qed.

  Lemma skip_retry_adv {A} (p : parser I A) (Hp : adv p) start :
    forall l off, match p_skip_retry p start l off with
                  | POk _ _ s' => advanced (mkStream l off) s'
                  | PErr => True
                  | PAbort _ => False
                  end.
  Proof.
    induction l as [|x l IH]; intros off; simpl; pose proof (Hp (mkStream [] off)) as H0.
    - destruct (p _); auto.
    - clear H0. pose proof (Hp (mkStream (x :: l) off)) as H0. destruct (p _); auto.
      specialize (IH (S off)). destruct (p_skip_retry p start l (S off)); auto.
      eapply moved_advanced; [|exact IH]. exists [x]. simpl. split; auto; lia.
  Qed.
  Lemma adv_recover_skip {A} (p : parser I A) : adv p -> adv (p_recover_skip p).
  Proof.
    intros Hp s. unfold p_recover_skip. pose proof (Hp s) as H.
    destruct (p s) eqn:E; auto.
    pose proof (skip_retry_adv p Hp (s_off s) (s_rest s) (s_off s)). destruct s; auto.
  Qed.
End Facts.

Lemma mov_ignore_then {I A B} (p : parser I A) (q : parser I B) :
  mov p -> mov q -> mov (p_ignore_then p q).
Proof. intros. apply mov_map, mov_then; auto. Qed.
Lemma mov_then_ignore {I A B} (p : parser I A) (q : parser I B) :
  mov p -> mov q -> mov (p_then_ignore p q).
Proof. intros. apply mov_map, mov_then; auto. Qed.
Lemma adv_ignore_then_l {I A B} (p : parser I A) (q : parser I B) :
  adv p -> mov q -> adv (p_ignore_then p q).
Proof. intros. apply adv_map, adv_then_l; auto. Qed.
Lemma adv_ignore_then_r {I A B} (p : parser I A) (q : parser I B) :
  mov p -> adv q -> adv (p_ignore_then p q).
Proof. intros. apply adv_map, adv_then_r; auto. Qed.
Lemma adv_then_ignore_l {I A B} (p : parser I A) (q : parser I B) :
  adv p -> mov q -> adv (p_then_ignore p q).
Proof. intros. apply adv_map, adv_then_l; auto. Qed.
Lemma quiet_ignore_then {I A B} (p : parser I A) (q : parser I B) :
  quiet p -> quiet q -> quiet (p_ignore_then p q).
Proof. intros. apply quiet_map, quiet_then; auto. Qed.
Lemma quiet_then_ignore {I A B} (p : parser I A) (q : parser I B) :
  quiet p -> quiet q -> quiet (p_then_ignore p q).
Proof. intros. apply quiet_map, quiet_then; auto. Qed.
Lemma adv_padded_by {I A B} (p : parser I A) (q : parser I B) :
  adv p -> mov q -> adv (p_padded_by p q).
Proof. intros. apply adv_then_ignore_l; auto. apply adv_ignore_then_r; auto. Qed.
Lemma mov_padded_by {I A B} (p : parser I A) (q : parser I B) :
  mov p -> mov q -> mov (p_padded_by p q).
Proof. intros. apply mov_then_ignore; auto. apply mov_ignore_then; auto. Qed.
Lemma quiet_padded_by {I A B} (p : parser I A) (q : parser I B) :
  quiet p -> quiet q -> quiet (p_padded_by p q).
Proof. intros. apply quiet_then_ignore; auto. apply quiet_ignore_then; auto. Qed.
Lemma adv_to {I A B} (b : B) (p : parser I A) : adv p -> adv (p_to b p).
Proof. apply adv_map. Qed.
Lemma quiet_to {I A B} (b : B) (p : parser I A) : quiet p -> quiet (p_to b p).
Proof. apply quiet_map. Qed.
Lemma adv_chain {I A} (p : parser I A) (q : parser I (list A)) : adv p -> mov q -> adv (p_chain p q).
Proof. intros. apply adv_map, adv_then_l; auto. Qed.
Lemma quiet_chain {I A} (p : parser I A) (q : parser I (list A)) : quiet p -> quiet q -> quiet (p_chain p q).
Proof. intros. apply quiet_map, quiet_then; auto. Qed.

(** ** Repetition, as an unfolding equation *)

(** For a strictly advancing item parser, [repeated] runs it until it fails. *)
Section Repeated.
  Context {I A : Type} (p : parser I A) (Hp : adv p).

  Lemma rep_loop_acc : forall fuel old errs acc s,
    p_rep_loop p fuel old errs acc s =
    match p_rep_loop p fuel old [] [] s with
    | POk e l s' => POk (errs ++ e) (acc ++ l) s'
    | PErr => PErr
    | PAbort x => PAbort x
    end.
  Proof.
    induction fuel as [|fuel IH]; intros old errs acc s; simpl; auto.
    destruct (p s) as [e a s'| |]; auto.
    - destruct (match old with Some o => _ | None => _ end); auto.
      rewrite IH. rewrite (IH _ e [a]). destruct (p_rep_loop _ _ _ _ _ _); auto.
      rewrite <- !app_assoc. reflexivity.
    - rewrite !app_nil_r. auto.
  Qed.

  Lemma rep_loop_fuel : forall fuel fuel' old old' s,
    length (s_rest s) < fuel -> length (s_rest s) < fuel' ->
    match old with Some o => o <= s_off s | None => True end ->
    match old' with Some o => o <= s_off s | None => True end ->
    p_rep_loop p fuel old [] [] s = p_rep_loop p fuel' old' [] [] s.
  Proof.
    induction fuel as [|fuel IH]; intros fuel' old old' s H1 H2 H3 H4; [lia|].
    destruct fuel' as [|fuel']; [lia|]. simpl.
    pose proof (Hp s) as H. destruct (p s) as [e a s'| |]; auto.
    pose proof (advanced_length _ _ H) as [Hl Ho].
    assert (forall old : option nat, match old with Some o => o <= s_off s | None => True end ->
              (match old with Some o => Nat.eqb o (s_off s') | None => false end) = false) as K.
    { intros [o|] Hold; auto. apply Nat.eqb_neq. lia. }
    rewrite !K by auto.
    rewrite rep_loop_acc, (rep_loop_acc fuel').
    rewrite (IH fuel' (Some (s_off s')) (Some (s_off s')) s'); auto; lia.
  Qed.

  Lemma repeated_eq s :
    p_repeated p s =
    match p s with
    | POk e a s' => match p_repeated p s' with
                    | POk e' l s'' => POk (e ++ e') (a :: l) s''
                    | PErr => PErr
                    | PAbort x => PAbort x
                    end
    | PErr => POk [] [] s
    | PAbort x => PAbort x
    end.
  Proof.
    unfold p_repeated at 1. remember (S (length (s_rest s))) as fuel eqn:Ef. cbn [p_rep_loop].
    pose proof (Hp s) as H. destruct (p s) as [e a s'| |]; auto.
    pose proof (advanced_length _ _ H) as [Hl Ho].
    rewrite rep_loop_acc. unfold p_repeated.
    rewrite (rep_loop_fuel fuel (S (S (length (s_rest s')))) (Some (s_off s')) None s');
      auto; simpl; try lia.
  Qed.
End Repeated.

(** [filter f .repeated()]: the longest prefix satisfying [f]. *)
Lemma repeated_filter {I} (f : I -> bool) : forall l o,
  p_repeated (p_filter f) (mkStream l o) =
  POk [] (take_while f l) (mkStream (drop_while f l) (o + length (take_while f l))).
Proof.
  induction l as [|x l IH]; intros o; rewrite repeated_eq by apply adv_filter;
    unfold p_filter, p_filter_map; simpl.
  - rewrite Nat.add_0_r. auto.
  - destruct (f x) eqn:E; simpl.
    + unfold p_filter, p_filter_map in IH. rewrite IH. simpl. f_equal. f_equal. lia.
    + rewrite Nat.add_0_r. auto.
Qed.
