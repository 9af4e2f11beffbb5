(** The tokenizer of Parser.v against the lexical specification SpecLex.v. *)
From Coq Require Import String Ascii List Arith NArith Bool Lia.
From Verif Require Import Base Chumsky ChumskyFacts Parser SpecLex.
Import ListNotations.

(** ** Progress *)

Lemma adv_just_str a s : adv (just_str (String a s)).
Proof. apply adv_just. Qed.
Lemma adv_just_chr c : adv (just_chr c).
Proof. apply adv_just. Qed.
Lemma adv_text_ident : adv text_ident.
Proof. apply adv_chain; [apply adv_filter|]. apply mov_repeated, adv_filter. Qed.
Lemma adv_text_keyword k : adv (text_keyword k).
Proof. apply adv_try_map, adv_text_ident. Qed.
Lemma adv_lex_edge : adv lex_edge.
Proof. apply adv_to, adv_just_str. Qed.
Lemma adv_lex_ctrl : adv lex_ctrl.
Proof. apply adv_map, adv_filter. Qed.
Lemma adv_lex_newline : adv lex_newline.
Proof. apply adv_choice. repeat constructor; apply adv_to, adv_just. Qed.
Lemma adv_lex_keyword : adv lex_keyword.
Proof. apply adv_choice. repeat constructor; apply adv_to, adv_text_keyword. Qed.
Lemma adv_lex_unicode : adv lex_unicode.
Proof.
  apply adv_ignore_then_l; [apply adv_just_chr|]. apply mov_validate, mov_exactly, adv_filter.
Qed.
Lemma adv_just_as c r : adv (just_as c r).
Proof. apply adv_to, adv_just_chr. Qed.
Lemma adv_lex_escape : adv lex_escape.
Proof.
  apply adv_ignore_then_l; [apply adv_just_chr|].
  apply adv_mov. repeat apply adv_or; try apply adv_just_as. apply adv_lex_unicode.
Qed.
Lemma adv_quoted_char : adv (p_or (p_filter is_quoted_plain) lex_escape).
Proof. apply adv_or; [apply adv_filter | apply adv_lex_escape]. Qed.
Lemma adv_lex_ident : adv lex_ident.
Proof. apply adv_map, adv_text_ident. Qed.
Lemma adv_lex_quoted : adv lex_quoted.
Proof.
  apply adv_map, adv_then_ignore_l; [|apply adv_mov, adv_just_chr].
  apply adv_ignore_then_l; [apply adv_just_chr|]. apply mov_repeated, adv_quoted_char.
Qed.
Lemma adv_lex_token_strict : adv lex_token_strict.
Proof.
  repeat apply adv_or; auto using adv_lex_edge, adv_lex_keyword, adv_lex_ident, adv_lex_quoted,
    adv_lex_ctrl, adv_lex_newline.
Qed.
Lemma adv_lex_token : adv lex_token.
Proof. apply adv_recover_skip, adv_lex_token_strict. Qed.
Lemma mov_lex_spaces : mov lex_spaces.
Proof. apply mov_repeated, adv_filter. Qed.
Lemma adv_lex_comment : adv lex_comment.
Proof.
  apply adv_padded_by; [|apply mov_lex_spaces].
  apply adv_ignore_then_l; [apply adv_just_str|]. apply mov_repeated, adv_filter.
Qed.
Lemma adv_lex_item : adv lex_item.
Proof.
  apply adv_padded_by; [|apply mov_lex_spaces].
  apply adv_padded_by; [|apply mov_repeated, adv_lex_comment].
  apply adv_map_with_span, adv_lex_token.
Qed.
Lemma mov_tokenizer : mov tokenizer.
Proof. apply mov_repeated, adv_lex_item. Qed.
Lemma total_tokenizer : total tokenizer.
Proof. apply total_repeated, adv_lex_item. Qed.

Theorem tokenizer_returns src :
  exists toks errs, parse_recovery tokenizer src = Ret (Some toks, errs).
Proof.
  unfold parse_recovery. pose proof (mov_tokenizer (mkStream src 0)) as H.
  pose proof (total_tokenizer (mkStream src 0)) as T.
  destruct (tokenizer _); try contradiction; eauto.
Qed.

(** ** Character classes *)
Local Open Scope N_scope.

Ltac bool_props :=
  repeat match goal with
  | H : context [(_ || _)%bool] |- _ => rewrite orb_true_iff in H
  | H : context [(_ && _)%bool] |- _ => rewrite andb_true_iff in H
  | H : context [(_ =? _) = true] |- _ => rewrite N.eqb_eq in H
  | H : context [(_ <=? _) = true] |- _ => rewrite N.leb_le in H
  | H : context [(_ <? _) = true] |- _ => rewrite N.ltb_lt in H
  | |- context [(_ || _)%bool] => rewrite orb_true_iff
  | |- context [(_ && _)%bool] => rewrite andb_true_iff
  | |- context [(_ =? _) = true] => rewrite N.eqb_eq
  | |- context [(_ <=? _) = true] => rewrite N.leb_le
  | |- context [(_ <? _) = true] => rewrite N.ltb_lt
  end.

Lemma ident_start_spec c : is_ident_start c = true <-> word_start c.
Proof. unfold is_ident_start, is_ascii_alpha, word_start, letter. bool_props. intuition lia. Qed.
Lemma ident_continue_spec c : is_ident_continue c = true <-> word_char c.
Proof.
  unfold is_ident_continue, is_ascii_alpha, is_ascii_digit, word_char, letter, digit.
  bool_props. intuition lia.
Qed.
Lemma space_spec c : is_space c = true <-> blank c.
Proof. unfold is_space, blank. bool_props. intuition. Qed.
Lemma scalar_spec n : is_scalar n = true <-> scalar n.
Proof. unfold is_scalar, scalar. bool_props. intuition. Qed.
Lemma hex_spec c v : hex_value c = Some v <-> hex_digit c v.
Proof.
  unfold hex_value, hex_digit, is_ascii_digit.
  destruct ((48 <=? c) && (c <=? 57))%bool eqn:E1.
  - bool_props. split.
    + intros [= <-]. left. auto.
    + intros [[? ->]|[[? ?]|[? ?]]]; auto; lia.
  - apply andb_false_iff in E1. rewrite !N.leb_gt in E1.
    destruct ((97 <=? c) && (c <=? 102))%bool eqn:E2.
    + bool_props. split.
      * intros [= <-]. right; left. auto.
      * intros [[? ?]|[[? ->]|[? ?]]]; auto; lia.
    + apply andb_false_iff in E2. rewrite !N.leb_gt in E2.
      destruct ((65 <=? c) && (c <=? 70))%bool eqn:E3.
      * bool_props. split.
        -- intros [= <-]. right; right. auto.
        -- intros [[? ?]|[[? ?]|[? ->]]]; auto; lia.
      * apply andb_false_iff in E3. rewrite !N.leb_gt in E3. split; [discriminate|].
        intros [[? ?]|[[? ?]|[? ?]]]; lia.
Qed.
Lemma str_eqb_spec a b : str_eqb a b = true <-> a = b.
Proof.
  revert b. induction a as [|x a IH]; intros [|y b]; simpl; split; intros H; try congruence; auto.
  - apply andb_true_iff in H as [H1 H2]. apply N.eqb_eq in H1. apply IH in H2. congruence.
  - injection H as -> ->. rewrite N.eqb_refl. simpl. now apply IH.
Qed.
Lemma ctrl_spec c : is_ctrl c = true <-> In c (lit "{};.").
Proof.
  unfold is_ctrl. rewrite existsb_exists. split.
  - intros (x & Hx & E). apply N.eqb_eq in E. subst x. exact Hx.
  - intros H. exists c. split; auto. apply N.eqb_refl.
Qed.
Lemma quoted_plain_spec c : is_quoted_plain c = true <-> c <> backslash /\ c <> backquote.
Proof.
  unfold is_quoted_plain, backslash, backquote.
  rewrite andb_true_iff, !negb_true_iff, !N.eqb_neq. tauto.
Qed.

Lemma not_starts_word r : not_starts is_ident_continue r <-> no_word_char r.
Proof.
  unfold no_word_char. destruct r as [|c r]; simpl; split; intros H; auto.
  - intros c r' [=].
  - intros c' r' [= <- <-]. rewrite <- ident_continue_spec. congruence.
  - destruct (is_ident_continue c) eqn:E; auto. apply ident_continue_spec in E.
    exfalso. eapply H; eauto.
Qed.

Lemma Forall_word w : Forall (fun c => is_ident_continue c = true) w <-> Forall word_char w.
Proof.
  split; intros H; eapply Forall_impl; try exact H; intros c; apply ident_continue_spec.
Qed.

(** ** Equations for the pieces of the tokenizer *)

Lemma text_ident_eq l o :
  text_ident (mkStream l o) =
  match l with
  | c :: l' =>
      if is_ident_start c
      then POk [] (c :: take_while is_ident_continue l')
               (mkStream (drop_while is_ident_continue l')
                         (S (o + length (take_while is_ident_continue l'))))
      else PErr
  | [] => PErr
  end.
Proof.
  unfold text_ident, p_chain, p_map, p_then, p_filter at 1, p_filter_map.
  destruct l as [|c l]; simpl; auto.
  destruct (is_ident_start c); auto.
  rewrite repeated_filter. simpl. reflexivity.
Qed.

Lemma just_prefix xs l o :
  p_just N.eqb xs (mkStream l o) =
  match p_just N.eqb xs (mkStream l o) with POk e a s => POk e a s | _ => PErr end.
Proof.
  pose proof (mov_just N.eqb xs (mkStream l o)). destruct (p_just _ _ _); auto. contradiction.
Qed.

Lemma just_app xs r o : p_just N.eqb xs (mkStream (xs ++ r) o) = POk [] tt (mkStream r (o + length xs)).
Proof.
  revert o. induction xs as [|x xs IH]; intros o; simpl.
  - rewrite Nat.add_0_r. auto.
  - rewrite N.eqb_refl, IH. f_equal. f_equal. lia.
Qed.
Lemma just_inv xs l o e a s' :
  p_just N.eqb xs (mkStream l o) = POk e a s' ->
  e = [] /\ l = xs ++ s_rest s' /\ s' = mkStream (s_rest s') (o + length xs).
Proof.
  revert l o. induction xs as [|x xs IH]; intros l o; simpl.
  - intros [= <- <- <-]. simpl. rewrite Nat.add_0_r. auto.
  - destruct l as [|y l]; try discriminate. destruct (x =? y) eqn:E; try discriminate.
    apply N.eqb_eq in E. subst y. intros H. apply IH in H as (-> & -> & ->). simpl.
    repeat split; auto.
Qed.

Lemma just_fails xs l o : (forall r, l <> xs ++ r) -> p_just N.eqb xs (mkStream l o) = PErr.
Proof.
  intros H. pose proof (mov_just N.eqb xs (mkStream l o)) as M.
  destruct (p_just _ _ _) eqn:E; auto; try contradiction.
  apply just_inv in E as (_ & E & _). exfalso. eapply H; eauto.
Qed.

Lemma just_chr_eq k l o :
  just_chr k (mkStream l o) =
  match l with c :: l' => if k =? c then POk [] tt (mkStream l' (S o)) else PErr | [] => PErr end.
Proof. unfold just_chr. simpl. destruct l; auto. Qed.

Lemma just_as_eq k v l o :
  just_as k v (mkStream l o) =
  match l with c :: l' => if k =? c then POk [] v (mkStream l' (S o)) else PErr | [] => PErr end.
Proof. unfold just_as, p_to, p_map. rewrite just_chr_eq. destruct l as [|c l]; auto. destruct (k =? c); auto. Qed.

Lemma filter_eq {I} (f : I -> bool) l o :
  p_filter f (mkStream l o) =
  match l with c :: l' => if f c then POk [] c (mkStream l' (S o)) else PErr | [] => PErr end.
Proof. unfold p_filter, p_filter_map. simpl. destruct l as [|c l]; auto. destruct (f c); auto. Qed.

Lemma or_err {I A} (p q : parser I A) s : p s = PErr -> p_or p q s = q s.
Proof. unfold p_or. intros ->. auto. Qed.
Lemma or_ok {I A} (p q : parser I A) s a s' : p s = POk [] a s' -> p_or p q s = POk [] a s'.
Proof. unfold p_or. intros ->. auto. Qed.
Lemma or_err_r {I A} (p q : parser I A) s : q s = PErr -> p_or p q s = p s.
Proof. unfold p_or. intros ->. destruct (p s) as [[|]| |]; auto. Qed.

(** *** Escapes *)

Lemma exactly4 l o :
  p_exactly 4 (p_filter is_hex) (mkStream l o) =
  match l with
  | a :: b :: c :: d :: l' =>
      if is_hex a && is_hex b && is_hex c && is_hex d
      then POk [] [a; b; c; d] (mkStream l' (S (S (S (S o))))) else PErr
  | _ => PErr
  end.
Proof.
  cbn [p_exactly]. unfold p_map, p_then. rewrite filter_eq.
  destruct l as [|a l]; auto. destruct (is_hex a); simpl; [|destruct l as [|? [|? [|]]]; auto].
  rewrite filter_eq. destruct l as [|b l]; auto. destruct (is_hex b); simpl; [|destruct l as [|? [|]]; auto].
  rewrite filter_eq. destruct l as [|c l]; auto. destruct (is_hex c); simpl; [|destruct l as [|]; auto].
  rewrite filter_eq. destruct l as [|d l]; auto. destruct (is_hex d); simpl; auto.
Qed.

Lemma lex_unicode_eq l o :
  lex_unicode (mkStream l o) =
  match l with
  | u :: a :: b :: c :: d :: l' =>
      if (117 =? u) && (is_hex a && is_hex b && is_hex c && is_hex d) then
        match char_from_u32 (from_hex [a; b; c; d]) with
        | Some v => POk [] v (mkStream l' (5 + o))
        | None => POk [EBadUnicode (S o)] 65533 (mkStream l' (5 + o))
        end
      else PErr
  | _ => PErr
  end.
Proof.
  unfold lex_unicode, p_ignore_then, p_map at 1, p_then, p_validate.
  rewrite just_chr_eq. change (ch "u") with 117. destruct l as [|u l]; auto.
  destruct (117 =? u); [|destruct l as [|? [|? [|? [|]]]]; auto].
  rewrite exactly4. destruct l as [|a [|b [|c [|d l]]]]; auto.
  destruct (is_hex a && is_hex b && is_hex c && is_hex d)%bool; simpl; auto.
  destruct (char_from_u32 _); auto.
Qed.

Lemma is_hex_spec c : is_hex c = true <-> exists v, hex_digit c v.
Proof.
  unfold is_hex. destruct (hex_value c) eqn:E; split; intros H; auto.
  - exists n. now apply hex_spec.
  - discriminate.
  - destruct H as [v H]. apply hex_spec in H. congruence.
Qed.
Lemma from_hex4 c1 c2 c3 c4 d1 d2 d3 d4 :
  hex_digit c1 d1 -> hex_digit c2 d2 -> hex_digit c3 d3 -> hex_digit c4 d4 ->
  from_hex [c1; c2; c3; c4] = 4096 * d1 + 256 * d2 + 16 * d3 + d4.
Proof.
  rewrite <- !hex_spec. intros H1 H2 H3 H4. unfold from_hex. cbn [fold_left].
  rewrite H1, H2, H3, H4. lia.
Qed.

(** The offsets of bad escapes as reported errors. *)
Definition bad_errs (bad : list nat) : list perror := map EBadUnicode bad.

(** What one escape can be. *)
Definition escape_lenient (o : nat) (u : str) (v : char) (bad : list nat) : Prop :=
  (escape u v /\ bad = []) \/
  (exists c1 c2 c3 c4 d1 d2 d3 d4,
      hex_digit c1 d1 /\ hex_digit c2 d2 /\ hex_digit c3 d3 /\ hex_digit c4 d4 /\
      ~ scalar (4096 * d1 + 256 * d2 + 16 * d3 + d4) /\
      u = [backslash; 117; c1; c2; c3; c4] /\ v = 65533 /\ bad = [(o + 2)%nat]).

Definition escape_body : parser char char :=
  p_or (p_or (p_or (p_or (p_or (p_or (p_or (p_or (p_or
         (just_as 92%N 92%N) (just_as 47%N 47%N)) (just_as 34%N 34%N)) (just_as 96%N 96%N))
         (just_as (ch "b") 8%N)) (just_as (ch "f") 12%N)) (just_as (ch "n") 10%N))
         (just_as (ch "r") 13%N)) (just_as (ch "t") 9%N)) lex_unicode.

Lemma lex_escape_unfold l o :
  lex_escape (mkStream l o) =
  match l with
  | c :: l' => if 92 =? c then escape_body (mkStream l' (S o)) else PErr
  | [] => PErr
  end.
Proof.
  unfold lex_escape, p_ignore_then, p_map at 1, p_then. rewrite just_chr_eq.
  destruct l as [|c l]; auto. destruct (92 =? c); auto. fold escape_body.
  destruct (escape_body _); auto.
Qed.

(** The simple escapes as a table. *)
Definition simple_escape (c : char) : option char :=
  if 92 =? c then Some 92 else if 47 =? c then Some 47 else if 34 =? c then Some 34
  else if 96 =? c then Some 96 else if 98 =? c then Some 8 else if 102 =? c then Some 12
  else if 110 =? c then Some 10 else if 114 =? c then Some 13 else if 116 =? c then Some 9
  else None.

Lemma escape_body_eq l o :
  escape_body (mkStream l o) =
  match l with
  | c :: l' =>
      match simple_escape c with
      | Some v => POk [] v (mkStream l' (S o))
      | None => lex_unicode (mkStream l o)
      end
  | [] => PErr
  end.
Proof.
  unfold escape_body, simple_escape.
  change (ch "b") with 98; change (ch "f") with 102; change (ch "n") with 110;
  change (ch "r") with 114; change (ch "t") with 116.
  destruct l as [|c l].
  - rewrite or_err; [apply lex_unicode_eq|]. repeat (rewrite or_err; [apply just_as_eq|]). apply just_as_eq.
  - unfold p_or. rewrite !just_as_eq.
    destruct (92 =? c); auto. destruct (47 =? c); auto. destruct (34 =? c); auto.
    destruct (96 =? c); auto. destruct (98 =? c); auto. destruct (102 =? c); auto.
    destruct (110 =? c); auto. destruct (114 =? c); auto. destruct (116 =? c); auto.
Qed.

Lemma simple_escape_spec c v : simple_escape c = Some v -> escape [backslash; c] v.
Proof.
  unfold simple_escape.
  repeat match goal with
  | |- context [?k =? c] =>
      let E := fresh in
      destruct (k =? c) eqn:E;
      [apply N.eqb_eq in E; subst c; intros [= <-]; constructor|]
  end. discriminate.
Qed.

Lemma lex_escape_sound l o e v s' :
  lex_escape (mkStream l o) = POk e v s' ->
  exists u bad, l = u ++ s_rest s' /\ s_off s' = (o + length u)%nat /\
                e = bad_errs bad /\ escape_lenient o u v bad.
Proof.
  rewrite lex_escape_unfold. destruct l as [|c l]; try discriminate.
  destruct (92 =? c) eqn:E; try discriminate. apply N.eqb_eq in E. subst c.
  rewrite escape_body_eq. destruct l as [|c l]; try discriminate.
  destruct (simple_escape c) as [w|] eqn:Es.
  - intros [= <- <- <-]. exists [92; c], []. simpl. repeat split; auto; try lia.
    left. split; auto. now apply simple_escape_spec.
  - rewrite lex_unicode_eq. destruct l as [|c1 [|c2 [|c3 [|c4 l]]]]; try discriminate.
    destruct ((117 =? c) && _)%bool eqn:E; try discriminate.
    rewrite !andb_true_iff in E. destruct E as (Eu & ((E1 & E2) & E3) & E4).
    apply N.eqb_eq in Eu. subst c. apply is_hex_spec in E1 as [d1 E1]. apply is_hex_spec in E2 as [d2 E2].
    apply is_hex_spec in E3 as [d3 E3]. apply is_hex_spec in E4 as [d4 E4].
    rewrite (from_hex4 _ _ _ _ d1 d2 d3 d4) by auto. unfold char_from_u32.
    destruct (is_scalar _) eqn:Esc; intros [= <- <- <-].
    + exists [92; 117; c1; c2; c3; c4], []. simpl. repeat split; auto; try lia.
      left. split; auto. apply scalar_spec in Esc. now constructor.
    + exists [92; 117; c1; c2; c3; c4], [(o + 2)%nat]. simpl. repeat split; auto; try lia.
      * unfold bad_errs. simpl. do 2 f_equal. lia.
      * right. exists c1, c2, c3, c4, d1, d2, d3, d4. repeat split; auto.
        rewrite <- scalar_spec. congruence.
Qed.

Lemma hex_lt c v : hex_digit c v -> v < 16.
Proof. unfold hex_digit. lia. Qed.

Lemma lex_escape_complete u v bad r o :
  escape_lenient o u v bad ->
  lex_escape (mkStream (u ++ r) o) = POk (bad_errs bad) v (mkStream r (o + length u)%nat).
Proof.
  rewrite lex_escape_unfold.
  intros [[H ->]|H].
  - inversion H; subst; cbn [app backslash]; rewrite N.eqb_refl, escape_body_eq;
      try (cbn; repeat f_equal; lia).
    assert (simple_escape 117 = None) as -> by reflexivity. rewrite lex_unicode_eq.
    assert ((117 =? 117) && (is_hex c1 && is_hex c2 && is_hex c3 && is_hex c4) = true)%bool as ->.
    { rewrite !andb_true_iff, N.eqb_eq, !is_hex_spec. eauto 10. }
    rewrite (from_hex4 _ _ _ _ d1 d2 d3 d4) by auto. unfold char_from_u32.
    apply scalar_spec in H4. rewrite H4. simpl. repeat f_equal. lia.
  - destruct H as (c1 & c2 & c3 & c4 & d1 & d2 & d3 & d4 & H1 & H2 & H3 & H4 & Hs & -> & -> & ->).
    cbn [app backslash]. rewrite N.eqb_refl, escape_body_eq.
    assert (simple_escape 117 = None) as -> by reflexivity. rewrite lex_unicode_eq.
    assert ((117 =? 117) && (is_hex c1 && is_hex c2 && is_hex c3 && is_hex c4) = true)%bool as ->.
    { rewrite !andb_true_iff, N.eqb_eq, !is_hex_spec. eauto 10. }
    rewrite (from_hex4 _ _ _ _ d1 d2 d3 d4) by auto. unfold char_from_u32.
    destruct (is_scalar _) eqn:Esc. { apply scalar_spec in Esc. contradiction. }
    unfold bad_errs. simpl. repeat f_equal; lia.
Qed.

(** *** Back-quoted names *)

Definition quoted_char : parser char char := p_or (p_filter is_quoted_plain) lex_escape.

Lemma quoted_char_eq l o :
  quoted_char (mkStream l o) =
  match l with
  | c :: l' => if is_quoted_plain c then POk [] c (mkStream l' (S o)) else lex_escape (mkStream l o)
  | [] => PErr
  end.
Proof.
  unfold quoted_char, p_or. rewrite filter_eq. destruct l as [|c l]; auto.
  destruct (is_quoted_plain c); auto.
Qed.

Lemma quoted_rep_sound : forall n l o e v s',
  (length l <= n)%nat ->
  p_repeated quoted_char (mkStream l o) = POk e v s' ->
  exists u bad, l = u ++ s_rest s' /\ s_off s' = (o + length u)%nat /\
                e = bad_errs bad /\ quoted_lenient o u v bad.
Proof.
  induction n as [|n IH]; intros l o e v s' Hn; rewrite repeated_eq by apply adv_quoted_char;
    rewrite quoted_char_eq.
  - destruct l; simpl in Hn; [|lia]. intros [= <- <- <-]. exists [], []. simpl.
    repeat split; auto; constructor.
  - destruct l as [|c l]. { intros [= <- <- <-]. exists [], []. simpl. repeat split; auto; constructor. }
    destruct (is_quoted_plain c) eqn:Ec.
    + destruct (p_repeated quoted_char (mkStream l (S o))) as [e1 v1 s1| |] eqn:E; try discriminate.
      intros [= <- <- <-]. apply IH in E as (u & bad & -> & Ho & -> & Q); [|simpl in Hn; lia].
      exists (c :: u), bad. simpl. repeat split; auto; try lia.
      apply quoted_plain_spec in Ec as []. constructor; auto.
    + destruct (lex_escape _) as [e0 v0 s0| |] eqn:E0; try discriminate.
      2:{ intros [= <- <- <-]. exists [], []. simpl. repeat split; auto; constructor. }
      pose proof (adv_lex_escape (mkStream (c :: l) o)) as A. rewrite E0 in A.
      apply advanced_length in A as [A _]. cbn [s_rest] in A.
      apply lex_escape_sound in E0 as (u0 & bad0 & Hl & Ho & -> & Q0).
      destruct s0 as [l0 o0]. cbn [s_rest s_off] in *. subst o0.
      destruct (p_repeated quoted_char (mkStream l0 _)) as [e1 v1 s1| |] eqn:E; try discriminate.
      intros [= <- <- <-]. apply IH in E as (u & bad & -> & Ho & -> & Q); [|simpl in *; lia].
      exists (u0 ++ u), (bad0 ++ bad). rewrite Hl, app_assoc, app_length. unfold bad_errs.
      rewrite map_app. repeat split; auto; try lia.
      destruct Q0 as [[Q0 ->]|Q0].
      * simpl. constructor; auto.
      * destruct Q0 as (c1 & c2 & c3 & c4 & d1 & d2 & d3 & d4 & H1 & H2 & H3 & H4 & Hs & -> & -> & ->).
        change ([(o + 2)%nat] ++ bad) with ((o + 2)%nat :: bad). eapply ql_surrogate; eauto.
Qed.

Lemma quoted_rep_complete o b v bad r :
  quoted_lenient o b v bad ->
  p_repeated quoted_char (mkStream (b ++ backquote :: r) o) =
  POk (bad_errs bad) v (mkStream (backquote :: r) (o + length b)%nat).
Proof.
  induction 1 as [o|o c b s bad Hc1 Hc2 Q IH|o e c b s bad He Q IH
                 |o c1 c2 c3 c4 d1 d2 d3 d4 b s bad H1 H2 H3 H4 Hs Q IH];
    rewrite repeated_eq by apply adv_quoted_char.
  - rewrite quoted_char_eq. cbn [app length]. change (is_quoted_plain backquote) with false. cbv iota.
    rewrite lex_escape_unfold. cbn. rewrite Nat.add_0_r. auto.
  - rewrite quoted_char_eq. cbn [app].
    assert (is_quoted_plain c = true) as -> by (apply quoted_plain_spec; auto).
    rewrite IH. simpl. repeat f_equal. lia.
  - rewrite quoted_char_eq. rewrite <- app_assoc.
    destruct (e ++ b ++ backquote :: r) as [|x l] eqn:El.
    { destruct e; [inversion He|]; discriminate. }
    assert (x = backslash) as ->. { inversion He; subst; simpl in El; congruence. }
    change (is_quoted_plain backslash) with false. cbv iota. rewrite <- El.
    rewrite (lex_escape_complete e c [] _ o) by (left; auto).
    rewrite IH. simpl. rewrite app_length, Nat.add_assoc. auto.
  - rewrite quoted_char_eq. rewrite <- app_assoc. cbn [app].
    change (is_quoted_plain backslash) with false. cbv iota.
    change (backslash :: 117 :: c1 :: c2 :: c3 :: c4 :: b ++ backquote :: r)
      with ([backslash; 117; c1; c2; c3; c4] ++ b ++ backquote :: r).
    rewrite (lex_escape_complete _ 65533 [(o + 2)%nat] _ o) by (right; eauto 20).
    cbn [length app]. rewrite IH. do 2 f_equal. simpl. lia.
Qed.

Lemma lex_quoted_unfold l o :
  lex_quoted (mkStream l o) =
  match l with
  | c :: l' =>
      if backquote =? c then
        match p_repeated quoted_char (mkStream l' (S o)) with
        | POk e v (mkStream (c' :: l'') o') =>
            if backquote =? c' then POk e (KIdent v) (mkStream l'' (S o')) else PErr
        | POk e v (mkStream [] o') => PErr
        | PErr => PErr
        | PAbort x => PAbort x
        end
      else PErr
  | [] => PErr
  end.
Proof.
  unfold lex_quoted, p_then_ignore, p_ignore_then, p_map, p_then. fold quoted_char.
  rewrite just_chr_eq. unfold backquote.
  destruct l as [|c l]; auto. destruct (96 =? c); auto.
  destruct (p_repeated quoted_char _) as [e v [[|c' l'] o']| |]; auto; rewrite just_chr_eq; auto.
  destruct (96 =? c'); auto. rewrite app_nil_r. auto.
Qed.

Lemma lex_quoted_sound l o e t s' :
  lex_quoted (mkStream l o) = POk e t s' ->
  exists b v bad, l = (backquote :: b ++ [backquote]) ++ s_rest s' /\
                  s_off s' = (o + length (backquote :: b ++ [backquote]))%nat /\
                  t = KIdent v /\ e = bad_errs bad /\ quoted_lenient (S o) b v bad.
Proof.
  rewrite lex_quoted_unfold. destruct l as [|c l]; try discriminate.
  destruct (backquote =? c) eqn:Ec; try discriminate. apply N.eqb_eq in Ec. subst c.
  destruct (p_repeated quoted_char _) as [e0 v0 [l0 o0]| |] eqn:E; try discriminate.
  apply (quoted_rep_sound (length l)) in E as (u & bad & Hl & Ho & -> & Q); auto.
  cbn [s_rest s_off] in *. destruct l0 as [|c l0]; try discriminate.
  destruct (backquote =? c) eqn:Ec; try discriminate. apply N.eqb_eq in Ec. subst c.
  intros [= <- <- <-]. exists u, v0, bad. cbn [s_rest s_off length].
  rewrite app_length. simpl. rewrite <- app_assoc. simpl. repeat split; auto; try congruence; lia.
Qed.

Lemma lex_quoted_complete o b v bad r :
  quoted_lenient (S o) b v bad ->
  lex_quoted (mkStream ((backquote :: b ++ [backquote]) ++ r) o) =
  POk (bad_errs bad) (KIdent v) (mkStream r (o + length (backquote :: b ++ [backquote]))%nat).
Proof.
  intros Q. rewrite lex_quoted_unfold. cbn [app]. rewrite N.eqb_refl.
  rewrite <- app_assoc. cbn [app]. rewrite (quoted_rep_complete _ _ _ _ _ Q), N.eqb_refl.
  cbn [length]. rewrite app_length. cbn [length]. repeat f_equal. lia.
Qed.

Lemma quoted_lenient_nil o b v : quoted_lenient o b v [] <-> quoted b v.
Proof.
  split.
  - remember [] as bad eqn:E. induction 1; try discriminate; constructor; auto.
  - intros Q. revert o. induction Q; intros o; constructor; auto.
Qed.

(** *** Words and keywords *)

Definition kw_token (w : str) : option token :=
  if str_eqb w (lit "erd") then Some KErd else
  if str_eqb w (lit "int") then Some KInt else
  if str_eqb w (lit "uuid") then Some KUuid else
  if str_eqb w (lit "text") then Some KText else
  if str_eqb w (lit "timestamp") then Some KTimestamp else
  if str_eqb w (lit "PK") then Some KPK else
  if str_eqb w (lit "FK") then Some KFK else None.

Lemma kw_token_spec w t : kw_token w = Some t <-> keyword w t.
Proof.
  split.
  - unfold kw_token.
    repeat match goal with
    | |- context [str_eqb w ?k] =>
        let E := fresh in
        destruct (str_eqb w k) eqn:E;
        [apply str_eqb_spec in E; subst w; intros [= <-]; constructor|]
    end. discriminate.
  - destruct 1; reflexivity.
Qed.

Lemma lex_keyword_eq s :
  lex_keyword s =
  match text_ident s with
  | POk e w s' => match kw_token w with Some t => POk e t s' | None => PErr end
  | PErr => PErr
  | PAbort x => PAbort x
  end.
Proof.
  unfold lex_keyword, p_to, p_map, p_choice, text_keyword, p_try_map, kw_token.
  destruct (text_ident s) as [e w s'| |]; auto.
  repeat match goal with |- context [str_eqb w ?k] => destruct (str_eqb w k); auto end.
Qed.

Definition word_token (w : str) : token :=
  match kw_token w with Some t => t | None => KIdent w end.

Lemma word_token_lexeme w : word w -> lexeme w (word_token w).
Proof.
  intros Hw. unfold word_token. destruct (kw_token w) eqn:E.
  - apply kw_token_spec in E. now apply lx_kw.
  - apply lx_word; auto. intros [t Ht]. apply kw_token_spec in Ht. congruence.
Qed.

(** The alternatives that are left when the text starts neither with [o--o]
    nor with a word. *)
Definition lex_other (s : stream char) : presult char token :=
  match lex_quoted s with
  | PErr => match lex_ctrl s with PErr => lex_newline s | r => r end
  | r => r
  end.

Lemma lex_edge_eq l o :
  lex_edge (mkStream l o) =
  match p_just N.eqb (lit "o--o") (mkStream l o) with
  | POk e _ s' => POk e KEdge s' | PErr => PErr | PAbort x => PAbort x
  end.
Proof. reflexivity. Qed.

Lemma lex_ctrl_eq l o :
  lex_ctrl (mkStream l o) =
  match l with c :: l' => if is_ctrl c then POk [] (KCtrl c) (mkStream l' (S o)) else PErr | [] => PErr end.
Proof. unfold lex_ctrl, p_map. rewrite filter_eq. destruct l as [|c l]; auto. destruct (is_ctrl c); auto. Qed.

Lemma lex_newline_eq l o :
  lex_newline (mkStream l o) =
  match l with
  | c :: l' => if 10 =? c then POk [] KNewline (mkStream l' (S o))
               else if 13 =? c then
                 match l' with
                 | c' :: l'' => if 10 =? c' then POk [] KNewline (mkStream l'' (S (S o))) else PErr
                 | [] => PErr
                 end
               else PErr
  | [] => PErr
  end.
Proof.
  unfold lex_newline, p_choice, p_to, p_map. cbn [p_just s_rest s_off].
  destruct l as [|c l]; auto. destruct (10 =? c); auto. destruct (13 =? c); auto.
  destruct l as [|c' l]; auto. destruct (10 =? c'); auto.
Qed.

Lemma lex_token_strict_eq l o :
  lex_token_strict (mkStream l o) =
  match p_just N.eqb (lit "o--o") (mkStream l o) with
  | POk _ _ s' => POk [] KEdge s'
  | _ =>
      match text_ident (mkStream l o) with
      | POk _ w s' => POk [] (word_token w) s'
      | _ => lex_other (mkStream l o)
      end
  end.
Proof.
  unfold lex_token_strict.
  destruct (p_just N.eqb (lit "o--o") (mkStream l o)) as [e a s'| |x] eqn:E.
  - pose proof (just_inv _ _ _ _ _ _ E) as (-> & _).
    do 5 (apply or_ok). rewrite lex_edge_eq, E. auto.
  - assert (lex_edge (mkStream l o) = PErr) as E1 by (rewrite lex_edge_eq, E; auto).
    assert (p_or lex_edge lex_keyword (mkStream l o) = lex_keyword (mkStream l o)) as E2
      by (apply or_err; auto).
    rewrite lex_keyword_eq in E2.
    destruct (text_ident (mkStream l o)) as [e w s'| |x] eqn:Ei.
    + assert (e = []) as ->.
      { rewrite text_ident_eq in Ei. destruct l as [|c l]; try discriminate.
        destruct (is_ident_start c); congruence. }
      do 3 apply or_ok. unfold word_token. destruct (kw_token w) eqn:Ew.
      * apply or_ok. auto.
      * rewrite or_err by auto. unfold lex_ident, p_map. rewrite Ei. auto.
    + unfold lex_other.
      assert (p_or (p_or lex_edge lex_keyword) lex_ident (mkStream l o) = PErr) as E3.
      { rewrite or_err by auto. unfold lex_ident, p_map. rewrite Ei. auto. }
      assert (p_or (p_or (p_or lex_edge lex_keyword) lex_ident) lex_quoted (mkStream l o)
              = lex_quoted (mkStream l o)) as E4 by (apply or_err; auto).
      destruct (lex_quoted (mkStream l o)) as [e t s'| |x] eqn:Eq.
      * assert (lex_ctrl (mkStream l o) = PErr /\ lex_newline (mkStream l o) = PErr) as [E5 E6].
        { rewrite lex_ctrl_eq, lex_newline_eq. rewrite lex_quoted_unfold in Eq.
          destruct l as [|c l]; try discriminate. destruct (backquote =? c) eqn:Ec; try discriminate.
          apply N.eqb_eq in Ec. subst c. split; reflexivity. }
        rewrite or_err_r by auto. rewrite or_err_r by auto. auto.
      * assert (p_or (p_or (p_or (p_or lex_edge lex_keyword) lex_ident) lex_quoted) lex_ctrl (mkStream l o)
                = lex_ctrl (mkStream l o)) as E5 by (apply or_err; auto).
        destruct (lex_ctrl (mkStream l o)) as [e t s'| |x] eqn:Ec.
        -- assert (e = []) as ->.
           { rewrite lex_ctrl_eq in Ec. destruct l; try discriminate. destruct (is_ctrl _); congruence. }
           apply or_ok; auto.
        -- apply or_err; auto.
        -- pose proof (adv_lex_ctrl (mkStream l o)) as A. rewrite Ec in A. contradiction.
      * pose proof (adv_lex_quoted (mkStream l o)) as A. rewrite Eq in A. contradiction.
    + pose proof (adv_text_ident (mkStream l o)) as A. rewrite Ei in A. contradiction.
  - pose proof (mov_just N.eqb (lit "o--o") (mkStream l o)) as A. rewrite E in A. contradiction.
Qed.

(** *** One token *)

Lemma word_head w : word w -> exists c w', w = c :: w' /\ is_ident_start c = true.
Proof. destruct 1 as [c w Hc Hw]. exists c, w. split; auto. now apply ident_start_spec. Qed.

Lemma keyword_word w t : keyword w t -> word w.
Proof.
  destruct 1; simpl; constructor;
    try (apply ident_start_spec; reflexivity);
    apply Forall_word; repeat constructor.
Qed.

Lemma ident_start_continue c : is_ident_start c = true -> is_ident_continue c = true.
Proof. rewrite ident_start_spec, ident_continue_spec. unfold word_start, word_char. tauto. Qed.

(** The heads of the lexemes that are not words. *)
Lemma not_word_edge : ~ word (lit "o--o").
Proof.
  intros H. inversion H as [c w Hc Hw E]. inversion Hw as [|x l Hx Hl E']; subst.
  apply ident_continue_spec in Hx. discriminate.
Qed.
Lemma not_word_cons c l : is_ident_start c = false -> ~ word (c :: l).
Proof. intros E H. inversion H as [c' w Hc Hw]; subst. apply ident_start_spec in Hc. congruence. Qed.
Lemma not_word_delimited u r : ~ word u -> delimited u r.
Proof. intros H W. contradiction. Qed.

Lemma ctrl_not_start c : is_ctrl c = true -> is_ident_start c = false.
Proof. intros H. apply ctrl_spec in H. simpl in H. destruct H as [<-|[<-|[<-|[<-|[]]]]]; reflexivity. Qed.

Lemma just_none l o :
  p_just N.eqb (lit "o--o") (mkStream l o) = PErr -> forall r, l <> lit "o--o" ++ r.
Proof. intros H r ->. rewrite just_app in H. discriminate. Qed.

Lemma strict_sound l o e t s' :
  lex_token_strict (mkStream l o) = POk e t s' ->
  exists u bad, l = u ++ s_rest s' /\ s_off s' = (o + length u)%nat /\ e = bad_errs bad /\
                tolerated o l u t (s_rest s') bad.
Proof.
  rewrite lex_token_strict_eq.
  destruct (p_just N.eqb (lit "o--o") (mkStream l o)) as [e0 a s0| |x] eqn:E.
  - intros [= <- <- <-]. apply just_inv in E as (-> & El & Es).
    exists (lit "o--o"), []. rewrite Es. cbn [s_rest s_off]. repeat split; auto. constructor.
    repeat split; auto; try constructor; exfalso; revert H; apply not_word_edge.
  - rewrite text_ident_eq. destruct l as [|c l].
    { unfold lex_other. rewrite lex_quoted_unfold, lex_ctrl_eq, lex_newline_eq. discriminate. }
    destruct (is_ident_start c) eqn:Ec.
    + intros [= <- <- <-]. cbn [s_rest s_off].
      exists (c :: take_while is_ident_continue l), [].
      cbn [app]. rewrite take_drop. repeat split; auto; try (simpl; lia).
      assert (word (c :: take_while is_ident_continue l)) as W.
      { constructor; [now apply ident_start_spec|]. apply Forall_word, take_while_all. }
      constructor. split; [cbn [app]; now rewrite take_drop|]. split; [now apply word_token_lexeme|].
      intros _. split; [apply not_starts_word, drop_while_not|].
      cbn [app]. rewrite take_drop. now apply just_none with (o := o).
    + unfold lex_other.
      destruct (lex_quoted _) as [e0 t0 s0| |x] eqn:Eq.
      * intros [= <- <- <-]. apply lex_quoted_sound in Eq as (b & v & bad & El & Eo & -> & -> & Q).
        exists (backquote :: b ++ [backquote]), bad. repeat split; auto.
        destruct bad as [|x bad].
        -- constructor. split; auto. apply quoted_lenient_nil in Q. split; [now constructor|].
           apply not_word_delimited, not_word_cons. reflexivity.
        -- eapply tol_quote; eauto. discriminate.
      * rewrite lex_ctrl_eq. destruct (is_ctrl c) eqn:Ect.
        -- intros [= <- <- <-]. exists [c], []. cbn. repeat split; auto; try lia. constructor.
           split; auto. split; [now apply lx_punct, ctrl_spec|]. now apply not_word_delimited, not_word_cons.
        -- rewrite lex_newline_eq. destruct (10 =? c) eqn:E10.
           { apply N.eqb_eq in E10. subst c. intros [= <- <- <-]. exists [10], []. cbn.
             repeat split; auto; try lia. constructor. split; auto. split; [apply lx_lf|].
             apply not_word_delimited, not_word_cons. reflexivity. }
           destruct (13 =? c) eqn:E13; try discriminate. apply N.eqb_eq in E13. subst c.
           destruct l as [|c' l]; try discriminate. destruct (10 =? c') eqn:E10'; try discriminate.
           apply N.eqb_eq in E10'. subst c'. intros [= <- <- <-]. exists [13; 10], []. cbn.
           repeat split; auto; try lia. constructor. split; auto. split; [apply lx_crlf|].
           apply not_word_delimited, not_word_cons. reflexivity.
      * discriminate.
  - pose proof (mov_just N.eqb (lit "o--o") (mkStream l o)) as A. rewrite E in A. contradiction.
Qed.

Lemma edge_head l o c l' : l = c :: l' -> is_ident_start c = false ->
  lex_token_strict (mkStream l o) = lex_other (mkStream l o).
Proof.
  intros -> Hc. rewrite lex_token_strict_eq, text_ident_eq, Hc.
  rewrite just_fails; auto. intros r [= -> _]. discriminate.
Qed.

Lemma strict_complete o s u t r bad :
  tolerated o s u t r bad ->
  lex_token_strict (mkStream s o) = POk (bad_errs bad) t (mkStream r (o + length u)%nat).
Proof.
  destruct 1 as [(-> & L & D)|b v bad -> -> -> Q _].
  - cbn [bad_errs map].
    assert (word u -> lex_token_strict (mkStream (u ++ r) o)
                      = POk [] (word_token u) (mkStream r (o + length u)%nat)) as W.
    { intros Hw. destruct (D Hw) as [D1 D2]. rewrite lex_token_strict_eq.
      rewrite just_fails by auto. rewrite text_ident_eq.
      inversion Hw as [c w Hc Hf]; subst. cbn [app]. apply ident_start_spec in Hc. rewrite Hc.
      apply Forall_word in Hf. apply not_starts_word in D1.
      destruct (take_while_app _ _ _ Hf D1) as [-> ->]. cbn [length]. do 2 f_equal. lia. }
    destruct L as [|w t K|w Hw Hr|b v Q|c Hc| |].
    + rewrite lex_token_strict_eq, just_app. auto.
    + rewrite W by (eapply keyword_word; eauto). unfold word_token.
      apply kw_token_spec in K. rewrite K. auto.
    + rewrite W by auto. unfold word_token. destruct (kw_token w) eqn:E; auto.
      apply kw_token_spec in E. exfalso. apply Hr. eexists; eauto.
    + erewrite edge_head; [|cbn [app]; reflexivity|reflexivity]. unfold lex_other.
      rewrite (lex_quoted_complete o b v []) by (now apply quoted_lenient_nil). auto.
    + pose proof Hc as Hc'. apply ctrl_spec in Hc'.
      erewrite edge_head; [|cbn [app]; reflexivity|now apply ctrl_not_start]. unfold lex_other.
      rewrite lex_quoted_unfold. cbn [app].
      assert (backquote =? c = false) as ->.
      { simpl in Hc. destruct Hc as [<-|[<-|[<-|[<-|[]]]]]; reflexivity. }
      rewrite lex_ctrl_eq, Hc'. cbn [length]. do 2 f_equal. lia.
    + erewrite edge_head; [|cbn [app]; reflexivity|reflexivity]. unfold lex_other.
      rewrite lex_quoted_unfold, lex_ctrl_eq, lex_newline_eq. cbn. do 2 f_equal. lia.
    + erewrite edge_head; [|cbn [app]; reflexivity|reflexivity]. unfold lex_other.
      rewrite lex_quoted_unfold, lex_ctrl_eq, lex_newline_eq. cbn. do 2 f_equal. lia.
  - erewrite edge_head; [|cbn [app]; reflexivity|reflexivity]. unfold lex_other.
    rewrite (lex_quoted_complete o b v bad) by auto. auto.
Qed.

Lemma strict_fails l o :
  lex_token_strict (mkStream l o) = PErr <-> (forall u t r bad o', ~ tolerated o' l u t r bad).
Proof.
  split.
  - intros H u t r bad o' T.
    assert (exists bad', tolerated o l u t r bad') as [bad' T'].
    { destruct T as [T|b v bad El Eu Et Q N]; [exists []; constructor; auto|].
      assert (forall o1 b v bad, quoted_lenient o1 b v bad ->
                forall o2, exists bad', quoted_lenient o2 b v bad' /\ length bad' = length bad) as K.
      { induction 1 as [| o1 c b0 v0 bad0 N1 N2 _ IH | o1 e c b0 v0 bad0 He _ IH
                       | o1 c1 c2 c3 c4 d1 d2 d3 d4 b0 v0 bad0 H1 H2 H3 H4 Hs _ IH]; intros o2.
        - exists []. split; auto. constructor.
        - destruct (IH (S o2)) as (bd & ? & ?). exists bd. split; auto. constructor; auto.
        - destruct (IH (o2 + length e)%nat) as (bd & ? & ?). exists bd. split; auto. constructor; auto.
        - destruct (IH (o2 + 6)%nat) as (bd & ? & ?). exists ((o2 + 2)%nat :: bd). split; [|simpl; auto].
          eapply ql_surrogate; eauto. }
      destruct (K _ _ _ _ Q (S o)) as (bad' & Q' & Hl). exists bad'.
      eapply tol_quote; eauto. intros ->. destruct bad; simpl in *; congruence. }
    apply strict_complete in T'. congruence.
  - intros H. pose proof (adv_lex_token_strict (mkStream l o)) as A.
    destruct (lex_token_strict _) as [e t s'| |] eqn:E; auto; try contradiction.
    apply strict_sound in E as (u & bad & _ & _ & _ & T). exfalso. eapply H; eauto.
Qed.

(** Every word character that can start a word starts some token. *)
Lemma word_start_token c l : word_start c -> exists u t r, starts_with (c :: l) u t r.
Proof.
  intros Hc. apply ident_start_spec in Hc.
  pose proof (lex_token_strict_eq (c :: l) 0) as E. rewrite text_ident_eq, Hc in E.
  assert (exists t s', lex_token_strict (mkStream (c :: l) 0) = POk [] t s') as (t & s' & Es).
  { destruct (p_just _ _ _); eauto. }
  apply strict_sound in Es as (u & bad & El & _ & Eb & T).
  destruct T as [T|]; eauto. destruct bad; [congruence|discriminate].
Qed.

(** A text that contains a quoted name with bad escapes is not tokenless. *)
Lemma quoted_bad_token o b v bad r : quoted_lenient o b v bad -> bad <> [] ->
  exists p q u t r', b ++ r = p ++ q /\ starts_with q u t r'.
Proof.
  induction 1 as [| o1 c b0 v0 bad0 N1 N2 _ IH | o1 e c b0 v0 bad0 He _ IH
                  | o1 c1 c2 c3 c4 d1 d2 d3 d4 b0 v0 bad0 H1 H2 H3 H4 Hs _ IH]; intros Nb.
  - congruence.
  - destruct (IH Nb) as (p & q & u & t & r' & E & S). exists (c :: p), q, u, t, r'.
    simpl. rewrite E. auto.
  - destruct (IH Nb) as (p & q & u & t & r' & E & S). exists (e ++ p), q, u, t, r'.
    rewrite <- !app_assoc, E. auto.
  - destruct (word_start_token 117 (c1 :: c2 :: c3 :: c4 :: b0 ++ r)) as (u & t & r' & S).
    { left. right. lia. }
    exists [backslash], (117 :: c1 :: c2 :: c3 :: c4 :: b0 ++ r), u, t, r'. auto.
Qed.

Lemma tokenless_tolerated s : tokenless s <->
  (forall v w u t r bad o, s = v ++ w -> ~ tolerated o w u t r bad).
Proof.
  split; intros H v w u t r.
  - intros bad o E T. destruct T as [T|b n bad Ew Eu Et Q N].
    + eapply H; eauto.
    + subst w u. destruct (quoted_bad_token _ _ _ _ (backquote :: r) Q N)
        as (p & q & u & t' & r' & E' & S).
      eapply (H (v ++ backquote :: p) q); eauto.
      rewrite E, <- !app_assoc. cbn [app]. rewrite <- app_assoc. cbn [app]. rewrite E'. auto.
  - intros E S. eapply (H v w u t r [] 0%nat E). now constructor.
Qed.

(** *** Recovery *)

Lemma lex_token_none l o : lex_token (mkStream l o) = PErr <-> tokenless l.
Proof.
  rewrite tokenless_tolerated.
  assert (forall st l o, p_skip_retry lex_token_strict st l o = PErr <->
           (forall v w, l = v ++ w -> forall u t r bad o', ~ tolerated o' w u t r bad)) as K.
  { intros st. induction l0 as [|c l0 IH]; intros o0; cbn [p_skip_retry];
      destruct (lex_token_strict _) as [e t s'| |] eqn:E.
    - split; [discriminate|]. intros H. apply strict_sound in E as (u & bad & _ & _ & _ & T).
      exfalso. eapply (H [] []); eauto.
    - split; auto. intros _ v w Ev. destruct v, w; try discriminate. now apply strict_fails with (o := o0).
    - pose proof (adv_lex_token_strict (mkStream [] o0)) as A. rewrite E in A. contradiction.
    - split; [discriminate|]. intros H. apply strict_sound in E as (u & bad & _ & _ & _ & T).
      exfalso. eapply (H [] (c :: l0)); eauto.
    - rewrite IH. split; intros H v w Ev.
      + destruct v as [|x v].
        * simpl in Ev. subst w. now apply strict_fails with (o := o0).
        * injection Ev as -> ->. eapply H; reflexivity.
      + apply (H (c :: v) w). simpl. congruence.
    - pose proof (adv_lex_token_strict (mkStream (c :: l0) o0)) as A. rewrite E in A. contradiction. }
  unfold lex_token, p_recover_skip. cbn [s_rest s_off].
  destruct (lex_token_strict (mkStream l o)) as [e t s'| |] eqn:E.
  - split; [discriminate|]. intros H. apply strict_sound in E as (u & bad & _ & _ & _ & T).
    exfalso. eapply (H [] l); eauto.
  - rewrite K. split; intros H v w; intros; eapply H; eauto.
  - pose proof (adv_lex_token_strict (mkStream l o)) as A. rewrite E in A. contradiction.
Qed.

Definition skip_errs (junk : str) (start : nat) : list perror :=
  match junk with [] => [] | _ => [ESkipped start] end.

Lemma lex_token_sound l o e t s' :
  lex_token (mkStream l o) = POk e t s' ->
  exists junk w u bad,
    l = junk ++ w /\
    (forall j1 j2 u t r bad o', junk = j1 ++ j2 -> j2 <> [] -> ~ tolerated o' (j2 ++ w) u t r bad) /\
    tolerated (o + length junk) w u t (s_rest s') bad /\
    s_off s' = (o + length junk + length u)%nat /\
    e = bad_errs bad ++ skip_errs junk o.
Proof.
  assert (forall st l o e t s', p_skip_retry lex_token_strict st l o = POk e t s' ->
    exists junk w u bad,
    l = junk ++ w /\
    (forall j1 j2 u t r bad o', junk = j1 ++ j2 -> j2 <> [] -> ~ tolerated o' (j2 ++ w) u t r bad) /\
    tolerated (o + length junk) w u t (s_rest s') bad /\
    s_off s' = (o + length junk + length u)%nat /\
    e = bad_errs bad ++ [ESkipped st]) as K.
  { intros st. clear. induction l as [|c l IH]; intros o e t s'; cbn [p_skip_retry];
      destruct (lex_token_strict _) as [e0 t0 s0| |] eqn:E; try discriminate.
    - intros [= <- <- <-]. apply strict_sound in E as (u & bad & El & Eo & -> & T).
      exists [], (c :: l), u, bad. rewrite Nat.add_0_r. repeat split; auto.
      intros j1 j2 ? ? ? ? ? Ej. destruct j1; [destruct j2|]; simpl in Ej; congruence.
    - intros H. apply IH in H as (junk & w & u & bad & -> & Hj & T & Ho & ->).
      exists (c :: junk), w, u, bad.
      replace (o + length (c :: junk))%nat with (S o + length junk)%nat by (simpl; lia).
      repeat split; auto.
      intros j1 j2 u' t' r' bad' o' Ej Nj. destruct j1 as [|x j1].
      + simpl in Ej. subst j2. apply strict_fails with (o := o). auto.
      + injection Ej as -> ->. eapply Hj; eauto. }
  unfold lex_token, p_recover_skip. cbn [s_rest s_off].
  destruct (lex_token_strict (mkStream l o)) as [e0 t0 s0| |] eqn:E; try discriminate.
  - intros [= <- <- <-]. apply strict_sound in E as (u & bad & El & Eo & -> & T).
    exists [], l, u, bad. cbn [skip_errs length]. rewrite Nat.add_0_r, app_nil_r. repeat split; auto.
    intros j1 j2 ? ? ? ? ? Ej. destruct j1; [destruct j2|]; simpl in Ej; congruence.
  - intros H. apply K in H as (junk & w & u & bad & El & Hj & T & Ho & He).
    exists junk, w, u, bad. repeat split; auto. destruct junk; auto.
    simpl in El. subst w. exfalso. revert T. apply strict_fails with (o := o). auto.
Qed.

Lemma lex_token_complete o s u t r :
  starts_with s u t r -> lex_token (mkStream s o) = POk [] t (mkStream r (o + length u)%nat).
Proof.
  intros S. unfold lex_token, p_recover_skip.
  rewrite (strict_complete o s u t r []) by (now constructor). auto.
Qed.

(** *** Blanks and comments *)

Definition not_newline (c : char) : bool := negb (c =? 10).

(** What remains after the blanks and the comment at the beginning of [l]. *)
Definition comment_tail (l : str) : option str :=
  match l with
  | a :: b :: l' => if (47 =? a) && (47 =? b) then Some (drop_while not_newline l') else None
  | _ => None
  end.
Definition cgap (l : str) : str :=
  match comment_tail (drop_while is_space l) with Some r => r | None => l end.
Definition gap (l : str) : str :=
  match comment_tail (drop_while is_space l) with Some r => r | None => drop_while is_space l end.
Definition goff (o : nat) (l : str) : nat := (o + (length l - length (gap l)))%nat.

Lemma drop_while_length {A} (f : A -> bool) l : (length (drop_while f l) <= length l)%nat.
Proof. induction l as [|x l IH]; simpl; auto. destruct (f x); simpl; lia. Qed.
Lemma take_drop_length {A} (f : A -> bool) l :
  (length (take_while f l) + length (drop_while f l) = length l)%nat.
Proof. rewrite <- app_length, take_drop. auto. Qed.
Lemma drop_while_stop {A} (f : A -> bool) l : not_starts f l -> drop_while f l = l.
Proof. destruct l as [|x l]; simpl; auto. intros ->. auto. Qed.
Lemma take_while_stop {A} (f : A -> bool) l : not_starts f l -> take_while f l = [].
Proof. destruct l as [|x l]; simpl; auto. intros ->. auto. Qed.

Lemma spaces_eq l o :
  lex_spaces (mkStream l o) =
  POk [] (take_while is_space l)
      (mkStream (drop_while is_space l) (o + (length l - length (drop_while is_space l)))).
Proof.
  unfold lex_spaces. rewrite repeated_filter. do 3 f_equal.
  pose proof (take_drop_length is_space l). lia.
Qed.

(** After a comment comes the end of a line or of the text. *)
Definition at_eol (r : str) : Prop := r = [] \/ exists r', r = newline_char :: r'.

Lemma drop_not_newline l : at_eol (drop_while not_newline l).
Proof.
  pose proof (drop_while_not not_newline l) as H. destruct (drop_while not_newline l) as [|c r].
  - left; auto.
  - right. simpl in H. unfold not_newline in H. apply negb_false_iff, N.eqb_eq in H. subst c.
    exists r. auto.
Qed.
Lemma comment_tail_eol l r : comment_tail l = Some r -> at_eol r.
Proof.
  unfold comment_tail. destruct l as [|a [|b l]]; try discriminate.
  destruct (_ && _)%bool; try discriminate. intros [= <-]. apply drop_not_newline.
Qed.
Lemma at_eol_gap r : at_eol r -> drop_while is_space r = r /\ comment_tail r = None.
Proof.
  intros [->|[r' ->]]; simpl; auto. split; auto. destruct r'; auto.
Qed.
Lemma comment_tail_length l r : comment_tail l = Some r -> (length r + 2 <= length l)%nat.
Proof.
  unfold comment_tail. destruct l as [|a [|b l]]; try discriminate.
  destruct (_ && _)%bool; try discriminate. intros [= <-].
  pose proof (drop_while_length not_newline l). simpl. lia.
Qed.
Lemma gap_length l : (length (gap l) <= length l)%nat.
Proof.
  unfold gap. pose proof (drop_while_length is_space l).
  destruct (comment_tail _) eqn:E; auto. apply comment_tail_length in E. lia.
Qed.
Lemma cgap_length l : (length (cgap l) <= length l)%nat.
Proof.
  unfold cgap. pose proof (drop_while_length is_space l).
  destruct (comment_tail _) eqn:E; auto. apply comment_tail_length in E. lia.
Qed.

Lemma comment_eq l o :
  match comment_tail (drop_while is_space l) with
  | Some r => exists v, lex_comment (mkStream l o) =
                        POk [] v (mkStream r (o + (length l - length r))%nat)
  | None => lex_comment (mkStream l o) = PErr
  end.
Proof.
  unfold lex_comment, p_padded_by, p_then_ignore, p_ignore_then, p_map, p_then.
  rewrite spaces_eq. set (l1 := drop_while is_space l).
  pose proof (drop_while_length is_space l) as Hl. fold l1 in Hl.
  change (just_str "//") with (p_just N.eqb [47; 47]). unfold comment_tail. cbn [p_just s_rest s_off].
  destruct l1 as [|a l1]; auto. destruct (47 =? a); [|destruct l1; cbn [andb]; auto].
  destruct l1 as [|b l1]; auto. destruct (47 =? b); cbn [andb]; auto.
  change (p_filter (fun c : N => negb (c =? 10))) with (p_filter not_newline).
  rewrite repeated_filter. cbn [app].
  pose proof (drop_not_newline l1) as De. apply at_eol_gap in De as [De _].
  rewrite spaces_eq. pose proof (take_drop_length not_newline l1).
  cbv delta [char str] in *. rewrite De. eexists. cbn [snd app fst]. do 2 f_equal.
  simpl in *. lia.
Qed.

Lemma comments_eq l o :
  exists v, p_repeated lex_comment (mkStream l o) =
            POk [] v (mkStream (cgap l) (o + (length l - length (cgap l)))%nat).
Proof.
  rewrite repeated_eq by apply adv_lex_comment. unfold cgap.
  pose proof (comment_eq l o) as C. destruct (comment_tail (drop_while is_space l)) as [r|] eqn:E.
  - destruct C as [v ->]. rewrite repeated_eq by apply adv_lex_comment.
    pose proof (at_eol_gap r (comment_tail_eol _ _ E)) as [D N].
    pose proof (comment_eq r (o + (length l - length r))) as C'. rewrite D, N in C'. rewrite C'.
    eexists. reflexivity.
  - rewrite C. exists []. do 2 f_equal. lia.
Qed.

Lemma drop_while_idem {A} (f : A -> bool) l : drop_while f (drop_while f l) = drop_while f l.
Proof. apply drop_while_stop, drop_while_not. Qed.

Lemma cgap_drop l : cgap (drop_while is_space l) = gap l.
Proof. unfold cgap, gap. rewrite drop_while_idem. auto. Qed.
Lemma drop_cgap l : drop_while is_space (cgap l) = gap l.
Proof.
  unfold cgap, gap. destruct (comment_tail _) eqn:E; auto.
  apply comment_tail_eol, at_eol_gap in E. tauto.
Qed.
Lemma gap_idem l : gap (gap l) = gap l.
Proof.
  unfold gap at 2 3. destruct (comment_tail (drop_while is_space l)) as [r|] eqn:E.
  - apply comment_tail_eol, at_eol_gap in E as [D N]. unfold gap. rewrite D, N. auto.
  - unfold gap. rewrite drop_while_idem, E. auto.
Qed.

Lemma lex_item_eq l o :
  lex_item (mkStream l o) =
  match lex_token (mkStream (gap l) (goff o l)) with
  | POk e t s' => POk e (t, (goff o l, s_off s'))
                      (mkStream (gap (s_rest s')) (goff (s_off s') (s_rest s')))
  | PErr => PErr
  | PAbort x => PAbort x
  end.
Proof.
  unfold lex_item, p_padded_by, p_then_ignore, p_ignore_then, p_map, p_then, p_map_with_span.
  rewrite spaces_eq.
  destruct (comments_eq (drop_while is_space l) (o + (length l - length (drop_while is_space l))))
    as [v1 ->].
  rewrite cgap_drop.
  replace (o + _ + _)%nat with (goff o l).
  2:{ unfold goff. pose proof (drop_while_length is_space l). pose proof (cgap_length (drop_while is_space l)).
      rewrite cgap_drop in *. lia. }
  destruct (lex_token _) as [e t [l2 o2]| |]; auto.
  destruct (comments_eq l2 o2) as [v2 ->]. rewrite spaces_eq, drop_cgap. cbn [s_rest s_off fst snd].
  rewrite !app_nil_r. cbn [app]. do 2 f_equal.
  unfold goff. pose proof (cgap_length l2). pose proof (drop_while_length is_space (cgap l2)).
  rewrite drop_cgap in *. lia.
Qed.

Lemma skips_length s r : skips s r -> (length r <= length s)%nat.
Proof. induction 1; simpl; try lia. rewrite app_length. lia. Qed.

Lemma comment_tail_some l : (exists l', l = lit "//" ++ l') <-> comment_tail l <> None.
Proof.
  split.
  - intros [l' ->]. cbn. discriminate.
  - unfold comment_tail. destruct l as [|a [|b l]]; try congruence.
    destruct ((47 =? a) && (47 =? b))%bool eqn:E; try congruence. intros _.
    apply andb_true_iff in E as [Ea Eb]. apply N.eqb_eq in Ea, Eb. subst. exists l. auto.
Qed.

Lemma unpadded_gap r : unpadded r <-> gap r = r.
Proof.
  unfold unpadded, gap. split.
  - intros [H1 H2].
    assert (not_starts is_space r) as N.
    { destruct r as [|c r]; simpl; auto. destruct (is_space c) eqn:E; auto.
      apply space_spec in E. exfalso. eapply H1; eauto. }
    rewrite (drop_while_stop _ _ N). destruct (comment_tail r) eqn:E; auto.
    destruct (proj2 (comment_tail_some r)) as [r' E']; [congruence|]. exfalso. eapply H2; eauto.
  - destruct (comment_tail (drop_while is_space r)) as [r'|] eqn:E.
    + intros ->. pose proof (drop_while_length is_space r). apply comment_tail_length in E. lia.
    + intros D. rewrite D in E. split.
      * intros c r' -> Hb. apply space_spec in Hb. simpl in D. rewrite Hb in D.
        pose proof (drop_while_length is_space r'). rewrite D in H. simpl in H. lia.
      * intros r' Er. assert (comment_tail r <> None) by (apply comment_tail_some; eauto). congruence.
Qed.

Lemma skips_gap_eq s r : skips s r -> gap s = gap r.
Proof.
  induction 1 as [s|c s r Hb _ IH|txt r Ht Hr].
  - auto.
  - rewrite <- IH. unfold gap. apply space_spec in Hb. simpl. rewrite Hb. auto.
  - assert (drop_while not_newline (txt ++ r) = r) as D.
    { clear - Ht Hr. induction txt as [|c txt IH]; simpl in *.
      - destruct Hr as [->|[r' ->]]; auto.
      - unfold not_newline at 1. destruct (c =? 10) eqn:E.
        + apply N.eqb_eq in E. exfalso. apply Ht. left. auto.
        + simpl. apply IH. tauto. }
    assert (gap (lit "//" ++ txt ++ r) = r) as ->.
    { unfold gap. cbn [lit app drop_while]. change (is_space (N_of_ascii "/")) with false. cbv iota.
      unfold comment_tail. change ((47 =? N_of_ascii "/") && (47 =? N_of_ascii "/"))%bool with true.
      cbv iota. auto. }
    apply at_eol_gap in Hr as [D' N]. unfold gap. rewrite D', N. auto.
Qed.

Lemma skips_gap l : skips l (gap l).
Proof.
  induction l as [|c l IH].
  - constructor.
  - destruct (is_space c) eqn:E.
    + assert (gap (c :: l) = gap l) as -> by (unfold gap; simpl; rewrite E; auto).
      constructor; auto. now apply space_spec.
    + unfold gap. simpl. rewrite E. destruct (comment_tail (c :: l)) as [r|] eqn:Et; [|constructor].
      destruct (proj2 (comment_tail_some (c :: l))) as [l' El]; [congruence|].
      rewrite El in *. cbn in Et. injection Et as <-.
      rewrite <- (take_drop not_newline l') at 1. apply skips_comment; [|apply drop_not_newline].
      intros H. pose proof (take_while_all not_newline l') as F. rewrite Forall_forall in F.
      apply F in H. discriminate.
Qed.

Lemma skips_unpadded s r : skips s r -> unpadded r -> r = gap s.
Proof. intros H U. apply unpadded_gap in U. rewrite (skips_gap_eq _ _ H). auto. Qed.

Lemma lexeme_head u t : lexeme u t -> exists c u', u = c :: u' /\ ~ blank c /\ c <> 47.
Proof.
  assert (forall w, word w -> exists c u', w = c :: u' /\ ~ blank c /\ c <> 47) as W.
  { destruct 1 as [c w Hc Hw]. exists c, w. split; auto. unfold word_start, letter, blank in *. lia. }
  assert (forall c (u : str), ~ blank c -> c <> 47 ->
            exists c0 u', c :: u = c0 :: u' /\ ~ blank c0 /\ c0 <> 47) as K by eauto.
  destruct 1 as [|w t Hk|w Hw Hr|b s Q|c Hc| |]; try (apply K; unfold blank; simpl; lia).
  - apply W. eapply keyword_word; eauto.
  - auto.
  - apply K; unfold blank, backquote; lia.
  - apply K; unfold blank; simpl in Hc; lia.
  - apply K; unfold blank, newline_char; lia.
  - apply K; unfold blank, return_char; lia.
Qed.

Lemma starts_unpadded s u t r : starts_with s u t r -> unpadded s.
Proof.
  intros (-> & L & _). apply lexeme_head in L as (c & u' & -> & Hb & Hs). split.
  - intros c' r' [= <- _]. auto.
  - intros r' [= E _]. auto.
Qed.

(** *** The tokenizer *)

Lemma tokenizer_gap l o e toks s' :
  tokenizer (mkStream (gap l) (goff o l)) = POk e toks s' ->
  exists s'', tokenizer (mkStream l o) = POk e toks s''.
Proof.
  unfold tokenizer. rewrite !(repeated_eq _ adv_lex_item).
  assert (lex_item (mkStream (gap l) (goff o l)) = lex_item (mkStream l o)) as ->.
  { rewrite !lex_item_eq. rewrite gap_idem.
    replace (goff (goff o l) (gap l)) with (goff o l); auto.
    unfold goff at 2. rewrite gap_idem. lia. }
  destruct (lex_item (mkStream l o)) as [e1 x s1| |]; try discriminate; eauto.
  intros [= <- <- <-]. eauto.
Qed.

Lemma tokenizer_ok s : exists e toks s', tokenizer s = POk e toks s'.
Proof.
  pose proof (mov_tokenizer s). pose proof (total_tokenizer s).
  destruct (tokenizer s); try contradiction; eauto.
Qed.

Lemma tokenizer_sound : forall n l o e toks s',
  (length l <= n)%nat -> tokenizer (mkStream l o) = POk e toks s' ->
  exists r, scans o l toks e r /\ barren r.
Proof.
  assert (forall l o, lex_item (mkStream l o) = PErr -> barren l) as B.
  { intros l o. rewrite lex_item_eq. destruct (lex_token _) eqn:E; try discriminate. intros _.
    apply lex_token_none in E. exists (gap l). split; [apply skips_gap|].
    split; auto. apply unpadded_gap, gap_idem. }
  induction n as [|n IH]; intros l o e toks s' Hn; unfold tokenizer;
    rewrite repeated_eq by apply adv_lex_item.
  - destruct l; [|simpl in Hn; lia]. destruct (lex_item _) as [| |] eqn:E.
    + pose proof (adv_lex_item (mkStream [] o)) as A. rewrite E in A.
      apply advanced_length in A. simpl in A. lia.
    + intros [= <- <- <-]. exists []. split; [constructor|]. eauto.
    + discriminate.
  - destruct (lex_item (mkStream l o)) as [e1 x s1| |] eqn:E; try discriminate.
    2:{ intros [= <- <- <-]. exists l. split; [constructor|]. eauto. }
    rewrite lex_item_eq in E.
    destruct (lex_token _) as [e2 t [r1 o1]| |] eqn:Et; try discriminate.
    cbn [s_rest s_off] in E. injection E as -> <- <-.
    pose proof (adv_lex_token (mkStream (gap l) (goff o l))) as A. rewrite Et in A.
    apply advanced_length in A as [A _]. cbn [s_rest] in A. pose proof (gap_length l).
    apply lex_token_sound in Et as (junk & w & u & bad & El & Hj & T & Ho & ->).
    cbn [s_rest s_off] in T, Ho.
    change (p_repeated lex_item) with tokenizer.
    destruct (tokenizer (mkStream (gap r1) (goff o1 r1))) as [e3 toks3 s3| |] eqn:E3; try discriminate.
    intros [= <- <- <-]. apply tokenizer_gap in E3 as [s4 E4].
    apply IH in E4 as (r & Sc & Br); [|lia]. exists r. split; auto.
    rewrite <- app_assoc. eapply scans_cons; eauto.
    + rewrite <- El. apply skips_gap.
    + rewrite <- El. reflexivity.
    + rewrite <- El. apply unpadded_gap, gap_idem.
Qed.

Lemma barren_stops l o : barren l -> lex_item (mkStream l o) = PErr.
Proof.
  intros (r & S & U & T). rewrite lex_item_eq, <- (skips_unpadded _ _ S U).
  apply lex_token_none with (o := goff o l) in T. rewrite T. auto.
Qed.

Lemma tokenizer_complete o l toks r :
  reads o l toks r -> barren r -> exists s', tokenizer (mkStream l o) = POk [] toks s'.
Proof.
  induction 1 as [o s|o s s1 u t r r' ts start stop Sk St -> -> _ IH]; intros Br;
    unfold tokenizer; rewrite repeated_eq by apply adv_lex_item.
  - rewrite barren_stops by auto. eauto.
  - destruct (IH Br) as [s' E]. clear IH.
    pose proof (skips_unpadded _ _ Sk (starts_unpadded _ _ _ _ St)) as Eg.
    rewrite lex_item_eq, <- Eg, (lex_token_complete _ _ _ _ _ St). cbn [s_rest s_off].
    change (p_repeated lex_item) with tokenizer.
    assert (goff o s = (o + (length s - length s1))%nat) as G by (unfold goff; rewrite <- Eg; auto).
    rewrite G in *. set (stop := (o + (length s - length s1) + length u)%nat) in *.
    destruct (tokenizer_ok (mkStream (gap r) (goff stop r))) as (e & toks' & s2 & E2).
    rewrite E2. apply tokenizer_gap in E2 as [s3 E3]. rewrite E3 in E. injection E as -> -> ->.
    eauto.
Qed.

Lemma scans_clean o l toks errs r : scans o l toks errs r -> errs = [] -> reads o l toks r.
Proof.
  induction 1 as [o s|o s junk w u t r r' bad ts errs start stop Sk -> U Hj T -> _ IH]; intros E.
  - constructor.
  - apply app_eq_nil in E as [E1 E]. apply app_eq_nil in E as [E2 E].
    destruct junk; [|discriminate]. destruct bad; [|discriminate].
    inversion T as [St|]; subst; [|congruence]. cbn [app length] in *.
    rewrite Nat.add_0_r in *. econstructor; eauto.
Qed.

(** The error-free runs of the tokenizer are exactly the readings of the text. *)
Theorem tokenizer_reads src toks :
  parse_recovery tokenizer src = Ret (Some toks, []) <->
  exists rest, reads 0 src toks rest /\ barren rest.
Proof.
  unfold parse_recovery. split.
  - destruct (tokenizer _) as [e v s'| |] eqn:E; try discriminate. intros [= -> ->].
    apply (tokenizer_sound (length src)) in E as (r & S & B); auto.
    exists r. split; auto. eapply scans_clean; eauto.
  - intros (r & R & B). destruct (tokenizer_complete _ _ _ _ R B) as [s' E]. rewrite E. auto.
Qed.

(** All runs of the tokenizer. *)
Theorem tokenizer_scans src :
  exists toks errs rest, parse_recovery tokenizer src = Ret (Some toks, errs) /\
                         scans 0 src toks errs rest /\ barren rest.
Proof.
  destruct (tokenizer_ok (mkStream src 0)) as (e & toks & s' & E).
  destruct (tokenizer_sound (length src) _ _ _ _ _ (le_n _) E) as (r & S & B).
  exists toks, e, r. unfold parse_recovery. rewrite E. auto.
Qed.
