(** The errors of the tokenizer. *)
From Coq Require Import String Ascii List Arith NArith Bool Lia.
From Verif Require Import Base Chumsky ChumskyFacts Erd Parser Diag SpecLex LexFacts
  DiagFacts SpecDiag.
Import ListNotations.

(** ** Errors of single characters and escapes *)

Lemma d_chr_eq k l o :
  djust_chr k (mkStream l o) =
  match l with
  | c :: l' => if N.eqb k c then DOk [] tt None (mkStream l' (S o)) else DErr (mkLoc o (Some c) [k])
  | [] => DErr (mkLoc o None [k])
  end.
Proof. destruct l as [|c l]; reflexivity. Qed.
Lemma d_as_eq k v l o :
  djust_as k v (mkStream l o) =
  match l with
  | c :: l' => if N.eqb k c then DOk [] v None (mkStream l' (S o)) else DErr (mkLoc o (Some c) [k])
  | [] => DErr (mkLoc o None [k])
  end.
Proof. unfold djust_as, d_to, d_map. rewrite d_chr_eq. destruct l as [|c l]; auto. destruct (N.eqb k c); auto. Qed.

Lemma exactly_filter f n : forall l o,
  (exists hs r, l = hs ++ r /\ length hs = n /\
     d_exactly n (d_filter f) (mkStream l o) = DOk [] hs None (mkStream r (o + n))) \/
  (exists hs r, l = hs ++ r /\ length hs < n /\ Forall (fun c => f c = true) hs /\
     (forall c r', r = c :: r' -> f c = false) /\
     d_exactly n (d_filter f) (mkStream l o) = DErr (mkLoc (o + length hs) (hd_error r) [] : located char)).
Proof.
  induction n as [|n IH]; intros l o.
  - left. exists [], l. cbn. rewrite Nat.add_0_r. auto.
  - cbn [d_exactly]. unfold d_map at 1 2, d_then, d_filter at 1 3, d_filter_map. cbn [s_rest s_off].
    destruct l as [|c l].
    + right. exists [], []. cbn. rewrite Nat.add_0_r. repeat split; auto; try lia; try discriminate.
    + destruct (f c) eqn:Ec.
      * destruct (IH l (S o)) as [(hs & r & -> & L & E)|(hs & r & -> & L & F & N & E)]; rewrite E.
        -- left. exists (c :: hs), r. cbn. repeat split; auto. do 2 f_equal. lia.
        -- right. exists (c :: hs), r. cbn. repeat split; auto; try lia.
           do 2 f_equal. lia.
      * right. exists [], (c :: l). cbn. rewrite Nat.add_0_r. repeat split; auto; try lia.
        now intros c' r' [= <- <-].
Qed.

(** An escape that fails, at a backslash. *)
Definition esc_err (o : nat) (x : str) (e : located char) : Prop :=
  (heads_not (fun c => In c escape_letters) x /\ l_at e = S o /\ l_found e = hd_error x /\
   forall c, In c (l_expected e) <-> In c escape_letters) \/
  (exists hs l, x = 117%N :: hs ++ l /\ length hs < 4 /\ Forall (fun c => exists v, hex_digit c v) hs /\
     heads_not (fun c => exists v, hex_digit c v) l /\
     l_at e = o + 2 + length hs /\ l_found e = hd_error l /\ l_expected e = []).

(** A result whose error satisfies [PE], and whose alternative error, in case of
    success, lies before the end. *)
Definition res_ok {A} (o : nat) (PE : located char -> Prop) (r : dresult char A) : Prop :=
  match r with
  | DOk _ _ alt s' => o < s_off s' /\ (forall e, alt = Some e -> l_at e < s_off s')
  | DErr e => PE e
  | DAbort _ => True
  end.
(** An error at [o] that names the items of [X], none of which comes first. *)
Definition names (o : nat) (x : str) (X : list char) (e : located char) : Prop :=
  l_at e = o /\ l_found e = hd_error x /\ (forall c, In c (l_expected e) <-> In c X) /\
  (forall c, hd_error x = Some c -> ~ In c X).

Lemma behind_merge o (alt : option (located char)) e1 n :
  (forall e, alt = Some e -> l_at e < n) -> l_at e1 = o -> o < n ->
  forall e, merge_alts alt (Some e1) = Some e -> l_at e < n.
Proof.
  intros H E L e. destruct alt as [a|]; cbn [merge_alts l_max_alt].
  - specialize (H a eq_refl). unfold l_max. destruct (l_at e1 <? l_at a); [|destruct (l_at a <? l_at e1)];
      intros [= <-]; cbn; lia.
  - intros [= <-]. lia.
Qed.
Lemma or_res {A} (p q : dparser char A) s o PE1 PE2 :
  res_ok o PE1 (p s) -> res_ok o PE2 (q s) -> (forall e, PE1 e -> l_at e = o) ->
  res_ok o (fun e => exists e1 e2, PE1 e1 /\ PE2 e2 /\ e = l_max e1 e2) (d_or p q s).
Proof.
  intros Hp Hq H1. unfold d_or. destruct (p s) as [e a alt s1|e1|x]; cbn [res_ok] in *; auto.
  - destruct e; [exact Hp|]. destruct (q s) as [e' b alt' s2|e2|x]; cbn [res_ok] in *; auto.
    destruct (_ <? _); cbn [res_ok]; auto.
  - destruct (q s) as [e' b alt' s2|e2|x]; cbn [res_ok] in *; auto.
    + destruct Hq as [L B]. split; auto. apply (behind_merge o); auto.
    + exists e1, e2. auto.
Qed.
Lemma or_names {A} (p q : dparser char A) s o x X Y :
  res_ok o (names o x X) (p s) -> res_ok o (names o x Y) (q s) ->
  res_ok o (names o x (X ++ Y)) (d_or p q s).
Proof.
  intros Hp Hq. pose proof (or_res p q s o _ _ Hp Hq (fun e H => proj1 H)) as K.
  destruct (d_or p q s); cbn [res_ok] in *; auto.
  destruct K as (e1 & e2 & (A1 & F1 & X1 & N1) & (A2 & F2 & X2 & N2) & ->).
  unfold l_max. rewrite A1, A2, Nat.ltb_irrefl. repeat split; auto; cbn [l_expected].
  - intros H. apply in_app_iff in H. apply in_app_iff. rewrite X1, X2 in H. auto.
  - intros H. apply in_app_iff in H. apply in_app_iff. rewrite X1, X2. auto.
  - intros c0 Hc H. apply in_app_iff in H as [H|H]; [eapply N1|eapply N2]; eauto.
Qed.
Lemma as_names k v x o : res_ok o (names o x [k]) (djust_as k v (mkStream x o)).
Proof.
  rewrite d_as_eq. destruct x as [|c x]; [|destruct (N.eqb_spec k c) as [->|N]]; cbn.
  - repeat split; auto. discriminate.
  - split; [lia|discriminate].
  - repeat split; auto. intros c' [= <-] [H|[]]. congruence.
Qed.

Lemma hex_true c : is_hex c = true -> exists v, hex_digit c v.
Proof. apply is_hex_spec. Qed.

Lemma unicode_diag x o :
  res_ok o (fun e => names o x [117%N] e \/
     exists hs l, x = 117%N :: hs ++ l /\ length hs < 4 /\ Forall (fun c => exists v, hex_digit c v) hs /\
       heads_not (fun c => exists v, hex_digit c v) l /\
       l_at e = S o + length hs /\ l_found e = hd_error l /\ l_expected e = [])
    (dlex_unicode (mkStream x o)).
Proof.
  unfold dlex_unicode, d_ignore_then, d_map at 1, d_then. rewrite d_chr_eq. change (ch "u") with 117%N.
  destruct x as [|c x]; [|destruct (N.eqb_spec 117 c) as [<-|N]].
  - left. cbn. repeat split; auto. discriminate.
  - unfold d_validate.
    destruct (exactly_filter is_hex 4 x (S o)) as [(hs & r & -> & L & E)|(hs & r & -> & L & F & N & E)]; rewrite E.
    + cbn [s_off]. destruct (char_from_u32 _); cbn; (split; [lia|discriminate]).
    + right. exists hs, r. repeat split; auto.
      * eapply Forall_impl; [|exact F]. intros a. apply hex_true.
      * intros c l' Hr Hx. apply is_hex_spec in Hx. rewrite (N c l' Hr) in Hx. discriminate.
  - left. cbn. repeat split; auto. intros c' [= <-] [H|[]]. congruence.
Qed.

Lemma escape_diag x o : res_ok o (esc_err o x) (dlex_escape (mkStream (92%N :: x) o)).
Proof.
  unfold dlex_escape, d_ignore_then, d_map at 1, d_then at 1. rewrite d_chr_eq. rewrite N.eqb_refl.
  match goal with |- context [match d_or ?p dlex_unicode _ with _ => _ end] =>
    assert (res_ok (S o) (names (S o) x
      (((((((([92] ++ [47]) ++ [34]) ++ [96]) ++ [98]) ++ [102]) ++ [110]) ++ [114]) ++ [116])%N)
      (p (mkStream x (S o)))) as K by (repeat apply or_names; apply as_names)
  end.
  pose proof (or_res _ _ _ _ _ _ K (unicode_diag x (S o)) (fun e H => proj1 H)) as U.
  destruct (d_or _ dlex_unicode _) as [e a alt s'|e|]; cbn [res_ok] in *; auto.
  - destruct U as [L B]. split; [lia|]. exact B.
  - destruct U as (e1 & e2 & (A1 & F1 & X1 & N1) & [(A2 & F2 & X2 & N2)|H] & ->); cbn [l_max_alt].
    + left. unfold l_max. rewrite A1, A2, Nat.ltb_irrefl. cbn [l_at l_found l_expected]. repeat split; auto.
      * intros c l' -> Hc. cbn [hd_error app] in N1, N2.
        specialize (N1 c eq_refl). specialize (N2 c eq_refl). unfold escape_letters in Hc. simpl in *. tauto.
      * intros H. apply in_app_iff in H as [H|H]; [apply X1 in H|apply X2 in H];
          unfold escape_letters; simpl in *; tauto.
      * intros H. apply in_app_iff. rewrite X1, X2. unfold escape_letters in H. simpl in *. tauto.
    + right. destruct H as (hs & l & Ex & L & F & N & A2 & F2 & X2). exists hs, l.
      assert (l_max e1 e2 = e2) as ->.
      { unfold l_max. rewrite A1, A2. destruct (Nat.ltb_spec (S (S o) + length hs) (S o)); [lia|].
        destruct (Nat.ltb_spec (S o) (S (S o) + length hs)); [auto|lia]. }
      repeat split; auto. lia.
Qed.

(** ** The tokenizer with and without error values *)

Section TokSim.
  Variable V : stream char -> Prop.
  Variable R : diag char -> perror -> Prop.
  Hypothesis Vstep : forall x l o, V (mkStream (x :: l) o) -> V (mkStream l (S o)).
  Hypothesis Rbad : forall o, R (DCustom o (o + 4) bad_unicode) (EBadUnicode o).
  Local Notation tsim := (sim V R).

  Lemma tsim_ident : tsim dtext_ident text_ident.
  Proof. apply sim_chain; [now apply sim_filter|]. now apply sim_repeated, sim_filter. Qed.
  Lemma tsim_kw k (t : token) : tsim (d_to t (dtext_keyword k)) (p_to t (text_keyword k)).
  Proof. apply sim_to, sim_try_map, tsim_ident. Qed.
  Lemma tsim_keyword : tsim dlex_keyword lex_keyword.
  Proof. apply sim_choice. repeat constructor; apply tsim_kw. Qed.
  Lemma tsim_as c r : tsim (djust_as c r) (just_as c r).
  Proof. now apply sim_to, sim_just. Qed.
  Lemma tsim_unicode : tsim dlex_unicode lex_unicode.
  Proof.
    apply sim_ignore_then; [now apply sim_just|]. apply sim_validate.
    - now apply sim_exactly, sim_filter.
    - intros [l o] e a alt s' _ E.
      destruct (exactly_filter is_hex 4 l o) as [(hs & r & -> & L & E1)|(hs & r & -> & L & F & N & E1)];
        rewrite E1 in E; [|discriminate]. injection E as <- <- <- <-. cbn [s_off fst snd].
      destruct (char_from_u32 _); cbn [fst snd]; split; auto.
  Qed.
  Lemma tsim_escape : tsim dlex_escape lex_escape.
  Proof.
    apply sim_ignore_then; [now apply sim_just|].
    repeat (apply sim_or; [|first [apply tsim_as|apply tsim_unicode]]). apply tsim_as.
  Qed.
  Lemma tsim_qchar : tsim (d_or (d_filter is_quoted_plain) dlex_escape) quoted_char.
  Proof. apply sim_or; [now apply sim_filter|apply tsim_escape]. Qed.
  Lemma tsim_quoted : tsim dlex_quoted lex_quoted.
  Proof.
    apply sim_map, sim_then_ignore; [|now apply sim_just].
    apply sim_ignore_then; [now apply sim_just|]. apply sim_repeated, tsim_qchar.
  Qed.
  Lemma tsim_strict : tsim dlex_token_strict lex_token_strict.
  Proof.
    unfold dlex_token_strict, lex_token_strict.
    repeat apply sim_or.
    - now apply sim_to, sim_just.
    - apply tsim_keyword.
    - apply sim_map, tsim_ident.
    - apply tsim_quoted.
    - apply sim_map. now apply sim_one_of.
    - apply sim_choice. repeat constructor; now apply sim_to, sim_just.
  Qed.

  Hypothesis Rskip : forall s err, V s -> dlex_token_strict s = DErr err ->
    R (DUnexpected err) (ESkipped (s_off s)).
  Lemma tsim_spaces : tsim dlex_spaces lex_spaces.
  Proof.
    apply sim_repeated, sim_one_of; auto. intros c. unfold is_space. simpl. now rewrite orb_false_r.
  Qed.
  Lemma tsim_tokenizer : tsim dtokenizer tokenizer.
  Proof.
    apply sim_repeated, sim_padded_by; [|apply tsim_spaces]. apply sim_padded_by.
    - apply sim_map_with_span, sim_recover_skip; [exact Vstep|apply tsim_strict|exact Rskip].
    - apply sim_repeated, sim_padded_by; [|apply tsim_spaces].
      apply sim_ignore_then; [now apply sim_just|]. now apply sim_repeated, sim_filter.
  Qed.
End TokSim.

Definition anywhere : stream char -> Prop := fun _ => True.
Definition anyhow : diag char -> perror -> Prop := fun _ _ => True.
Local Notation lsim := (sim anywhere anyhow).

(** ** Names in back quotes *)

Local Notation d_qchar := (d_or (d_filter is_quoted_plain) dlex_escape).

(** Why a name ends where it ends. *)
Definition qend (o : nat) (r : str) (e : located char) : Prop :=
  ((r = [] \/ exists r', r = backquote :: r') /\ l_at e = o /\ l_found e = hd_error r /\
   l_expected e = [backslash]) \/
  (exists x, r = backslash :: x /\ esc_err o x e).

Lemma l_max_same (a b : located char) : l_at a = l_at b ->
  l_max a b = mkLoc (l_at a) (l_found a) (l_expected a ++ l_expected b).
Proof. intros E. unfold l_max. now rewrite E, Nat.ltb_irrefl. Qed.
Lemma qchar_diag l o : res_ok o (qend o l) (d_qchar (mkStream l o)).
Proof.
  destruct l as [|c l].
  - change (d_qchar (mkStream [] o)) with (@DErr char char (l_max (mkLoc o None []) (mkLoc o None [92%N]))).
    rewrite l_max_same by reflexivity. left. repeat split; auto.
  - unfold d_or, d_filter, d_filter_map. cbn [s_rest s_off].
    destruct (is_quoted_plain c) eqn:Ec; [cbn; split; [lia|discriminate]|].
    assert (c = backslash \/ c = backquote) as [-> | ->].
    { unfold is_quoted_plain in Ec. unfold backslash, backquote.
      destruct (N.eqb_spec c 92); [auto|]. destruct (N.eqb_spec c 96); [auto|discriminate]. }
    + pose proof (escape_diag l o) as K. unfold backslash in *.
      destruct (dlex_escape _) as [e a alt s'|e|]; cbn [res_ok] in *; auto.
      * destruct K as [L B]. split; auto. apply (behind_merge o); auto.
      * right. exists l. split; auto.
        match goal with |- esc_err _ _ (l_max ?a _) => assert (l_max a e = e) as ->; auto end.
        unfold l_max. cbn [unexpected l_at s_off].
        assert (o < l_at e) as L by (destruct K as [(_ & -> & _)|(hs & y & _ & _ & _ & _ & -> & _)]; lia).
        destruct (Nat.ltb_spec (l_at e) o); [lia|]. destruct (Nat.ltb_spec o (l_at e)); [auto|lia].
    + change (dlex_escape (mkStream (backquote :: l) o))
        with (@DErr char char (mkLoc o (Some backquote) [92%N])).
      cbn [res_ok]. rewrite l_max_same by reflexivity. left. repeat split; eauto.
Qed.

Lemma qloop_diag fuel : forall old errs alt acc l o, (forall e, alt = Some e -> l_at e < o) ->
  match d_rep_loop d_qchar fuel old errs alt acc (mkStream l o) with
  | DOk _ _ alt' s' => exists e, alt' = Some e /\ qend (s_off s') (s_rest s') e
  | DErr _ => False
  | DAbort _ => True
  end.
Proof.
  induction fuel as [|fuel IH]; intros old errs alt acc l o Ha; cbn [d_rep_loop]; auto.
  pose proof (qchar_diag l o) as K. destruct (d_qchar (mkStream l o)) as [e a alt' [l1 o1]|e|]; cbn [res_ok] in K; auto.
  - destruct K as [L B]. cbn [s_off] in *. destruct (match old with Some _ => _ | None => _ end); auto.
    apply IH. intros e0. destruct alt as [a0|], alt' as [a1|]; cbn [merge_alts l_max_alt].
    + specialize (Ha a0 eq_refl). specialize (B a1 eq_refl). unfold l_max.
      destruct (l_at a1 <? l_at a0); [|destruct (l_at a0 <? l_at a1)]; intros [= <-]; cbn; lia.
    + intros [= <-]. specialize (Ha a0 eq_refl). lia.
    + apply B.
    + discriminate.
  - cbn [s_off s_rest]. exists e. split; auto.
    assert (o <= l_at e) as L.
    { destruct K as [(_ & -> & _)|(x & _ & [(_ & -> & _)|(hs & y & _ & _ & _ & _ & -> & _)])]; lia. }
    destruct alt as [a0|]; auto. specialize (Ha a0 eq_refl). cbn [merge_alts l_max_alt]. unfold l_max.
    destruct (Nat.ltb_spec (l_at e) (l_at a0)); [lia|]. destruct (Nat.ltb_spec (l_at a0) (l_at e)); [auto|lia].
Qed.

Lemma quoted_diag l o e : dlex_quoted (mkStream (backquote :: l) o) = DErr e ->
  exists b v bad r, l = b ++ r /\ quoted_lenient (S o) b v bad /\
    ((r = [] /\ l_at e = S o + length b /\ l_found e = None /\
      (forall c, In c (l_expected e) <-> In c [backquote; backslash])) \/
     (exists x, r = backslash :: x /\ esc_err (S o + length b) x e)).
Proof.
  unfold dlex_quoted, d_map at 1, d_then_ignore, d_map at 1, d_then at 1.
  unfold d_ignore_then, d_map at 1, d_then at 1. rewrite d_chr_eq. unfold backquote at 1. rewrite N.eqb_refl.
  pose proof (qloop_diag (S (S (length l))) None [] None [] l (S o) ltac:(discriminate)) as K.
  change (d_rep_loop d_qchar (S (S (length l))) None [] None [] (mkStream l (S o)))
    with (d_repeated d_qchar (mkStream l (S o))) in K.
  pose proof (sim_repeated anywhere anyhow d_qchar quoted_char
                (tsim_qchar anywhere anyhow (fun _ _ _ _ => I) (fun _ => I)) (mkStream l (S o)) I) as Z.
  destruct (d_repeated d_qchar (mkStream l (S o))) as [errs v alt [r o']|e0|x] eqn:E; try discriminate; [|contradiction].
  destruct (p_repeated quoted_char (mkStream l (S o))) as [errs' v' s'| |] eqn:Ep; simpl in Z; try contradiction.
  destruct Z as (_ & <- & <- & _).
  apply (quoted_rep_sound (length l)) in Ep as (b & bad & El & Eo & _ & Q); auto.
  destruct K as (e1 & -> & Hq). cbn [s_rest s_off] in *. rewrite d_chr_eq. cbn [merge_alts].
  destruct Hq as [([->|(r' & ->)] & A1 & F1 & X1)|(x & -> & H)].
  - cbn [l_max_alt]. intros [= <-]. exists b, v, bad, []. repeat split; auto. left.
    unfold l_max. cbn [l_at]. rewrite A1, Nat.ltb_irrefl. cbn [l_at l_found l_expected]. rewrite X1.
    repeat split; auto.
  - unfold backquote. rewrite N.eqb_refl. discriminate.
  - cbn [l_max_alt N.eqb Pos.eqb backslash]. intros [= <-]. exists b, v, bad, (backslash :: x). repeat split; auto.
    right. exists x. split; auto. rewrite <- Eo.
    match goal with |- esc_err _ _ (l_max ?a _) => assert (l_max a e1 = e1) as ->; auto end.
    assert (o' < l_at e1) as L by (destruct H as [(_ & -> & _)|(hs & y & _ & _ & _ & _ & -> & _)]; lia).
    unfold l_max. cbn [l_at]. destruct (Nat.ltb_spec (l_at e1) o'); [lia|].
    destruct (Nat.ltb_spec o' (l_at e1)); [auto|lia].
Qed.

(** ** One token *)

Lemma or_errs {A} (p q : dparser char A) s e1 e2 : p s = DErr e1 -> q s = DErr e2 ->
  d_or p q s = DErr (l_max e1 e2).
Proof. intros H1 H2. unfold d_or. now rewrite H1, H2. Qed.
Lemma l_max_l (a b : located char) : l_at b < l_at a -> l_max a b = a.
Proof. intros L. unfold l_max. destruct (Nat.ltb_spec (l_at b) (l_at a)); [auto|lia]. Qed.
Lemma l_max_r (a b : located char) : l_at a < l_at b -> l_max a b = b.
Proof.
  intros L. unfold l_max. destruct (Nat.ltb_spec (l_at b) (l_at a)); [lia|].
  destruct (Nat.ltb_spec (l_at a) (l_at b)); [auto|lia].
Qed.

Section Strict.
  Variables (l : str) (o : nat).
  Hypothesis Hword : heads_not word_start l.
  Let f := hd_error l.
  Let e0 : located char := mkLoc o f [].

  Lemma word_err : dtext_ident (mkStream l o) = DErr e0.
  Proof.
    unfold dtext_ident, d_chain, d_map, d_then, d_filter, d_filter_map. cbn [s_rest s_off].
    subst e0 f. destruct l as [|c l']; [reflexivity|].
    destruct (is_ident_start c) eqn:Ec; [|reflexivity].
    exfalso. apply (Hword c l' eq_refl). now apply ident_start_spec.
  Qed.
  Lemma kw_err k (t : token) : d_to t (dtext_keyword k) (mkStream l o) = DErr e0.
  Proof. unfold d_to, d_map, dtext_keyword, d_try_map. now rewrite word_err. Qed.
  Lemma keyword_err : dlex_keyword (mkStream l o) = DErr e0.
  Proof.
    unfold dlex_keyword, d_choice. cbn [d_choice_from]. rewrite !kw_err. cbn [merge_alts l_max_alt].
    assert (l_max e0 e0 = e0) as M by (rewrite l_max_same; auto). now rewrite !M.
  Qed.
  Lemma ident_err : dlex_ident (mkStream l o) = DErr e0.
  Proof. unfold dlex_ident, d_map. now rewrite word_err. Qed.
  Lemma edge_err : dlex_edge (mkStream l o) = DErr (mkLoc o f [111%N]).
  Proof.
    unfold dlex_edge, d_to, d_map, djust_str. change (lit "o--o") with [111; 45; 45; 111]%N.
    cbn [d_just s_rest s_off]. subst f. destruct l as [|c l']; [reflexivity|].
    destruct (N.eqb_spec 111 c) as [<-|]; [|reflexivity].
    exfalso. apply (Hword 111%N l' eq_refl). unfold word_start, letter. lia.
  Qed.
  Lemma quoted_err : heads_not (fun c => c = backquote) l ->
    dlex_quoted (mkStream l o) = DErr (mkLoc o f [96%N]).
  Proof.
    intros H. unfold dlex_quoted, d_map at 1, d_then_ignore, d_map at 1, d_then at 1.
    unfold d_ignore_then, d_map at 1, d_then at 1. rewrite d_chr_eq. subst f.
    destruct l as [|c l']; [reflexivity|]. destruct (N.eqb_spec 96 c) as [<-|]; [|reflexivity].
    exfalso. now apply (H 96%N l' eq_refl).
  Qed.
  Lemma ctrl_err : heads_not (fun c => In c (lit "{};.")) l ->
    dlex_ctrl (mkStream l o) = DErr (mkLoc o f (lit "{};.")).
  Proof.
    intros H. unfold dlex_ctrl, d_map, d_one_of. cbn [s_rest s_off]. subst f.
    destruct l as [|c l']; [reflexivity|].
    destruct (existsb (N.eqb c) (lit "{};.")) eqn:E; [|reflexivity].
    exfalso. apply (H c l' eq_refl). apply ctrl_spec. exact E.
  Qed.
  Lemma newline_err : heads_not (fun c => c = newline_char) l -> heads_not (fun c => c = return_char) l ->
    dlex_newline (mkStream l o) = DErr (mkLoc o f [10; 13]%N).
  Proof.
    intros H1 H2. unfold dlex_newline, d_choice, d_to, d_map. cbn [d_choice_from d_just s_rest s_off]. subst f.
    destruct l as [|c l'].
    - cbn [unexpected merge_alts l_max_alt s_off s_rest]. now rewrite l_max_same.
    - destruct (N.eqb_spec 10 c) as [<-|]; [exfalso; now apply (H1 10%N l' eq_refl)|].
      destruct (N.eqb_spec 13 c) as [<-|]; [exfalso; now apply (H2 13%N l' eq_refl)|].
      cbn [unexpected merge_alts l_max_alt s_off s_rest]. now rewrite l_max_same.
  Qed.
End Strict.

Lemma return_err l o : heads_not (fun c => c = newline_char) l ->
  dlex_newline (mkStream (return_char :: l) o) = DErr (mkLoc (S o) (hd_error l) [10%N]).
Proof.
  intros H. unfold dlex_newline, d_choice, d_to, d_map. cbn [d_choice_from d_just s_rest s_off].
  change (N.eqb 10 return_char) with false. change (N.eqb 13 return_char) with true. cbv iota.
  destruct l as [|c l'].
  - cbn [unexpected merge_alts l_max_alt s_off s_rest]. now rewrite l_max_r by (cbn; lia).
  - destruct (N.eqb_spec 10 c) as [<-|]; [exfalso; now apply (H 10%N l' eq_refl)|].
    cbn [unexpected merge_alts l_max_alt s_off s_rest]. now rewrite l_max_r by (cbn; lia).
Qed.

(** Whatever the order of tokens, an attempt that fails is a fault. *)
Lemma strict_no_token l o e : dlex_token_strict (mkStream l o) = DErr e ->
  forall u t r, ~ starts_with l u t r.
Proof.
  intros E u t r T.
  pose proof (tsim_strict anywhere anyhow (fun _ _ _ _ => I) (fun _ => I) (mkStream l o) I) as Z.
  rewrite E in Z. destruct (lex_token_strict (mkStream l o)) eqn:Ep; simpl in Z; try contradiction.
  pose proof (proj1 (strict_fails l o) Ep) as Ef. apply (Ef u t r [] o). constructor. exact T.
Qed.
Lemma single_token c l t : lexeme [c] t -> ~ word_start c -> starts_with (c :: l) [c] t l.
Proof.
  intros H N. split; [reflexivity|]. split; [exact H|]. apply not_word_delimited. intros W. now inversion W.
Qed.

Definition fault_at (l : str) (o : nat) (e : located char) : Prop :=
  exists E, o <= l_at e /\ fault l (l_at e - o) E /\
    l_found e = nth_error l (l_at e - o) /\ (forall c, In c (l_expected e) <-> In c E).

Lemma esc_fault o b v bad x e : quoted_lenient (S o) b v bad -> esc_err (S o + length b) x e ->
  fault_at (backquote :: b ++ backslash :: x) o e.
Proof.
  intros Q [(Hx & A & F & X)|(hs & y & -> & L & Hs & Hy & A & F & X)].
  - exists escape_letters. rewrite A. replace (S (S o + length b) - o) with (S (S (length b))) by lia.
    split; [lia|]. split; [econstructor; eauto|]. split; auto. rewrite F.
    match goal with |- _ = nth_error (_ :: ?l) (S ?n) => change (hd_error x = nth_error l n) end.
    rewrite nth_error_app2 by lia. replace (S (length b) - length b) with 1 by lia. now destruct x.
  - exists []. rewrite A. replace (S o + length b + 2 + length hs - o) with (S (length b + 2 + length hs)) by lia.
    split; [lia|]. change (backslash :: 117%N :: hs ++ y) with ([backslash; 117%N] ++ hs ++ y).
    split; [econstructor; eauto|]. rewrite X. split; [|tauto]. rewrite F.
    match goal with |- _ = nth_error (_ :: ?l) (S ?n) => change (hd_error y = nth_error l n) end.
    rewrite nth_error_app2 by lia. rewrite nth_error_app2 by (simpl; lia). rewrite nth_error_app2 by (simpl; lia).
    cbn [length]. replace (length b + 2 + length hs - length b - 2 - length hs) with 0 by lia. now destruct y.
Qed.

Theorem strict_diag l o e : dlex_token_strict (mkStream l o) = DErr e -> fault_at l o e.
Proof.
  intros E. pose proof (strict_no_token l o e E) as NT.
  assert (heads_not word_start l) as Hw.
  { intros c l' -> Hc. destruct (word_start_token c l' Hc) as (u & t & r & T). now apply (NT u t r). }
  assert (heads_not (fun c => In c (lit "{};.")) l) as Hc.
  { intros c l' -> Hc. apply (NT [c] (KCtrl c) l'). apply single_token; [now constructor|].
    exact (Hw c l' eq_refl). }
  assert (heads_not (fun c => c = newline_char) l) as Hn.
  { intros c l' -> ->. apply (NT [newline_char] KNewline l'). apply single_token; [exact lx_lf|].
    exact (Hw _ l' eq_refl). }
  pose proof (edge_err l o Hw) as E1. pose proof (keyword_err l o Hw) as E2. pose proof (ident_err l o Hw) as E3.
  pose proof (or_errs _ _ _ _ _ E1 E2) as E12. rewrite l_max_same in E12 by reflexivity.
  pose proof (or_errs _ _ _ _ _ E12 E3) as E13. rewrite l_max_same in E13 by reflexivity.
  cbn [l_at l_found l_expected app] in E13. pose proof (ctrl_err l o Hw Hc) as E5.
  destruct (list_eq_dec N.eq_dec (firstn 1 l) [backquote]) as [Eq|Nq];
    [|destruct (list_eq_dec N.eq_dec (firstn 1 l) [return_char]) as [Er|Nr]].
  - destruct l as [|c l]; [discriminate|]. injection Eq as ->.
    assert (dlex_newline (mkStream (backquote :: l) o) = DErr (mkLoc o (Some backquote) [10; 13]%N)) as E6.
    { apply newline_err; [exact Hw|..]; intros c l' [= <- <-]; discriminate. }
    destruct (dlex_quoted (mkStream (backquote :: l) o)) as [errs t alt s|e4|x] eqn:E4.
    + exfalso. pose proof (tsim_strict anywhere anyhow (fun _ _ _ _ => I) (fun _ => I) (mkStream (backquote :: l) o) I) as Z.
      pose proof (tsim_quoted anywhere anyhow (fun _ _ _ _ => I) (fun _ => I) (mkStream (backquote :: l) o) I) as Z4.
      rewrite E in Z. rewrite E4 in Z4. destruct (lex_token_strict _) eqn:Ep; simpl in Z; try contradiction.
      destruct (lex_quoted _) eqn:Ep4; simpl in Z4; try contradiction.
      apply lex_quoted_sound in Ep4 as (b & v & bad & Hl & _ & _ & _ & Q).
      rewrite Hl in Ep. pose proof (proj1 (strict_fails _ o) Ep) as Ef.
      destruct bad as [|x bad].
      * eapply (Ef (backquote :: b ++ [backquote]) (KIdent v) (s_rest s0) [] o). constructor.
        split; [reflexivity|]. split; [apply lx_quote; eapply quoted_lenient_nil; eauto|].
        apply not_word_delimited, not_word_cons. reflexivity.
      * eapply (Ef (backquote :: b ++ [backquote]) (KIdent v) (s_rest s0) (x :: bad) o).
        econstructor; eauto. discriminate.
    + pose proof (quoted_diag l o e4 E4) as (b & v & bad & r & -> & Q & K).
      assert (o < l_at e4) as L.
      { destruct K as [(_ & -> & _)|(x & _ & [(_ & -> & _)|(hs & y & _ & _ & _ & _ & -> & _)])]; lia. }
      pose proof (or_errs _ _ _ _ _ E13 E4) as E14. rewrite l_max_r in E14 by (cbn; lia).
      pose proof (or_errs _ _ _ _ _ E14 E5) as E15. rewrite l_max_l in E15 by (cbn; lia).
      pose proof (or_errs _ _ _ _ _ E15 E6) as E16. rewrite l_max_l in E16 by (cbn; lia).
      unfold dlex_token_strict in E. rewrite E16 in E. injection E as <-.
      destruct K as [(-> & A & F & X)|(x & -> & H)].
      * exists [backquote; backslash]. rewrite A, app_nil_r. replace (S o + length b - o) with (S (length b)) by lia.
        split; [lia|]. split; [econstructor; eauto|]. split; auto. rewrite F. symmetry.
        apply nth_error_None. simpl; lia.
      * now apply esc_fault with (v := v) (bad := bad).
    + exfalso. unfold dlex_token_strict in E. revert E. unfold d_or at 1 2 3. rewrite E13, E4. discriminate.
  - destruct l as [|c l]; [discriminate|]. injection Er as ->.
    assert (dlex_quoted (mkStream (return_char :: l) o) = DErr (mkLoc o (Some return_char) [96%N])) as E4.
    { apply quoted_err; [exact Hw|]. intros c l' [= <- <-]. discriminate. }
    assert (heads_not (fun c => c = newline_char) l) as Hl.
    { intros c l' -> ->. apply (NT [return_char; newline_char] KNewline l').
      split; [reflexivity|]. split; [exact lx_crlf|]. apply not_word_delimited, not_word_cons. reflexivity. }
    pose proof (return_err l o Hl) as E6.
    pose proof (or_errs _ _ _ _ _ E13 E4) as E14. rewrite l_max_same in E14 by reflexivity.
    pose proof (or_errs _ _ _ _ _ E14 E5) as E15. rewrite l_max_same in E15 by reflexivity.
    pose proof (or_errs _ _ _ _ _ E15 E6) as E16. rewrite l_max_r in E16 by (cbn; lia).
    unfold dlex_token_strict in E. rewrite E16 in E. injection E as <-.
    exists [newline_char]. cbn [l_at l_found l_expected]. replace (S o - o) with 1 by lia.
    split; [lia|]. split; [now constructor|]. split; [now destruct l|]. reflexivity.
  - assert (heads_not (fun c => c = backquote) l) as Hq.
    { intros c l' -> ->. now apply Nq. }
    assert (heads_not (fun c => c = return_char) l) as Hr.
    { intros c l' -> ->. now apply Nr. }
    pose proof (quoted_err l o Hw Hq) as E4. pose proof (newline_err l o Hw Hn Hr) as E6.
    pose proof (or_errs _ _ _ _ _ E13 E4) as E14. rewrite l_max_same in E14 by reflexivity.
    pose proof (or_errs _ _ _ _ _ E14 E5) as E15. rewrite l_max_same in E15 by reflexivity.
    pose proof (or_errs _ _ _ _ _ E15 E6) as E16. rewrite l_max_same in E16 by reflexivity.
    unfold dlex_token_strict in E. rewrite E16 in E. injection E as <-.
    eexists. cbn [l_at l_found l_expected]. rewrite Nat.sub_diag. split; [lia|]. split; [|split].
    + constructor. intros c l' Hl [H|[H|[H|[H|H]]]];
        [eapply Hw|eapply Hq|eapply Hc|eapply Hn|eapply Hr]; eauto.
    + now destruct l.
    + reflexivity.
Qed.
