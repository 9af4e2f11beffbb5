(** A fault lies at the first character that no token has in its place, and the
    characters called missing could be there. *)
From Coq Require Import String Ascii List Arith NArith Bool Lia.
From Verif Require Import Base Chumsky Erd Parser Diag Report SpecLex SpecDiag LexFacts.
Import ListNotations.

(** ** Inside back quotes *)

Definition hexd (c : char) : Prop := exists v, hex_digit c v.
Inductive escd : str -> Prop :=
| escd_letter c : In c escape_letters -> c <> 117%N -> escd [backslash; c]
| escd_digits c1 c2 c3 c4 : hexd c1 -> hexd c2 -> hexd c3 -> hexd c4 -> escd [backslash; 117%N; c1; c2; c3; c4].
Inductive body : str -> Prop :=
| body_nil : body []
| body_plain c b : c <> backslash -> c <> backquote -> body b -> body (c :: b)
| body_esc e b : escd e -> body b -> body (e ++ b).

Lemma escape_escd e c : escape e c -> escd e.
Proof.
  destruct 1; try (constructor; [unfold escape_letters; simpl; tauto|discriminate]).
  constructor; eexists; eauto.
Qed.
Lemma lenient_body o b s bad : quoted_lenient o b s bad -> body b.
Proof.
  induction 1.
  - constructor.
  - now constructor.
  - constructor; auto. eapply escape_escd; eauto.
  - apply (body_esc [backslash; 117%N; c1; c2; c3; c4]); auto. constructor; eexists; eauto.
Qed.
Lemma scalar_dec n : scalar n \/ ~ scalar n.
Proof. unfold scalar. lia. Qed.
Lemma body_lenient b : body b -> forall o, exists s bad, quoted_lenient o b s bad.
Proof.
  induction 1 as [|c b H1 H2 _ IH|e b He _ IH]; intros o.
  - eexists _, _. constructor.
  - destruct (IH (S o)) as (s & bad & Q). eexists _, _. apply ql_plain; eauto.
  - destruct He as [c Hc Hn|c1 c2 c3 c4 [d1 H1] [d2 H2] [d3 H3] [d4 H4]].
    + destruct (IH (o + 2)) as (s & bad & Q).
      assert (exists c', escape [backslash; c] c') as [c' He].
      { cbn in Hc. decompose [or] Hc; try contradiction; subst c; try (eexists; constructor); congruence. }
      eexists _, _. eapply ql_escape; eauto.
    + destruct (IH (o + 6)) as (s & bad & Q).
      destruct (scalar_dec (4096 * d1 + 256 * d2 + 16 * d3 + d4)) as [Hs|Hs].
      * eexists _, _. eapply ql_escape; [econstructor; eauto|exact Q].
      * eexists _, _. eapply ql_surrogate; eauto.
Qed.
Lemma body_app b c : body b -> body c -> body (b ++ c).
Proof. induction 1; intros Hc; simpl; auto; [constructor; auto|rewrite <- app_assoc; constructor; auto]. Qed.

Lemma body_cons c b : body (c :: b) ->
  c <> backslash /\ c <> backquote /\ body b \/
  c = backslash /\ (exists l b', b = l :: b' /\ In l escape_letters /\ l <> 117%N /\ body b') \/
  c = backslash /\ (exists c1 c2 c3 c4 b', b = 117%N :: c1 :: c2 :: c3 :: c4 :: b' /\
     hexd c1 /\ hexd c2 /\ hexd c3 /\ hexd c4 /\ body b').
Proof.
  intros H. inversion H as [|c' b' H1 H2 H3|e b' He Hb E]; subst; auto.
  destruct He as [l Hl Hn|c1 c2 c3 c4 H1 H2 H3 H4]; injection E as <- <-; right; [left|right]; split; auto.
  - exists l, b'. auto.
  - exists c1, c2, c3, c4, b'. auto 10.
Qed.

(** What follows a body inside a longer one is a body. *)
Lemma body_rest b : body b -> forall b' x, body b' -> b ++ x = b' ++ [backquote] ->
  exists b'', body b'' /\ x = b'' ++ [backquote].
Proof.
  induction 1 as [|c b H1 H2 _ IH|e b He Hb IH]; intros b' x Hb' E.
  - eauto.
  - destruct b' as [|c' b']; cbn [app] in E; injection E as Ec E; [congruence|]. subst c'.
    apply body_cons in Hb' as [(_ & _ & Hb')|[(-> & _)|(-> & _)]]; [eauto|congruence..].
  - destruct He as [l Hl Hn|c1 c2 c3 c4 D1 D2 D3 D4]; cbn [app] in E;
      (destruct b' as [|c' b']; cbn [app] in E; [discriminate|]); injection E as Ec E; subst c';
      (apply body_cons in Hb' as [(N & _)|[(_ & l' & b1 & -> & Hl' & Hn' & Hb1)|(_ & e1 & e2 & e3 & e4 & b1 & -> & F1 & F2 & F3 & F4 & Hb1)]];
       [now elim N|..]); cbn [app] in E.
    + injection E as _ E. eauto.
    + injection E as -> _. congruence.
    + injection E as <- _. congruence.
    + injection E as _ _ _ _ E. eauto.
Qed.

(** ** How tokens begin *)

Definition opens (c : char) : Prop :=
  word_start c \/ c = backquote \/ In c (lit "{};.") \/ c = newline_char \/ c = return_char.

Lemma word_start_letter c : (65 <= c <= 90)%N \/ (97 <= c <= 122)%N -> word_start c.
Proof. now left. Qed.

Lemma begins_opens c v : begins (c :: v) -> opens c.
Proof.
  unfold opens. intros [(w & t & L)|(w & b & o & s & bad & Q & E)]; [|injection E as -> _; auto].
  remember ((c :: v) ++ w) as u eqn:Eu. cbn [app] in Eu. destruct L; try (injection Eu as <- _; auto).
  - left. apply word_start_letter. lia.
  - left. apply keyword_word in H. subst. now inversion H.
  - left. subst. now inversion H.
Qed.

Lemma begins_quote v : begins (backquote :: v) <-> exists b w, body b /\ v ++ w = b ++ [backquote].
Proof.
  split.
  - intros [(w & t & L)|(w & b & o & s & bad & Q & E)].
    + remember ((backquote :: v) ++ w) as u eqn:Eu. cbn [app] in Eu. destruct L; try discriminate.
      * apply keyword_word in H. subst. inversion H; subst. unfold word_start, letter, backquote in *. lia.
      * subst. inversion H; subst. unfold word_start, letter, backquote in *. lia.
      * injection Eu as E. exists b, w. split; auto.
        apply (quoted_lenient_nil 0) in H. eapply lenient_body; eauto.
      * injection Eu as E _. subst c. exfalso. cbn in H. unfold backquote in H. decompose [or] H; discriminate || contradiction.
    + injection E as E. exists b, w. split; auto. eapply lenient_body; eauto.
  - intros (b & w & B & E). destruct (body_lenient b B 0) as (s & bad & Q). right.
    exists w, b, 0, s, bad. split; auto. cbn [app]. now rewrite E.
Qed.

Lemma begins_return c v : begins (return_char :: c :: v) -> c = newline_char.
Proof.
  intros [(w & t & L)|(w & b & o & s & bad & Q & E)]; [|discriminate].
  remember ((return_char :: c :: v) ++ w) as u eqn:Eu. cbn [app] in Eu. destruct L; try discriminate.
  - apply keyword_word in H. subst. inversion H; subst. unfold word_start, letter, return_char in *. lia.
  - subst. inversion H; subst. unfold word_start, letter, return_char in *. lia.
  - now injection Eu.
Qed.

Lemma firstn_exact {A} (u r : list A) n : n = length u -> firstn n (u ++ r) = u.
Proof. intros ->. rewrite firstn_app, firstn_all, Nat.sub_diag. simpl. apply app_nil_r. Qed.
Lemma firstn_next {A} (u : list A) c r n : n = length u -> firstn (S n) (u ++ c :: r) = u ++ [c].
Proof. intros ->. replace (u ++ c :: r) with ((u ++ [c]) ++ r) by now rewrite <- app_assoc. apply firstn_exact. rewrite app_length. simpl. lia. Qed.
Lemma nth_error_exact {A} (u r : list A) n : n = length u -> nth_error (u ++ r) n = hd_error r.
Proof. intros ->. rewrite nth_error_app2, Nat.sub_diag by lia. now destruct r. Qed.

(** A text with a fault, cut at the fault. *)
Definition precise (u r : str) (E : list char) : Prop :=
  begins u /\ (forall c r', r = c :: r' -> ~ begins (u ++ [c])) /\ (forall c, In c E -> begins (u ++ [c])).

Lemma precise_fault u r E l k : l = u ++ r -> k = length u -> precise u r E ->
  begins (firstn k l) /\ (forall c, nth_error l k = Some c -> ~ begins (firstn (S k) l)) /\
  (forall c, In c E -> begins (firstn k l ++ [c])).
Proof.
  intros -> K (P1 & P2 & P3). rewrite firstn_exact by auto. repeat split; auto.
  intros c. rewrite nth_error_exact by auto. destruct r as [|c' r]; [discriminate|]. intros [= ->].
  rewrite firstn_next by auto. eapply P2; eauto.
Qed.

Lemma zeros_fill hs : length hs <= 4 -> Forall hexd hs ->
  exists zs, escd ([backslash; 117%N] ++ hs ++ zs).
Proof.
  intros L H.
  assert (hexd 48%N) as Z by (exists 0%N; left; lia).
  destruct hs as [|c1 [|c2 [|c3 [|c4 [|c5 hs]]]]]; cbn [length] in L; try lia;
    repeat match goal with K : Forall _ (_ :: _) |- _ => inversion K; clear K; subst end;
    [exists [48;48;48;48]%N|exists [48;48;48]%N|exists [48;48]%N|exists [48]%N|exists []]; cbn [app]; constructor; auto.
Qed.

Lemma quote_extends b x w : body b -> body (x ++ w) -> begins (backquote :: b ++ x).
Proof.
  intros B X. apply begins_quote. exists (b ++ x ++ w), (w ++ [backquote]). split; [now apply body_app|].
  now rewrite <- !app_assoc.
Qed.

Lemma escape_begins c : In c escape_letters -> exists w, body ([backslash; c] ++ w).
Proof.
  intros Hc. destruct (N.eq_dec c 117) as [->|N].
  - destruct (zeros_fill [] (Nat.le_0_l 4) (Forall_nil _)) as [zs Hz]. exists ([] ++ zs).
    cbn [app] in *. rewrite <- (app_nil_r (_ :: _)). apply body_esc; [exact Hz|constructor].
  - exists []. apply (body_esc [backslash; c] []); constructor; auto.
Qed.

Theorem fault_precise l k E : fault l k E ->
  begins (firstn k l) /\ (forall c, nth_error l k = Some c -> ~ begins (firstn (S k) l)) /\
  (forall c, In c E -> begins (firstn k l ++ [c])).
Proof.
  destruct 1 as [l H|l H|o b s bad Q|o b s bad l Q H|o b s bad hs l Q L Hh H].
  - apply (precise_fault [] l); auto. split; [|split].
    + left. exists [newline_char], KNewline. constructor 6.
    + intros c r' -> B. apply begins_opens in B. exact (H c r' eq_refl B).
    + intros c Hc. cbn in Hc. decompose [or] Hc; subst; try contradiction;
        [left; exists (lit "--o"), KEdge; constructor|left; exists [96%N], (KIdent []); apply (lx_quote [] []); constructor
        |left; exists [], (KCtrl 123%N); apply lx_punct; cbn; tauto
        |left; exists [], (KCtrl 125%N); apply lx_punct; cbn; tauto
        |left; exists [], (KCtrl 59%N); apply lx_punct; cbn; tauto
        |left; exists [], (KCtrl 46%N); apply lx_punct; cbn; tauto
        |left; exists [], KNewline; exact lx_lf
        |left; exists [newline_char], KNewline; exact lx_crlf].
  - apply (precise_fault [return_char] l); auto. split; [|split].
    + left. exists [newline_char], KNewline. exact lx_crlf.
    + intros c r' -> B. apply begins_return in B. exact (H c r' eq_refl B).
    + intros c [<-|[]]. left. exists [], KNewline. exact lx_crlf.
  - apply lenient_body in Q. apply (precise_fault (backquote :: b) []); auto; [now rewrite app_nil_r|]. split; [|split].
    + rewrite <- (app_nil_r b). apply (quote_extends b [] []); auto. constructor.
    + intros c r'. discriminate.
    + intros c [<-|[<-|[]]].
      * apply begins_quote. exists b, []. now rewrite app_nil_r.
      * cbn [app]. apply (quote_extends b [backslash] [92%N]); auto.
        apply (body_esc [backslash; 92%N] []); constructor; [cbn; tauto|discriminate].
  - apply lenient_body in Q. apply (precise_fault (backquote :: b ++ [backslash]) l).
    + now rewrite <- app_comm_cons, <- app_assoc.
    + cbn [length]. rewrite app_length. simpl. lia.
    + split; [|split].
      * destruct (escape_begins 92%N) as [w Hw]; [cbn; tauto|]. apply (quote_extends b [backslash] ([92%N] ++ w)); auto.
      * intros c r' -> B. rewrite <- app_comm_cons, <- app_assoc in B.
        apply begins_quote in B as (b' & w & Hb' & E). rewrite <- app_assoc in E.
        apply body_rest in E as (b2 & H2 & E); auto. cbn [app] in E.
        destruct b2 as [|c' b2]; [discriminate|]. injection E as <- E.
        apply body_cons in H2 as [(N & _)|[(_ & l' & b1 & -> & Hl' & _)|(_ & e1 & e2 & e3 & e4 & b1 & -> & _)]];
          [now elim N|..]; cbn [app] in E; injection E as -> E.
        -- exact (H _ _ eq_refl Hl').
        -- apply (H _ _ eq_refl). cbn. tauto.
      * intros c Hc. destruct (escape_begins c Hc) as [w Hw]. rewrite <- app_comm_cons, <- app_assoc.
        now apply (quote_extends b ([backslash] ++ [c]) w).
  - apply lenient_body in Q. apply (precise_fault (backquote :: b ++ [backslash; 117%N] ++ hs) l).
    + cbn [app]. f_equal. now rewrite <- app_assoc.
    + cbn [length]. rewrite !app_length. simpl. lia.
    + split; [|split].
      * destruct (zeros_fill hs) as [zs Hz]; [lia|auto|]. apply (quote_extends b _ zs); auto.
        rewrite <- app_assoc. rewrite <- (app_nil_r (_ ++ _ ++ _)). apply body_esc; [exact Hz|constructor].
      * intros c r' -> B. rewrite <- app_comm_cons, <- !app_assoc in B.
        apply begins_quote in B as (b' & w & Hb' & E). rewrite <- !app_assoc in E.
        apply body_rest in E as (b2 & H2 & E); auto. cbn [app] in E.
        destruct b2 as [|c' b2]; [discriminate|]. injection E as <- E.
        apply body_cons in H2 as [(N & _)|[(_ & l' & b1 & -> & Hl' & Hn & _)|(_ & e1 & e2 & e3 & e4 & b1 & -> & D1 & D2 & D3 & D4 & _)]];
          [now elim N|..]; cbn [app] in E.
        -- injection E as <- _. congruence.
        -- injection E as E. apply (H c r' eq_refl). clear - E L D1 D2 D3 D4.
           destruct hs as [|h1 [|h2 [|h3 [|h4 hs]]]]; cbn [length app] in *; try lia;
             injection E; intros; subst; assumption.
      * intros c [].
Qed.
