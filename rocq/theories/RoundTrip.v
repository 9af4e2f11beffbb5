(** Printing a module and parsing the text: C08. *)
From Coq Require Import String Ascii List NArith Lia.
From Verif Require Import Base Erd Chumsky Parser SpecLex SpecGrammar
  ChumskyFacts LexFacts SpanFacts GrammarFacts ParseFacts.
Import ListNotations.

(** Reading without spans. *)
Definition rt (s : str) (ts : list token) (r : str) : Prop :=
  forall o, exists toks, reads o s toks r /\ map fst toks = ts.

Lemma rt_nil s : rt s [] s.
Proof. intros o. exists []. split; auto. constructor. Qed.
Lemma rt_cons s s' u t r ts r' :
  skips s s' -> starts_with s' u t r -> rt r ts r' -> rt s (t :: ts) r'.
Proof.
  intros Sk St H o.
  destruct (H (o + (length s - length s') + length u)) as (toks & R & <-).
  eexists (_ :: toks). split; [eapply reads_cons; eauto|reflexivity].
Qed.
Lemma rt_app s ts r us r' : rt s ts r -> rt r us r' -> rt s (ts ++ us) r'.
Proof.
  intros H1 H2 o. destruct (H1 o) as (toks & R & <-). clear H1.
  induction R as [o s|o s s' u t r r1 ts start stop Sk St -> -> R IH].
  - apply H2.
  - destruct (IH H2) as (vs & Rv & E). eexists (_ :: vs). split; [eapply reads_cons; eauto|].
    cbn [map fst app]. now rewrite E.
Qed.
Lemma rt_lexeme u t r : lexeme u t -> delimited u r -> rt (u ++ r) [t] r.
Proof. intros L D. eapply rt_cons; [apply skips_refl|repeat split; eauto; apply D; auto|apply rt_nil]. Qed.
Lemma rt_blank c s t ts r : blank c -> rt s (t :: ts) r -> rt (c :: s) (t :: ts) r.
Proof.
  intros Hc H o. destruct (H (S o)) as (toks & R & E).
  inversion R as [|? ? s' u t' r1 ? ts' start stop Sk St Es Ep Hr]; subst; [discriminate|].
  cbn [map fst] in E. injection E as -> E.
  exists ((t, (S o + (length s - length s'), S o + (length s - length s') + length u)) :: ts').
  split; [|cbn [map fst]; rewrite E; reflexivity].
  eapply reads_cons with (s' := s'); eauto.
  - apply skips_blank; eauto.
  - apply skips_app in Sk as [q ->]. cbn [length]. rewrite !app_length. lia.
Qed.

(** A continuation that neither prolongs a word nor turns it into an edge. *)
Definition calm (r : str) : Prop := forall c r', r = c :: r' -> ~ word_char c /\ c <> 45%N.

Lemma calm_delimited u r : u <> [] -> calm r -> r <> [] -> delimited u r.
Proof.
  intros Hu Hr Hn W. destruct r as [|c r]; [contradiction|]. destruct (Hr c r eq_refl) as [H1 H2].
  split; [intros c' r' [= <- _]; auto|].
  intros r' E. destruct W as [a w Ha Hw]. injection E as -> E.
  destruct w as [|b w]; cbn [app] in E; injection E as -> E; [contradiction|].
  inversion Hw as [|? ? Hb]; subst. destruct Hb as [[Hb|Hb]|[Hb|Hb]]; unfold digit in *; lia.
Qed.

Lemma rt_plain n c r : plain n -> calm (c :: r) -> rt (n ++ c :: r) [KIdent n] (c :: r).
Proof.
  intros [Hw Hn] Hc. apply rt_lexeme; [now apply lx_word|].
  apply calm_delimited; [destruct Hw|auto|]; discriminate.
Qed.
Lemma rt_kw w t c r : keyword w t -> calm (c :: r) -> rt (w ++ c :: r) [t] (c :: r).
Proof.
  intros Hk Hc. apply rt_lexeme; [now apply lx_kw|].
  apply calm_delimited; [destruct Hk|auto|]; discriminate.
Qed.
Lemma rt_punct c r : In c (lit "{};.") -> rt (c :: r) [KCtrl c] r.
Proof.
  intros Hc. apply (rt_lexeme [c]); [now apply lx_punct|].
  apply not_word_delimited, not_word_cons.
  simpl in Hc. decompose [or] Hc; subst; try contradiction; reflexivity.
Qed.
Lemma rt_newline r : rt (10%N :: r) [KNewline] r.
Proof.
  apply (rt_lexeme [10%N]); [apply lx_lf|]. apply not_word_delimited, not_word_cons. reflexivity.
Qed.
Lemma rt_edge r : rt (lit "o--o" ++ r) [KEdge] r.
Proof. apply rt_lexeme; [apply lx_edge|]. apply not_word_delimited, not_word_edge. Qed.

Lemma calm_cons c r : is_ident_continue c = false -> c <> 45%N -> calm (c :: r).
Proof.
  intros H1 H2 c' r' [= <- _]. split; auto. intros W. apply ident_continue_spec in W. congruence.
Qed.
Ltac calm := apply calm_cons; [reflexivity|discriminate].
Ltac blank := apply rt_blank; [left; reflexivity|].

Lemma calm_blank r : calm (32%N :: r).
Proof. calm. Qed.

(** The tokens of a printed field, entry, module. *)
Definition type_token (t : field_type) : token :=
  match t with TInt => KInt | TUuid => KUuid | TText => KText | TTimestamp => KTimestamp end.
Definition key_token (k : field_key) : token :=
  match k with PrimaryKey => KPK | ForeignKey => KFK end.
Definition field_tokens (f : entity_field) : list token :=
  KIdent (f_name f) :: type_token (f_type f) ::
  match f_key f with None => [] | Some k => [key_token k] end.

Lemma field_tokens_ok f : g_field (field_tokens f) f.
Proof.
  destruct f as [n t [k|]]; constructor; try (destruct t; constructor). destruct k; constructor.
Qed.

Lemma type_keyword t : keyword (show_field_type t) (type_token t).
Proof. destruct t; constructor. Qed.
Lemma key_keyword k : keyword (to_keyword k) (key_token k).
Proof. destruct k; constructor. Qed.

Lemma rt_field f c r : plain_field f -> calm (c :: r) ->
  rt (show_field f ++ c :: r) (field_tokens f) (c :: r).
Proof.
  intros Hf Hc. unfold show_field, field_tokens. rewrite <- !app_assoc.
  eapply (rt_app _ [KIdent (f_name f)]); [apply rt_plain; auto; apply calm_blank|]. blank.
  destruct (f_key f) as [k|].
  - eapply (rt_app _ [_] _ [_]).
    + rewrite <- app_assoc. apply rt_kw; [apply type_keyword|calm].
    + blank. apply rt_kw; auto. apply key_keyword.
  - cbn [app]. apply rt_kw; auto. apply type_keyword.
Qed.

Fixpoint fields_tokens (fs : list entity_field) : list token :=
  match fs with
  | [] => []
  | [f] => field_tokens f
  | f :: fs' => field_tokens f ++ Semi :: fields_tokens fs'
  end.

Lemma fields_tokens_head f fs : exists x xs, fields_tokens (f :: fs) = x :: xs.
Proof. destruct fs; unfold fields_tokens, field_tokens; cbn [app]; eauto. Qed.

Lemma rt_fields fs c r : fs <> [] -> Forall plain_field fs -> calm (c :: r) ->
  rt (join (lit "; ") (map show_field fs) ++ c :: r) (fields_tokens fs) (c :: r).
Proof.
  intros Hn Hf Hc. induction Hf as [|f fs Hf Hfs IH]; [contradiction|].
  destruct fs as [|g fs].
  - cbn [map join fields_tokens]. now apply rt_field.
  - change (join (lit "; ") (map show_field (f :: g :: fs)))
      with (show_field f ++ lit "; " ++ join (lit "; ") (map show_field (g :: fs))).
    change (fields_tokens (f :: g :: fs)) with (field_tokens f ++ [Semi] ++ fields_tokens (g :: fs)).
    rewrite <- !app_assoc. eapply rt_app; [apply rt_field; auto; calm|].
    eapply rt_app; [apply rt_punct; simpl; auto|].
    specialize (IH ltac:(discriminate)).
    destruct (fields_tokens_head g fs) as (x & xs & E).
    rewrite E in *. blank. exact IH.
Qed.

Lemma fields_tokens_ok fs : g_items g_field (fields_tokens fs) fs.
Proof.
  destruct fs as [|f fs]; [constructor|]. constructor. revert f.
  induction fs as [|g fs IH]; intros f; [apply list_one, field_tokens_ok|].
  change (fields_tokens (f :: g :: fs)) with (field_tokens f ++ Semi :: [] ++ fields_tokens (g :: fs)).
  apply list_more; [apply field_tokens_ok|constructor|constructor|apply IH].
Qed.

Definition entity_tokens (d : entity_definition) : list token :=
  KIdent (ent_name d) :: Open :: fields_tokens (ent_fields d) ++ [Close].

Lemma rt_entity d r : plain (ent_name d) -> Forall plain_field (ent_fields d) ->
  rt (show_entity d ++ r) (entity_tokens d) r.
Proof.
  intros Hn Hf. unfold show_entity, entity_tokens. rewrite <- !app_assoc.
  eapply (rt_app _ [_]); [apply rt_plain; auto; apply calm_blank|]. blank.
  eapply (rt_app _ [_]); [apply rt_punct; simpl; auto|]. cbn [app].
  destruct (ent_fields d) as [|f fs] eqn:E.
  - apply rt_punct. simpl; auto.
  - rewrite <- !app_assoc.
    destruct (fields_tokens_head f fs) as (x & xs & Ex).
    rewrite Ex. cbn [app]. blank. rewrite app_comm_cons, <- Ex.
    eapply rt_app; [apply rt_fields; auto; [discriminate|calm]|].
    blank. apply rt_punct. simpl; auto.
Qed.

Lemma entity_tokens_ok d : g_def (entity_tokens d) d.
Proof.
  destruct d as [n fs]. unfold entity_tokens. cbn [ent_name ent_fields].
  change (KIdent n :: Open :: fields_tokens fs ++ [Close])
    with (KIdent n :: [] ++ Open :: [] ++ fields_tokens fs ++ [] ++ [Close]).
  apply def_intro; try apply Forall_nil. apply fields_tokens_ok.
Qed.

Definition path_tokens (p : entity_path) : list token :=
  match p with PEntity e => [KIdent e; Dot] | PField e f => [KIdent e; Dot; KIdent f] end.

Lemma rt_path p c r : plain_path p -> calm (c :: r) -> rt (show_path p ++ c :: r) (path_tokens p) (c :: r).
Proof.
  intros [e f He Hf] Hc. cbn [show_path path_tokens]. rewrite <- !app_assoc.
  eapply (rt_app _ [_]); [apply rt_plain; auto; calm|].
  eapply (rt_app _ [_]); [apply rt_punct; simpl; auto|]. now apply rt_plain.
Qed.

Definition relation_tokens (r : entity_relation) : list token :=
  path_tokens (rel_start r) ++ KEdge :: path_tokens (rel_end r).

Lemma rt_relation a c r : plain_path (rel_start a) -> plain_path (rel_end a) -> calm (c :: r) ->
  rt (show_relation a ++ c :: r) (relation_tokens a) (c :: r).
Proof.
  intros H1 H2 Hc. unfold show_relation, relation_tokens. rewrite <- !app_assoc.
  eapply rt_app; [apply rt_path; auto; calm|]. blank.
  eapply (rt_app _ [_]); [apply rt_edge|].
  pose proof (rt_path (rel_end a) c r H2 Hc) as K.
  destruct H2. cbn [path_tokens] in *. blank. exact K.
Qed.

Lemma relation_tokens_ok a : g_rel (relation_tokens a) a.
Proof.
  destruct a as [x y]. apply (rel_intro _ x [] [] _ y); try apply Forall_nil; [destruct x|destruct y]; constructor.
Qed.

Definition entry_tokens (e : module_entry) : list token :=
  match e with EDef d => entity_tokens d | ERel r => relation_tokens r end.
Lemma entry_tokens_ok e : g_entry (entry_tokens e) e.
Proof. destruct e; constructor; [apply entity_tokens_ok|apply relation_tokens_ok]. Qed.
Lemma rt_entry e c r : plain_entry e -> calm (c :: r) -> rt (show_entry e ++ c :: r) (entry_tokens e) (c :: r).
Proof. intros [d H1 H2|a H1 H2] Hc; [now apply rt_entity|now apply rt_relation]. Qed.

Definition entries_tokens (es : list module_entry) : list token :=
  concat (map (fun e => entry_tokens e ++ [KNewline]) es).

Lemma rt_entries es r : Forall plain_entry es ->
  rt (concat (map (fun e => lit "    " ++ show_entry e ++ nl) es) ++ r) (entries_tokens es) r.
Proof.
  induction 1 as [|e es He _ IH]; [apply rt_nil|].
  unfold entries_tokens. cbn [map concat]. fold (entries_tokens es). rewrite <- !app_assoc.
  assert (exists x xs, entry_tokens e = x :: xs) as (x & xs & Ex).
  { destruct He as [d _ _|a H _]; unfold entry_tokens, entity_tokens, relation_tokens; cbn [app]; eauto.
    destruct H; cbn [path_tokens app]; eauto. }
  rewrite Ex. cbn [app]. do 4 blank. rewrite app_comm_cons, <- Ex.
  eapply rt_app; [apply rt_entry; auto; calm|].
  eapply (rt_app _ [_]); [apply rt_newline|exact IH].
Qed.

Lemma entries_tokens_ok es : exists ets p,
  entries_tokens es = ets ++ p /\ g_items g_entry ets es /\ g_pad p.
Proof.
  destruct es as [|e es]; [exists [], []; repeat split; constructor|].
  revert e. induction es as [|f es IH]; intros e.
  - exists (entry_tokens e), [KNewline]. repeat split.
    + unfold entries_tokens. cbn [map concat]. now rewrite app_nil_r.
    + constructor. apply list_one, entry_tokens_ok.
    + repeat constructor.
  - destruct (IH f) as (ets & p & E & Hl & Hp).
    exists (entry_tokens e ++ KNewline :: [] ++ ets), p. repeat split; auto.
    + unfold entries_tokens in *. cbn [map concat] in *. rewrite E.
      repeat (rewrite <- !app_assoc; cbn [app]). reflexivity.
    + constructor. apply list_more; [apply entry_tokens_ok|constructor|constructor|].
      now inversion Hl.
Qed.

Definition name_tokens (n : option str) : list token :=
  match n with Some n => [KIdent n] | None => [] end.

Theorem print_parse m : plain_module m ->
  parse (show_module m) = Ret (mkParse (Some m) [] []).
Proof.
  intros [Hn He]. destruct m as [n es]. cbn [m_name m_entries] in *.
  assert (rt (show_module (mkModule n es))
             (KErd :: name_tokens n ++ Open :: KNewline :: entries_tokens es ++ [Close]) []) as R.
  { unfold show_module. cbn [m_name m_entries].
    change (lit "erd ") with (lit "erd" ++ [32%N]). rewrite <- !app_assoc.
    eapply (rt_app _ [_]); [apply rt_kw; [constructor|apply calm_blank]|].
    change (name_tokens n ++ Open :: KNewline :: entries_tokens es ++ [Close])
      with (name_tokens n ++ [Open] ++ [KNewline] ++ entries_tokens es ++ [Close]).
    assert (rt (lit "{" ++ nl ++ concat (map (fun e => lit "    " ++ show_entry e ++ nl) es) ++ lit "}")
               ([Open] ++ [KNewline] ++ entries_tokens es ++ [Close]) []) as K.
    { eapply rt_app; [apply rt_punct; simpl; auto|].
      eapply rt_app; [apply rt_newline|].
      eapply rt_app; [apply rt_entries; auto|].
      apply rt_punct; simpl; auto. }
    destruct n as [n|]; cbn [name_tokens].
    - cbn [app]. blank. rewrite <- app_assoc.
      eapply (rt_app _ [_]); [apply rt_plain; [auto|apply calm_blank]|]. blank. exact K.
    - cbn [app]. blank. exact K. }
  destruct (R 0) as (toks & Rd & E).
  destruct (entries_tokens_ok es) as (ets & p & Ee & Hes & Hp).
  eapply parse_complete with (us := []); [exact Rd|apply barren_nil| |].
  - rewrite app_nil_r. exact E.
  - rewrite Ee.
    replace (KErd :: name_tokens n ++ Open :: KNewline :: (ets ++ p) ++ [Close])
      with ([] ++ KErd :: [] ++ name_tokens n ++ Open :: [KNewline] ++ ets ++ p ++ Close :: [])
      by (cbn [app]; now rewrite <- !app_assoc).
    apply module_intro; auto; try apply Forall_nil.
    + destruct n; repeat constructor.
    + repeat constructor.
Qed.
