(** Witnesses and special cases used by PropParse. *)
From Coq Require Import String Ascii List NArith.
From Verif Require Import Base Erd Chumsky Parser SpecLex SpecGrammar
  GrammarFacts SepFacts ParseFacts RoundTrip LexFacts.
Import ListNotations.

Lemma bare_name_rejected p1 p2 nts n p3 pre a p x r :
  g_pad p1 -> g_pad p2 -> g_name nts n -> g_pad p3 -> before_entry pre -> g_pad p ->
  ~ g_sep x -> x <> Open -> x <> Dot ->
  parse_recovery erd_module_parser
    (p1 ++ KErd :: p2 ++ nts ++ Open :: p3 ++ pre ++ KIdent a :: p ++ x :: r) =
  Ret (None, [EUnexpected]).
Proof. intros. unfold parse_recovery. erewrite rejects_bare_name; eauto. Qed.

Lemma documented_relation_rejected a b :
  parse_recovery erd_module_parser [KErd; Open; KIdent a; KEdge; KIdent b; Close] = Ret (None, [EUnexpected]).
Proof.
  apply (bare_name_rejected [] [] [] None [] [] a [] KEdge [KIdent b; Close]);
    try apply Forall_nil; try constructor; try discriminate. apply not_sep_edge.
Qed.

Lemma dotted_relation_accepted a b :
  parse_recovery erd_module_parser [KErd; Open; KIdent a; Dot; KEdge; KIdent b; Dot; Close] =
  Ret (Some (mkModule None [ERel (mkRelation (PEntity a) (PEntity b))]), []).
Proof.
  apply (recovery_complete [KErd; Open; KIdent a; Dot; KEdge; KIdent b; Dot; Close] _ []).
  apply (module_intro [] [] [] None [] [KIdent a; Dot; KEdge; KIdent b; Dot] _ [] []);
    try apply Forall_nil; try constructor.
  apply list_one, entry_rel.
  apply (rel_intro [KIdent a; Dot] _ [] [] [KIdent b; Dot]); constructor.
Qed.

Lemma keyword_name_lost :
  exists src m, parse src = Ret (mkParse (Some m) [] []) /\
                parse (show_module m) = Ret (mkParse None [] [EUnexpected]).
Proof.
  exists (lit "erd { `text` { } }"), (mkModule None [EDef (mkEntity (lit "text") [])]).
  vm_compute. auto.
Qed.
Lemma special_name_changed :
  exists src m m', parse src = Ret (mkParse (Some m) [] []) /\
                   parse (show_module m) = Ret (mkParse (Some m') [] []) /\ m <> m'.
Proof.
  exists (lit "erd { `a { }; b` { } }"), (mkModule None [EDef (mkEntity (lit "a { }; b") [])]),
    (mkModule None [EDef (mkEntity (lit "a") []); EDef (mkEntity (lit "b") [])]).
  split; [vm_compute; reflexivity|]. split; [vm_compute; reflexivity|discriminate].
Qed.
Lemma entity_relation_lost :
  exists src m, parse src = Ret (mkParse (Some m) [] []) /\
    (exists a b, m_entries m = [ERel (mkRelation (PEntity a) (PEntity b))]) /\
    parse (show_module m) = Ret (mkParse None [] [EUnexpected]).
Proof.
  exists (lit "erd { users. o--o posts. }"),
    (mkModule None [ERel (mkRelation (PEntity (lit "users")) (PEntity (lit "posts")))]).
  split; [vm_compute; reflexivity|]. split; [cbn; eauto|vm_compute; reflexivity].
Qed.

Lemma respaced_sample :
  respaced [KErd; Open; Semi; KIdent (lit "a"); Open; Close; KNewline; Semi; Close]
           [KErd; Open; KNewline; Semi; KNewline; KIdent (lit "a"); Open; Close; Semi; Close].
Proof.
  do 2 apply rs_same.
  apply (rs_run Semi [] KNewline [Semi; KNewline]); try (repeat constructor; fail).
  do 3 apply rs_same.
  apply (rs_run KNewline [Semi] Semi [] [Close] [Close]); try (repeat constructor; fail).
Qed.

(** A check for [plain], to be run on concrete names. *)
Definition plainb (n : str) : bool :=
  match n with
  | [] => false
  | c :: w => (is_ident_start c && forallb is_ident_continue w &&
               match kw_token n with Some _ => false | None => true end)%bool
  end.
Lemma plainb_plain n : plainb n = true -> plain n.
Proof.
  destruct n as [|c w]; [discriminate|]. unfold plainb. intros H.
  apply andb_prop in H as [H H3]. apply andb_prop in H as [H1 H2]. split.
  - constructor; [now apply ident_start_spec|].
    apply Forall_forall. intros x Hx. apply ident_continue_spec.
    rewrite forallb_forall in H2. auto.
  - intros [t Ht]. apply kw_token_spec in Ht. rewrite Ht in H3. discriminate.
Qed.
