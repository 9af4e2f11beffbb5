(** The properties of the grammar and of [parse]: C01, C02, C05-C09, C12, C13. *)
From Coq Require Import String Ascii List NArith.
From Verif Require Import Base Erd Chumsky Parser SpecLex SpecGrammar
  GrammarFacts SepFacts ParseFacts SourceFacts RoundTrip ParseWitness.
Import ListNotations.

(** C01 *)
Theorem C01_parse_never_aborts : forall src, exists r, parse src = Ret r.
Proof. exact parse_returns. Qed.
Print Assumptions C01_parse_never_aborts.

(** An escape that is no scalar value, a character of no token, an escape with too few digits. *)
Example C01_example :
  parse (lit "erd `\uDFFF` { @ `\u12` }") =
  Ret (mkParse None [EBadUnicode 7; ESkipped 15; ESkipped 22] [EUnexpected]).
Proof. vm_compute. reflexivity. Qed.

(** C02 *)
Theorem C02_module_or_one_error :
  forall src r, parse src = Ret r ->
  (exists m, pr_ast r = Some m /\ pr_parse_errs r = []) \/
  (pr_ast r = None /\ pr_parse_errs r = [EUnexpected]).
Proof. exact parse_shape. Qed.
Print Assumptions C02_module_or_one_error.

Example C02_example :
  parse (lit "erd @ { }") = Ret (mkParse (Some (mkModule None [])) [ESkipped 4] []) /\
  parse (lit "erd }") = Ret (mkParse None [] [EUnexpected]).
Proof. vm_compute. auto. Qed.

(** C05 *)
Theorem C05_accepted_modules_obey_the_grammar :
  forall src r m, parse src = Ret r -> pr_ast r = Some m ->
  exists toks ts rest,
    parse_recovery tokenizer src = Ret (Some toks, pr_lex_errs r) /\
    map fst toks = ts ++ rest /\ g_module ts m.
Proof. exact parse_sound. Qed.
Print Assumptions C05_accepted_modules_obey_the_grammar.

(** C06 *)
Theorem C06_grammatical_modules_are_accepted :
  forall ts m rest, g_module ts m ->
  parse_recovery erd_module_parser (ts ++ rest) = Ret (Some m, []).
Proof. exact recovery_complete. Qed.
Print Assumptions C06_grammatical_modules_are_accepted.

Theorem C06_grammar_unambiguous :
  forall ts us m n r1 r2, g_module ts m -> g_module us n -> ts ++ r1 = us ++ r2 -> m = n.
Proof. exact module_unique. Qed.
Print Assumptions C06_grammar_unambiguous.

(** A definition with one field and a relation, with separators around the braces. *)
Example C06_example :
  let a := KIdent (lit "a") in let x := KIdent (lit "x") in
  g_module [KErd; KNewline; Open; KNewline; a; Open; x; KInt; KPK; Semi; Close; Semi; KNewline;
            a; Dot; x; KEdge; a; Dot; KNewline; Close]
    (mkModule None [EDef (mkEntity (lit "a") [mkField (lit "x") TInt (Some PrimaryKey)]);
                    ERel (mkRelation (PField (lit "a") (lit "x")) (PEntity (lit "a")))]).
Proof.
  assert (N : g_pad [KNewline]) by repeat constructor.
  assert (S : g_pad [Semi]) by repeat constructor.
  assert (E : g_pad []) by constructor.
  assert (F : g_field [KIdent (lit "x"); KInt; KPK] (mkField (lit "x") TInt (Some PrimaryKey))) by repeat constructor.
  assert (D : g_def [KIdent (lit "a"); Open; KIdent (lit "x"); KInt; KPK; Semi; Close]
                (mkEntity (lit "a") [mkField (lit "x") TInt (Some PrimaryKey)]))
    by exact (def_intro (lit "a") [] [] _ _ [Semi] E E (items_some _ _ _ (list_one _ _ _ F)) S).
  assert (R : g_rel [KIdent (lit "a"); Dot; KIdent (lit "x"); KEdge; KIdent (lit "a"); Dot]
                (mkRelation (PField (lit "a") (lit "x")) (PEntity (lit "a"))))
    by exact (rel_intro _ _ [] [] _ _ (path_field _ _) E E (path_entity _)).
  exact (module_intro [] [KNewline] [] None [KNewline] _ _ [KNewline] [] E N name_none N
           (items_some _ _ _ (list_more _ _ _ Semi [KNewline] _ _ (entry_def _ _ D) sep_semi N
              (list_one _ _ _ (entry_rel _ _ R)))) N E).
Qed.

(** The same for texts. *)
Theorem C06_grammatical_texts_are_accepted :
  forall src toks rest ts us m,
  reads 0 src toks rest -> barren rest -> map fst toks = ts ++ us -> g_module ts m ->
  parse src = Ret (mkParse (Some m) [] []).
Proof. exact parse_complete. Qed.
Print Assumptions C06_grammatical_texts_are_accepted.

Definition sample_text : str :=
  lit "erd shop { users { id int PK; name text }; orders { id uuid; user_id int FK }; orders.user_id o--o users.id } ok".
Definition sample_module : module :=
  mkModule (Some (lit "shop"))
    [EDef (mkEntity (lit "users") [mkField (lit "id") TInt (Some PrimaryKey); mkField (lit "name") TText None]);
     EDef (mkEntity (lit "orders") [mkField (lit "id") TUuid None; mkField (lit "user_id") TInt (Some ForeignKey)]);
     ERel (mkRelation (PField (lit "orders") (lit "user_id")) (PField (lit "users") (lit "id")))].
Example C05_example : parse sample_text = Ret (mkParse (Some sample_module) [] []).
Proof. vm_compute. reflexivity. Qed.

(** C07.  A name in the place of an entry that is followed, after any separators,
    by neither a brace nor a dot, makes the whole text a syntax error. *)
Theorem C07_bare_name_rejected :
  forall p1 p2 nts n p3 pre a p x r,
  g_pad p1 -> g_pad p2 -> g_name nts n -> g_pad p3 -> before_entry pre -> g_pad p ->
  ~ g_sep x -> x <> Open -> x <> Dot ->
  parse_recovery erd_module_parser
    (p1 ++ KErd :: p2 ++ nts ++ Open :: p3 ++ pre ++ KIdent a :: p ++ x :: r) =
  Ret (None, [EUnexpected]).
Proof. exact bare_name_rejected. Qed.
Print Assumptions C07_bare_name_rejected.

(** In particular the documented form of a relation between entities. *)
Theorem C07_documented_relation_rejected :
  forall a b,
  parse_recovery erd_module_parser [KErd; Open; KIdent a; KEdge; KIdent b; Close] = Ret (None, [EUnexpected]).
Proof. exact documented_relation_rejected. Qed.
Print Assumptions C07_documented_relation_rejected.

Theorem C07_dotted_relation_accepted :
  forall a b,
  parse_recovery erd_module_parser [KErd; Open; KIdent a; Dot; KEdge; KIdent b; Dot; Close] =
  Ret (Some (mkModule None [ERel (mkRelation (PEntity a) (PEntity b))]), []).
Proof. exact dotted_relation_accepted. Qed.
Print Assumptions C07_dotted_relation_accepted.

Example C07_example :
  parse (lit "erd { users o--o posts }") = Ret (mkParse None [] [EUnexpected]).
Proof. vm_compute. reflexivity. Qed.

(** C08 *)
Theorem C08_print_parse :
  forall m, plain_module m -> parse (show_module m) = Ret (mkParse (Some m) [] []).
Proof. exact print_parse. Qed.
Print Assumptions C08_print_parse.

Example C08_example : plain_module sample_module.
Proof.
  split; [intros n [= <-]; now apply plainb_plain|].
  repeat (apply Forall_cons || apply Forall_nil); constructor; cbn;
    repeat (apply Forall_cons || apply Forall_nil); try constructor; now apply plainb_plain.
Qed.

(** C09 *)
Theorem C09_keyword_name_refuted :
  exists src m, parse src = Ret (mkParse (Some m) [] []) /\
                parse (show_module m) = Ret (mkParse None [] [EUnexpected]).
Proof. exact keyword_name_lost. Qed.
Print Assumptions C09_keyword_name_refuted.

Theorem C09_special_name_refuted :
  exists src m m', parse src = Ret (mkParse (Some m) [] []) /\
                   parse (show_module m) = Ret (mkParse (Some m') [] []) /\ m <> m'.
Proof. exact special_name_changed. Qed.
Print Assumptions C09_special_name_refuted.

Theorem C09_entity_relation_refuted :
  exists src m, parse src = Ret (mkParse (Some m) [] []) /\
    (exists a b, m_entries m = [ERel (mkRelation (PEntity a) (PEntity b))]) /\
    parse (show_module m) = Ret (mkParse None [] [EUnexpected]).
Proof. exact entity_relation_lost. Qed.
Print Assumptions C09_entity_relation_refuted.

(** C12: whatever is written after the brace, the module is the same, and what can be
    read without error (in particular, text without tokens) is not reported. *)
Theorem C12_text_after_brace_ignored :
  forall src m pe, parse src = Ret (mkParse (Some m) [] pe) ->
  exists x rest, src = x ++ lit "}" ++ rest /\
    forall tail, exists errs, parse (x ++ lit "}" ++ tail) = Ret (mkParse (Some m) errs []) /\
      ((exists toks left, reads 0 tail toks left /\ barren left) -> errs = []).
Proof. exact tail_quiet. Qed.
Print Assumptions C12_text_after_brace_ignored.

Theorem C12_appended_text_ignored :
  forall src m pe tail, parse src = Ret (mkParse (Some m) [] pe) ->
  exists errs, parse (src ++ tail) = Ret (mkParse (Some m) errs []).
Proof. exact appended_ignored. Qed.
Print Assumptions C12_appended_text_ignored.

(** The source has to be free of lexical errors. *)
Theorem C12_after_lexical_errors_refuted :
  exists src tail m errs, parse src = Ret (mkParse (Some m) errs []) /\
    parse (src ++ tail) = Ret (mkParse None [] [EUnexpected]).
Proof. exact tail_joins. Qed.
Print Assumptions C12_after_lexical_errors_refuted.

(** A tail without tokens is not even reported. *)
Example C12_example : parse (lit "erd { } #!?") = Ret (mkParse (Some (mkModule None [])) [] []) /\
  parse (lit "erd { } erd } o--o }") = Ret (mkParse (Some (mkModule None [])) [] []).
Proof. vm_compute. auto. Qed.

(** C13 *)
Theorem C13_separators_interchangeable :
  forall ts us, respaced ts us ->
  parse_recovery erd_module_parser us = parse_recovery erd_module_parser ts.
Proof. exact respaced_parse. Qed.
Print Assumptions C13_separators_interchangeable.

Example C13_example :
  respaced [KErd; Open; Semi; KIdent (lit "a"); Open; Close; KNewline; Semi; Close]
           [KErd; Open; KNewline; Semi; KNewline; KIdent (lit "a"); Open; Close; Semi; Close].
Proof. exact respaced_sample. Qed.
