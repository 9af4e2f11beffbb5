(** Error reports: C75-C77. *)
From Coq Require Import String List Arith NArith.
From Verif Require Import Base Chumsky Erd Parser Render Cli Diag Report SpecLex SpecGrammar SpecDiag
  SynErrFacts ReportFacts FaultFacts.
Import ListNotations.

(** ** C75: the syntax error *)

(** Either the tokens begin with a module and there is no error, or there is one
    error, at the first token that no module has in this place, and the tokens it
    calls expected are exactly those that could be there, except names. *)
Theorem C75_syntax_error : forall ts,
  (exists u r m, ts = u ++ r /\ g_module u m /\
     d_parse_recovery d_erd_module_parser ts = Ret (Some m, [])) \/
  (~ (exists u r m, ts = u ++ r /\ g_module u m) /\
   exists e, d_parse_recovery d_erd_module_parser ts = Ret (None, [DUnexpected e]) /\ points_out ts e).
Proof. exact verdict. Qed.
Print Assumptions C75_syntax_error.

(** After a name inside the braces there may be the body of a table, on the same
    line or on a later one, or a dot and the rest of a relation. *)
Definition no_body : list token := [KErd; KCtrl 123%N; KIdent (lit "a"); KIdent (lit "b"); KCtrl 125%N].
Example C75_example :
  d_parse_recovery d_erd_module_parser no_body =
  Ret (None, [DUnexpected (mkLoc 3 (Some (KIdent (lit "b")))
                             [KCtrl 123%N; KNewline; KCtrl 59%N; KCtrl 46%N])]).
Proof. vm_compute. reflexivity. Qed.

(** ** C76: the lexical errors *)

Theorem C76_lexical_errors : forall src, exists d ts errs rest,
  diagnose src = Ret d /\ scans 0 src ts errs rest /\ barren rest /\
  Forall2 (explains src) (dg_lex d) errs.
Proof.
  exact (fun src => match diagnose_spec src with
    | ex_intro _ d (ex_intro _ ts (ex_intro _ errs (ex_intro _ rest (conj H1 (conj H2 (conj H3 (conj _ (conj _ (conj H4 _))))))))) =>
        ex_intro _ d (ex_intro _ ts (ex_intro _ errs (ex_intro _ rest (conj H1 (conj H2 (conj H3 H4)))))) end).
Qed.
Print Assumptions C76_lexical_errors.

(** The place of a fault is as far as the text can be read as the beginning of a
    token, and each character called missing would let the reading go on. *)
Theorem C76_fault_precise : forall l k E, fault l k E ->
  begins (firstn k l) /\ (forall c, nth_error l k = Some c -> ~ begins (firstn (S k) l)) /\
  (forall c, In c E -> begins (firstn k l ++ [c])).
Proof. exact fault_precise. Qed.
Print Assumptions C76_fault_precise.

(** The tree and the numbers of errors are those of [parse]. *)
Theorem C76_agrees : forall src d r, diagnose src = Ret d -> parse src = Ret r ->
  dg_ast d = pr_ast r /\ Forall2 (explains src) (dg_lex d) (pr_lex_errs r) /\
  length (dg_syn d) = length (pr_parse_errs r).
Proof. exact diagnose_parse. Qed.
Print Assumptions C76_agrees.

Example C76_example :
  match diagnose (lit "erd { `a\x` {} }") with Ret d => dg_lex d | Panic _ => [] end =
  [DUnexpected (mkLoc 9 (Some 120%N) escape_letters);
   DUnexpected (mkLoc 8 (Some 92%N) (lit "o`{};." ++ [10; 13]%N));
   DUnexpected (mkLoc 16 None [96; 92]%N)].
Proof. vm_compute. reflexivity. Qed.

(** ** C77: the reports *)

(** Traversals of the set of expected items exist. *)

Example C77_order : enumerates in_order.
Proof. exact (fun l => conj (NoDup_nodup _ l) (fun x => nodup_In _ l x)). Qed.

Theorem C77_reports : forall order src, enumerates order -> exists ts errs rest lex syn,
  scans 0 src ts errs rest /\ barren rest /\ reports_of order src = Ret (lex ++ syn) /\
  Forall2 (lex_report src) lex errs /\
  ((exists u r m, map fst ts = u ++ r /\ g_module u m) /\ syn = [] \/
   ~ (exists u r m, map fst ts = u ++ r /\ g_module u m) /\ exists r, syn = [r] /\ syntax_report src ts r).
Proof. exact reports_spec. Qed.
Print Assumptions C77_reports.

Theorem C77_counted : forall order fmt src rs,
  reports_of order src = Ret rs -> length rs = reports (main fmt src).
Proof. exact reports_counted. Qed.
Print Assumptions C77_counted.

(** How tokens are named in them. *)
Theorem C77_token_names : forall t x, token_name t x <-> x = show_token t.
Proof. exact token_names. Qed.
Print Assumptions C77_token_names.

(** In a text without lexical errors the label marks the very token it names. *)
Theorem C77_marked_text : forall order src ts r, enumerates order ->
  parse_recovery tokenizer src = Ret (Some ts, []) -> reports_of order src = Ret [r] ->
  (rp_span r = (length src, S (length src)) /\ rp_label r = lit "Unexpected token end of file") \/
  (exists t, lexeme (slice src (fst (rp_span r)) (snd (rp_span r))) t /\
             rp_label r = lit "Unexpected token " ++ show_token t).
Proof. exact marked_text. Qed.
Print Assumptions C77_marked_text.

(** After a lexical error it need not: the marked text includes what was skipped. *)
Theorem C77_marked_text_refuted : exists src r t, reports_of in_order src = Ret [r; t] /\
  rp_label t = lit "Unexpected token b" /\ slice src (fst (rp_span t)) (snd (rp_span t)) = lit "!b".
Proof. exact marked_junk. Qed.
Print Assumptions C77_marked_text_refuted.

Example C77_example :
  reports_of in_order (lit "erd { a o--o b }") =
  Ret [mkReport 8 (lit "Unexpected token in input, expected '{', '\n', ';', '.'") (8, 12)
         (lit "Unexpected token o--o")].
Proof. vm_compute. reflexivity. Qed.

(** "something else" is printed where a hexadecimal digit is missing. *)
Example C77_digits :
  match reports_of in_order (lit "erd { `a\u12x` {} }") with Ret (r :: _) => Some r | _ => None end =
  Some (mkReport 12 (lit "Unexpected token in input, expected something else") (12, 13)
          (lit "Unexpected token x")).
Proof. vm_compute. reflexivity. Qed.

Example C77_unicode :
  reports_of in_order (lit "erd { `a\ud800` {") =
  Ret [mkReport 10 (lit "invalid unicode character") (10, 14) (lit "invalid unicode character");
       mkReport 17 (lit "Unexpected end of input, expected '}', '\n', ';'") (17, 18)
         (lit "Unexpected token end of file")].
Proof. vm_compute. reflexivity. Qed.
