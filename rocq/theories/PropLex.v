(** The properties of the tokenizer: C03, C04, C10, C11, C14, C15. *)
From Coq Require Import String Ascii List NArith Lia.
From Verif Require Import Base Chumsky Parser SpecLex LexFacts SpanFacts.
Import ListNotations.

(** C03, C04: the runs without errors are exactly the readings of the text. *)
Theorem C03_tokenizer_complete :
  forall src toks rest, reads 0 src toks rest -> barren rest ->
  parse_recovery tokenizer src = Ret (Some toks, []).
Proof. exact (fun src toks rest R B => proj2 (tokenizer_reads src toks) (ex_intro _ rest (conj R B))). Qed.
Print Assumptions C03_tokenizer_complete.

Theorem C04_tokenizer_sound :
  forall src toks, parse_recovery tokenizer src = Ret (Some toks, []) ->
  (exists rest, reads 0 src toks rest /\ barren rest) /\
  Forall (fun x => lexeme (slice src (fst (snd x)) (snd (snd x))) (fst x)) toks.
Proof. exact (fun src toks H => conj (proj1 (tokenizer_reads src toks) H) (tokenizer_slices src toks H)). Qed.
Print Assumptions C04_tokenizer_sound.

Example C03_example :
  parse_recovery tokenizer (lit "o--o order {`a b`} // x") =
  Ret (Some [(KEdge, (0, 4)); (KIdent (lit "order"), (5, 10)); (KCtrl (ch "{"), (11, 12));
             (KIdent (lit "a b"), (12, 17)); (KCtrl (ch "}"), (17, 18))], []).
Proof. vm_compute. reflexivity. Qed.

(** The reading of a text is unique. *)
Theorem C03_reading_unique :
  forall src toks rest toks' rest',
  reads 0 src toks rest -> barren rest -> reads 0 src toks' rest' -> barren rest' -> toks = toks'.
Proof. exact reading_unique. Qed.
Print Assumptions C03_reading_unique.

(** All runs, with or without errors. *)
Theorem C04_tokenizer_runs :
  forall src, exists toks errs rest,
  parse_recovery tokenizer src = Ret (Some toks, errs) /\ scans 0 src toks errs rest /\ barren rest.
Proof. exact tokenizer_scans. Qed.
Print Assumptions C04_tokenizer_runs.

(** A run with errors: an unknown character, and an escape with too few digits. *)
Example C04_example :
  parse_recovery tokenizer (lit "a ~ {`\u12`}") =
  Ret (Some [(KIdent (lit "a"), (0, 1)); (KCtrl (ch "{"), (2, 5)); (KIdent (lit "u12"), (5, 10)); (KCtrl (ch "}"), (10, 12))],
       [ESkipped 2; ESkipped 5; ESkipped 10]).
Proof. vm_compute. reflexivity. Qed.

(** C10 *)
Theorem C10_every_name_quotable :
  forall s, exists q, parse_recovery tokenizer q = Ret (Some [(KIdent s, (0, length q))], []).
Proof. exact (fun s => ex_intro _ (quote s) (quote_token s)). Qed.
Print Assumptions C10_every_name_quotable.

(** The spelling may stand in front of any text. *)
Theorem C10_every_name_quotable_in_context :
  forall s, exists q, forall r, starts_with (q ++ r) q (KIdent s) r.
Proof. exact (fun s => ex_intro _ (quote s) (quote_starts s)). Qed.
Print Assumptions C10_every_name_quotable_in_context.

Example C10_example : parse_recovery tokenizer (lit "`int`") = Ret (Some [(KIdent (lit "int"), (0, 5))], []).
Proof. vm_compute. reflexivity. Qed.

(** C11 *)
Theorem C11_unicode_escape :
  forall c1 c2 c3 c4 d1 d2 d3 d4,
  hex_digit c1 d1 -> hex_digit c2 d2 -> hex_digit c3 d3 -> hex_digit c4 d4 ->
  scalar (4096 * d1 + 256 * d2 + 16 * d3 + d4) ->
  parse_recovery tokenizer (lit "`\u" ++ [c1; c2; c3; c4] ++ lit "`") =
  Ret (Some [(KIdent [4096 * d1 + 256 * d2 + 16 * d3 + d4]%N, (0, 8))], []).
Proof. exact uescape_good. Qed.
Print Assumptions C11_unicode_escape.

Theorem C11_surrogate_escape :
  forall c1 c2 c3 c4 d1 d2 d3 d4,
  hex_digit c1 d1 -> hex_digit c2 d2 -> hex_digit c3 d3 -> hex_digit c4 d4 ->
  ~ scalar (4096 * d1 + 256 * d2 + 16 * d3 + d4) ->
  parse_recovery tokenizer (lit "`\u" ++ [c1; c2; c3; c4] ++ lit "`") =
  Ret (Some [(KIdent [65533%N], (0, 8))], [EBadUnicode 3]).
Proof. exact uescape_bad. Qed.
Print Assumptions C11_surrogate_escape.

Example C11_example :
  parse_recovery tokenizer (lit "`\u00e9`") = Ret (Some [(KIdent [233%N], (0, 8))], []) /\
  parse_recovery tokenizer (lit "`\uD800`") = Ret (Some [(KIdent [65533%N], (0, 8))], [EBadUnicode 3]).
Proof. vm_compute. auto. Qed.

(** C14 *)
Theorem C14_token_spans :
  forall src toks errs, parse_recovery tokenizer src = Ret (Some toks, errs) ->
  spans_in (length src) 0 toks /\
  Forall (fun e => exists p, error_offset e = Some p /\ 0 <= p < length src) errs.
Proof. exact tokenizer_spans. Qed.
Print Assumptions C14_token_spans.

Example C14_example :
  parse_recovery tokenizer (lit " int `\uD800` ?x ") =
  Ret (Some [(KInt, (1, 4)); (KIdent [65533%N], (5, 13)); (KIdent (lit "x"), (14, 16))], [EBadUnicode 8; ESkipped 14]).
Proof. vm_compute. reflexivity. Qed.

(** C15 *)
Theorem C15_recovery_skips_non_tokens :
  forall src toks errs p,
  parse_recovery tokenizer src = Ret (Some toks, errs) -> In (ESkipped p) errs ->
  exists t b junk w u r bad,
    In (t, (p, b)) toks /\ junk <> [] /\ skipn p src = junk ++ w /\
    (forall j1 j2 u t r bad o', junk = j1 ++ j2 -> j2 <> [] -> ~ tolerated o' (j2 ++ w) u t r bad) /\
    tolerated (p + length junk) w u t r bad /\ b = p + length junk + length u.
Proof. exact tokenizer_skipped. Qed.
Print Assumptions C15_recovery_skips_non_tokens.

Example C15_example :
  parse_recovery tokenizer (lit "a @# b") =
  Ret (Some [(KIdent (lit "a"), (0, 1)); (KIdent (lit "b"), (2, 6))], [ESkipped 2]).
Proof. vm_compute. reflexivity. Qed.
