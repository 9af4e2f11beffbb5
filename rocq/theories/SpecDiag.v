(** What an error report should say, in terms of the grammar (SpecGrammar.v) and
    of the spellings of tokens (SpecLex.v). *)
From Coq Require Import String List NArith.
From Verif Require Import Base Chumsky Erd Parser Diag Report SpecLex SpecGrammar.
Import ListNotations.

(** ** Syntax errors *)

(** Some module begins with the tokens [u]. *)
Definition viable (u : list token) : Prop := exists v m, g_module (u ++ v) m.

Definition a_name (t : token) : Prop := exists n, t = KIdent n.

(** The error [e] about the tokens [ts] is as precise as can be: it lies at the
    first token that no module has in this place (or at the end, if the tokens
    could be continued), it tells what is there, and the tokens that it calls
    expected are those that could be there instead, except names. *)
Record points_out (ts : list token) (e : located token) : Prop := {
  po_inside : l_at e <= length ts;
  po_found : l_found e = nth_error ts (l_at e);
  po_before : viable (firstn (l_at e) ts);
  po_here : forall t, l_found e = Some t -> ~ viable (firstn (l_at e) ts ++ [t]);
  po_expected : forall t,
    In t (l_expected e) <-> viable (firstn (l_at e) ts ++ [t]) /\ ~ a_name t;
  po_some : l_expected e <> [] }.

(** ** Lexical errors *)

(** Some token, possibly a name with escapes of surrogates, begins with the text [v]. *)
Definition begins (v : str) : Prop :=
  (exists w t, lexeme (v ++ w) t) \/
  (exists w b o s bad, quoted_lenient o b s bad /\ v ++ w = backquote :: b ++ [backquote]).

(** The letters that may follow a backslash inside back quotes. *)
Definition escape_letters : list char := [92; 47; 34; 96; 98; 102; 110; 114; 116; 117]%N.

(** The first character of [l], if there is one, does not satisfy [P]. *)
Definition heads_not (P : char -> Prop) (l : str) : Prop := forall c l', l = c :: l' -> ~ P c.

(** [fault l k E]: the text [l] begins with no token; the attempt to read one
    breaks off after [k] characters, where one of the characters [E] is missing.
    Characters that belong to a class (those of words, of names, and digits) are
    not listed; the letter [o] is, because of the symbol [o--o]. *)
Inductive fault : str -> nat -> list char -> Prop :=
| fault_stray l :
    heads_not (fun c => word_start c \/ c = backquote \/ In c (lit "{};.") \/
                        c = newline_char \/ c = return_char) l ->
    fault l 0 (lit "o" ++ [backquote] ++ lit "{};." ++ [newline_char; return_char])
| fault_return l :
    heads_not (fun c => c = newline_char) l ->
    fault (return_char :: l) 1 [newline_char]
| fault_unclosed o b s bad :
    quoted_lenient o b s bad ->
    fault (backquote :: b) (S (length b)) [backquote; backslash]
| fault_escape o b s bad l :
    quoted_lenient o b s bad -> heads_not (fun c => In c escape_letters) l ->
    fault (backquote :: b ++ backslash :: l) (S (S (length b))) escape_letters
| fault_digits o b s bad hs l :
    quoted_lenient o b s bad -> (length hs < 4)%nat ->
    Forall (fun c => exists v, hex_digit c v) hs -> heads_not (fun c => exists v, hex_digit c v) l ->
    fault (backquote :: b ++ [backslash; 117%N] ++ hs ++ l) (S (length b + 2 + length hs)) [].

(** How an error [d] of the tokenizer explains what went wrong: skipped text is
    explained by the place where the first attempt to read it broke off, what was
    found there and what was missing; a bad escape by the place of its digits. *)
Inductive explains (src : str) : diag char -> perror -> Prop :=
| ex_skipped start e E :
    start <= l_at e -> fault (skipn start src) (l_at e - start) E ->
    l_found e = nth_error src (l_at e) -> (forall c, In c (l_expected e) <-> In c E) ->
    explains src (DUnexpected e) (ESkipped start)
| ex_unicode at_ :
    explains src (DCustom at_ (at_ + 4) (lit "invalid unicode character")) (EBadUnicode at_).

(** ** Reports *)

(** [order] lists the elements of a set that is given by a list, each once. *)
Definition enumerates (order : list str -> list str) : Prop :=
  forall l, NoDup (order l) /\ forall x, In x (order l) <-> In x l.

(** [listed xs s]: [s] consists of the texts [xs], separated by commas. *)
Inductive listed : list str -> str -> Prop :=
| listed_one x : listed [x] x
| listed_more x xs s : listed xs s -> listed (x :: xs) (x ++ lit ", " ++ s).

(** [alternatives P s]: [s] lists the texts that satisfy [P], each once. *)
Definition alternatives (P : str -> Prop) (s : str) : Prop :=
  exists xs, listed xs s /\ NoDup xs /\ forall x, In x xs <-> P x.

(** What a report says about the end of the input and about anything else. *)
Definition says (found : option str) (wanted : str) (r : report) : Prop :=
  match found with
  | Some x => rp_message r = lit "Unexpected token in input, expected " ++ wanted /\
              rp_label r = lit "Unexpected token " ++ x
  | None => rp_message r = lit "Unexpected end of input, expected " ++ wanted /\
            rp_label r = lit "Unexpected token end of file"
  end.

(** The four characters at [p] are the digits of the escape of a surrogate. *)
Definition surrogate_at (src : str) (p : nat) : Prop :=
  exists a r c1 c2 c3 c4 d1 d2 d3 d4,
    src = a ++ [backslash; 117%N; c1; c2; c3; c4] ++ r /\ p = length a + 2 /\
    hex_digit c1 d1 /\ hex_digit c2 d2 /\ hex_digit c3 d3 /\ hex_digit c4 d4 /\
    ~ scalar (4096 * d1 + 256 * d2 + 16 * d3 + d4)%N.

(** The report [r] about the error [e] of the tokenizer. *)
Inductive lex_report (src : str) : report -> perror -> Prop :=
| lr_skipped start k E wanted r :
    fault (skipn start src) k E -> start + k <= length src ->
    rp_offset r = start + k -> rp_span r = (start + k, S (start + k)) ->
    says (option_map (fun c => [c]) (nth_error src (start + k))) wanted r ->
    (E = [] -> wanted = lit "something else") ->
    (E <> [] -> alternatives (fun x => exists c, In c E /\ x = [c]) wanted) ->
    lex_report src r (ESkipped start)
| lr_unicode at_ :
    surrogate_at src at_ ->
    lex_report src (mkReport at_ (lit "invalid unicode character") (at_, at_ + 4)
                             (lit "invalid unicode character")) (EBadUnicode at_).

(** The report [r] about the tokens [ts] of the text [src], which are no module:
    it marks the first token that does not fit, or the end of the text. *)
Definition syntax_report (src : str) (ts : list (token * span)) (r : report) : Prop :=
  exists k wanted,
    let before := firstn k (map fst ts) in
    k <= length ts /\ viable before /\
    (forall t sp, nth_error ts k = Some (t, sp) -> ~ viable (before ++ [t])) /\
    rp_offset r = fst (rp_span r) /\
    rp_span r = (match nth_error ts k with Some (_, sp) => sp | None => (length src, S (length src)) end) /\
    says (option_map (fun x => show_token (fst x)) (nth_error ts k)) wanted r /\
    alternatives (fun x => exists t, viable (before ++ [t]) /\ ~ a_name t /\ x = show_token t) wanted.

(** The name of a token in reports: reserved words and the symbol as they are
    written, names without quotes, punctuation between quotes. *)
Inductive token_name : token -> str -> Prop :=
| tn_edge : token_name KEdge (lit "o--o")
| tn_keyword w t : keyword w t -> token_name t w
| tn_ident s : token_name (KIdent s) s
| tn_punct c : token_name (KCtrl c) [39%N; c; 39%N]
| tn_newline : token_name KNewline [39%N; backslash; 110%N; 39%N].
