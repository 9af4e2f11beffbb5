(** Lexical specification, written from the EBNF comment of /repo/src/parser.rs
    (lines 1-37) and the README, independently of the tokenizer.  It uses the
    token type of the model only. *)
From Coq Require Import String List NArith.
From Verif Require Import Base Chumsky Parser.
Import ListNotations.
Local Open Scope N_scope.

Definition letter (c : char) : Prop := 65 <= c <= 90 \/ 97 <= c <= 122.
Definition digit (c : char) : Prop := 48 <= c <= 57.
Definition word_start (c : char) : Prop := letter c \/ c = 95.
Definition word_char (c : char) : Prop := letter c \/ digit c \/ c = 95.
Definition blank (c : char) : Prop := c = 32 \/ c = 9.
Definition newline_char : char := 10.
Definition return_char : char := 13.
Definition backquote : char := 96.
Definition backslash : char := 92.

(** An unquoted word. *)
Inductive word : str -> Prop :=
| word_intro c w : word_start c -> Forall word_char w -> word (c :: w).

(** The reserved words. *)
Inductive keyword : str -> token -> Prop :=
| kw_erd : keyword (lit "erd") KErd
| kw_int : keyword (lit "int") KInt
| kw_uuid : keyword (lit "uuid") KUuid
| kw_text : keyword (lit "text") KText
| kw_timestamp : keyword (lit "timestamp") KTimestamp
| kw_pk : keyword (lit "PK") KPK
| kw_fk : keyword (lit "FK") KFK.

Definition reserved (w : str) : Prop := exists t, keyword w t.

(** A hexadecimal digit and its value. *)
Definition hex_digit (c : char) (v : N) : Prop :=
  (48 <= c <= 57 /\ v = c - 48) \/ (97 <= c <= 102 /\ v = c - 87) \/ (65 <= c <= 70 /\ v = c - 55).

(** A Unicode scalar value: a code point that is not a surrogate. *)
Definition scalar (n : N) : Prop := n < 55296 \/ 57343 < n < 1114112.

(** Escape sequences inside back quotes. *)
Inductive escape : str -> char -> Prop :=
| esc_backslash : escape [backslash; 92] 92
| esc_slash : escape [backslash; 47] 47
| esc_dquote : escape [backslash; 34] 34
| esc_backquote : escape [backslash; 96] 96
| esc_b : escape [backslash; 98] 8
| esc_f : escape [backslash; 102] 12
| esc_n : escape [backslash; 110] 10
| esc_r : escape [backslash; 114] 13
| esc_t : escape [backslash; 116] 9
| esc_u c1 c2 c3 c4 d1 d2 d3 d4 :
    hex_digit c1 d1 -> hex_digit c2 d2 -> hex_digit c3 d3 -> hex_digit c4 d4 ->
    scalar (4096 * d1 + 256 * d2 + 16 * d3 + d4) ->
    escape [backslash; 117; c1; c2; c3; c4] (4096 * d1 + 256 * d2 + 16 * d3 + d4).

(** The inside of a back-quoted name and the name it denotes. *)
Inductive quoted : str -> str -> Prop :=
| quoted_nil : quoted [] []
| quoted_plain c b s : c <> backslash -> c <> backquote -> quoted b s -> quoted (c :: b) (c :: s)
| quoted_escape e c b s : escape e c -> quoted b s -> quoted (e ++ b) (c :: s).

(** The same, where escapes of surrogates are tolerated: each denotes U+FFFD and
    the offset of its digits is listed.  [o] is the offset of the first character. *)
Inductive quoted_lenient : nat -> str -> str -> list nat -> Prop :=
| ql_nil o : quoted_lenient o [] [] []
| ql_plain o c b s bad :
    c <> backslash -> c <> backquote -> quoted_lenient (S o) b s bad ->
    quoted_lenient o (c :: b) (c :: s) bad
| ql_escape o e c b s bad :
    escape e c -> quoted_lenient (o + length e) b s bad ->
    quoted_lenient o (e ++ b) (c :: s) bad
| ql_surrogate o c1 c2 c3 c4 d1 d2 d3 d4 b s bad :
    hex_digit c1 d1 -> hex_digit c2 d2 -> hex_digit c3 d3 -> hex_digit c4 d4 ->
    ~ scalar (4096 * d1 + 256 * d2 + 16 * d3 + d4) ->
    quoted_lenient (o + 6) b s bad ->
    quoted_lenient o ([backslash; 117; c1; c2; c3; c4] ++ b) (65533 :: s) ((o + 2)%nat :: bad).

(** The spellings of a token. *)
Inductive lexeme : str -> token -> Prop :=
| lx_edge : lexeme (lit "o--o") KEdge
| lx_kw w t : keyword w t -> lexeme w t
| lx_word w : word w -> ~ reserved w -> lexeme w (KIdent w)
| lx_quote b s : quoted b s -> lexeme (backquote :: b ++ [backquote]) (KIdent s)
| lx_punct c : In c (lit "{};.") -> lexeme [c] (KCtrl c)
| lx_lf : lexeme [newline_char] KNewline
| lx_crlf : lexeme [return_char; newline_char] KNewline.

(** Longest match: a word must not be followed by a character that would
    continue it, and the symbol [o--o] is not read as the word [o]. *)
Definition no_word_char (r : str) : Prop := forall c r', r = c :: r' -> ~ word_char c.
Definition delimited (u r : str) : Prop :=
  word u -> no_word_char r /\ (forall r', u ++ r <> lit "o--o" ++ r').

(** A token with spelling [u] begins the text [s = u ++ r]. *)
Definition starts_with (s u : str) (t : token) (r : str) : Prop :=
  s = u ++ r /\ lexeme u t /\ delimited u r.

(** [skips s r]: between [s] and [r] there are only blanks, or blanks and a
    comment that runs to the end of the line (or of the text). *)
Inductive skips : str -> str -> Prop :=
| skips_refl s : skips s s
| skips_blank c s r : blank c -> skips s r -> skips (c :: s) r
| skips_comment txt r :
    ~ In newline_char txt -> (r = [] \/ exists r', r = newline_char :: r') ->
    skips (lit "//" ++ txt ++ r) r.

(** [reads o s ts r]: the text [s], whose first character has offset [o], reads
    as the tokens [ts] with their spans, leaving [r]. *)
Inductive reads : nat -> str -> list (token * span) -> str -> Prop :=
| reads_nil o s : reads o s [] s
| reads_cons o s s' u t r r' ts start stop :
    skips s s' -> starts_with s' u t r ->
    start = (o + (length s - length s'))%nat -> stop = (start + length u)%nat ->
    reads stop r ts r' ->
    reads o s ((t, (start, stop)) :: ts) r'.

(** No token begins anywhere in [s]. *)
Definition tokenless (s : str) : Prop :=
  forall v w u t r, s = v ++ w -> ~ starts_with w u t r.

(** [s] begins neither with a blank nor with a comment. *)
Definition unpadded (s : str) : Prop :=
  (forall c r', s = c :: r' -> ~ blank c) /\ (forall r', s <> lit "//" ++ r').

(** After the blanks and the comment at its beginning, [s] contains no token. *)
Definition barren (s : str) : Prop :=
  exists r, skips s r /\ unpadded r /\ tokenless r.

(** ** Reading with recovery *)

(** As [starts_with], where a quoted name may contain escapes of surrogates;
    [bad] lists the offsets of those escapes, [o] is the offset of [s]. *)
Inductive tolerated (o : nat) (s u : str) (t : token) (r : str) : list nat -> Prop :=
| tol_clean : starts_with s u t r -> tolerated o s u t r []
| tol_quote b v bad :
    s = u ++ r -> u = backquote :: b ++ [backquote] -> t = KIdent v ->
    quoted_lenient (S o) b v bad -> bad <> [] ->
    tolerated o s u t r bad.

(** [scans o s ts errs r]: as [reads], but text in which no token begins may be
    passed over before a token.  The span of the token then starts where the
    passed-over text starts, and the error list says so. *)
Inductive scans : nat -> str -> list (token * span) -> list perror -> str -> Prop :=
| scans_nil o s : scans o s [] [] s
| scans_cons o s junk w u t r r' bad ts errs start stop :
    skips s (junk ++ w) ->
    start = (o + (length s - length (junk ++ w)))%nat ->
    unpadded (junk ++ w) ->
    (forall j1 j2 u t r bad o', junk = j1 ++ j2 -> j2 <> [] -> ~ tolerated o' (j2 ++ w) u t r bad) ->
    tolerated (start + length junk) w u t r bad ->
    stop = (start + length junk + length u)%nat ->
    scans stop r ts errs r' ->
    scans o s ((t, (start, stop)) :: ts)
          (map EBadUnicode bad ++ (match junk with [] => [] | _ => [ESkipped start] end) ++ errs) r'.

(** ** Spans *)

(** [spans_in lo hi ts]: the spans are non-empty, in order, without overlap, and
    between the offsets [lo] and [hi]. *)
Inductive spans_in (hi : nat) : nat -> list (token * span) -> Prop :=
| spans_nil lo : spans_in hi lo []
| spans_cons lo t a b ts :
    (lo <= a)%nat -> (a < b)%nat -> (b <= hi)%nat -> spans_in hi b ts ->
    spans_in hi lo ((t, (a, b)) :: ts).

(** The position an error points at ([None] for the final syntax error). *)
Definition error_offset (e : perror) : option nat :=
  match e with ESkipped p => Some p | EBadUnicode p => Some p | EUnexpected => None end.

(** The characters of [src] between the offsets [a] and [b]. *)
Definition slice (src : str) (a b : nat) : str := firstn (b - a) (skipn a src).
