(** /repo/src/parser.rs *)
From Coq Require Import String Ascii List Arith NArith Bool.
From Verif Require Import Base Mir Erd Chumsky.
Import ListNotations.

(** parser.rs:42 *)
Definition span := (nat * nat)%type.

(** parser.rs:44-72 *)
Inductive token :=
| KEdge | KIdent (s : str) | KErd | KInt | KUuid | KText | KTimestamp | KPK | KFK
| KCtrl (c : char) | KNewline.

Definition token_eqb (a b : token) : bool :=
  match a, b with
  | KEdge, KEdge | KErd, KErd | KInt, KInt | KUuid, KUuid | KText, KText
  | KTimestamp, KTimestamp | KPK, KPK | KFK, KFK | KNewline, KNewline => true
  | KIdent s, KIdent t => str_eqb s t
  | KCtrl c, KCtrl d => N.eqb c d
  | _, _ => false
  end.

(** [Display for Token], parser.rs:44-72 *)
Definition show_token (t : token) : str :=
  match t with
  | KEdge => lit "o--o"
  | KIdent s => s
  | KErd => lit "erd"
  | KInt => lit "int"
  | KUuid => lit "uuid"
  | KText => lit "text"
  | KTimestamp => lit "timestamp"
  | KPK => lit "PK"
  | KFK => lit "FK"
  | KCtrl c => lit "'" ++ [c] ++ lit "'"
  | KNewline => lit "'\n'"
  end.

(** ** Tokenizer *)

Section Tokenizer.

  Local Open Scope bool_scope.

  Definition just_str (s : string) : parser char unit := p_just N.eqb (lit s).
  Definition just_chr (c : char) : parser char unit := p_just N.eqb [c].

  (** ASCII classes used by chumsky's [text::ident] *)
  Definition is_ascii_alpha (c : char) : bool :=
    ((65 <=? c) && (c <=? 90) || (97 <=? c) && (c <=? 122))%N.
  Definition is_ascii_digit (c : char) : bool := ((48 <=? c) && (c <=? 57))%N.
  Definition is_ident_start (c : char) : bool := is_ascii_alpha c || N.eqb c 95.
  Definition is_ident_continue (c : char) : bool :=
    is_ascii_alpha c || is_ascii_digit c || N.eqb c 95.

  (** chumsky [text::ident]: [[a-zA-Z_][a-zA-Z0-9_]*] *)
  Definition text_ident : parser char str :=
    p_chain (p_filter is_ident_start) (p_repeated (p_filter is_ident_continue)).

  (** chumsky [text::keyword]: an identifier equal to the keyword *)
  Definition text_keyword (k : string) : parser char unit :=
    p_try_map (fun s => if str_eqb s (lit k) then Some tt else None) text_ident.

  (** parser.rs:93 *)
  Definition lex_edge : parser char token := p_to KEdge (just_str "o--o").

  (** parser.rs:94 *)
  Definition is_ctrl (c : char) : bool :=
    existsb (N.eqb c) (lit "{};.").
  Definition lex_ctrl : parser char token := p_map KCtrl (p_filter is_ctrl).

  (** parser.rs:95-98 *)
  Definition lex_newline : parser char token :=
    p_choice [p_to KNewline (p_just N.eqb [10%N]); p_to KNewline (p_just N.eqb [13%N; 10%N])].

  (** parser.rs:99-107 *)
  Definition lex_keyword : parser char token :=
    p_choice [ p_to KErd (text_keyword "erd"); p_to KInt (text_keyword "int");
               p_to KUuid (text_keyword "uuid"); p_to KText (text_keyword "text");
               p_to KTimestamp (text_keyword "timestamp");
               p_to KPK (text_keyword "PK"); p_to KFK (text_keyword "FK") ].

  (** [c.is_digit(16)] and its value *)
  Definition hex_value (c : char) : option N :=
    if is_ascii_digit c then Some (c - 48)%N
    else if ((97 <=? c) && (c <=? 102))%N then Some (c - 87)%N
    else if ((65 <=? c) && (c <=? 70))%N then Some (c - 55)%N
    else None.
  Definition is_hex (c : char) : bool := match hex_value c with Some _ => true | None => false end.

  (** [u32::from_str_radix(&digits, 16).unwrap()] on hexadecimal digits *)
  Definition from_hex (ds : str) : N :=
    fold_left (fun acc c => (16 * acc + match hex_value c with Some v => v | None => 0 end)%N) ds 0%N.

  (** [char::from_u32]: a Unicode scalar value *)
  Definition is_scalar (n : N) : bool :=
    ((n <? 55296) || (57343 <? n) && (n <? 1114112))%N.
  Definition char_from_u32 (n : N) : option char := if is_scalar n then Some n else None.

  (** parser.rs:119-131 *)
  Definition lex_unicode : parser char char :=
    p_ignore_then (just_chr (ch "u"))
      (p_validate
         (fun ds at_ => match char_from_u32 (from_hex ds) with
                        | Some c => (c, [])
                        | None => (65533%N, [EBadUnicode at_])
                        end)
         (p_exactly 4 (p_filter is_hex))).

  Definition just_as (c r : char) : parser char char := p_to r (just_chr c).

  (** parser.rs:109-133.  Code points: 92 backslash, 96 backtick, 47 slash,
      34 double quote. *)
  Definition lex_escape : parser char char :=
    p_ignore_then (just_chr 92%N)
      (p_or (p_or (p_or (p_or (p_or (p_or (p_or (p_or (p_or
         (just_as 92%N 92%N)
         (just_as 47%N 47%N))
         (just_as 34%N 34%N))
         (just_as 96%N 96%N))
         (just_as (ch "b") 8%N))
         (just_as (ch "f") 12%N))
         (just_as (ch "n") 10%N))
         (just_as (ch "r") 13%N))
         (just_as (ch "t") 9%N))
         lex_unicode).

  (** parser.rs:135 *)
  Definition lex_ident : parser char token := p_map KIdent text_ident.

  (** parser.rs:138-142 *)
  Definition is_quoted_plain (c : char) : bool := negb (N.eqb c 92) && negb (N.eqb c 96).
  Definition lex_quoted : parser char token :=
    p_map KIdent
      (p_then_ignore
         (p_ignore_then (just_chr 96%N)
            (p_repeated (p_or (p_filter is_quoted_plain) lex_escape)))
         (just_chr 96%N)).

  (** parser.rs:145-150: the alternatives, before recovery *)
  Definition lex_token_strict : parser char token :=
    p_or (p_or (p_or (p_or (p_or lex_edge lex_keyword) lex_ident) lex_quoted) lex_ctrl) lex_newline.

  (** parser.rs:145-153 *)
  Definition lex_token : parser char token := p_recover_skip lex_token_strict.

  (** parser.rs:155-157 *)
  Definition is_space (c : char) : bool := N.eqb c 32 || N.eqb c 9.
  Definition lex_spaces : parser char str := p_repeated (p_filter is_space).

  (** parser.rs:158-161 *)
  Definition lex_comment : parser char str :=
    p_padded_by
      (p_ignore_then (just_str "//") (p_repeated (p_filter (fun c => negb (N.eqb c 10)))))
      lex_spaces.

  (** parser.rs:163-166: one token with its padding *)
  Definition lex_item : parser char (token * span) :=
    p_padded_by
      (p_padded_by (p_map_with_span (fun t sp => (t, sp)) lex_token) (p_repeated lex_comment))
      lex_spaces.

  (** parser.rs:92-168 *)
  Definition tokenizer : parser char (list (token * span)) := p_repeated lex_item.
End Tokenizer.

(** ** Module parser.  Its input items are the tokens with their spans; the
    spans only serve error messages, so the model parses plain tokens. *)

(** parser.rs:171-174 *)
Definition p_ident : parser token str :=
  p_filter_map (fun t => match t with KIdent s => Some s | _ => None end).

Definition p_tok (t : token) : parser token unit := p_just token_eqb [t].
Definition p_ctrl (c : Ascii.ascii) : parser token unit := p_tok (KCtrl (ch c)).

(** parser.rs:176 *)
Definition p_separator : parser token unit :=
  p_choice [p_to tt (p_tok KNewline); p_to tt (p_ctrl ";")].

(** parser.rs:178 *)
Definition p_pad : parser token (list unit) := p_repeated p_separator.

(** parser.rs:184-189 *)
Definition p_field_type : parser token field_type :=
  p_choice [ p_to TInt (p_tok KInt); p_to TUuid (p_tok KUuid);
             p_to TText (p_tok KText); p_to TTimestamp (p_tok KTimestamp) ].

(** parser.rs:191-194 *)
Definition p_field_key : parser token field_key :=
  p_choice [p_to PrimaryKey (p_tok KPK); p_to ForeignKey (p_tok KFK)].

(** parser.rs:196-204.  The dot is mandatory, the name after it optional. *)
Definition p_entity_path : parser token entity_path :=
  p_map (fun tf => match snd tf with
                   | Some f => PField (fst tf) f
                   | None => PEntity (fst tf)
                   end)
    (p_then p_ident (p_ignore_then (p_ctrl ".") (p_or_not p_ident))).

(** parser.rs:206-209 *)
Definition p_entity_field : parser token entity_field :=
  p_map (fun x => mkField (fst (fst x)) (snd (fst x)) (snd x))
    (p_then (p_then p_ident p_field_type) (p_or_not p_field_key)).

Definition unwrap_or_nil {A} (o : option (list A)) : list A :=
  match o with Some l => l | None => [] end.

(** [separator.ignore_then(pad).ignore_then(p).repeated()], parser.rs:214-218
    and 256-260 *)
Definition p_sep_rest {A} (p : parser token A) : parser token (list A) :=
  p_repeated (p_ignore_then (p_ignore_then p_separator p_pad) p).

(** parser.rs:211-222 *)
Definition p_entity_fields : parser token (list entity_field) :=
  p_map unwrap_or_nil
    (p_padded_by (p_or_not (p_chain p_entity_field (p_sep_rest p_entity_field))) p_pad).

(** parser.rs:224-237 *)
Definition p_entity_definition : parser token entity_definition :=
  p_map (fun nf => fold_left entity_add_field (snd nf) (entity_new (fst nf)))
    (p_then_ignore
       (p_then (p_then_ignore (p_then_ignore p_ident p_pad) (p_ctrl "{")) p_entity_fields)
       (p_ctrl "}")).

(** parser.rs:239-246 *)
Definition p_relation : parser token entity_relation :=
  p_map (fun ab => mkRelation (fst ab) (snd ab))
    (p_then p_entity_path
       (p_ignore_then (p_padded_by (p_tok KEdge) p_pad) p_entity_path)).

(** parser.rs:248-251 *)
Definition p_module_entry : parser token module_entry :=
  p_choice [p_map EDef p_entity_definition; p_map ERel p_relation].

(** parser.rs:253-263 *)
Definition p_module_entries : parser token (list module_entry) :=
  p_map unwrap_or_nil (p_or_not (p_chain p_module_entry (p_sep_rest p_module_entry))).

(** parser.rs:170-281 *)
Definition erd_module_parser : parser token module :=
  p_map (fun ne => fold_left module_add_entry (snd ne) (module_new (fst ne)))
    (p_padded_by
       (p_then_ignore
          (p_then
             (p_then_ignore
                (p_ignore_then (p_padded_by (p_tok KErd) p_pad)
                   (p_or_not (p_padded_by p_ident p_pad)))
                (p_ctrl "{"))
             (p_padded_by p_module_entries p_pad))
          (p_ctrl "}"))
       p_pad).

(** parser.rs:74 *)
Record parse_result := mkParse {
  pr_ast : option module;
  pr_lex_errs : list perror;
  pr_parse_errs : list perror }.

(** parser.rs:76-90 *)
Definition parse (src : str) : res parse_result :=
  do te <- parse_recovery tokenizer src;
  match te with
  | (Some toks, errs) =>
      do mp <- parse_recovery erd_module_parser (map fst toks);
      Ret (mkParse (fst mp) errs (snd mp))
  | (None, errs) => Ret (mkParse None errs [])
  end.
