(** Syntax errors: the parser of /repo/src/parser.rs once more, this time with
    the error values that chumsky 0.8 builds.  Chumsky.v and Parser.v reduce an
    error to a tag; here it says where the parser got stuck, what it found there
    and what it would have accepted.

    chumsky is a dependency, not code of /repo: this file transcribes its
    documented semantics.  A parser that fails returns the error that lies
    furthest into the input; a parser that succeeds also returns the furthest
    error met on the way (the "alternative" error, chumsky's [alt]), which
    competes with the errors of the parsers that run after it.  Errors at the
    same place are merged.

    Simplifications: the set of expected items (a [HashSet]) is a list whose
    order and repetitions mean nothing; in [repeated], the first secondary error
    of the last, failing round is not merged into the alternative error (in
    parser.rs the items of a repetition have no secondary errors when they fail,
    except the outermost repetition of the tokenizer, whose alternative error is
    never looked at). *)
From Coq Require Import String Ascii List Arith NArith Bool.
From Verif Require Import Base Chumsky Erd Parser.
Import ListNotations.

(** chumsky [Located<I, Simple<I>>] with reason [Unexpected]: the offset in the
    stream, the item found there ([None] at the end), the items expected. *)
Record located (I : Type) := mkLoc { l_at : nat; l_found : option I; l_expected : list I }.
Arguments mkLoc {I}. Arguments l_at {I}. Arguments l_found {I}. Arguments l_expected {I}.

(** An error in the list of secondary errors: a located one, or one emitted by
    [validate] with the span it concerns. *)
Inductive diag (I : Type) :=
| DUnexpected (e : located I)
| DCustom (from_ to_ : nat) (msg : str).
Arguments DUnexpected {I}. Arguments DCustom {I}.

(** chumsky [PResult]. *)
Inductive dresult (I O : Type) :=
| DOk (errs : list (diag I)) (o : O) (alt : option (located I)) (s : stream I)
| DErr (e : located I)
| DAbort (p : panic).
Arguments DOk {I O}. Arguments DErr {I O}. Arguments DAbort {I O}.

Definition dparser (I O : Type) := stream I -> dresult I O.

Section Combinators.
  Context {I : Type}.

  (** [Located::max] with [Simple::merge] *)
  Definition l_max (a b : located I) : located I :=
    if l_at b <? l_at a then a
    else if l_at a <? l_at b then b
    else mkLoc (l_at a) (l_found a) (l_expected a ++ l_expected b).
  Definition l_max_alt (a : located I) (b : option (located I)) : located I :=
    match b with Some b => l_max a b | None => a end.
  (** [merge_alts] *)
  Definition merge_alts (a b : option (located I)) : option (located I) :=
    match a, b with
    | Some a, _ => Some (l_max_alt a b)
    | None, b => b
    end.

  (** [Simple::expected_input_found] at the next item of the stream *)
  Definition unexpected (expected : list I) (s : stream I) : located I :=
    mkLoc (s_off s) (match s_rest s with x :: _ => Some x | [] => None end) expected.

  (** [filter_map] with an error that names nothing *)
  Definition d_filter_map {O} (f : I -> option O) : dparser I O := fun s =>
    match s_rest s with
    | [] => DErr (unexpected [] s)
    | x :: l => match f x with
                | Some o => DOk [] o None (mkStream l (S (s_off s)))
                | None => DErr (unexpected [] s)
                end
    end.

  (** [filter] *)
  Definition d_filter (f : I -> bool) : dparser I I :=
    d_filter_map (fun x => if f x then Some x else None).

  (** [one_of] *)
  Definition d_one_of (eqb : I -> I -> bool) (xs : list I) : dparser I I := fun s =>
    match s_rest s with
    | x :: l => if existsb (eqb x) xs then DOk [] x None (mkStream l (S (s_off s)))
                else DErr (unexpected xs s)
    | [] => DErr (unexpected xs s)
    end.

  (** [just] of a sequence *)
  Fixpoint d_just (eqb : I -> I -> bool) (xs : list I) : dparser I unit := fun s =>
    match xs with
    | [] => DOk [] tt None s
    | x :: xs' =>
        match s_rest s with
        | y :: l => if eqb x y then d_just eqb xs' (mkStream l (S (s_off s)))
                    else DErr (unexpected [x] s)
        | [] => DErr (unexpected [x] s)
        end
    end.

  (** [map], [to] *)
  Definition d_map {A B} (f : A -> B) (p : dparser I A) : dparser I B := fun s =>
    match p s with
    | DOk e a alt s' => DOk e (f a) alt s'
    | DErr e => DErr e
    | DAbort x => DAbort x
    end.
  Definition d_to {A B} (b : B) (p : dparser I A) : dparser I B := d_map (fun _ => b) p.

  (** [try_map]; the error of the function lies where the parser began *)
  Definition d_try_map {A B} (f : A -> option B) (p : dparser I A) : dparser I B := fun s =>
    match p s with
    | DOk e a alt s' => match f a with
                        | Some b => DOk e b alt s'
                        | None => DErr (mkLoc (s_off s) None [])
                        end
    | DErr e => DErr e
    | DAbort x => DAbort x
    end.

  (** [then] *)
  Definition d_then {A B} (p : dparser I A) (q : dparser I B) : dparser I (A * B) := fun s =>
    match p s with
    | DOk e a alt s1 =>
        match q s1 with
        | DOk e' b alt' s2 => DOk (e ++ e') (a, b) (merge_alts alt alt') s2
        | DErr err => DErr (l_max_alt err alt)
        | DAbort x => DAbort x
        end
    | DErr e => DErr e
    | DAbort x => DAbort x
    end.
  Definition d_ignore_then {A B} (p : dparser I A) (q : dparser I B) : dparser I B :=
    d_map snd (d_then p q).
  Definition d_then_ignore {A B} (p : dparser I A) (q : dparser I B) : dparser I A :=
    d_map fst (d_then p q).
  Definition d_padded_by {A B} (p : dparser I A) (pad : dparser I B) : dparser I A :=
    d_then_ignore (d_ignore_then pad p) pad.

  (** [or] *)
  Definition d_or {A} (p q : dparser I A) : dparser I A := fun s =>
    match p s with
    | DOk [] a alt s1 => DOk [] a alt s1
    | DOk e a alt s1 =>
        match q s with
        | DOk e' b alt' s2 =>
            if Nat.ltb (length e') (length e) then DOk e' b alt' s2 else DOk e a alt s1
        | DErr _ => DOk e a alt s1
        | DAbort x => DAbort x
        end
    | DErr err =>
        match q s with
        | DOk e b alt s2 => DOk e b (merge_alts alt (Some err)) s2
        | DErr err' => DErr (l_max err err')
        | DAbort x => DAbort x
        end
    | DAbort x => DAbort x
    end.

  (** [choice]: the errors of the branches that failed are merged *)
  Fixpoint d_choice_from {A} (alt : option (located I)) (ps : list (dparser I A))
    : dparser I A := fun s =>
    match ps with
    | [] => match alt with Some e => DErr e | None => DErr (unexpected [] s) end
    | p :: ps' => match p s with
                  | DErr e => d_choice_from (merge_alts alt (Some e)) ps' s
                  | DOk e a alt' s' => DOk e a (merge_alts alt alt') s'
                  | DAbort x => DAbort x
                  end
    end.
  Definition d_choice {A} (ps : list (dparser I A)) : dparser I A := d_choice_from None ps.

  (** [or_not] *)
  Definition d_or_not {A} (p : dparser I A) : dparser I (option A) := fun s =>
    match p s with
    | DOk e a alt s' => DOk e (Some a) alt s'
    | DErr e => DOk [] None (Some e) s
    | DAbort x => DAbort x
    end.

  (** [repeated] *)
  Fixpoint d_rep_loop {A} (p : dparser I A) (fuel : nat) (old : option nat)
      (errs : list (diag I)) (alt : option (located I)) (acc : list A) (s : stream I)
    : dresult I (list A) :=
    match fuel with
    | O => DAbort POutOfFuel
    | S fuel' =>
        match p s with
        | DOk e a alt' s' =>
            if match old with Some o => Nat.eqb o (s_off s') | None => false end
            then DAbort PNoProgress
            else d_rep_loop p fuel' (Some (s_off s')) (errs ++ e) (merge_alts alt alt')
                   (acc ++ [a]) s'
        | DErr e => DOk errs acc (merge_alts alt (Some e)) s
        | DAbort x => DAbort x
        end
    end.
  Definition d_repeated {A} (p : dparser I A) : dparser I (list A) := fun s =>
    d_rep_loop p (S (S (length (s_rest s)))) None [] None [] s.

  (** [repeated().exactly(n)] *)
  Fixpoint d_exactly {A} (n : nat) (p : dparser I A) : dparser I (list A) :=
    match n with
    | O => fun s => DOk [] [] None s
    | S n' => d_map (fun ab => fst ab :: snd ab) (d_then p (d_exactly n' p))
    end.

  (** [chain] *)
  Definition d_chain {A} (p : dparser I A) (q : dparser I (list A)) : dparser I (list A) :=
    d_map (fun ab => fst ab :: snd ab) (d_then p q).

  (** [validate] with a function of the value and of the span *)
  Definition d_validate {A B} (f : A -> nat * nat -> B * list (diag I)) (p : dparser I A)
    : dparser I B := fun s =>
    match p s with
    | DOk e a alt s' => let '(b, e') := f a (s_off s, s_off s') in DOk (e ++ e') b alt s'
    | DErr e => DErr e
    | DAbort x => DAbort x
    end.

  (** [map_with_span] *)
  Definition d_map_with_span {A B} (f : A -> nat * nat -> B) (p : dparser I A) : dparser I B :=
    fun s =>
    match p s with
    | DOk e a alt s' => DOk e (f a (s_off s, s_off s')) alt s'
    | DErr e => DErr e
    | DAbort x => DAbort x
    end.

  (** [recover_with(skip_then_retry_until([]))]: the error is the one of the
      first attempt, at the beginning of the skipped input *)
  Fixpoint d_skip_retry {A} (p : dparser I A) (err : located I) (l : list I) (off : nat)
    : dresult I A :=
    match p (mkStream l off) with
    | DOk e a alt s' => DOk (e ++ [DUnexpected err]) a alt s'
    | DAbort x => DAbort x
    | DErr _ => match l with
                | [] => DErr err
                | _ :: l' => d_skip_retry p err l' (S off)
                end
    end.
  Definition d_recover_skip {A} (p : dparser I A) : dparser I A := fun s =>
    match p s with
    | DErr err => d_skip_retry p err (s_rest s) (s_off s)
    | r => r
    end.

  (** [parse_recovery] *)
  Definition d_parse_recovery {A} (p : dparser I A) (input : list I)
    : res (option A * list (diag I)) :=
    match p (mkStream input 0) with
    | DOk e a _ _ => Ret (Some a, e)
    | DErr e => Ret (None, [DUnexpected e])
    | DAbort x => Panic x
    end.
End Combinators.

(** ** Tokenizer *)

Section Tokenizer.
  Definition djust_str (s : string) : dparser char unit := d_just N.eqb (lit s).
  Definition djust_chr (c : char) : dparser char unit := d_just N.eqb [c].

  Definition dtext_ident : dparser char str :=
    d_chain (d_filter is_ident_start) (d_repeated (d_filter is_ident_continue)).
  Definition dtext_keyword (k : string) : dparser char unit :=
    d_try_map (fun s => if str_eqb s (lit k) then Some tt else None) dtext_ident.

  (** parser.rs:93-98 *)
  Definition dlex_edge : dparser char token := d_to KEdge (djust_str "o--o").
  Definition dlex_ctrl : dparser char token := d_map KCtrl (d_one_of N.eqb (lit "{};.")).
  Definition dlex_newline : dparser char token :=
    d_choice [d_to KNewline (d_just N.eqb [10%N]); d_to KNewline (d_just N.eqb [13%N; 10%N])].

  (** parser.rs:99-107 *)
  Definition dlex_keyword : dparser char token :=
    d_choice [ d_to KErd (dtext_keyword "erd"); d_to KInt (dtext_keyword "int");
               d_to KUuid (dtext_keyword "uuid"); d_to KText (dtext_keyword "text");
               d_to KTimestamp (dtext_keyword "timestamp");
               d_to KPK (dtext_keyword "PK"); d_to KFK (dtext_keyword "FK") ].

  (** parser.rs:119-131 *)
  Definition bad_unicode : str := lit "invalid unicode character".
  Definition dlex_unicode : dparser char char :=
    d_ignore_then (djust_chr (ch "u"))
      (d_validate
         (fun ds sp => match char_from_u32 (from_hex ds) with
                       | Some c => (c, [])
                       | None => (65533%N, [DCustom (fst sp) (snd sp) bad_unicode])
                       end)
         (d_exactly 4 (d_filter is_hex))).

  Definition djust_as (c r : char) : dparser char char := d_to r (djust_chr c).

  (** parser.rs:109-133 *)
  Definition dlex_escape : dparser char char :=
    d_ignore_then (djust_chr 92%N)
      (d_or (d_or (d_or (d_or (d_or (d_or (d_or (d_or (d_or
         (djust_as 92%N 92%N)
         (djust_as 47%N 47%N))
         (djust_as 34%N 34%N))
         (djust_as 96%N 96%N))
         (djust_as (ch "b") 8%N))
         (djust_as (ch "f") 12%N))
         (djust_as (ch "n") 10%N))
         (djust_as (ch "r") 13%N))
         (djust_as (ch "t") 9%N))
         dlex_unicode).

  (** parser.rs:135-142 *)
  Definition dlex_ident : dparser char token := d_map KIdent dtext_ident.
  Definition dlex_quoted : dparser char token :=
    d_map KIdent
      (d_then_ignore
         (d_ignore_then (djust_chr 96%N)
            (d_repeated (d_or (d_filter is_quoted_plain) dlex_escape)))
         (djust_chr 96%N)).

  (** parser.rs:145-153 *)
  Definition dlex_token_strict : dparser char token :=
    d_or (d_or (d_or (d_or (d_or dlex_edge dlex_keyword) dlex_ident) dlex_quoted) dlex_ctrl)
      dlex_newline.
  Definition dlex_token : dparser char token := d_recover_skip dlex_token_strict.

  (** parser.rs:155-161 *)
  Definition dlex_spaces : dparser char str := d_repeated (d_one_of N.eqb (lit " " ++ [9%N])).
  Definition dlex_comment : dparser char str :=
    d_padded_by
      (d_ignore_then (djust_str "//") (d_repeated (d_filter (fun c => negb (N.eqb c 10)))))
      dlex_spaces.

  (** parser.rs:163-168 *)
  Definition dlex_item : dparser char (token * span) :=
    d_padded_by
      (d_padded_by (d_map_with_span (fun t sp => (t, sp)) dlex_token) (d_repeated dlex_comment))
      dlex_spaces.
  Definition dtokenizer : dparser char (list (token * span)) := d_repeated dlex_item.
End Tokenizer.

(** ** Module parser *)

(** parser.rs:171-174: the error names no expected token *)
Definition d_ident : dparser token str :=
  d_filter_map (fun t => match t with KIdent s => Some s | _ => None end).

Definition d_tok (t : token) : dparser token unit := d_just token_eqb [t].
Definition d_ctrl (c : Ascii.ascii) : dparser token unit := d_tok (KCtrl (ch c)).

(** parser.rs:176-178 *)
Definition d_separator : dparser token unit :=
  d_choice [d_to tt (d_tok KNewline); d_to tt (d_ctrl ";")].
Definition d_pad : dparser token (list unit) := d_repeated d_separator.

(** parser.rs:184-194 *)
Definition d_field_type : dparser token field_type :=
  d_choice [ d_to TInt (d_tok KInt); d_to TUuid (d_tok KUuid);
             d_to TText (d_tok KText); d_to TTimestamp (d_tok KTimestamp) ].
Definition d_field_key : dparser token field_key :=
  d_choice [d_to PrimaryKey (d_tok KPK); d_to ForeignKey (d_tok KFK)].

(** parser.rs:196-204 *)
Definition d_entity_path : dparser token entity_path :=
  d_map (fun tf => match snd tf with
                   | Some f => PField (fst tf) f
                   | None => PEntity (fst tf)
                   end)
    (d_then d_ident (d_ignore_then (d_ctrl ".") (d_or_not d_ident))).

(** parser.rs:206-209 *)
Definition d_entity_field : dparser token entity_field :=
  d_map (fun x => mkField (fst (fst x)) (snd (fst x)) (snd x))
    (d_then (d_then d_ident d_field_type) (d_or_not d_field_key)).

(** parser.rs:214-218 and 256-260 *)
Definition d_sep_rest {A} (p : dparser token A) : dparser token (list A) :=
  d_repeated (d_ignore_then (d_ignore_then d_separator d_pad) p).

(** parser.rs:211-222 *)
Definition d_entity_fields : dparser token (list entity_field) :=
  d_map unwrap_or_nil
    (d_padded_by (d_or_not (d_chain d_entity_field (d_sep_rest d_entity_field))) d_pad).

(** parser.rs:224-237 *)
Definition d_entity_definition : dparser token entity_definition :=
  d_map (fun nf => fold_left entity_add_field (snd nf) (entity_new (fst nf)))
    (d_then_ignore
       (d_then (d_then_ignore (d_then_ignore d_ident d_pad) (d_ctrl "{")) d_entity_fields)
       (d_ctrl "}")).

(** parser.rs:239-246 *)
Definition d_relation : dparser token entity_relation :=
  d_map (fun ab => mkRelation (fst ab) (snd ab))
    (d_then d_entity_path
       (d_ignore_then (d_padded_by (d_tok KEdge) d_pad) d_entity_path)).

(** parser.rs:248-263 *)
Definition d_module_entry : dparser token module_entry :=
  d_choice [d_map EDef d_entity_definition; d_map ERel d_relation].
Definition d_module_entries : dparser token (list module_entry) :=
  d_map unwrap_or_nil (d_or_not (d_chain d_module_entry (d_sep_rest d_module_entry))).

(** parser.rs:170-281 *)
Definition d_erd_module_parser : dparser token module :=
  d_map (fun ne => fold_left module_add_entry (snd ne) (module_new (fst ne)))
    (d_padded_by
       (d_then_ignore
          (d_then
             (d_then_ignore
                (d_ignore_then (d_padded_by (d_tok KErd) d_pad)
                   (d_or_not (d_padded_by d_ident d_pad)))
                (d_ctrl "{"))
             (d_padded_by d_module_entries d_pad))
          (d_ctrl "}"))
       d_pad).

(** parser.rs:76-90: the module if any, the errors of the two stages, and the
    spans of the tokens, which are the spans of the second stage's input *)
Record diagnosis := mkDiagnosis {
  dg_ast : option module;
  dg_lex : list (diag char);
  dg_syn : list (diag token);
  dg_spans : list span }.

Definition diagnose (src : str) : res diagnosis :=
  do te <- d_parse_recovery dtokenizer src;
  match te with
  | (Some toks, errs) =>
      do mp <- d_parse_recovery d_erd_module_parser (map fst toks);
      Ret (mkDiagnosis (fst mp) errs (snd mp) (map snd toks))
  | (None, errs) => Ret (mkDiagnosis None errs [] [])
  end.
