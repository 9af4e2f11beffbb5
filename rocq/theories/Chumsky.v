(** The part of the parser-combinator crate chumsky 0.8 that
    /repo/src/parser.rs uses.  chumsky is a dependency, not code of /repo: this
    file transcribes its documented semantics (input stream with an offset,
    ordered choice, greedy repetition, secondary errors, skip-and-retry
    recovery).

    Simplifications: an error value is reduced to a tag and an offset (chumsky
    merges sets of expected tokens); "alternative" errors, which are only used
    to improve messages, are dropped; secondary errors of a failing parser are
    dropped (every caller in parser.rs that survives the failure drops them). *)
From Coq Require Import String List Arith Bool.
From Verif Require Import Base.
Import ListNotations.

(** A reported error. *)
Inductive perror :=
| ESkipped (at_ : nat)      (** input skipped by recovery, starting at this offset *)
| EBadUnicode (at_ : nat)   (** parser.rs:127 "invalid unicode character"          *)
| EUnexpected.              (** the final error of a failed parse                  *)

(** Stream position: remaining input and number of items consumed so far. *)
Record stream (I : Type) := mkStream { s_rest : list I; s_off : nat }.
Arguments mkStream {I}. Arguments s_rest {I}. Arguments s_off {I}.

(** Result of one parser run. *)
Inductive presult (I O : Type) :=
| POk (errs : list perror) (o : O) (s : stream I)
| PErr
| PAbort (p : panic).
Arguments POk {I O}. Arguments PErr {I O}. Arguments PAbort {I O}.

Definition parser (I O : Type) := stream I -> presult I O.

Section Combinators.
  Context {I : Type}.

  (** [filter_map]: one item, accepted by [f]. *)
  Definition p_filter_map {O} (f : I -> option O) : parser I O := fun s =>
    match s_rest s with
    | [] => PErr
    | x :: l => match f x with
                | Some o => POk [] o (mkStream l (S (s_off s)))
                | None => PErr
                end
    end.

  (** [filter] *)
  Definition p_filter (f : I -> bool) : parser I I :=
    p_filter_map (fun x => if f x then Some x else None).

  (** [just] of a sequence: all items, in order. *)
  Fixpoint p_just (eqb : I -> I -> bool) (xs : list I) : parser I unit := fun s =>
    match xs with
    | [] => POk [] tt s
    | x :: xs' =>
        match s_rest s with
        | y :: l => if eqb x y then p_just eqb xs' (mkStream l (S (s_off s))) else PErr
        | [] => PErr
        end
    end.

  (** [map], [to] *)
  Definition p_map {A B} (f : A -> B) (p : parser I A) : parser I B := fun s =>
    match p s with
    | POk e a s' => POk e (f a) s'
    | PErr => PErr
    | PAbort x => PAbort x
    end.
  Definition p_to {A B} (b : B) (p : parser I A) : parser I B := p_map (fun _ => b) p.

  (** [try_map] with a partial function *)
  Definition p_try_map {A B} (f : A -> option B) (p : parser I A) : parser I B := fun s =>
    match p s with
    | POk e a s' => match f a with Some b => POk e b s' | None => PErr end
    | PErr => PErr
    | PAbort x => PAbort x
    end.

  (** [then] *)
  Definition p_then {A B} (p : parser I A) (q : parser I B) : parser I (A * B) := fun s =>
    match p s with
    | POk e a s1 =>
        match q s1 with
        | POk e' b s2 => POk (e ++ e') (a, b) s2
        | PErr => PErr
        | PAbort x => PAbort x
        end
    | PErr => PErr
    | PAbort x => PAbort x
    end.
  (** [ignore_then], [then_ignore] *)
  Definition p_ignore_then {A B} (p : parser I A) (q : parser I B) : parser I B :=
    p_map snd (p_then p q).
  Definition p_then_ignore {A B} (p : parser I A) (q : parser I B) : parser I A :=
    p_map fst (p_then p q).

  (** [padded_by] *)
  Definition p_padded_by {A B} (p : parser I A) (pad : parser I B) : parser I A :=
    p_then_ignore (p_ignore_then pad p) pad.

  (** [or]: the second branch is also tried when the first succeeded but with
      secondary errors; it then wins only if it succeeds with fewer of them
      (ties, which chumsky breaks on error offsets, go to the first). *)
  Definition p_or {A} (p q : parser I A) : parser I A := fun s =>
    match p s with
    | POk [] a s1 => POk [] a s1
    | POk e a s1 =>
        match q s with
        | POk e' b s2 => if Nat.ltb (length e') (length e) then POk e' b s2 else POk e a s1
        | PErr => POk e a s1
        | PAbort x => PAbort x
        end
    | PErr => q s
    | PAbort x => PAbort x
    end.

  (** [choice]: ordered choice *)
  Fixpoint p_choice {A} (ps : list (parser I A)) : parser I A := fun s =>
    match ps with
    | [] => PErr
    | p :: ps' => match p s with PErr => p_choice ps' s | r => r end
    end.

  (** [or_not] *)
  Definition p_or_not {A} (p : parser I A) : parser I (option A) := fun s =>
    match p s with
    | POk e a s' => POk e (Some a) s'
    | PErr => POk [] None s
    | PAbort x => PAbort x
    end.

  (** [repeated]: greedy; two consecutive iterations ending at the same offset
      abort the program.  The fuel [S (S (length input))] covers every run (an
      abort with [POutOfFuel] is excluded by the theorems). *)
  Fixpoint p_rep_loop {A} (p : parser I A) (fuel : nat) (old : option nat)
      (errs : list perror) (acc : list A) (s : stream I) : presult I (list A) :=
    match fuel with
    | O => PAbort POutOfFuel
    | S fuel' =>
        match p s with
        | POk e a s' =>
            if match old with Some o => Nat.eqb o (s_off s') | None => false end
            then PAbort PNoProgress
            else p_rep_loop p fuel' (Some (s_off s')) (errs ++ e) (acc ++ [a]) s'
        | PErr => POk errs acc s
        | PAbort x => PAbort x
        end
    end.
  Definition p_repeated {A} (p : parser I A) : parser I (list A) := fun s =>
    p_rep_loop p (S (S (length (s_rest s)))) None [] [] s.

  (** [repeated().exactly(n)] *)
  Fixpoint p_exactly {A} (n : nat) (p : parser I A) : parser I (list A) :=
    match n with
    | O => fun s => POk [] [] s
    | S n' => p_map (fun ab => fst ab :: snd ab) (p_then p (p_exactly n' p))
    end.

  (** [chain]: one item followed by a list *)
  Definition p_chain {A} (p : parser I A) (q : parser I (list A)) : parser I (list A) :=
    p_map (fun ab => fst ab :: snd ab) (p_then p q).

  (** [validate] with a function that may emit one error at the given offset
      (the start of the matched input). *)
  Definition p_validate {A B} (f : A -> nat -> B * list perror) (p : parser I A)
    : parser I B := fun s =>
    match p s with
    | POk e a s' => let '(b, e') := f a (s_off s) in POk (e ++ e') b s'
    | PErr => PErr
    | PAbort x => PAbort x
    end.

  (** [map_with_span]: the span runs from the offset before the parser to the
      offset after it. *)
  Definition p_map_with_span {A B} (f : A -> nat * nat -> B) (p : parser I A) : parser I B :=
    fun s =>
    match p s with
    | POk e a s' => POk e (f a (s_off s, s_off s')) s'
    | PErr => PErr
    | PAbort x => PAbort x
    end.

  (** [recover_with(skip_then_retry_until([]))]: skip one item at a time until
      the parser succeeds; fail at the end of the input. *)
  Fixpoint p_skip_retry {A} (p : parser I A) (start : nat) (l : list I) (off : nat)
    : presult I A :=
    match p (mkStream l off) with
    | POk e a s' => POk (e ++ [ESkipped start]) a s'
    | PAbort x => PAbort x
    | PErr => match l with
              | [] => PErr
              | _ :: l' => p_skip_retry p start l' (S off)
              end
    end.
  Definition p_recover_skip {A} (p : parser I A) : parser I A := fun s =>
    match p s with
    | PErr => p_skip_retry p (s_off s) (s_rest s) (s_off s)
    | r => r
    end.

  (** [parse_recovery]: errors, and the value if any.  Input left over after a
      successful parse is not an error. *)
  Definition parse_recovery {A} (p : parser I A) (input : list I)
    : res (option A * list perror) :=
    match p (mkStream input 0) with
    | POk e a _ => Ret (Some a, e)
    | PErr => Ret (None, [EUnexpected])
    | PAbort x => Panic x
    end.
End Combinators.
