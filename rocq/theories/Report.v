(** The error reports of /repo/src/main.rs, lines 26-105. *)
From Coq Require Import String List Arith NArith Bool.
From Verif Require Import Base Chumsky Erd Parser Diag.
Import ListNotations.

(** chumsky [Simple<String>], without the reason [Unclosed], which nothing in
    parser.rs produces. *)
Inductive reason := Unexpected | Custom (msg : str).
Record simple := mkSimple {
  sm_span : span; sm_found : option str; sm_expected : list str; sm_reason : reason }.

(** The span of a located error: that of the item at its offset, or the span
    given for the end of the input (chumsky [Stream::next]). *)
Definition span_at (spans : list span) (eoi : span) (at_ : nat) : span := nth at_ spans eoi.

(** [e.map(|x| x.to_string())], main.rs:29-33 *)
Definition to_simple {I} (show : I -> str) (sp : nat -> span) (d : diag I) : simple :=
  match d with
  | DUnexpected e =>
      mkSimple (sp (l_at e)) (option_map show (l_found e)) (map show (l_expected e)) Unexpected
  | DCustom a b msg => mkSimple (a, b) None [] (Custom msg)
  end.

(** A report: the offset it is filed under, its message, and its label with the
    span it marks.  Colours and the drawing of the excerpt (crate ariadne) are not
    modelled. *)
Record report := mkReport {
  rp_offset : nat; rp_message : str; rp_span : span; rp_label : str }.

(** [Vec<String>::join(", ")] *)
Fixpoint comma_join (l : list str) : str :=
  match l with
  | [] => []
  | [x] => x
  | x :: l' => x ++ lit ", " ++ comma_join l'
  end.

Definition end_of_file : str := lit "end of file".
Definition found_text (o : option str) : str :=
  match o with Some s => s | None => end_of_file end.

(** main.rs:36-99.  [order] is the order in which the hash set of expected items
    is traversed. *)
Definition report_of (order : list str -> list str) (e : simple) : report :=
  match sm_reason e with
  | Unexpected =>
      mkReport (fst (sm_span e))
        ((if match sm_found e with Some _ => true | None => false end
          then lit "Unexpected token in input" else lit "Unexpected end of input")
         ++ lit ", expected "
         ++ match sm_expected e with
            | [] => lit "something else"
            | l => comma_join (order l)
            end)
        (sm_span e) (lit "Unexpected token " ++ found_text (sm_found e))
  | Custom msg => mkReport (fst (sm_span e)) msg (sm_span e) msg
  end.

(** main.rs:26-36: the errors of both stages, as printed *)
Definition errors_of (src : str) (d : diagnosis) : list simple :=
  let len := length src in
  let eoi := (len, S len) in
  map (to_simple (fun c : char => [c]) (fun o => if o <? len then (o, S o) else eoi)) (dg_lex d) ++
  map (to_simple show_token (span_at (dg_spans d) eoi)) (dg_syn d).

Definition reports_of (order : list str -> list str) (src : str) : res (list report) :=
  do d <- diagnose src;
  Ret (map (report_of order) (errors_of src d)).
