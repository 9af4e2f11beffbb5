(** The program from bytes to bytes: C78. *)
From Coq Require Import String List Arith NArith.
From Verif Require Import Base Chumsky Erd Parser Svg Render Cli Diag Report Utf8 Program
  SpecLex SpecMir SpecRender SpecXml SpecUtf8 SpecProgram Utf8Facts ReportFacts ProgramFacts.
Import ListNotations.

(** Decoding is decoding of UTF-8: it accepts what is UTF-8 and nothing else, and a
    text has exactly one encoding. *)
Theorem C78_decoding : forall bs s, from_utf8 bs = Some s <-> utf8 s bs.
Proof. exact from_utf8_spec. Qed.
Print Assumptions C78_decoding.

Theorem C78_encoding : forall s bs, utf8 s bs <-> Forall scalar s /\ bs = to_utf8 s.
Proof. exact utf8_det. Qed.
Print Assumptions C78_encoding.

(** Input in UTF-8: the reports and the way the process ends are those of its text,
    and what is printed is the UTF-8 encoding of the drawing. *)
Theorem C78_program_runs : forall order fmt w bs src, input w (Some bs) -> utf8 src bs ->
  (forall s, Forall scalar s -> Forall scalar (fmt s)) ->
  reports_of order src = Ret (p_reports (program order fmt w)) /\
  utf8 (stdout (main fmt src)) (p_stdout (program order fmt w)) /\
  match ending (main fmt src) with
  | Ret _ => p_ending (program order fmt w) = Success
  | Panic p => p_ending (program order fmt w) = Crash p
  end.
Proof. exact program_runs. Qed.
Print Assumptions C78_program_runs.

(** Both candidates for the text formatter meet the hypothesis. *)
Example C78_formatters : (forall s, Forall scalar s -> Forall scalar (escaped s)) /\
                         (forall s : str, Forall scalar s -> Forall scalar s).
Proof. exact (conj escaped_scalars (fun s H => H)). Qed.

(** Input that cannot be read or is not UTF-8: an error and nothing else. *)
Theorem C78_unreadable : forall order fmt w bytes, input w bytes ->
  (forall bs src, bytes = Some bs -> ~ utf8 src bs) ->
  program order fmt w = mkProcess [] [] IoError.
Proof. exact program_unreadable. Qed.
Print Assumptions C78_unreadable.

(** A command line that is not Unicode: a panic and nothing else. *)
Theorem C78_arguments : forall order fmt w, (forall bytes, ~ input w bytes) ->
  program order fmt w = mkProcess [] [] (Crash PUnwrap).
Proof. exact program_arguments. Qed.
Print Assumptions C78_arguments.

(** There is no partial output. *)
Theorem C78_all_or_nothing : forall order fmt w,
  p_ending (program order fmt w) <> Success -> p_stdout (program order fmt w) = [].
Proof. exact program_whole. Qed.
Print Assumptions C78_all_or_nothing.

(** From bytes to bytes: a successful run on a source with readable names prints the
    UTF-8 encoding of an XML document that shows the drawing. *)
Theorem C78_document : forall order w bs src r m, input w (Some bs) -> utf8 src bs ->
  parse src = Ret r -> pr_ast r = Some m -> names_are readable m ->
  p_ending (program order escaped w) = Success ->
  exists out svg x, utf8 out (p_stdout (program order escaped w)) /\
    render_module m = Okay svg /\ element out x /\ shows x svg.
Proof. exact program_document. Qed.
Print Assumptions C78_document.

(** A table whose name is the euro sign, read from a file; the name appears in the
    output in UTF-8. *)
Definition euro_bytes : list N := lit "erd { `" ++ [226; 130; 172]%N ++ lit "` { a int PK } }".
Definition euro_world : world :=
  mkWorld [Some (lit "seiren"); Some (lit "x.erd"); None] (fun _ => Some euro_bytes) None.

Fixpoint occurs (u s : list N) : bool :=
  match s with
  | [] => match u with [] => true | _ => false end
  | _ :: s' => if list_eq_dec N.eq_dec (firstn (length u) s) u then true else occurs u s'
  end.
Example C78_example :
  input euro_world (Some euro_bytes) /\ utf8 (lit "erd { `" ++ [8364]%N ++ lit "` { a int PK } }") euro_bytes /\
  p_ending (program in_order escaped euro_world) = Success /\
  p_reports (program in_order escaped euro_world) = [] /\
  occurs [226; 130; 172]%N (p_stdout (program in_order escaped euro_world)) = true.
Proof.
  split; [exact (input_file euro_world (lit "seiren") (lit "x.erd") [None] eq_refl)|].
  split; [apply from_utf8_spec; vm_compute; reflexivity|]. repeat split; vm_compute; reflexivity.
Qed.

(** Overlong encodings, surrogates and truncated sequences are rejected. *)
Example C78_rejects :
  map from_utf8 [[255]; [192; 128]; [237; 160; 128]; [226; 130]; [244; 144; 128; 128]]%N = repeat None 5.
Proof. vm_compute. reflexivity. Qed.
Example C78_bad_argument :
  forall bytes, ~ input (mkWorld [Some []; None] (fun _ => None) None) bytes.
Proof.
  exact (fun bytes H => match H in input _ _ with
    | input_stdin _ L => Nat.nle_succ_diag_l 1 L
    | input_file _ _ _ _ E => eq_ind (Some [] :: None :: [])
        (fun l => match l with _ :: Some _ :: _ => False | _ => True end) I _ E end).
Qed.
