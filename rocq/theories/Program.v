(** The whole of /repo/src/main.rs: from the command line and the bytes that are
    read to the bytes that are written. *)
From Coq Require Import List NArith.
From Verif Require Import Base Parser Render Cli Diag Report Utf8.
Import ListNotations.

(** The world: the command line (an argument that is not Unicode is [None]), the
    files and the standard input ([None]: cannot be read).  Traversals of hash sets
    and the text formatter of the svg crate are parameters as in Report.v, Cli.v. *)
Record world := mkWorld {
  w_args : list (option str);
  w_file : str -> option (list N);
  w_stdin : option (list N) }.

(** How the process ends: exit status 0, an [io::Error] returned by [main] (exit
    status 1), a panic (exit status 101). *)
Inductive ending_of := Success | IoError | Crash (p : panic).

(** What it leaves behind: bytes on stdout, reports on stderr. *)
Record process := mkProcess { p_stdout : list N; p_reports : list report; p_ending : ending_of }.

(** [fs::read_to_string], [Read::read_to_string]: also fail on invalid UTF-8 *)
Definition read_to_string (bytes : option (list N)) : option str :=
  match bytes with Some bs => from_utf8 bs | None => None end.

(** main.rs:10-24.  [args.nth(1)] decodes the program's name, too; [Args::next]
    panics on an argument that is not Unicode. *)
Definition source (w : world) : res (option str) :=
  match w_args w with
  | Some _ :: Some path :: _ => Ret (read_to_string (w_file w path))
  | _ :: _ :: _ => Panic PUnwrap
  | _ => Ret (read_to_string (w_stdin w))
  end.

Definition ending_with (r : res unit) : ending_of :=
  match r with Ret _ => Success | Panic p => Crash p end.

(** main.rs:10-134; writing to stdout and stderr does not fail *)
Definition program (order : list str -> list str) (fmt_text : str -> str) (w : world) : process :=
  match source w with
  | Panic p => mkProcess [] [] (Crash p)
  | Ret None => mkProcess [] [] IoError
  | Ret (Some src) =>
      match reports_of order src with
      | Panic p => mkProcess [] [] (Crash p)
      | Ret rs => let r := main fmt_text src in
                  mkProcess (to_utf8 (stdout r)) rs (ending_with (ending r))
      end
  end.
