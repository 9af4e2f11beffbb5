(** What the program reads. *)
From Coq Require Import List NArith.
From Verif Require Import Base Program.
Import ListNotations.

(** Without arguments the standard input, otherwise the file named by the first
    argument. *)
Inductive input (w : world) : option (list N) -> Prop :=
| input_stdin : length (w_args w) <= 1 -> input w (w_stdin w)
| input_file a path l : w_args w = Some a :: Some path :: l -> input w (w_file w path).
