(** Reading decimal numerals. *)
From Coq Require Import List NArith ZArith Reals.
From Verif Require Import Base.
Import ListNotations.

Definition digit (c : char) : Prop := (48 <= c <= 57)%N.

(** The number a string of digits denotes. *)
Definition numeral (s : str) : N := fold_left (fun a c => 10 * a + (c - 48))%N s 0%N.

(** [denotes s x]: the string is a decimal fraction with value [x]: an optional
    minus sign, digits, and optionally a point followed by digits. *)
Inductive denotes_pos : str -> R -> Prop :=
| denotes_integer s : s <> [] -> Forall digit s -> denotes_pos s (IZR (Z.of_N (numeral s)))
| denotes_fraction s f : s <> [] -> f <> [] -> Forall digit s -> Forall digit f ->
    denotes_pos (s ++ 46%N :: f)
      (IZR (Z.of_N (numeral s)) + IZR (Z.of_N (numeral f)) / 10 ^ length f)%R.
Inductive denotes : str -> R -> Prop :=
| denotes_plain s x : denotes_pos s x -> denotes s x
| denotes_minus s x : denotes_pos s x -> denotes (45%N :: s) (- x)%R.

(** Numerals without superfluous characters: no needless zero in front, no zero
    at the end of a fraction, no point without a fraction. *)
Inductive tidy_integer : str -> Prop :=
| tidy_zero : tidy_integer [48%N]
| tidy_digits c s : digit c -> c <> 48%N -> Forall digit s -> tidy_integer (c :: s).
Inductive tidy_pos : str -> Prop :=
| tidy_whole s : tidy_integer s -> tidy_pos s
| tidy_fraction s f c : tidy_integer s -> Forall digit f -> digit c -> c <> 48%N -> tidy_pos (s ++ 46%N :: f ++ [c]).
Inductive tidy : str -> Prop :=
| tidy_plain s : tidy_pos s -> tidy s
| tidy_minus s : tidy_pos s -> tidy (45%N :: s).
