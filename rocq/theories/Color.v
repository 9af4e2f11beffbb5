(** /repo/src/color.rs *)
From Coq Require Import List NArith String.
From Verif Require Import Base.
Import ListNotations.

(** color.rs:19-23.  The three [u8] channels, as [N] below 256. *)
Record rgb := mkRGB { red : N; green : N; blue : N }.

(** color.rs:31-37 *)
Inductive named_color := White | Black.

(** color.rs:3-9 *)
Inductive web_color := RGB (c : rgb) | Named (c : named_color).

(** One upper-case hexadecimal digit. *)
Definition hex_digit (n : N) : char := if (n <? 10)%N then (48 + n)%N else (55 + n)%N.

(** [{:02X}] of a [u8]. *)
Definition hex2 (n : N) : str := [hex_digit (n / 16)%N; hex_digit (n mod 16)%N].

(** color.rs:18, [Display for RGBColor]. *)
Definition show_rgb (c : rgb) : str :=
  lit "#" ++ hex2 (red c) ++ hex2 (green c) ++ hex2 (blue c).

(** color.rs:31-37, [Display for NamedColor]. *)
Definition show_named (c : named_color) : str :=
  match c with White => lit "white" | Black => lit "black" end.

(** color.rs:3-9, [Display for WebColor]. *)
Definition show_color (c : web_color) : str :=
  match c with RGB c => show_rgb c | Named c => show_named c end.

(** color.rs:11-15 *)
Definition default_color : web_color := Named Black.
