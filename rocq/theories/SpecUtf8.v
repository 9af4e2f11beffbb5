(** UTF-8 as in RFC 3629. *)
From Coq Require Import List NArith.
From Verif Require Import Base SpecLex.
Import ListNotations.
Local Open Scope N_scope.

(** The bytes of one character. *)
Inductive utf8_char : char -> list N -> Prop :=
| utf8_1 c : c <= 127 -> utf8_char c [c]
| utf8_2 c a b : 128 <= c <= 2047 -> c = 64 * a + b -> b < 64 ->
    utf8_char c [192 + a; 128 + b]
| utf8_3 c a1 a2 b : 2048 <= c <= 65535 -> scalar c -> c = 4096 * a1 + 64 * a2 + b -> a2 < 64 -> b < 64 ->
    utf8_char c [224 + a1; 128 + a2; 128 + b]
| utf8_4 c a1 a2 a3 b : 65536 <= c <= 1114111 ->
    c = 262144 * a1 + 4096 * a2 + 64 * a3 + b -> a2 < 64 -> a3 < 64 -> b < 64 ->
    utf8_char c [240 + a1; 128 + a2; 128 + a3; 128 + b].

(** The bytes of a text. *)
Inductive utf8 : str -> list N -> Prop :=
| utf8_nil : utf8 [] []
| utf8_cons c u s bs : utf8_char c u -> utf8 s bs -> utf8 (c :: s) (u ++ bs).

Definition byte (b : N) : Prop := b < 256.
