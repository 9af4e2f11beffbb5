(** A table and the last row of the next table below it. *)
From Coq Require Import List Arith.
From Verif Require Import Base SpecLayout SpecLink SpecEnds SpecStack.
Import ListNotations.

(** [q] is the last row of the table below the table [p], which has at least two
    rows below its header. *)
Definition over_last_row (hs : list nat) (p q : place) : Prop :=
  exists i k, p = Table i /\ q = Row (i + 3) k /\ S k = nth (i + 3) hs 0 /\ 3 <= nth i hs 0.

(** The place is an end of some relation. *)
Definition related (ls : list (place * place)) (x : place) : Prop := exists y, In (x, y) ls \/ In (y, x) ls.

(** Nothing ends in the whole table [j] or in the last row of a table below it, and no
    table to the left of it is taller. *)
Definition on_its_own (hs : list nat) (ls : list (place * place)) (j : nat) : Prop :=
  ~ related ls (Table j) /\
  (forall x, related ls x -> at_bottom hs x -> place_table x mod 3 = j mod 3 -> place_table x <= j) /\
  (forall k, k < j -> k / 3 = j / 3 -> nth k hs 0 <= nth j hs 0).
