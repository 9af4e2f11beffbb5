(** Relations between places above each other. *)
From Coq Require Import List Arith.
From Verif Require Import Base SpecLayout SpecLink SpecEnds.
Import ListNotations.

Definition place_table (p : place) : nat := match p with Table i => i | Row i _ => i end.

(** The places are in the same column, one of them is a whole table, and each is a
    whole table or a last row. *)
Definition stacked (hs : list nat) (p q : place) : Prop :=
  place_table p mod 3 = place_table q mod 3 /\
  (p = Table (place_table p) /\ (q = Table (place_table q) \/ at_bottom hs q) \/
   q = Table (place_table q) /\ at_bottom hs p).

(** Some relation of [ls] ends in a last row of the column of [p]. *)
Definition column_with_last_row (hs : list nat) (ls : list (place * place)) (p : place) : Prop :=
  exists r x, In r ls /\ (x = fst r \/ x = snd r) /\ place_table x mod 3 = place_table p mod 3 /\ at_bottom hs x.
