(** What a priority queue should do, independent of how it is stored. *)
From Coq Require Import List NArith Permutation.
From Verif Require Import Base Heap.
Import ListNotations.

(** [contents v l]: along some sequence of pushes and pops from the empty heap
    [v] is reached, and [l] lists what was pushed and not yet delivered. *)
Inductive contents : list scored -> list scored -> Prop :=
| contents_empty : contents [] []
| contents_push v l x : contents v l -> contents (heap_push v x) (x :: l)
| contents_pop v l x v' l1 l2 :
    contents v l -> heap_pop v = Some (x, v') -> l = l1 ++ x :: l2 -> contents v' (l1 ++ l2).
