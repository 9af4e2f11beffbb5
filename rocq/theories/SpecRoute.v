(** Walks in an undirected graph given by its edge list, and their cost. *)
From Coq Require Import List NArith.
Import ListNotations.

Definition joined (es : list (nat * nat)) (a b : nat) : Prop := In (a, b) es \/ In (b, a) es.

(** [walk es a b l]: [l] lists the nodes of a walk from [a] to [b]. *)
Inductive walk (es : list (nat * nat)) : nat -> nat -> list nat -> Prop :=
| walk_here a : walk es a a [a]
| walk_step a b c l : joined es a b -> walk es b c l -> walk es a c (a :: l).

Fixpoint walk_cost (cost : nat -> nat -> N) (l : list nat) : N :=
  match l with
  | [] => 0%N
  | a :: l' => match l' with
               | [] => 0%N
               | b :: _ => (cost a b + walk_cost cost l')%N
               end
  end.

(** No walk from [a] to [b] is cheaper than [c]. *)
Definition at_least (es : list (nat * nat)) (cost : nat -> nat -> N) (a b : nat) (c : N) : Prop :=
  forall l, walk es a b l -> (c <= walk_cost cost l)%N.

(** A cheapest walk, without repeated nodes, and its cost. *)
Definition cheapest (es : list (nat * nat)) (cost : nat -> nat -> N) (a b : nat) (c : N) (l : list nat) : Prop :=
  walk es a b l /\ walk_cost cost l = c /\ NoDup l /\ at_least es cost a b c.

(** The graph has the nodes [0 .. n-1]. *)
Definition within (n : nat) (es : list (nat * nat)) : Prop :=
  forall a b, In (a, b) es -> a < n /\ b < n.
