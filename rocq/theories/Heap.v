(** std's [BinaryHeap] over petgraph's [MinScored(score, node)], as used by
    petgraph 0.6 [astar].  Both are dependencies, not code of /repo; the vector
    algorithm is transcribed because it decides which of several equally short
    routes is drawn.

    [MinScored] reverses the order of its score and ignores the node:
    [a <= b] (as heap elements) iff score b <= score a. *)
From Coq Require Import List Arith NArith Bool.
From Verif Require Import Base.
Import ListNotations.

Definition scored := (N * nat)%type.

(** [a <= b] on [MinScored] *)
Definition sc_le (a b : scored) : bool := N.leb (fst b) (fst a).

Definition set_nth (i : nat) (x : scored) (l : list scored) : list scored := update i (fun _ => x) l.

(** [BinaryHeap::sift_up(0, pos)] holding the element [x]; [fuel] bounds the
    number of levels ([pos] itself suffices). *)
Fixpoint sift_up (fuel pos : nat) (x : scored) (v : list scored) : list scored :=
  match fuel with
  | O => set_nth pos x v
  | S fuel' =>
      match pos with
      | O => set_nth 0 x v
      | S p =>
          let parent := Nat.div2 p in
          match nth_error v parent with
          | Some y => if sc_le x y then set_nth pos x v
                      else sift_up fuel' parent x (set_nth pos y v)
          | None => set_nth pos x v
          end
      end
  end.

(** [BinaryHeap::push] *)
Definition heap_push (v : list scored) (x : scored) : list scored :=
  sift_up (length v) (length v) x (v ++ [x]).

(** [BinaryHeap::sift_down_to_bottom(0)]: move the hole down along the larger
    child, then sift the element up from there.  Returns the hole position and
    the vector (whose content at the hole is stale). *)
Fixpoint sift_to_bottom (fuel pos : nat) (v : list scored) : nat * list scored :=
  match fuel with
  | O => (pos, v)
  | S fuel' =>
      let child := 2 * pos + 1 in
      match nth_error v child, nth_error v (child + 1) with
      | Some a, Some b =>
          let '(c, y) := if sc_le a b then (child + 1, b) else (child, a) in
          sift_to_bottom fuel' c (set_nth pos y v)
      | Some a, None => (child, set_nth pos a v)
      | None, _ => (pos, v)
      end
  end.

(** [BinaryHeap::pop] *)
Definition heap_pop (v : list scored) : option (scored * list scored) :=
  match rev v with
  | [] => None
  | x :: r =>
      let v' := rev r in
      match v' with
      | [] => Some (x, [])
      | top :: _ =>
          let v1 := set_nth 0 x v' in
          let '(pos, v2) := sift_to_bottom (length v1) 0 v1 in
          Some (top, sift_up pos pos x v2)
      end
  end.
