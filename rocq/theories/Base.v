(** Common vocabulary of the model: outcomes of Rust code that may panic,
    strings as lists of Unicode scalar values, decimal printing.

    Nothing in this file models a particular function of /repo; it fixes how
    Rust notions are represented. *)
From Coq Require Import List Arith NArith ZArith String Ascii Bool.
Import ListNotations.

(** Why a run of the program aborts.  One constructor per panic site. *)
Inductive panic :=
| POrientation          (** layout.rs:112-119 "[BUG] Placing node at ..."       *)
| PNoRoute              (** layout.rs:845-850 "can't compute shortest path"     *)
| PNoPath               (** layout.rs:512 [paths.pop_front().unwrap()]          *)
| PBadEdge              (** petgraph [Graph::add_edge] with an unknown index    *)
| PCostOverflow         (** u32 [+] in RouteCost, layout.rs:230-231 (debug)     *)
| PShortPath            (** renderer.rs:288 [assert!(path_points.len() >= 2)]   *)
| PTurnaround (i : nat) (** renderer.rs:357 "turnaround line is detected"       *)
| PRender               (** main.rs:130 / evcxr.rs:38 [.expect(..)]             *)
| PNoProgress           (** chumsky [Repeated]: an iteration consumed nothing   *)
| PUnwrap               (** an [.unwrap()] on [None] elsewhere                  *)
| POutOfFuel.           (** not a Rust behaviour: the model's recursion bound   *)

(** A Rust computation: a value, or an abort. *)
Inductive res (A : Type) :=
| Ret (a : A)
| Panic (p : panic).
Arguments Ret {A} a.
Arguments Panic {A} p.

Definition bind {A B} (x : res A) (f : A -> res B) : res B :=
  match x with Ret a => f a | Panic p => Panic p end.

Notation "'do' x <- e ; f" := (bind e (fun x => f))
  (at level 200, x pattern, e at level 100, f at level 200, right associativity).

(** [for x in xs { s = body(s, x)?; }] with early abort. *)
Fixpoint foldM {A S} (f : S -> A -> res S) (xs : list A) (s : S) : res S :=
  match xs with
  | [] => Ret s
  | x :: xs' => do s' <- f s x; foldM f xs' s'
  end.

(** Rust [String]/[&str] as the list of its [char]s (Unicode scalar values). *)
Definition char := N.
Definition str := list char.

(** A Coq string literal as a [str] (ASCII only is used). *)
Fixpoint lit (s : string) : str :=
  match s with
  | EmptyString => []
  | String a s' => N_of_ascii a :: lit s'
  end.

Definition ch (a : ascii) : char := N_of_ascii a.

Fixpoint str_eqb (a b : str) : bool :=
  match a, b with
  | [], [] => true
  | x :: a', y :: b' => N.eqb x y && str_eqb a' b'
  | _, _ => false
  end.

(** Lexicographic order by code point.  For UTF-8 this is also the byte order
    used by Rust's [Ord for str]. *)
Fixpoint str_leb (a b : str) : bool :=
  match a, b with
  | [], _ => true
  | _ :: _, [] => false
  | x :: a', y :: b' =>
      match N.compare x y with
      | Lt => true
      | Gt => false
      | Eq => str_leb a' b'
      end
  end.

(** [xs.join(sep)] *)
Fixpoint join (sep : str) (xs : list str) : str :=
  match xs with
  | [] => []
  | [x] => x
  | x :: xs' => x ++ sep ++ join sep xs'
  end.

(** Decimal digits of a natural number, most significant first. *)
Fixpoint digits_fuel (fuel : nat) (n : N) (acc : str) : str :=
  match fuel with
  | O => acc
  | S k =>
      let d := (48 + n mod 10)%N in
      let q := (n / 10)%N in
      match q with
      | N0 => d :: acc
      | _ => digits_fuel k q (d :: acc)
      end
  end.

(** [n.to_string()] for an unsigned integer.  [N.size_nat n] binary digits
    bound the number of decimal digits. *)
Definition show_N (n : N) : str := digits_fuel (S (N.size_nat n)) n [].
Definition show_nat (n : nat) : str := show_N (N.of_nat n).

(** HashMap as an association list: [insert] shadows, [get] finds the newest. *)
Fixpoint assoc {K V} (eqb : K -> K -> bool) (k : K) (m : list (K * V)) : option V :=
  match m with
  | [] => None
  | (k', v) :: m' => if eqb k k' then Some v else assoc eqb k m'
  end.

(** [v[i] = f(v[i])] when [i] is in range, nothing otherwise. *)
Fixpoint update {A} (i : nat) (f : A -> A) (l : list A) : list A :=
  match l, i with
  | [], _ => []
  | x :: l', O => f x :: l'
  | x :: l', S i' => x :: update i' f l'
  end.

(** [iter().enumerate()] *)
Fixpoint enum_from {A} (i : nat) (l : list A) : list (nat * A) :=
  match l with
  | [] => []
  | x :: l' => (i, x) :: enum_from (S i) l'
  end.
Definition enum {A} (l : list A) : list (nat * A) := enum_from 0 l.

(** [iter().filter_map(f)] *)
Fixpoint filter_map {A B} (f : A -> option B) (l : list A) : list B :=
  match l with
  | [] => []
  | x :: l' => match f x with Some y => y :: filter_map f l' | None => filter_map f l' end
  end.
