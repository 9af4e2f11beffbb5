(** Rust [f32]: IEEE-754 binary32 with round-to-nearest-even, as the
    computable [spec_float] of Coq's standard library at precision 24 and
    maximal exponent 128.  One NaN: Rust never observes payloads here. *)
From Coq Require Import List NArith ZArith Bool SpecFloat String.
From Verif Require Import Base.
Import ListNotations.

Definition f32 := spec_float.

Definition fadd : f32 -> f32 -> f32 := SFadd 24 128.
Definition fsub : f32 -> f32 -> f32 := SFsub 24 128.
Definition fmul : f32 -> f32 -> f32 := SFmul 24 128.
Definition fdiv : f32 -> f32 -> f32 := SFdiv 24 128.
Definition fneg : f32 -> f32 := SFopp.
Definition fsqrt : f32 -> f32 := SFsqrt 24 128.

(** [x.powi(2)]: LLVM's [powi] multiplies; for exponent 2 it is one product. *)
Definition fsq (x : f32) : f32 := fmul x x.

(** Comparison operators; all false on NaN, as in Rust ([!=] is [negb feq]). *)
Definition feq : f32 -> f32 -> bool := SFeqb.
Definition flt : f32 -> f32 -> bool := SFltb.
Definition fle : f32 -> f32 -> bool := SFleb.
Definition fgt (a b : f32) : bool := flt b a.
Definition fge (a b : f32) : bool := fle b a.

Definition is_nan (x : f32) : bool := match x with S754_nan => true | _ => false end.

(** [a.max(b)] / [a.min(b)]: the other operand when one is NaN.  (For +0/-0 Rust
    leaves the sign unspecified; the receiver is chosen here.) *)
Definition fmax (a b : f32) : f32 :=
  if is_nan a then b else if is_nan b then a else if flt a b then b else a.
Definition fmin (a b : f32) : f32 :=
  if is_nan a then b else if is_nan b then a else if flt b a then b else a.

(** Integer to [f32] ([n as f32], or an integral literal such as [35.0]). *)
Definition f32_of_Z (z : Z) : f32 := binary_normalize 24 128 z 0 false.
Definition f32_of_nat (n : nat) : f32 := f32_of_Z (Z.of_nat n).

Definition F_nan : f32 := S754_nan.
Definition F_MAX : f32 := SFmax_float 24 128.
Definition F_MIN : f32 := fneg F_MAX.

(** [x as u32]: truncation toward zero, saturating, NaN to 0. *)
Definition f32_to_u32 (x : f32) : N :=
  match x with
  | S754_nan | S754_zero _ => 0%N
  | S754_infinity false => 4294967295%N
  | S754_infinity true => 0%N
  | S754_finite true _ _ => 0%N
  | S754_finite false m e =>
      let t := match e with
               | Z0 => Z.pos m
               | Zpos p => Z.pos m * 2 ^ Z.pos p
               | Zneg p => Z.pos m / 2 ^ Z.pos p
               end%Z in
      Z.to_N (Z.min t 4294967295)
  end.

(** [x.to_string()]: the shortest decimal that rounds back to [x] (closest to
    [x] among the shortest), never in exponent notation. *)
Section Show.
  Local Open Scope Z_scope.

  (** A decimal [d * 10^k] inside the rounding interval of [m * 2^e], if any. *)
  Definition decimal_at (m e k : Z) : option Z :=
    let v := 4 * m in
    let hi := v + 2 in
    let lo := if (m =? 2 ^ 23) && (-149 <? e) then v - 1 else v - 2 in
    let P := 10 ^ Z.max k 0 * 2 ^ Z.max (2 - e) 0 in
    let Q := 10 ^ Z.max (- k) 0 * 2 ^ Z.max (e - 2) 0 in
    let inside d :=
      if Z.even m then (lo * Q <=? d * P) && (d * P <=? hi * Q)
      else (lo * Q <? d * P) && (d * P <? hi * Q) in
    let d0 := v * Q / P in
    let d1 := d0 + 1 in
    match (0 <? d0) && inside d0, inside d1 with
    | true, true => if v * Q - d0 * P <=? d1 * P - v * Q then Some d0 else Some d1
    | true, false => Some d0
    | false, true => Some d1
    | false, false => None
    end.

  Fixpoint shortest (fuel : nat) (m e k : Z) : Z * Z :=
    match fuel with
    | O => (m, 0)
    | S f => match decimal_at m e k with
             | Some d => (d, k)
             | None => shortest f m e (k - 1)
             end
    end.

  (** Positional notation of [d * 10^k]. *)
  Definition positional (d k : Z) : str :=
    let ds := show_N (Z.to_N d) in
    if 0 <=? k then ds ++ repeat (48%N) (Z.to_nat k)
    else
      let n := Z.to_nat (- k) in
      let len := List.length ds in
      if Nat.ltb n len
      then firstn (len - n) ds ++ (46%N) :: skipn (len - n) ds
      else (48%N) :: (46%N) :: repeat (48%N) (n - len) ++ ds.

  Definition show_f32 (x : f32) : str :=
    match x with
    | S754_nan => lit "NaN"
    | S754_infinity false => lit "inf"
    | S754_infinity true => lit "-inf"
    | S754_zero false => lit "0"
    | S754_zero true => lit "-0"
    | S754_finite s m e =>
        let '(d, k) := shortest 110 (Z.pos m) e 39 in
        (if s then [45%N] else []) ++ positional d k
    end.
End Show.
