(** /repo/src/geometry.rs *)
From Coq Require Import List ZArith Bool.
From Verif Require Import Base F32.
Import ListNotations.

(** geometry.rs:4-10 *)
Inductive orientation := Up | Down | Left | Right.

Definition orientation_eqb (a b : orientation) : bool :=
  match a, b with
  | Up, Up | Down, Down | Left, Left | Right, Right => true
  | _, _ => false
  end.

(** geometry.rs:12-17 *)
Record point := mkPoint { px : f32; py : f32 }.

(** [==] derived on [Point]: IEEE equality of both coordinates. *)
Definition point_eqb (a b : point) : bool := feq (px a) (px b) && feq (py a) (py b).

Definition fzero : f32 := f32_of_Z 0.
Definition point_zero : point := mkPoint fzero fzero.

(** geometry.rs:30-32 *)
Definition distance (a b : point) : f32 :=
  fsqrt (fadd (fsq (fsub (px a) (px b))) (fsq (fsub (py a) (py b)))).

(** geometry.rs:35-45 *)
Definition orthogonal_direction (self to : point) : orientation :=
  if flt (px to) (px self) then Left
  else if fgt (px to) (px self) then Right
  else if flt (py to) (py self) then Up
  else Down.

(** geometry.rs:48-66 *)
Record size := mkSize { width : f32; height : f32 }.
Definition size_zero : size := mkSize fzero fzero.

(** geometry.rs:80-97 *)
Record rect := mkRect { origin : point; rsize : size }.
Definition rect_zero : rect := mkRect point_zero size_zero.

(** geometry.rs:114-152 *)
Definition min_x (r : rect) : f32 := px (origin r).
Definition mid_x (r : rect) : f32 := fadd (px (origin r)) (fdiv (width (rsize r)) (f32_of_Z 2)).
Definition max_x (r : rect) : f32 := fadd (px (origin r)) (width (rsize r)).
Definition min_y (r : rect) : f32 := py (origin r).
Definition mid_y (r : rect) : f32 := fadd (py (origin r)) (fdiv (height (rsize r)) (f32_of_Z 2)).
Definition max_y (r : rect) : f32 := fadd (py (origin r)) (height (rsize r)).

(** geometry.rs:109-112 *)
Definition center (r : rect) : point := mkPoint (mid_x r) (mid_y r).

(** geometry.rs:172-180 *)
Definition inset_by (r : rect) (dx dy : f32) : rect :=
  mkRect (mkPoint (fadd (px (origin r)) dx) (fadd (py (origin r)) dy))
         (mkSize (fmax (fsub (width (rsize r)) (fmul dx (f32_of_Z 2))) fzero)
                 (fmax (fsub (height (rsize r)) (fmul dy (f32_of_Z 2))) fzero)).

(** geometry.rs:189-196 *)
Definition contains_point (r : rect) (p : point) : bool :=
  fge (px p) (min_x r) && fle (px p) (max_x r) &&
  fge (py p) (min_y r) && fle (py p) (max_y r).

(** geometry.rs:229-311.  [negs]/[poss] are [negarr]/[posarr] in push order;
    both start as [smallvec![v]] followed by one more push of the same [v]. *)
Definition intersected_line (r : rect) (a b : point) : option (point * point) :=
  let '(x, y, dx, dy) :=
    if flt (px b) (px a)
    then (px b, py b, fsub (px a) (px b), fsub (py a) (py b))
    else (px a, py a, fsub (px b) (px a), fsub (py b) (py a)) in
  let left := min_x r in
  let right := max_x r in
  let top := min_y r in
  let bottom := max_y r in
  if fgt x left && flt (fadd x dx) right && fgt y top && flt (fadd y dy) bottom
  then None
  else
    let p1 := fneg dx in
    let p2 := fneg p1 in
    let p3 := fneg dy in
    let p4 := fneg p3 in
    let q1 := fsub x left in
    let q2 := fsub right x in
    let q3 := fsub y top in
    let q4 := fsub bottom y in
    if (feq p1 fzero && flt q1 fzero) || (feq p2 fzero && flt q2 fzero)
       || (feq p3 fzero && flt q3 fzero) || (feq p4 fzero && flt q4 fzero)
    then None
    else
      let one := f32_of_Z 1 in
      let '(negs, poss) := ([fzero; fzero], [one; one]) in
      let '(negs, poss) :=
        if negb (feq p1 fzero) then
          let r1 := fdiv q1 p1 in
          let r2 := fdiv q2 p2 in
          if flt p1 fzero then (negs ++ [r1], poss ++ [r2]) else (negs ++ [r2], poss ++ [r1])
        else (negs, poss) in
      let '(negs, poss) :=
        if negb (feq p3 fzero) then
          let r3 := fdiv q3 p3 in
          let r4 := fdiv q4 p4 in
          if flt p3 fzero then (negs ++ [r3], poss ++ [r4]) else (negs ++ [r4], poss ++ [r3])
        else (negs, poss) in
      let rn1 := fold_left (fun m v => fmax v m) negs F_nan in
      let rn2 := fold_left (fun m v => fmin v m) poss F_nan in
      if fgt rn1 rn2 then None
      else
        Some (mkPoint (fadd x (fmul p2 rn1)) (fadd y (fmul p4 rn1)),
              mkPoint (fadd x (fmul p2 rn2)) (fadd y (fmul p4 rn2))).

(** geometry.rs:225-227 *)
Definition intersects_line (r : rect) (a b : point) : bool :=
  match intersected_line r a b with Some _ => true | None => false end.

(** geometry.rs:369-376 *)
Inductive path_command :=
| MoveTo (p : point)
| LineTo (p : point)
| QuadTo (ctrl p : point).

(** geometry.rs:318-320.  [Path]: the vector of commands. *)
Definition path := list path_command.

(** geometry.rs:327-331 *)
Definition path_new (start : point) : path := [MoveTo start].
(** geometry.rs:337-347 *)
Definition path_move_to (p : path) (q : point) : path := p ++ [MoveTo q].
Definition path_line_to (p : path) (q : point) : path := p ++ [LineTo q].
Definition path_quad_to (p : path) (c q : point) : path := p ++ [QuadTo c q].

(** geometry.rs:349-355 *)
Definition path_start_point (p : path) : res point :=
  match p with
  | MoveTo pt :: _ => Ret pt
  | _ => Panic PUnwrap
  end.

(** geometry.rs:357-365 *)
Definition path_end_point (p : path) : res point :=
  match rev p with
  | [] => Panic PUnwrap
  | MoveTo pt :: _ | LineTo pt :: _ | QuadTo _ pt :: _ => Ret pt
  end.
