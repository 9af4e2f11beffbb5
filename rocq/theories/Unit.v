(** The unit tests of the repository, evaluated in the model.  Tests of the
    transcription, not proofs of properties. *)
From Coq Require Import String List NArith ZArith Bool.
From Verif Require Import Base Color F32 Geometry Mir Erd Parser.
Import ListNotations.
Local Open Scope string_scope.

(** [half z] is z/2. *)
Definition half (z : Z) : f32 := fdiv (f32_of_Z z) (f32_of_Z 2).
Definition pt (x y : Z) : point := mkPoint (half x) (half y).
Definition rc (x y w h : Z) : rect := mkRect (pt x y) (mkSize (half w) (half h)).

(** [PartialEq] *)
Definition same_point (p q : point) : bool := feq (px p) (px q) && feq (py p) (py q).
Definition same_rect (r s : rect) : bool :=
  same_point (origin r) (origin s) && feq (width (rsize r)) (width (rsize s)) && feq (height (rsize r)) (height (rsize s)).
Definition returns (o : option (point * point)) (p q : point) : bool :=
  match o with Some (a, b) => same_point a p && same_point b q | None => false end.

(** geometry.rs:383-394; 2.8284271247461903 is rounded to 11863283 * 2^-22. *)
Example point_distance :
  feq (distance (pt (-2) (-2)) (pt 2 2)) (SpecFloat.S754_finite false 11863283 (-22)) = true /\
  feq (distance (pt (-2) (-2)) (pt 2 2)) (distance (pt 2 2) (pt (-2) (-2))) = true /\
  feq (distance (pt 0 0) (pt 6 0)) (half 6) = true.
Proof. vm_compute. auto. Qed.

(** geometry.rs:397-416 *)
Example point_orthogonal_direction :
  orthogonal_direction (pt 0 0) (pt (-2) 0) = Left /\ orthogonal_direction (pt 0 0) (pt 2 0) = Right /\
  orthogonal_direction (pt 0 0) (pt 0 (-2)) = Up /\ orthogonal_direction (pt 0 0) (pt 0 2) = Down.
Proof. vm_compute. auto. Qed.

(** geometry.rs:419-434 *)
Example rect_inset_by :
  same_rect (inset_by (rc 20 40 100 100) fzero fzero) (rc 20 40 100 100) = true /\
  same_rect (inset_by (rc 20 40 100 100) (half 10) (half (-20))) (rc 30 20 80 140) = true /\
  same_rect (inset_by (rc 20 40 100 100) (half 60) (half 60)) (rc 80 100 0 0) = true /\
  same_rect (inset_by (mkRect (mkPoint F_MIN F_MIN) (mkSize (half 2) (half 2))) F_MAX F_MAX) (rc 0 0 0 0) = true.
Proof. vm_compute. auto. Qed.

(** geometry.rs:437-444 *)
Example rect_contains_point :
  let r := rc 20 40 100 100 in contains_point r (origin r) = true /\ contains_point r (mkPoint (max_x r) (max_y r)) = true.
Proof. vm_compute. auto. Qed.


(** geometry.rs:447-805: the ends of each segment, in halves, and the answer. *)
Definition segments : list (Z * Z * Z * Z * bool) :=
  [ (10, 20, 20, 20, false);
    ( -2, 10, -2, 20, false);
    (40, 20, 50, 60, false);
    (40, 60, 20, 10, true);
    (30, 10, 10, 10, true);
    (30, 30, 10, 30, true);
    (30, 70, 10, 100, true);
    (30, 70, 30, 100, true);
    (40, 70, 40, 100, true);
    (30, 70, 40, 100, true);
    (20, 10, 40, 60, true);
    (10, 10, 30, 10, true);
    (10, 30, 30, 30, true);
    (10, 100, 30, 70, true);
    (30, 100, 30, 70, true);
    (40, 100, 40, 70, true);
    (40, 100, 30, 70, true);
    (10, 60, 40, 0, true);
    (40, 0, 10, 60, true);
    (30, 40, 90, 40, true);
    (90, 40, 30, 40, true);
    (30, 10, 30, 70, true);
    (30, 70, 30, 10, true);
    (30, 10, 90, 70, true);
    (90, 70, 30, 10, true) ]%Z.
Example rect_intersects_line :
  forallb (fun '(a, b, c, d, v) => Bool.eqb (intersects_line (rc 30 10 60 60) (pt a b) (pt c d)) v) segments = true.
Proof. vm_compute. reflexivity. Qed.

(** geometry.rs:808-927 *)
Example rect_intersected_line :
  let r := rc 30 10 60 60 in
  returns (intersected_line r (pt 40 100) (pt 30 70)) (pt 30 70) (pt 30 70) = true /\
  returns (intersected_line r (pt 20 10) (pt 40 60)) (pt 30 35) (pt 40 60) = true /\
  returns (intersected_line r (pt 30 40) (pt 90 40)) (pt 30 40) (pt 90 40) = true /\
  returns (intersected_line r (pt 30 10) (pt 30 70)) (pt 30 10) (pt 30 70) = true /\
  returns (intersected_line r (pt 30 10) (pt 90 70)) (pt 30 10) (pt 90 70) = true.
Proof. vm_compute. auto 10. Qed.

(** color.rs:44-59 *)
Example rgb_color :
  show_rgb (mkRGB 255 255 255) = lit "#FFFFFF" /\ show_rgb (mkRGB 0 0 0) = lit "#000000" /\ show_rgb (mkRGB 73 123 145) = lit "#497B91".
Proof. vm_compute. auto. Qed.
Example named_colors : show_named White = lit "white" /\ show_named Black = lit "black".
Proof. vm_compute. auto. Qed.


(** parser.rs:287-299: no errors of either kind, and the module prints as expected. *)
Definition assert_ast (src expected : string) : Prop :=
  match parse (lit src) with
  | Ret r => pr_lex_errs r = [] /\ pr_parse_errs r = [] /\ option_map show_module (pr_ast r) = Some (lit expected)
  | Panic _ => False
  end.

(** parser.rs:302-324 *)
Example test_script : assert_ast
"erd G {
users {
    id     int PK
    `uuid` uuid
    `text` text; about_html text
}
posts {
    id         int PK
    title      text
    body       text
    created_by int FK
}
users.id o--o posts.created_by
}"
"erd G {
    users { id int PK; uuid uuid; text text; about_html text }
    posts { id int PK; title text; body text; created_by int FK }
    users.id o--o posts.created_by
}".
Proof. vm_compute. auto. Qed.

(** parser.rs:327-361 *)
Example spaces_and_comments : assert_ast
" // define a new ERD module
erd	//line comment here
  ERD // name ""G""
{ // start module definition
    table1 // A
    // B
    { // C
        // `id` column
        id int PK // primary key
    // end
    } // / table 1

    // table 2
    table2 {
        id int PK
        table1_id int FK
    }

    // define a new edge
    table1.id // start node
    // o
    o--o // path
    // o
    table2.table1_id // end node
    // end of module
} // eof"
"erd ERD {
    table1 { id int PK }
    table2 { id int PK; table1_id int FK }
    table1.id o--o table2.table1_id
}".
Proof. vm_compute. auto. Qed.
