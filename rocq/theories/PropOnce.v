(** Lines and the gaps between the columns: C88. *)
From Coq Require Import String List Arith NArith ZArith.
From Verif Require Import Base F32 Geometry Mir Erd Route Layout Parser Cli SpecF32 SpecLayout SpecGap OnceFacts.
Import ListNotations.
Local Open Scope Z_scope.

(** C88: a line uses each of the four corridors, beside and between the columns, at
    most once: the points in one corridor follow each other, all upwards or all
    downwards. This holds for relations of any kind between up to 102 tables (34
    rows of tables); since lengths are rounded down on every piece of a path, a
    detour could cost nothing on a long enough way. *)
Theorem C88_corridors_once :
  forall m vb g d, fits (table_rows m) -> layout_module m = Ret (vb, g, d) -> (length (table_rows m) <= 102)%nat ->
  forall e ps i, In e (d_edges d) -> e_path e = Some ps -> one_run (2 * table_left i - 80) ps /\ one_run (2 * table_left i + 680) ps.
Proof. exact corridors_once. Qed.
Print Assumptions C88_corridors_once.

(** In the module [across] the line runs down the first gap past the tall table,
    crosses over, and runs down the second gap. *)
Example C88_example :
  fits (table_rows across) /\ (length (table_rows across) <= 102)%nat /\
  match layout_module across with
  | Ret (_, _, d) => map (fun e => option_map (map (fun p => (f32_to_u32 (fadd (px p) (px p)), f32_to_u32 (fadd (py p) (py p))))) (e_path e)) (d_edges d)
  | Panic _ => []
  end = [Some [(700, 205); (780, 205); (780, 390); (780, 530); (1540, 530); (1540, 715); (1620, 715)]]%N.
Proof. split; [unfold fits; vm_compute; discriminate|]. split; [vm_compute; repeat constructor|vm_compute; reflexivity]. Qed.
