(** Printed coordinates: C60. *)
From Coq Require Import String List NArith ZArith Reals SpecFloat.
From Flocq Require Import Core.
From Verif Require Import Base F32 SpecF32 SpecDecimal F32Facts ShowFacts ShortFacts.
Import ListNotations.

(** C60: half-integers print as their exact decimal. *)
Theorem C60_half_integers_are_exact :
  forall x z, hv x z -> (Z.abs z <= M24)%Z -> denotes (show_f32 x) (IZR z / 2).
Proof. exact half_printed. Qed.
Print Assumptions C60_half_integers_are_exact.

(** Reading any printed number back, rounding to nearest even, gives the number. *)
Theorem C60_printed_numbers_read_back :
  forall x r, fin x r ->
  exists q, denotes (show_f32 x) q /\ round radix2 (FLT_exp (-149) 24) ZnearestE q = r.
Proof. exact printed_reads_back. Qed.
Print Assumptions C60_printed_numbers_read_back.

(** The printed number is [d * 10^k] with as few digits as possible: whatever
    decimal reads back as the same number is no coarser, has no fewer digits,
    and is no closer if it is a multiple of the same power of ten. *)
Theorem C60_shortest :
  forall x r, fin x r -> r <> 0%R ->
  exists d k q, (0 < d)%Z /\ denotes (show_f32 x) q /\ Rabs q = (IZR d * powerRZ 10 k)%R /\
  forall d' k', (0 < d')%Z -> round radix2 (FLT_exp (-149) 24) ZnearestE (IZR d' * powerRZ 10 k') = Rabs r ->
  (k' <= k)%Z /\ (forall n, 0 <= n -> 10 ^ n <= d -> 10 ^ n <= d')%Z /\
  (k' = k -> (Rabs (Rabs q - Rabs r) <= Rabs (IZR d' * powerRZ 10 k' - Rabs r))%R).
Proof. exact printed_shortest. Qed.
Print Assumptions C60_shortest.

(** No superfluous characters. *)
Theorem C60_tidy : forall x r, fin x r -> tidy (show_f32 x).
Proof. exact printed_tidy. Qed.
Print Assumptions C60_tidy.

Example C60_example :
  hv (fdiv (f32_of_Z 125) (f32_of_Z 2)) 125 /\ show_f32 (fdiv (f32_of_Z 125) (f32_of_Z 2)) = lit "62.5" /\
  show_f32 (fneg (f32_of_Z 8388608)) = lit "-8388608" /\
  show_f32 (fdiv (f32_of_Z 1) (f32_of_Z 10)) = lit "0.1" /\ show_f32 (fdiv (f32_of_Z 2) (f32_of_Z 3)) = lit "0.6666667" /\
  show_f32 F_MAX = lit "340282350000000000000000000000000000000" /\
  show_f32 (S754_finite false 1 (-149)) = lit "0.000000000000000000000000000000000000000000001".
Proof.
  split; [|repeat split; vm_compute; reflexivity].
  apply hv_div2; [apply (hv_of_Z 125); discriminate|discriminate].
Qed.
