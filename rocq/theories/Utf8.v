(** UTF-8 as in Rust's standard library: [core::str::from_utf8] (validation and
    decoding) and [char::encode_utf8].  Bytes are numbers below 256. *)
From Coq Require Import List NArith Bool.
From Verif Require Import Base.
Import ListNotations.
Local Open Scope N_scope.

Definition between (lo hi x : N) : bool := (lo <=? x) && (x <=? hi).
(** [(b as i8) < -64] *)
Definition is_cont (b : N) : bool := between 128 191 b.

(** [run_utf8_validation]: which second bytes may follow a first byte of a
    sequence of three or four *)
Definition second3 (x y : N) : bool :=
  (x =? 224) && between 160 191 y || between 225 236 x && between 128 191 y ||
  (x =? 237) && between 128 159 y || between 238 239 x && between 128 191 y.
Definition second4 (x y : N) : bool :=
  (x =? 240) && between 144 191 y || between 241 243 x && between 128 191 y ||
  (x =? 244) && between 128 143 y.

(** [utf8_acc_cont_byte] *)
Definition acc_cont (c b : N) : N := N.lor (N.shiftl c 6) (N.land b 63).

(** [run_utf8_validation] and [next_code_point]: the first character and the
    remaining bytes *)
Definition next_char (bs : list N) : option (char * list N) :=
  match bs with
  | [] => None
  | x :: r =>
      if x <? 128 then Some (x, r)
      else
        let init := N.land x 31 in
        if between 194 223 x then
          match r with
          | y :: r => if is_cont y then Some (acc_cont init y, r) else None
          | _ => None
          end
        else if between 224 239 x then
          match r with
          | y :: z :: r =>
              if second3 x y && is_cont z
              then Some (N.lor (N.shiftl init 12) (acc_cont (N.land y 63) z), r) else None
          | _ => None
          end
        else if between 240 244 x then
          match r with
          | y :: z :: w :: r =>
              if second4 x y && is_cont z && is_cont w
              then Some (N.lor (N.shiftl (N.land init 7) 18) (acc_cont (acc_cont (N.land y 63) z) w), r)
              else None
          | _ => None
          end
        else None
  end.

(** [from_utf8]; [None] is the error.  The fuel is the number of bytes. *)
Fixpoint from_utf8_loop (fuel : nat) (bs : list N) : option str :=
  match bs, fuel with
  | [], _ => Some []
  | _, O => None
  | _, S f => match next_char bs with
              | Some (c, r) => match from_utf8_loop f r with
                               | Some s => Some (c :: s)
                               | None => None
                               end
              | None => None
              end
  end.
Definition from_utf8 (bs : list N) : option str := from_utf8_loop (length bs) bs.

(** [char::encode_utf8] *)
Definition encode_char (c : char) : list N :=
  let tail k := N.lor (N.land (N.shiftr c k) 63) 128 in
  if c <? 128 then [c]
  else if c <? 2048 then [N.lor (N.land (N.shiftr c 6) 31) 192; tail 0]
  else if c <? 65536 then [N.lor (N.land (N.shiftr c 12) 15) 224; tail 6; tail 0]
  else [N.lor (N.land (N.shiftr c 18) 7) 240; tail 12; tail 6; tail 0].
(** the bytes of a [String] *)
Definition to_utf8 (s : str) : list N := flat_map encode_char s.
