(** Model of [bytes2uniform]: crates/linkspace/src/lib.rs:1086-1105 (misc).  The numbers are those of the
    standard library's executable specification of IEEE 754 (SpecFloat), with 53 digits and exponents below 1024. *)
From Coq Require Import Floats.SpecFloat.
From Verif Require Import Bytes.

(** [f64::from_bits]: the sign, 11 bits of exponent and 52 bits of the number *)
Definition from_bits (u : N) : spec_float :=
  let s := N.testbit u 63 in
  let e := N.land (N.shiftr u 52) 2047 in
  let m := N.land u (2 ^ 52 - 1) in
  if e =? 2047 then (if m =? 0 then S754_infinity s else S754_nan)
  else if e =? 0 then match m with N0 => S754_zero s | Npos p => S754_finite s p (-1074) end
  else match 2 ^ 52 + m with N0 => S754_nan | Npos p => S754_finite s p (Z.of_N e - 1075) end.
(** the literal 1.0 *)
Definition one : spec_float := S754_finite false (2 ^ 52) (-52).
(** lib.rs:1095-1105 [bytes2uniform]; the slice panics if there are fewer than eight bytes *)
Definition bytes2uniform (val : bytes) : outcome unit spec_float :=
  if lenN val <? 8 then Panic
  else
    let rand := be_decode (takeN 8 val) in
    let value := from_bits (N.lor (N.shiftr rand (64 - 52)) (N.shiftl 1023 52)) in
    Ok (SFsub 53 1024 value one).
