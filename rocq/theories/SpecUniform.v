(** Specification of numbers drawn from bytes. *)
From Coq Require Import Floats.SpecFloat.
From Verif Require Import Bytes.

(** [f] is the f64 with the value [n] / 2^[k], in its only representation. *)
Definition is_fraction (f : spec_float) (n k : N) : Prop :=
  valid_binary 53 1024 f = true /\
  match f with
  | S754_zero s => s = false /\ n = 0
  | S754_finite s m e => s = false /\ (- 1074 <= e)%Z /\ (Z.pos m * 2 ^ (e + 1074) * 2 ^ Z.of_N k = Z.of_N n * 2 ^ 1074)%Z
  | _ => False
  end.
