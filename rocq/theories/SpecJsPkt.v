(** C102: what the fields of a packet in JavaScript should be.  [pt_...] are those of SpecPktScope. *)
From Verif Require Import Bytes SpecSpace SpecPkt SpecPktScope SpecPy.

(** A field that only link and key points have. *)
Definition only_linked {A} (p : point) (v : A) (r : option A) : Prop := linked p /\ r = Some v \/ ~ linked p /\ r = None.
Definition only_signed {A} (p : point) (v : A) (r : option A) : Prop :=
  match p with PKey _ _ _ _ _ _ _ _ => r = Some v | _ => r = None end.
