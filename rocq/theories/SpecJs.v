(** C100: what reading and writing packets in JavaScript should give. *)
From Verif Require Import Bytes SpecPkt.

(** The bytes of a packet whose hash field says [h32]. *)
Definition claimed_packet (nh h32 : bytes) (p : point) : bytes := nh ++ h32 ++ content p.
(** The second argument of the functions: packets of the private group are let through
    only when it is [true]. *)
Definition lets_private (allow : option bool) : Prop := allow = Some true.
