(** Specification of packets in other formats. *)
From Verif Require Import Bytes SpecPkt ModelPkt ModelSerde.

(** A packet that would be accepted anywhere: right hash, valid signature when signed *)
Definition sound_packet (c : crypto) (b : bytes) : Prop :=
  exists nh p, lenN nh = 32 /\ point_ok p /\ signature_ok (hash c) (validate_signature c) p /\ b = packet (hash c) nh p.
(** A format that reads what it writes, and reads bytes only *)
Definition lends {T} (f : Format T) : Prop := (forall b, bytes_ok b -> f_read f (f_write f b) = Some b) /\ forall x b, f_read f x = Some b -> bytes_ok b.
