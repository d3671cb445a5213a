(** Specification for the stream decoder. *)
From Verif Require Import Bytes ModelPkt ModelStream SpecPkt.

(** The reader delivers the byte string [s], cut in any way into non-empty reads. *)
Definition delivers (r : reader) (s : bytes) : Prop :=
  exists cs, r = map Chunk cs /\ Forall (fun b => b <> []) cs /\ concat cs = s.

(** [nh'] is [nh] after one more hop: a 3-byte prefix, a flag byte whose top bit is
    cleared, a 4-byte hop count that is incremented (and stays at its maximum), and the
    rest unchanged. *)
Definition hop_of (nh nh' : bytes) : Prop :=
  exists prefix flags count rest, nh = prefix ++ [flags] ++ count ++ rest /\
    lenN prefix = 3 /\ lenN count = 4 /\
    nh' = prefix ++ [N.land flags 127] ++ be_encode 4 (N.min (be_decode count + 1) (2 ^ 32 - 1)) ++ rest.

(** A packet the decoder must accept. *)
Definition acceptable (c : crypto) (allow : bool) (q : bytes * point) : Prop :=
  lenN (fst q) = 32 /\ bytes_ok (packet (hash c) (fst q) (snd q)) /\ point_ok (snd q) /\
  signature_ok (hash c) (validate_signature c) (snd q) /\ (allow = false -> ~ in_private_group (snd q)).
