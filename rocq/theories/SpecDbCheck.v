(** Specification of checking the database. *)
From Verif Require Import Bytes ModelPkt ModelTree ModelStore.

(** Every hash is found under the stamp of a packet with that hash, and every packet is found by its hash *)
Definition hashes_agree (d : db) : Prop :=
  forall h s, In (h, s) (hash_t d) <-> exists b, In (s, b) (log_t d) /\ nptr_hash b = h.
(** An entry of the tree points to a packet *)
Definition points_to_packet (d : db) (e : bytes * bytes) : Prop := exists b, In (val_logptr (snd e), b) (log_t d).
(** Parts whose fixed fields have the sizes they have in memory, and a stamp of 64 bits *)
Definition sized (e : N * NetPktParts) : Prop := fst e < 2 ^ 64 /\ lenN (net_header (snd e)) = 32 /\ lenN (np_hash (snd e)) = 32.
