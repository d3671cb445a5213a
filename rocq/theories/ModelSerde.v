(** Packets in other formats: crates/pkt/src/netpkt/serde_impl.rs.  A format writes a byte string ([serde_bytes::serialize]) and
    reads one that it can lend ([<&[u8]>::deserialize]); reading gives [None] where the format fails. *)
From Verif Require Import Bytes ModelPkt.

(** A format of the serde crate, as far as it is used here *)
Record Format (T : Type) := mkFormat { f_write : bytes -> T; f_read : T -> option bytes }.
Arguments f_write {T} f. Arguments f_read {T} f.
(** The error of the format, or [serde::de::Error::custom] of the error of the packet *)
Inductive DeErr := EFormat | ECustom (e : PktError).
(** serde_impl.rs:17-40 [Serialize] for the three kinds of packet held as bytes; [as_netpkt_bytes] is the bytes up to the size
    of the packet (netpkt_ptr.rs:97-99) *)
Definition serialize {T} (f : Format T) (pkt : bytes) : T := f_write f (takeN (nptr_size pkt) pkt).
(** serde_impl.rs:42-61 [Deserialize] for [NetPktBox] and [NetPktArc], which differ in where they keep the bytes *)
Definition deserialize {T} (c : crypto) (f : Format T) (x : T) : outcome DeErr bytes :=
  match f_read f x with
  | None => Err EFormat
  | Some b => match read_pkt c b false with Ok p => Ok p | Err e => Err (ECustom e) | Panic => Panic | OutOfFuel => OutOfFuel end
  end.
