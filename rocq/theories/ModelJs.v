(** Reading and writing packets in JavaScript.

    Source: ffi/linkspace-js/src/lib.rs, crates/pkt/src/netpkt/netpkt_arc.rs and
    crates/pkt/src/point.rs. *)
From Verif Require Import Bytes ModelPkt.

(** ffi/linkspace-js/src/utils.rs:4-10 [JsErr]: what is thrown.  [_read] throws the number
    of bytes needed as a plain number (a [JsVal]) and everything else as an error of the
    packet crate. *)
Inductive JsErr : Type :=
| JNeed (n : N)
| JPkt (e : PktError).
(** utils.rs:16-20: [?] on a packet error. *)
Definition js_pkt {A} (o : outcome PktError A) : outcome JsErr A :=
  match o with Ok a => Ok a | Err e => Err (JPkt e) | Panic => Panic | OutOfFuel => OutOfFuel end.

(** crates/pkt/src/point.rs:109-112 [padded_content_size]; the subtraction saturates. *)
Definition padded_content_size (h : PointHeader) : N := padded_point_size h - 4.

(** crates/pkt/src/netpkt/netpkt_arc.rs:113-128 [from_header_and_copy]: the header, then a
    buffer of [padded_content_size] bytes that the callback fills from [src].  Simplified:
    the callback copies all of [src] with no check of its length (lib.rs:298-302), which is
    a write past the buffer when [src] is longer and leaves uninitialised bytes when it is
    shorter; both are modelled as [Panic]. *)
Definition from_header_and_copy (c : crypto) (partial : bytes) (skip_hash : bool) (src : bytes)
  : outcome PktError bytes :=
  if negb (lenN src =? padded_content_size (ph_cast (nptr_point partial))) then Panic
  else
    let pkt := partial ++ src in
    obind (nptr_check c pkt skip_hash) (fun _ => Ok pkt).

(** ffi/linkspace-js/src/lib.rs:273-312 [_read].  A [Uint8Array] is its bytes;
    [slice(a, b)] with [b] below [a] is empty, as in [sliceN]. *)
Definition js_read (c : crypto) (b : bytes) (allow_private skip_hash : bool) : outcome JsErr (bytes * bytes) :=
  if lenN b <? MIN_NETPKT_SIZE then Err (JNeed MIN_NETPKT_SIZE)
  else
    let partial := sliceN 0 MIN_NETPKT_SIZE b in
    let h := ph_cast (nptr_point partial) in
    obind (js_pkt (ph_check h)) (fun _ =>
    let pktsize := netpkt_size h in
    if lenN b <? pktsize then Err (JNeed pktsize)
    else
      obind (js_pkt (from_header_and_copy c partial skip_hash (sliceN MIN_NETPKT_SIZE pktsize b))) (fun pkt =>
      obind (if allow_private then Ok tt
             else js_pkt (obind (ptr_group (nptr_point pkt)) check_private)) (fun _ =>
      Ok (pkt, sliceN pktsize (lenN b) b)))).

(** [Option::unwrap_or(false)] on an argument that may be left out. *)
Definition or_false (o : option bool) : bool := match o with Some x => x | None => false end.
(** lib.rs:253-255 [lk_read]. *)
Definition js_lk_read (c : crypto) (b : bytes) (allow_private : option bool) :=
  js_read c b (or_false allow_private) false.
(** lib.rs:266-271 [lk_read_unchecked]. *)
Definition js_lk_read_unchecked (c : crypto) (b : bytes) (allow_private : option bool) :=
  js_read c b (or_false allow_private) true.

(** lib.rs:234-241 [lk_write] of a packet held as [pkt] ([NetPktArc], the bytes of the
    packet); [copy_from] needs both lengths equal, and both are [size()]. *)
Definition js_lk_write (pkt : bytes) (allow_private : option bool) : outcome JsErr bytes :=
  obind (match allow_private with
         | Some true => Ok tt
         | _ => js_pkt (obind (ptr_group (nptr_point pkt)) check_private)
         end) (fun _ =>
  if negb (lenN (takeN (nptr_size pkt) pkt) =? nptr_size pkt) then Panic
  else Ok (takeN (nptr_size pkt) pkt)).
