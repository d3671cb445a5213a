(** Model of the stream decoder: crates/common/src/pkt_reader.rs, and of the header
    update it applies to each packet: crates/pkt/src/netpkt/header.rs. *)
From Verif Require Import Bytes ModelSpace ModelPkt.

(** What successive [Read::read] calls on the underlying reader do: deliver the bytes of
    a chunk (as many as fit, the rest stays for the next call), return [Ok(0)] once
    ([Chunk []]), or fail once.  After the last event every call returns [Ok(0)]. *)
Inductive io_error := IoUnexpectedEof | IoInterrupted | IoOther (code : N).
Inductive event := Chunk (b : bytes) | Fail (e : io_error).
Definition reader := list event.

(** pkt_reader.rs:11-17 *)
Inductive DecError := DPkt (e : PktError) | DIo (e : io_error).

(** pkt_reader.rs:19-25 without the reader. *)
Record decoder_opts := { allow_private : bool; hop : bool; skip_hash : bool }.

(** Outcome of filling a buffer. *)
Inductive fill := Full (b : bytes) (r : reader) | EndOfStream (r : reader) | IoFailed (e : io_error) (r : reader).

(** pkt_reader.rs:41-66: fill the 68-byte header; [need] is what is left of it.  A
    fifth [Ok(0)] and an [UnexpectedEof] error end the iteration silently. *)
Fixpoint fill_header (need : N) (zeros : N) (acc : bytes) (r : reader) : fill :=
  if need =? 0 then Full acc r
  else match r with
       | [] => EndOfStream []
       | Chunk b :: r' =>
           if lenN b =? 0 then (if 3 <? zeros then EndOfStream r' else fill_header need (zeros + 1) acc r')
           else if lenN b <=? need then fill_header (need - lenN b) zeros (acc ++ b) r'
           else Full (acc ++ takeN need b) (Chunk (dropN need b) :: r')
       | Fail IoUnexpectedEof :: r' => EndOfStream r'
       | Fail e :: r' => IoFailed e r'
       end.

(** std [Read::read_exact], used at pkt_reader.rs:81-84: [Ok(0)] is an
    [UnexpectedEof] error, [Interrupted] is retried. *)
Fixpoint read_exact (need : N) (acc : bytes) (r : reader) : fill :=
  if need =? 0 then Full acc r
  else match r with
       | [] => IoFailed IoUnexpectedEof []
       | Chunk b :: r' =>
           if lenN b =? 0 then IoFailed IoUnexpectedEof r'
           else if lenN b <=? need then read_exact (need - lenN b) (acc ++ b) r'
           else Full (acc ++ takeN need b) (Chunk (dropN need b) :: r')
       | Fail IoInterrupted :: r' => read_exact need acc r'
       | Fail e :: r' => IoFailed e r'
       end.

(** header.rs:102-106 [NetPktHeader::hop]: increment the hop count (a big-endian u32 at
    bytes 4..8, saturating, endian_types.rs:43) and clear the top bit of the flags at
    byte 3 (header.rs:26-34 for the layout). *)
Definition hop_header (nh : bytes) : bytes :=
  takeN 3 nh ++ [N.land (nth 3 nh 0) 127] ++
  be_encode 4 (N.min (be_decode (sliceN 4 8 nh) + 1) 4294967295) ++ dropN 8 nh.

(** pkt_reader.rs:37-102 [next].  Allocating for the declared size and writing the
    header into it (partial.rs:30-43) is modelled by concatenation; slicing from byte
    68 of a smaller buffer is a panic. *)
Definition next (c : crypto) (o : decoder_opts) (r : reader) : option (outcome DecError bytes) * reader :=
  match fill_header 68 0 [] r with
  | EndOfStream r => (None, r)
  | IoFailed e r => (Some (Err (DIo e)), r)
  | Full hd r =>
      match ph_check (ph_cast (nptr_point hd)) with
      | Ok _ =>
          let len := netpkt_size (ph_cast (nptr_point hd)) in
          if len <? 68 then (Some Panic, r)
          else
          match read_exact (len - 68) hd r with
          | Full pkt r =>
              let checked :=
                obind (nptr_check c pkt (skip_hash o)) (fun _ =>
                if allow_private o then Ok tt else obind (ptr_group (nptr_point pkt)) check_private) in
              match checked with
              | Ok _ => (Some (Ok (if hop o then hop_header (takeN 32 pkt) ++ dropN 32 pkt else pkt)), r)
              | Err e => (Some (Err (DPkt e)), r)
              | Panic => (Some Panic, r)
              | OutOfFuel => (Some OutOfFuel, r)
              end
          | EndOfStream r => (None, r)
          | IoFailed e r => (Some (Err (DIo e)), r)
          end
      | Err e => (Some (Err (DPkt e)), r)
      | Panic => (Some Panic, r)
      | OutOfFuel => (Some OutOfFuel, r)
      end
  end.

(** Iterating the decoder, as its users do (for example cli/linkspace/src/main.rs
    collects with [?]): until [None] or the first error. *)
Inductive ending := Finished | Failed (e : DecError) | Crashed | Unfinished.
Fixpoint decode_all (fuel : nat) (c : crypto) (o : decoder_opts) (r : reader) : list bytes * ending :=
  match fuel with
  | O => ([], Unfinished)
  | S f =>
      match next c o r with
      | (None, _) => ([], Finished)
      | (Some (Ok p), r') => let (l, e) := decode_all f c o r' in (p :: l, e)
      | (Some (Err e), _) => ([], Failed e)
      | (Some _, _) => ([], Crashed)
      end
  end.
