(** Model of points and network packets: building, writing, reading.
    Source: crates/pkt/src/{point,point_parts,point_ptr,builder,read,byte_segments,
    lib,consts}.rs, crates/pkt/src/netpkt/*.rs, crates/linkspace/src/lib.rs.

    Memory is a byte string; the [repr(C)] structs are read and written as the
    byte ranges of their fields.  Alignment, allocation and lifetimes are not
    modelled.  Reading outside a slice ([split_at_unchecked], [from_ptr_range],
    index arithmetic that underflows) is [Panic]. *)
From Verif Require Import Bytes ModelSpace.

(** crates/pkt/src/lib.rs:335-373 (the variants the modelled code can return). *)
Inductive PktError :=
| EUnknownPktType (bits : N) | EContentLen | EHeaderReservedSet (r : N)
| EMissingHeader | EMissingBytes (netpkt_size : N)
| EDataOffsetIncompatible | EISPOffsetIncompatible | EIndivisableLinkbytes
| EPaddingBitsNotU8Max | ESpace (e : SpaceError) | EInvalidSignature | EHashMismatch
| EPrivateGroup.

(** crates/pkt/src/lib.rs:374-381 [Error::requires_more]. *)
Definition requires_more (e : PktError) : option N :=
  match e with
  | EMissingHeader => Some 68
  | EMissingBytes n => Some n
  | _ => None
  end.

(** The cryptography crate (blake3 and Schnorr signatures) is not modelled; it is
    a parameter.  crates/cryptography/src/lib.rs: [blake3_hash]/[hash_segments]
    (the hash of the concatenation), [SigningKey::pubkey_bytes], [sign_hash],
    [validate_signature] (pubkey, signature, hash). *)
Record crypto := mkCrypto {
  hash : bytes -> bytes;
  skey : Type;
  pubkey_of : skey -> bytes;
  sign_hash : skey -> bytes -> bytes;
  validate_signature : bytes -> bytes -> bytes -> bool }.

(** What is assumed of it: sizes, and that a signature made by a key verifies. *)
Definition crypto_ok (c : crypto) : Prop :=
  (forall b, lenN (hash c b) = 32) /\ (forall k, lenN (pubkey_of c k) = 32) /\
  (forall k h, lenN (sign_hash c k h) = 64) /\
  (forall k h, validate_signature c (pubkey_of c k) (sign_hash c k h) h = true).

(** crates/pkt/src/consts.rs:5-20; sizes of the [repr(C)] structs of point.rs:8-30,
    point_parts.rs:17-22, lib.rs:90-96, header.rs:26-34. *)
Definition MAX_POINT_SIZE : N := 65024.
Definition MAX_CONTENT_SIZE : N := MAX_POINT_SIZE - 4.
Definition MIN_NETPKT_SIZE : N := 68.
Definition MAX_LINKPOINT_DATA_SIZE : N := MAX_CONTENT_SIZE - 60.
Definition MAX_KEYPOINT_DATA_SIZE : N := MAX_CONTENT_SIZE - 96.

(** crates/pkt/src/lib.rs:284-297 [PointTypeFlags]. *)
Definition LINK_FLAG : N := 2.
Definition SIGNATURE_FLAG : N := 4.
Definition DATA_POINT : N := 1.
Definition LINK_POINT : N := 3.
Definition KEY_POINT : N := 7.
Definition ERROR_POINT : N := 128.
(** bitflags [contains]. *)
Definition contains (bits flag : N) : bool := N.land bits flag =? flag.

(** crates/pkt/src/point.rs:10-15 *)
Record PointHeader := mkPointHeader { reserved : N; point_type : N; uset_bytes : N }.
(** crates/pkt/src/point.rs:87-89 [as_bytes] and its inverse cast. *)
Definition ph_as_bytes (h : PointHeader) : bytes :=
  [reserved h; point_type h] ++ be_encode 2 (uset_bytes h).
Definition ph_cast (b : bytes) : PointHeader :=
  mkPointHeader (nth 0 b 0) (nth 1 b 0) (be_decode (sliceN 2 4 b)).

(** crates/pkt/src/point.rs:91-117.  u16 arithmetic; [div_ceil(8)*8] would wrap
    above 65528, which [check] excludes (it bounds uset_bytes by 65024). *)
Definition upoint_size (h : PointHeader) : N := uset_bytes h.
Definition padded_point_size (h : PointHeader) : N := ((upoint_size h + 7) / 8 * 8) mod 65536.
Definition padding_len (h : PointHeader) : N := padded_point_size h - upoint_size h.
Definition ucontent_size (h : PointHeader) : N := upoint_size h - 4.
Definition netpkt_size (h : PointHeader) : N := (padded_point_size h + 32 + 32) mod 65536.

(** crates/pkt/src/point.rs:66-86 [check]. *)
Definition ph_check (h : PointHeader) : outcome PktError PointHeader :=
  if negb (reserved h =? 0) then Err (EHeaderReservedSet (reserved h))
  else
    let len := ucontent_size h in
    if MAX_CONTENT_SIZE <? len then Err EContentLen
    else
      let t := point_type h in
      if t =? DATA_POINT then Ok h
      else if t =? LINK_POINT then (if 60 <=? len then Ok h else Err EContentLen)
      else if t =? KEY_POINT then (if 60 + 96 <=? len then Ok h else Err EContentLen)
      else if t =? ERROR_POINT then Ok h
      else Err (EUnknownPktType t).

(** crates/pkt/src/point.rs:51-64 [new_point_size]; the cast to u16 is exact below
    MAX_POINT_SIZE. *)
Definition new_point_size (kind point_size : N) : outcome PktError PointHeader :=
  if MAX_POINT_SIZE <? point_size then Err EContentLen
  else ph_check (mkPointHeader 0 kind point_size).
(** crates/pkt/src/point.rs:44-50 [new_content_len]; the saturating addition only
    differs for slices longer than the address space. *)
Definition new_content_len (kind content_len : N) : outcome PktError PointHeader :=
  new_point_size kind (content_len + 4).

(** crates/pkt/src/lib.rs:90-96: a link is a 16-byte tag and a 32-byte pointer. *)
Notation Link := (bytes * bytes)%type (only parsing).
Definition link_as_bytes (l : Link) : bytes := fst l ++ snd l.
(** crates/pkt/src/point_parts.rs:68-75 [links_as_bytes]. *)
Definition links_as_bytes (ls : list Link) : bytes := flat_map link_as_bytes ls.
(** The cast of crates/pkt/src/point_ptr.rs:250-253 ([from_ptr_range] of links). *)
Fixpoint links_cast (n : nat) (b : bytes) : list Link :=
  match n with
  | O => []
  | S n' => (takeN 16 b, sliceN 16 48 b) :: links_cast n' (dropN 48 b)
  end.

(** crates/pkt/src/point.rs:19-30 *)
Record LinkPointHeader := mkLPH {
  offset_rspace : N; offset_data : N; create_stamp : N; group : bytes; domain : bytes }.
(** crates/pkt/src/point.rs:31-35 [as_bytes] and its inverse cast (point_ptr.rs:109). *)
Definition lph_as_bytes (h : LinkPointHeader) : bytes :=
  be_encode 2 (offset_rspace h) ++ be_encode 2 (offset_data h) ++
  be_encode 8 (create_stamp h) ++ group h ++ domain h.
Definition lph_cast (b : bytes) : LinkPointHeader :=
  mkLPH (be_decode (sliceN 0 2 b)) (be_decode (sliceN 2 4 b)) (be_decode (sliceN 4 12 b))
        (sliceN 12 44 b) (sliceN 44 60 b).

(** crates/pkt/src/point_parts.rs:17-26 *)
Record Signed := mkSigned { s_pubkey : bytes; s_signature : bytes }.
Definition signed_as_bytes (s : Signed) : bytes := s_pubkey s ++ s_signature s.
Definition signed_cast (b : bytes) : Signed := mkSigned (takeN 32 b) (sliceN 32 96 b).

(** crates/pkt/src/point_parts.rs:53-65 *)
Record Tail := mkTail { links : list Link; tdata : bytes; rspace : bytes }.
Record LinkPoint := mkLinkPoint { head : LinkPointHeader; tail : Tail }.
(** crates/pkt/src/point_parts.rs:34-40 *)
Inductive PointFields :=
| FData (d : bytes) | FLink (lp : LinkPoint) | FKey (lp : LinkPoint) (s : Signed)
| FError (d : bytes) | FUnknown (d : bytes).
(** crates/pkt/src/point_parts.rs:12-15 *)
Record PointParts := mkParts { pkt_header : PointHeader; fields : PointFields }.

(** crates/pkt/src/point_parts.rs:76-78 [Tail::byte_len]. *)
Definition tail_byte_len (t : Tail) : N :=
  lenN (tdata t) + lenN (rspace t) + lenN (links_as_bytes (links t)).

(** ** ByteSegments: crates/pkt/src/byte_segments.rs *)
(** :80-89 [from_array] (8 slots, unused ones empty); :97-104 [push_front] (the last
    slot is dropped; a debug assertion only checks it is empty in debug builds);
    :105-134 [to_bytes], [write_segments_unchecked], [write_into]: concatenation. *)
Definition from_array (segs : list bytes) : list bytes := firstn 8 (segs ++ repeat [] 8).
Definition push_front (h : bytes) (segs : list bytes) : list bytes := h :: firstn 7 segs.
Definition seg_bytes (segs : list bytes) : bytes := concat segs.

(** crates/pkt/src/point_parts.rs:131-135 [padding]: [&PAD[..pad_len]]. *)
Definition parts_padding (h : PointHeader) : bytes := repeat 255 (N.to_nat (padding_len h)).

(** crates/pkt/src/point_parts.rs:98-125 [pkt_segments]. *)
Definition parts_segments (p : PointParts) : list bytes :=
  let hd := ph_as_bytes (pkt_header p) in
  let pad := parts_padding (pkt_header p) in
  match fields p with
  | FUnknown b | FData b | FError b => from_array [hd; b; pad]
  | FLink lp =>
      from_array [hd; lph_as_bytes (head lp); links_as_bytes (links (tail lp));
                  rspace (tail lp); tdata (tail lp); pad]
  | FKey lp s =>
      from_array [hd; lph_as_bytes (head lp); links_as_bytes (links (tail lp));
                  rspace (tail lp); tdata (tail lp); pad; signed_as_bytes s]
  end.

(** crates/pkt/src/lib.rs:265-267 [compute_hash]. *)
Definition parts_compute_hash (c : crypto) (p : PointParts) : bytes :=
  hash c (seg_bytes (parts_segments p)).

(** crates/pkt/src/netpkt/netpkt_parts.rs:12-18.  The network header is kept as its
    32 bytes ([repr(packed)], header.rs:23-34). *)
Record NetPktParts := mkNetParts { net_header : bytes; np_hash : bytes; point_parts : PointParts }.
(** crates/pkt/src/netpkt/netpkt_parts.rs:55-63 [byte_segments]. *)
Definition np_byte_segments (p : NetPktParts) : list bytes :=
  push_front (net_header p ++ np_hash p) (parts_segments (point_parts p)).

(** ** Builders: crates/pkt/src/builder.rs *)
(** :13-24 [try_datapoint_ref]; the network header [nh] is the evaluated NetOpts. *)
Definition try_datapoint (c : crypto) (data nh : bytes) : outcome PktError NetPktParts :=
  obind (new_content_len DATA_POINT (lenN data)) (fun h =>
  let p := mkParts h (FData data) in
  Ok (mkNetParts nh (parts_compute_hash c p) p)).

(** :203-218 [errorpoint]: [unwrap] of the size check. *)
Definition errorpoint (c : crypto) (data nh : bytes) : outcome PktError NetPktParts :=
  match new_content_len ERROR_POINT (lenN data) with
  | Ok h => let p := mkParts h (FError data) in Ok (mkNetParts nh (parts_compute_hash c p) p)
  | _ => Panic
  end.

(** [usize::try_into::<u16>] mapped to ContentLen (:112-121). *)
Definition to_u16 (n : N) : outcome PktError N := if n <? 65536 then Ok n else Err EContentLen.

(** :95-139 [linkp]: the rooted space is checked first and the result unwrapped. *)
Definition linkp (g dm rsp : bytes) (ls : list Link) (data : bytes) (stamp : N)
  : outcome PktError (PointHeader * LinkPoint) :=
  match rs_check_components rsp with
  | Ok _ =>
      let t := mkTail ls data rsp in
      let space_size := lenN rsp in
      let offset_rspace_ptr := 4 + 60 + 48 * lenN ls in
      obind (to_u16 offset_rspace_ptr) (fun orsp =>
      obind (to_u16 (offset_rspace_ptr + space_size)) (fun od =>
      obind (new_content_len LINK_POINT (60 + tail_byte_len t)) (fun h =>
      Ok (h, mkLinkPoint (mkLPH orsp od stamp g dm) t))))
  | _ => Panic
  end.

(** :141-161 [try_linkpoint_ref]. *)
Definition try_linkpoint (c : crypto) (g dm rsp : bytes) (ls : list Link) (data : bytes)
  (stamp : N) (nh : bytes) : outcome PktError NetPktParts :=
  obind (linkp g dm rsp ls data stamp) (fun '(h, lp) =>
  let p := mkParts h (FLink lp) in
  Ok (mkNetParts nh (parts_compute_hash c p) p)).

(** :164-201 [try_keypoint_ref]. *)
Definition try_keypoint (c : crypto) (g dm rsp : bytes) (ls : list Link) (data : bytes)
  (stamp : N) (k : skey c) (nh : bytes) : outcome PktError NetPktParts :=
  obind (linkp g dm rsp ls data stamp) (fun '(h0, lp) =>
  obind (new_point_size (N.lor (point_type h0) SIGNATURE_FLAG) (uset_bytes h0 + 96)) (fun h =>
  let linkpoint_hash := parts_compute_hash c (mkParts h (FLink lp)) in
  let p := mkParts h (FKey lp (mkSigned (pubkey_of c k) (sign_hash c k linkpoint_hash))) in
  Ok (mkNetParts nh (parts_compute_hash c p) p))).

(** :28-43 [try_point]. *)
Definition try_point (c : crypto) (g dm rsp : bytes) (ls : list Link) (data : bytes)
  (stamp : N) (k : option (skey c)) (nh : bytes) : outcome PktError NetPktParts :=
  match k with
  | Some k => try_keypoint c g dm rsp ls data stamp k nh
  | None => try_linkpoint c g dm rsp ls data stamp nh
  end.

(** :223-235 [calc_free_space]; isize as Z, saturation is unreachable for real slices. *)
Definition calc_free_space (space : bytes) (ls : list Link) (data : bytes) (signed : bool) : Z :=
  let size := Z.of_N (if signed then MAX_KEYPOINT_DATA_SIZE else MAX_LINKPOINT_DATA_SIZE) in
  let size := (size - Z.of_N (lenN ls * 48))%Z in
  let size := match space with [] => size | _ => (size - Z.of_N (lenN space + 8))%Z end in
  (size - Z.of_N (lenN data))%Z.

(** ** Byte packets: crates/pkt/src/point_ptr.rs.  [pt] is the memory from the point
    header on (it may extend past the point). *)
Definition split_at_unchecked (n : N) (b : bytes) : outcome PktError (bytes * bytes) :=
  if lenN b <? n then Panic else Ok (takeN n b, dropN n b).
Definition usub (a b : N) : outcome PktError N := if a <? b then Panic else Ok (a - b).

(** :383-403 *)
Inductive BarePointFields :=
| BData (data padding : bytes) | BLink (header : LinkPointHeader) (signed : option Signed) (padding : bytes)
| BError (msg padding : bytes) | BUnknown (b : bytes).

(** :203-210 [pkt_bytes]. *)
Definition pkt_bytes (pt : bytes) : outcome PktError bytes :=
  let n := padded_point_size (ph_cast pt) in
  if lenN pt <? n then Panic else Ok (takeN n pt).

(** :99-133 [fixed]. *)
Definition fixed (pt : bytes) : outcome PktError BarePointFields :=
  let h := ph_cast pt in
  obind (pkt_bytes pt) (fun pb =>
  obind (split_at_unchecked 4 pb) (fun '(_, rest) =>
  if contains (point_type h) LINK_FLAG then
    obind (split_at_unchecked 60 rest) (fun '(lp, rest) =>
    obind (if contains (point_type h) SIGNATURE_FLAG then
             obind (usub (lenN rest) 96) (fun n =>
             obind (split_at_unchecked n rest) (fun '(tl, sb) => Ok (tl, Some (signed_cast sb))))
           else Ok (rest, None)) (fun '(rest, signed) =>
    obind (usub (lenN rest) (padding_len h)) (fun n =>
    obind (split_at_unchecked n rest) (fun '(_, pad) => Ok (BLink (lph_cast lp) signed pad)))))
  else
    obind (usub (lenN rest) (padding_len h)) (fun n =>
    obind (split_at_unchecked n rest) (fun '(mem, pad) =>
    Ok (if point_type h =? DATA_POINT then BData mem pad
        else if point_type h =? ERROR_POINT then BError mem pad
        else BUnknown rest))))).

(** :239-263 [unchecked_tail]; pointer ranges that run backwards, are not a multiple of
    the link size or leave the memory are [Panic].  The u16 subtraction of the
    signature size cannot underflow after [check]. *)
Definition unchecked_tail (pt : bytes) : outcome PktError Tail :=
  let h := ph_cast pt in
  let p := lph_cast (sliceN 4 64 pt) in
  let size := upoint_size h - (if contains (point_type h) SIGNATURE_FLAG then 96 else 0) in
  let io := offset_rspace p in
  let dof := offset_data p in
  if (io <? 64) || negb ((io - 64) mod 48 =? 0) || (dof <? io) || (size <? dof) || (lenN pt <? size)
  then Panic
  else Ok (mkTail (links_cast (N.to_nat ((io - 64) / 48)) (sliceN 64 io pt))
                  (sliceN dof size pt) (sliceN io dof pt)).

(** :136-181 [internal_consitent_length]. *)
Definition internal_consistent_length (pt : bytes) : outcome PktError unit :=
  let h := ph_cast pt in
  obind (ph_check h) (fun _ =>
  obind (fixed pt) (fun bf =>
  obind (match bf with
         | BData _ pad | BError _ pad => Ok pad
         | BUnknown _ => Ok []
         | BLink hd _ pad =>
             let point_size := upoint_size h - (if contains (point_type h) SIGNATURE_FLAG then 96 else 0) in
             let io := offset_rspace hd in
             let dof := offset_data hd in
             if point_size <? dof then Err EDataOffsetIncompatible
             else if dof <? io then Err EDataOffsetIncompatible
             else if io <? 4 + 60 then Err EISPOffsetIncompatible
             else if negb ((io - (4 + 60)) mod 48 =? 0) then Err EIndivisableLinkbytes
             else obind (unchecked_tail pt) (fun t =>
                  match rs_check_components (rspace t) with
                  | Ok _ => Ok pad
                  | Err e => Err (ESpace e)
                  | Panic => Panic
                  | OutOfFuel => OutOfFuel
                  end)
         end) (fun pad =>
  if 7 <? lenN pad then Err EPaddingBitsNotU8Max
  else if negb (forallb (fun o => o =? 255) pad) then Err EPaddingBitsNotU8Max
  else Ok tt))).

(** :183-198 [check_signature]. *)
Definition check_signature (c : crypto) (pt : bytes) : outcome PktError unit :=
  obind (fixed pt) (fun bf =>
  match bf with
  | BLink _ (Some s) _ =>
      obind (pkt_bytes pt) (fun pb =>
      obind (usub (lenN pb) 96) (fun n =>
      if validate_signature c (s_pubkey s) (s_signature s) (hash c (takeN n pb))
      then Ok tt else Err EInvalidSignature))
  | _ => Ok tt
  end).

(** :288-323 [parts]. *)
Definition ptr_parts (pt : bytes) : outcome PktError PointParts :=
  let h := ph_cast pt in
  obind (fixed pt) (fun bf =>
  match bf with
  | BData d _ => Ok (mkParts h (FData d))
  | BLink hd None _ => obind (unchecked_tail pt) (fun t => Ok (mkParts h (FLink (mkLinkPoint hd t))))
  | BLink hd (Some s) _ => obind (unchecked_tail pt) (fun t => Ok (mkParts h (FKey (mkLinkPoint hd t) s)))
  | BError d _ => Ok (mkParts h (FError d))
  | BUnknown d => Ok (mkParts h (FUnknown d))
  end).

(** :283-286 [linkpoint_header], and crates/pkt/src/lib.rs:194-196 [group]. *)
Definition ptr_group (pt : bytes) : outcome PktError (option bytes) :=
  obind (fixed pt) (fun bf =>
  match bf with BLink hd _ _ => Ok (Some (group hd)) | _ => Ok None end).
(** The same for the enum representation (point_parts.rs:149-156). *)
Definition parts_group (p : PointParts) : option bytes :=
  match fields p with FLink lp | FKey lp _ => Some (group (head lp)) | _ => None end.

(** crates/pkt/src/consts.rs:48 and lib.rs:269-275 [check_private]. *)
Definition PRIVATE : bytes := repeat 0 32.
Definition check_private (g : option bytes) : outcome PktError unit :=
  match g with
  | Some g => if beqb g PRIVATE then Err EPrivateGroup else Ok tt
  | None => Ok tt
  end.

(** crates/pkt/src/netpkt/netpkt_ptr.rs:26-30, 87-100: a packet in memory is its
    network header (32 bytes), hash (32 bytes) and point. *)
Definition nptr_point (b : bytes) : bytes := dropN 64 b.
Definition nptr_hash (b : bytes) : bytes := sliceN 32 64 b.
Definition nptr_header (b : bytes) : bytes := takeN 32 b.
Definition nptr_size (b : bytes) : N := netpkt_size (ph_cast (nptr_point b)).
(** :87-96 [check]; compute_hash over [pkt_segments] = [pkt_bytes] (point_ptr.rs:331-333). *)
Definition nptr_check (c : crypto) (b : bytes) (skip_hash : bool) : outcome PktError unit :=
  obind (internal_consistent_length (nptr_point b)) (fun _ =>
  if skip_hash then Ok tt
  else obind (check_signature c (nptr_point b)) (fun _ =>
       obind (pkt_bytes (nptr_point b)) (fun pb =>
       if beqb (nptr_hash b) (hash c pb) then Ok tt else Err EHashMismatch))).

(** crates/pkt/src/read.rs:5-34 [read_pkt].  The borrowed and the copied result are the
    same bytes, and the checks only read the first [netpkt_size] bytes or the header
    (which [PartialNetHeader::alloc], netpkt/partial.rs, also writes to the copy), so
    they are modelled on the input buffer. *)
Definition read_pkt (c : crypto) (b : bytes) (skip_hash : bool) : outcome PktError bytes :=
  if lenN b <? MIN_NETPKT_SIZE then Err EMissingHeader
  else
    let h := ph_cast (nptr_point b) in
    obind (ph_check h) (fun _ =>
    let n := netpkt_size h in
    if lenN b <? n then Err (EMissingBytes n)
    else obind (nptr_check c b skip_hash) (fun _ => Ok (takeN n b))).

(** crates/linkspace/src/lib.rs:174-182 [lk_read]. *)
Definition lk_read (c : crypto) (b : bytes) (allow_private : bool) : outcome PktError (bytes * bytes) :=
  obind (read_pkt c b false) (fun pkt =>
  obind (if allow_private then Ok tt
         else obind (ptr_group (nptr_point pkt)) check_private) (fun _ =>
  Ok (pkt, dropN (nptr_size pkt) b))).
(** crates/linkspace/src/lib.rs:183-194 [lk_read_unchecked]; [debug] = cfg!(debug_assertions). *)
Definition lk_read_unchecked (debug : bool) (c : crypto) (b : bytes) (allow_private : bool)
  : outcome PktError (bytes * bytes) :=
  obind (read_pkt c b debug) (fun pkt =>
  obind (if allow_private then Ok tt
         else obind (ptr_group (nptr_point pkt)) check_private) (fun _ =>
  Ok (pkt, dropN (nptr_size pkt) b))).

(** crates/linkspace/src/lib.rs:196-206 [lk_write]: bytes appended to the output. *)
Definition lk_write (p : NetPktParts) (allow_private : bool) : outcome PktError bytes :=
  obind (if allow_private then Ok tt else check_private (parts_group (point_parts p))) (fun _ =>
  Ok (seg_bytes (np_byte_segments p))).
(** The same for a packet held as bytes (netpkt_ptr.rs:97-99, 151-153). *)
Definition lk_write_ptr (b : bytes) (allow_private : bool) : outcome PktError bytes :=
  obind (if allow_private then Ok tt else obind (ptr_group (nptr_point b)) check_private) (fun _ =>
  Ok (takeN (nptr_size b) b)).

(** crates/pkt/src/netpkt/reroute.rs:14-17, 45-49: a packet with another network
    header; segment 0 loses its first 32 bytes and the new header is pushed in front. *)
Definition reroute_segments (nh : bytes) (segs : list bytes) : list bytes :=
  match segs with
  | s0 :: r => push_front nh (dropN 32 s0 :: r)
  | [] => [nh]
  end.
Definition reroute_parts_bytes (nh : bytes) (p : NetPktParts) : bytes :=
  seg_bytes (reroute_segments nh (np_byte_segments p)).
Definition reroute_ptr_bytes (nh : bytes) (b : bytes) : bytes :=
  seg_bytes (reroute_segments nh (from_array [takeN (nptr_size b) b])).

(** Reading a buffer packet by packet, as the command line readers and the
    documentation of [lk_read] describe; stops at the first error. *)
Fixpoint lk_read_all (fuel : nat) (c : crypto) (b : bytes) (allow_private : bool)
  : outcome PktError (list bytes) :=
  match b with
  | [] => Ok []
  | _ => match fuel with
         | O => OutOfFuel
         | S f => obind (lk_read c b allow_private) (fun '(pkt, rest) =>
                  obind (lk_read_all f c rest allow_private) (fun l => Ok (pkt :: l)))
         end
  end.
