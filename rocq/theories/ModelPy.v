(** Model of packets in Python: ffi/linkspace-py/src/pynetpkt.rs [Pkt], [Links], and what ffi/linkspace-py/src/lib.rs writes and saves of
    them.  The conversions of pyo3 between Python and Rust values are not modelled: an argument has the size its type says. *)
From Coq Require Import ZArith.
From Verif Require Import Bytes ModelSpace ModelPkt ModelTree ModelPred ModelAbe ModelLns ModelHtml ModelPktScope.

(** pynetpkt.rs:20-22 [ReroutePkt<RecvPkt<NetPktArc>>]: a header of its own, the receive stamp, the packet *)
Record PyPkt := mkPy { y_header : bytes; y_recv : N; y_arc : bytes }.
(** :24-42 [from_arc], [from_dyn], [From]; reroute.rs:38-44 [ReroutePkt::new] copies the header *)
Definition from_dyn (b : bytes) (recv : option N) (now : N) : PyPkt :=
  mkPy (takeN 32 b) (match recv with Some r => r | None => now end) b.

(** ** Header: :197-261.  The header is 3 bytes prefix, flags, hop, stamp and four [ubits] (crates/pkt/src/netpkt/header.rs:26-32). *)
Definition put (i : N) (v h : bytes) : bytes := takeN i h ++ v ++ dropN (i + lenN v) h.
Definition with_header (y : PyPkt) (h : bytes) : PyPkt := mkPy h (y_recv y) (y_arc y).
(** header.rs:129-142 [NetFlags]: the bits 1, 2, 4, 8 and 128; [from_bits] is [None] on any other *)
Definition set_netflags (f : N) (y : PyPkt) : outcome unit PyPkt :=
  if N.land f 112 =? 0 then Ok (with_header y (put 3 [f] (y_header y))) else Panic.
Definition set_hop (v : bytes) (y : PyPkt) : PyPkt := with_header y (put 4 v (y_header y)).
Definition set_stamp (v : bytes) (y : PyPkt) : PyPkt := with_header y (put 8 v (y_header y)).
Definition set_ubits (i : N) (v : bytes) (y : PyPkt) : PyPkt := with_header y (put (16 + 4 * i) v (y_header y)).
Definition netflags (y : PyPkt) : N := nth 3 (y_header y) 0.
Definition hop (y : PyPkt) : bytes := sliceN 4 8 (y_header y).
Definition until (y : PyPkt) : bytes := sliceN 8 16 (y_header y).
Definition ubits (i : N) (y : PyPkt) : bytes := sliceN (16 + 4 * i) (20 + 4 * i) (y_header y).

(** ** Point.  Every method of the point goes through to the packet; unreadable bytes do not occur (the packet was checked). *)
Definition parts (y : PyPkt) : outcome unit NetPktParts := or_panic (view (y_arc y)).
(** :49-54 [__getitem__] with a field's name: it reads [netpktptr()], the packet without the changed header *)
Definition field_named (name : bytes) : option Field :=
  match find (fun x => beqb (fst x) name) field_names with Some x => Some (snd x) | None => None end.
Definition get_item (y : PyPkt) (name : bytes) : outcome unit bytes :=
  match field_named name with
  | Some f => obind (parts y) (fun np => field_bytes np f)
  | None => Err tt
  end.
(** :55-69 [__richcmp__]: the order of cmp.rs for the inequalities, the hashes for the rest *)
Inductive CompareOp := PyLt | PyLe | PyEq | PyNe | PyGt | PyGe.
Definition richcmp (op : CompareOp) (x y : PyPkt) : outcome unit bool :=
  obind (parts x) (fun a => obind (parts y) (fun b =>
  obind (or_panic (pkt_cmp a b)) (fun o => Ok
  match op with
  | PyLt => match o with Lt => true | _ => false end
  | PyLe => match o with Gt => false | _ => true end
  | PyEq => pkt_eq a b
  | PyNe => negb (pkt_eq a b)
  | PyGt => match o with Gt => true | _ => false end
  | PyGe => match o with Lt => false | _ => true end
  end))).
(** :70-73 [__hash__]: the slice from 8 to the size of an [isize], then [try_into().unwrap()] into 8 bytes (64 bit) *)
Definition py_hash (y : PyPkt) : outcome unit N :=
  obind (parts y) (fun a => let s := sliceN 8 8 (np_hash a) in if lenN s =? 8 then Ok (be_decode s) else Panic).
(** :160-167 [comp_list]: the first [depth] of the eight components; slicing past the eighth panics *)
Definition comp_list (y : PyPkt) : outcome unit (option (list bytes)) :=
  obind (parts y) (fun a =>
  match get_header a with
  | None => Ok None
  | Some _ => obind (or_panic (rs_comps_bytes (get_rspace a))) (fun cs =>
      if rs_depth (get_rspace a) <=? 8 then Ok (Some (takeN (rs_depth (get_rspace a)) cs)) else Panic)
  end).

(** ** Links: :263-295 *)
Record Links := mkLinks { l_list : list Link; l_idx : N }.
(** :249-256 [links] *)
Definition links (y : PyPkt) : outcome unit (option Links) :=
  obind (parts y) (fun a => Ok (match get_header a with None => None | Some _ => Some (mkLinks (pkt_links a) 0) end)).
Definition links_len (l : Links) : N := lenN (l_list l).
(** [wrapping_add_signed] on 64 bits *)
Definition wrapping_add_signed (n : N) (i : Z) : N := Z.to_N ((Z.of_N n + i) mod 2 ^ 64).
Definition links_item (l : Links) (i : Z) : option Link :=
  nth_error (l_list l) (N.to_nat (if (i <? 0)%Z then wrapping_add_signed (links_len l) i else Z.to_N i)).
Definition links_next (l : Links) : option Link * Links :=
  (nth_error (l_list l) (N.to_nat (l_idx l)), mkLinks (l_list l) (l_idx l + 1)).

(** ** lib.rs:249-260 [lk_write]: of the packet with the changed header *)
Definition py_write (y : PyPkt) (allow_private : bool) : outcome PktError bytes :=
  obind (if allow_private then Ok tt else obind (ptr_group (nptr_point (y_arc y))) check_private) (fun _ =>
  Ok (reroute_ptr_bytes (y_header y) (y_arc y))).
(** lib.rs:336-366 [lk_save], [lk_save_all], [lk_save_all_ext]: what is handed to the store is [netpktptr()] *)
Definition py_saved (y : PyPkt) : outcome unit NetPktParts := parts y.
