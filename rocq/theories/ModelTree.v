(** Model of the tree index key and value and of packet comparison:
    crates/pkt/src/netpkt/tree_order.rs and crates/pkt/src/netpkt/cmp.rs. *)
From Verif Require Import Bytes ModelSpace ModelPkt.

(** tree_order.rs:24-40 [TreeKey::from_fields]. *)
Definition tree_key (group domain : bytes) (sp_segm : N) (sp : space) (key : option bytes) : bytes :=
  group ++ domain ++ [sp_segm] ++ sp ++ match key with Some k => k | None => repeat 0 32 end.

(** tree_order.rs:42-68 [TreeValue], [from_pkt], [into_bytes]: a packed struct of
    big-endian fields; the two lengths are truncated to u16. *)
Definition tree_value (create : N) (hash : bytes) (logptr links_len data_size : N) : bytes :=
  be_encode 8 create ++ hash ++ be_encode 8 logptr ++
  be_encode 2 (links_len mod 65536) ++ be_encode 2 (data_size mod 65536).

(** crates/pkt/src/point_parts.rs:41-51 [common_idx]. *)
Definition common_idx (f : PointFields) : option (LinkPointHeader * bytes * option bytes) :=
  match f with
  | FLink lp => Some (head lp, rspace (tail lp), None)
  | FKey lp s => Some (head lp, rspace (tail lp), Some (s_pubkey s))
  | _ => None
  end.

(** crates/pkt/src/lib.rs:203-208, 250-252, point_parts.rs:82-90, 128-130 [data]: fields with
    their defaults. *)
Definition get_create_stamp (f : PointFields) : N :=
  match f with FLink lp | FKey lp _ => create_stamp (head lp) | _ => 0 end.
Definition get_links (f : PointFields) : list Link :=
  match f with FLink lp | FKey lp _ => links (tail lp) | _ => [] end.
Definition get_data (f : PointFields) : bytes :=
  match f with FLink lp | FKey lp _ => tdata (tail lp) | FData d | FError d | FUnknown d => d end.

(** tree_order.rs:71-80 [TreeEntry::from_pkt]: key and value, [None] for points that are
    not in the tree.  Reading the space of a rooted space can only panic on an invalid
    one. *)
Definition tree_entry (rstamp : N) (p : NetPktParts) : outcome SpaceError (option (bytes * bytes)) :=
  let f := fields (point_parts p) in
  match common_idx f with
  | None => Ok None
  | Some (h, rs, key) =>
      obind (rs_space rs) (fun sp =>
      Ok (Some (tree_key (group h) (domain h) (rs_depth rs) sp key,
                tree_value (get_create_stamp f) (np_hash p) rstamp (lenN (get_links f)) (lenN (get_data f)))))
  end.

(** tree_order.rs:147-197: reading the fields of a key.  [split_at(len - 32)] and the
    slice from byte 49 panic on keys that are too short. *)
Definition key_pop (k : bytes) : outcome SpaceError (bytes * bytes) :=
  if lenN k <? 32 then Panic else Ok (takeN (lenN k - 32) k, dropN (lenN k - 32) k).
Definition key_space_and_key (k : bytes) : outcome SpaceError (space * bytes) :=
  obind (key_pop k) (fun '(b, pk) => if lenN b <? 49 then Panic else Ok (dropN 49 b, pk)).
Definition key_fields (k : bytes) : outcome SpaceError (bytes * bytes * N * space * bytes) :=
  obind (key_space_and_key k) (fun '(sp, pk) =>
  Ok (takeN 32 k, sliceN 32 48 k, nth 48 k 0, sp, pk)).

(** tree_order.rs:105-127: reading the fields of a value. *)
Definition val_create (v : bytes) : N := be_decode (sliceN 0 8 v).
Definition val_hash (v : bytes) : bytes := sliceN 8 40 v.
Definition val_logptr (v : bytes) : N := be_decode (sliceN 40 48 v).
Definition val_links_len (v : bytes) : N := be_decode (sliceN 48 50 v).
Definition val_data_size (v : bytes) : N := be_decode (sliceN 50 52 v).

(** cmp.rs:18-22 [PktCmp::eq]. *)
Definition pkt_eq (a b : NetPktParts) : bool := beqb (np_hash a) (np_hash b).

(** cmp.rs:24-34 [PktCmp::cmp]: derived order of [Result<TreeEntry, &LkHash>]: [Ok]
    before [Err], an entry by key then value. *)
Definition pkt_cmp (a b : NetPktParts) : outcome SpaceError comparison :=
  obind (tree_entry 0 a) (fun ea =>
  obind (tree_entry 0 b) (fun eb =>
  Ok (match ea, eb with
      | Some (ka, va), Some (kb, vb) => match lex ka kb with Eq => lex va vb | c => c end
      | Some _, None => Lt
      | None, Some _ => Gt
      | None, None => lex (np_hash a) (np_hash b)
      end))).
