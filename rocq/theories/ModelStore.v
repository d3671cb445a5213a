(** Model of the packet store: crates/core/src/env/lmdb/{db,save,get,mod}.rs and
    crates/core/src/env/misc.rs.

    LMDB itself is not modelled below the level of its documented operations: a table is a
    list of entries in key order ([hash]: hash -> stamp, byte order; [pktlog]: stamp ->
    packet bytes, integer order; [tree]: key -> values, DUPSORT, so ordered by key, then
    value), a write transaction works on a copy that replaces the tables at commit, and any
    write may fail (disk or map full), which the [faults] record decides. *)
From Verif Require Import Bytes ModelSpace ModelPkt ModelTree.

(** db.rs:136-143 [LMDBEnv]: the three tables. *)
Record db := mkDb { hash_t : list (bytes * N); log_t : list (N * bytes); tree_t : list (bytes * bytes) }.
Definition empty_db : db := mkDb [] [] [].

(** misc.rs:8-17 *)
Inductive SaveState := Pending | SError | Exists | Written.
Definition is_pending (s : SaveState) : bool := match s with Pending => true | _ => false end.
Inductive StoreErr := EKeyExist | EIo.
Definition item : Type := NetPktParts * SaveState.

(** The bytes save.rs:75-90 writes for a packet ([byte_segments] in the reserved space). *)
Definition np_bytes (p : NetPktParts) : bytes := seg_bytes (np_byte_segments p).

(** Insertion in key order; an equal entry is left as it is. *)
Fixpoint insert {A} (cmp : A -> A -> comparison) (x : A) (l : list A) : list A :=
  match l with
  | [] => [x]
  | y :: r => match cmp x y with Lt => x :: l | Eq => l | Gt => y :: insert cmp x r end
  end.
Definition hash_cmp (a b : bytes * N) : comparison := lex (fst a) (fst b).
Definition tree_cmp (a b : bytes * bytes) : comparison :=
  match lex (fst a) (fst b) with Eq => lex (snd a) (snd b) | c => c end.
(** MDB_SET on the hash table and on the log. *)
Definition hash_get (h : list (bytes * N)) (k : bytes) : option N :=
  match find (fun e => beqb (fst e) k) h with Some e => Some (snd e) | None => None end.
Definition log_get (l : list (N * bytes)) (s : N) : option bytes :=
  match find (fun e => fst e =? s) l with Some e => Some (snd e) | None => None end.
(** MDB_LAST on the log. *)
Fixpoint log_last (l : list (N * bytes)) : option N :=
  match l with [] => None | [e] => Some (fst e) | _ :: r => log_last r end.
(** mdb_cursor_put with MDB_APPEND and MDB_NOOVERWRITE: the key must be above the last one. *)
Definition log_append (l : list (N * bytes)) (s : N) (b : bytes) : outcome StoreErr (list (N * bytes)) :=
  match log_last l with
  | Some last => if last <? s then Ok (l ++ [(s, b)]) else Err EKeyExist
  | None => Ok [(s, b)]
  end.

(** Which LMDB writes fail, by the position of the item, and whether the commit does. *)
Record faults := mkFaults { f_hash : nat -> bool; f_log : nat -> bool; f_tree : nat -> bool; f_commit : bool }.
Definition no_faults : faults := mkFaults (fun _ => false) (fun _ => false) (fun _ => false) false.

(** save.rs:45-59: insert the hashes that are not there yet, stamping them one after the
    other.  The states are mutated in place, so they are returned also on failure.  The
    stamps are u64; [at += 1] is not modelled to overflow (year 586912). *)
Fixpoint hash_pass (f : nat -> bool) (i : nat) (at_ : N) (h : list (bytes * N)) (ps : list item)
  : list item * outcome StoreErr (list (bytes * N) * N) :=
  match ps with
  | [] => ([], Ok (h, at_))
  | (p, Pending) :: r =>
      if f i then ((p, Pending) :: r, Err EIo)
      else match hash_get h (np_hash p) with
           | None => let '(r', o) := hash_pass f (S i) (at_ + 1) (insert hash_cmp (np_hash p, at_) h) r in
                     ((p, Pending) :: r', o)
           | Some _ => let '(r', o) := hash_pass f (S i) at_ h r in ((p, Exists) :: r', o)
           end
  | (p, st) :: r => let '(r', o) := hash_pass f (S i) at_ h r in ((p, st) :: r', o)
  end.
(** save.rs:67-94: append the packets still pending to the log. *)
Fixpoint log_pass (f : nat -> bool) (i : nat) (at_ : N) (l : list (N * bytes)) (ps : list item)
  : outcome StoreErr (list (N * bytes)) :=
  match ps with
  | [] => Ok l
  | (p, Pending) :: r =>
      if f i then Err EIo
      else obind (log_append l at_ (np_bytes p)) (fun l' => log_pass f (S i) (at_ + 1) l' r)
  | _ :: r => log_pass f (S i) at_ l r
  end.
(** save.rs:101-113: mark them written and insert their tree entries. *)
Fixpoint tree_pass (f : nat -> bool) (i : nat) (at_ : N) (t : list (bytes * bytes)) (ps : list item)
  : list item * outcome StoreErr (list (bytes * bytes) * N) :=
  match ps with
  | [] => ([], Ok (t, at_))
  | (p, Pending) :: r =>
      match tree_entry at_ p with
      | Ok None => let '(r', o) := tree_pass f (S i) (at_ + 1) t r in ((p, Written) :: r', o)
      | Ok (Some e) =>
          if f i then ((p, Written) :: r, Err EIo)
          else let '(r', o) := tree_pass f (S i) (at_ + 1) (insert tree_cmp e t) r in ((p, Written) :: r', o)
      | _ => ((p, Written) :: r, Panic)
      end
  | (p, st) :: r => let '(r', o) := tree_pass f (S i) at_ t r in ((p, st) :: r', o)
  end.
(** save.rs:28-41: the first stamp. *)
Definition save_start (now : N) (l : list (N * bytes)) : N :=
  match log_last l with
  | Some last => if now <? last then last + 1 else now
  | None => now
  end.
(** save.rs:17-119 [LMDBEnv::save]: the tables afterwards, the states, the stamps used. *)
Definition save (f : faults) (now : N) (d : db) (ps : list item) : db * list item * outcome StoreErr (N * N) :=
  let start := save_start now (log_t d) in
  let '(ps1, o1) := hash_pass (f_hash f) 0 start (hash_t d) ps in
  match o1 with
  | Ok (h', at_) =>
      if at_ - start =? 0 then (d, ps1, Ok (start, at_))
      else match log_pass (f_log f) 0 start (log_t d) ps1 with
           | Ok l' =>
               let '(ps2, o2) := tree_pass (f_tree f) 0 start (tree_t d) ps1 in
               match o2 with
               | Ok (t', at') => if f_commit f then (d, ps2, Err EIo) else (mkDb h' l' t', ps2, Ok (start, at'))
               | Err e => (d, ps2, Err e)
               | Panic => (d, ps2, Panic)
               | OutOfFuel => (d, ps2, OutOfFuel)
               end
           | Err e => (d, ps1, Err e)
           | Panic => (d, ps1, Panic)
           | OutOfFuel => (d, ps1, OutOfFuel)
           end
  | Err e => (d, ps1, Err e)
  | Panic => (d, ps1, Panic)
  | OutOfFuel => (d, ps1, OutOfFuel)
  end.

(** mod.rs:81-89 [BTreeEnv::save]: what is announced on the process bus. *)
Definition save_emit (r : N * N) : option N := if fst r <? snd r then Some (snd r - 1) else None.
(** mod.rs:118-126 [save_ptr_one]. *)
Definition save_one (f : faults) (now : N) (d : db) (p : NetPktParts) : db * outcome StoreErr SaveState :=
  let '(d', ps, o) := save f now d [(p, Pending)] in
  (d', obind o (fun _ => match ps with (_, st) :: _ => Ok st | [] => Panic end)).

(** get.rs:44-62 [read_ptr], [read]; 23-33 [read_pkt]; 63-66 [log_head] (0 when empty). *)
Definition read_ptr (d : db) (h : bytes) : option N := hash_get (hash_t d) h.
Definition read_at (d : db) (s : N) : option (N * bytes) :=
  match log_get (log_t d) s with Some b => Some (s, b) | None => None end.
Definition read (d : db) (h : bytes) : option (N * bytes) :=
  match read_ptr d h with Some s => read_at d s | None => None end.
Definition log_head (d : db) : N := match log_last (log_t d) with Some s => s | None => 0 end.
(** get.rs:81-87 [local_pkt_log], [pkts_after]. *)
Definition local_pkt_log (d : db) (from : N) : list (N * bytes) := filter (fun e => from <=? fst e) (log_t d).
Definition pkts_after (d : db) (after : N) : list (N * bytes) := local_pkt_log d (after + 1).

(** crates/linkspace/src/lib.rs:796-811 [lk_save], [lk_save_all_ext], [lk_save_all]. *)
Definition lk_save (f : faults) (now : N) (d : db) (p : NetPktParts) : db * outcome StoreErr bool :=
  let '(d', o) := save_one f now d p in (d', obind o (fun st => Ok (match st with Written => true | _ => false end))).
Definition lk_save_all_ext (f : faults) (now : N) (d : db) (ps : list NetPktParts) : db * outcome StoreErr (N * N) :=
  let '(d', _, o) := save f now d (map (fun p => (p, Pending)) ps) in (d', o).
Definition lk_save_all (f : faults) (now : N) (d : db) (ps : list NetPktParts) : db * outcome StoreErr N :=
  let '(d', o) := lk_save_all_ext f now d ps in (d', obind o (fun r => Ok (snd r - fst r))).
