(** Checking the database: [linkspace_info], crates/core/src/env/lmdb/db_info.rs:97-161, run by [linkspace db-check]
    (cli/linkspace/src/main.rs:527-541). *)
From Verif Require Import Bytes ModelSpace ModelPkt ModelTree ModelStore.

(** core::slice [sort_by_key], a stable sort *)
Fixpoint ins (x : N * bytes) (l : list (N * bytes)) : list (N * bytes) :=
  match l with [] => [x] | y :: r => if fst x <=? fst y then x :: l else y :: ins x r end.
Definition sort_by_key (l : list (N * bytes)) : list (N * bytes) := fold_right ins [] l.
(** [Vec::eq] *)
Fixpoint pairs_eqb (a b : list (N * bytes)) : bool :=
  match a, b with
  | [], [] => true
  | x :: a', y :: b' => (fst x =? fst y) && beqb (snd x) (snd y) && pairs_eqb a' b'
  | _, _ => false
  end.
(** db.rs:297-303, 313-322 [get_next_entry], until it gives none, on a new cursor.  MDB_NEXT_DUP gives the first entry of the table
    when the cursor has no place yet, and afterwards the next value of the same key (lmdb, [mdb_cursor_next]). *)
Fixpoint same_key (k : bytes) (t : list (bytes * bytes)) : list (bytes * bytes) :=
  match t with [] => [] | e :: r => if beqb (fst e) k then e :: same_key k r else [] end.
Definition next_entries (t : list (bytes * bytes)) : list (bytes * bytes) :=
  match t with [] => [] | e :: _ => same_key (fst e) t end.
(** db_info.rs:98-138.  The error carries the two flags of its message.  The warnings after it (139-158) and the tracing are left out.
    [binary_search_by_key] in the log, which is in the order of stamps, is the search for an element. *)
Definition linkspace_info (d : db) : outcome (bool * bool) unit :=
  let log := map (fun e => (fst e, nptr_hash (snd e))) (local_pkt_log d 0) in
  let hashes := sort_by_key (map (fun e => (snd e, fst e)) (filter (fun e => match lex (fst e) PRIVATE with Lt => false | _ => true end) (hash_t d))) in
  let hashes_ok := pairs_eqb log hashes in
  let tree_ok := forallb (fun e => existsb (fun o => fst o =? val_logptr (snd e)) log) (next_entries (tree_t d)) in
  if tree_ok && hashes_ok then Ok tt else Err (tree_ok, hashes_ok).
