(** Specification of the packet store: it holds a list of stamped packets. *)
From Coq Require Import Sorting.Sorted.
From Verif Require Import Bytes ModelPkt ModelTree ModelStore SpecPkt SpecTree.

Definition increasing (l : list N) : Prop := StronglySorted N.lt l.
Definition ordered_by {A} (cmp : A -> A -> comparison) (l : list A) : Prop := StronglySorted (fun a b => cmp a b = Lt) l.

(** The tables [d] hold exactly the packets [l], each under its stamp: the log in stamp
    order, one hash entry per packet, one tree entry per packet that has one. *)
Definition represents (d : db) (l : list (N * NetPktParts)) : Prop :=
  increasing (map fst l) /\
  NoDup (map (fun e => np_hash (snd e)) l) /\
  log_t d = map (fun e => (fst e, np_bytes (snd e))) l /\
  ordered_by hash_cmp (hash_t d) /\
  (forall h s, In (h, s) (hash_t d) <-> exists p, In (s, p) l /\ np_hash p = h) /\
  ordered_by tree_cmp (tree_t d) /\
  (forall e, In e (tree_t d) <-> exists s p, In (s, p) l /\ tree_entry s p = Ok (Some e)).

(** What saving the items should do to a store that holds the hashes [seen]: a pending
    packet is new unless its hash is there or was earlier in the same batch. *)
Fixpoint expected (seen : list bytes) (ps : list item) : list item * list NetPktParts :=
  match ps with
  | [] => ([], [])
  | (p, Pending) :: r =>
      if existsb (beqb (np_hash p)) seen
      then let '(r', new) := expected seen r in ((p, Exists) :: r', new)
      else let '(r', new) := expected (np_hash p :: seen) r in ((p, Written) :: r', p :: new)
  | x :: r => let '(r', new) := expected seen r in (x :: r', new)
  end.
(** Consecutive stamps. *)
Fixpoint number (s : N) (ps : list NetPktParts) : list (N * NetPktParts) :=
  match ps with [] => [] | p :: r => (s, p) :: number (s + 1) r end.

Definition items_valid (hash : bytes -> bytes) (ps : list item) : Prop :=
  Forall (fun i => exists p, carries hash (fst i) p) ps.
Definition hashes (l : list (N * NetPktParts)) : list bytes := map (fun e => np_hash (snd e)) l.

(** A history of saves, each with its clock reading, its failures and its packets. *)
Record save_op := mkOp { op_faults : faults; op_now : N; op_items : list item }.
Definition run_op (d : db) (o : save_op) : db := let '(d', _, _) := save (op_faults o) (op_now o) d (op_items o) in d'.
Definition run_ops (d : db) (os : list save_op) : db := fold_left run_op os d.
