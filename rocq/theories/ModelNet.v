(** Routing headers and packet streams: changing header fields, the duplicate filter and the buffer
    of datapoints. *)
From Verif Require Export Bytes ModelAbe ModelEval ModelTestSet ModelPred ModelQText SpecPkt.

(** ** crates/core/src/mut_header.rs *)
(** The 32 bytes of a header: prefix 3, flags 1, hop 4, stamp 8, ubits 4 times 4
    (crates/pkt/src/netpkt/header.rs:22-34).  A field that can be changed, as its first byte and its
    size: crates/pkt/src/field_ids.rs:199-210 [mut_route]. *)
Definition mut_route (f : Field) : option (nat * nat) :=
  match f with
  | VarNetFlagsF => Some (3, 1) | VarHopF => Some (4, 4) | VarStampF => Some (8, 8)
  | VarUBits0F => Some (16, 4) | VarUBits1F => Some (20, 4) | VarUBits2F => Some (24, 4) | VarUBits3F => Some (28, 4)
  | _ => None
  end%nat.
Definition write_at (off : nat) (v h : bytes) : bytes := firstn off h ++ v ++ skipn (off + List.length v) h.
Definition part (off n : nat) (h : bytes) : bytes := firstn n (skipn off h).
(** mut_header.rs:20-28 *)
Record HeaderMut := mkMut { m_clear : bytes; m_set : bytes }.
Definition mut_default : HeaderMut := mkMut (repeat 255 32) (repeat 0 32).
(** :29-39 [mutate], on bytes: the code does it on two native 16-byte words, which is the same. *)
Fixpoint zip3 (f : N -> N -> N -> N) (a b c : bytes) : bytes :=
  match a, b, c with x :: a', y :: b', z :: c' => f x y z :: zip3 f a' b' c' | _, _, _ => [] end.
Definition mutate_header (m : HeaderMut) (h : bytes) : bytes := zip3 (fun x c s => N.lor (N.land x c) s) h (m_clear m) (m_set m).
(** :81-95 [mutate] of one rule; [k] is the size of the field.  Only [=] is supported. *)
Definition mutate_rule (op : TestOp) (v : ABList) (k : nat) : option bytes :=
  match op with
  | Equal => match as_exact_bytes v with Some b => if Nat.eqb (List.length b) k then Some b else None | None => None end
  | _ => None
  end.
(** :51-62 [try_add_rule] *)
Definition try_add_rule (m : HeaderMut) (t : TextPredicate) : outcome QErr HeaderMut :=
  let '(kind, op, v) := t in
  match kind with
  | RField f =>
      match mut_route f with
      | Some (off, k) =>
          match mutate_rule op v k with
          | Some b => Ok (mkMut (write_at off (repeat 255 k) (m_clear m)) (write_at off b (m_set m)))
          | None => Err QValue
          end
      | None => Err QStmt
      end
  | _ => Err QStmt
  end.
Fixpoint add_rules (m : HeaderMut) (ts : list TextPredicate) : outcome QErr HeaderMut :=
  match ts with [] => Ok m | t :: r => obind (try_add_rule m t) (fun m' => add_rules m' r) end.
(** :40-49 [from_lst], :64-79: the expressions are statements, here after evaluation. *)
Fixpoint mut_from_lst (m : HeaderMut) (l : list ABList) : outcome QErr HeaderMut :=
  match l with
  | [] => Ok m
  | v :: r => obind (ext_of_stmt v) (fun e => obind (try_iter e) (fun ts => obind (add_rules m ts) (fun m' => mut_from_lst m' r)))
  end.

(** ** crates/common/src/pkt_stream_utils.rs *)
(** :51-67 [QuickDedup]: the index is the first 8 bytes as a native (little-endian) number. *)
Definition dedup_new (cap : nat) : list bytes := repeat (repeat 0 32) cap.
Definition dedup_slot (n : nat) (h : bytes) : nat := N.to_nat (be_decode (rev (firstn 8 h)) mod N.of_nat n).
Fixpoint set_nth {A} (i : nat) (x : A) (l : list A) : list A :=
  match l, i with [], _ => [] | _ :: r, O => x :: r | y :: r, S i' => y :: set_nth i' x r end.
(** The remainder by zero panics. *)
Definition probable_contains (d : list bytes) (h : bytes) : outcome QErr (bool * list bytes) :=
  match d with
  | [] => Panic
  | _ => let i := dedup_slot (List.length d) h in Ok (beqb (nth i d []) h, set_nth i h d)
  end.
(** :14-49 [Buffer]; a packet is its hash and its links, [None] for points without links, and
    anything else that comes with it. *)
Section Buffer.
Context {A : Type} (hash_of : A -> bytes) (links_of : A -> option (list bytes)).
Record Buffer := mkBuf { forward_buf : list A; latest_links : list bytes }.
Definition buf_default : Buffer := mkBuf [] [].
Definition linked (b : list bytes) (p : A) : bool := existsb (beqb (hash_of p)) b.
Definition buf_push (b : Buffer) (p : A) : list A * Buffer :=
  match links_of p with
  | None => if linked (latest_links b) p then ([p], b) else ([], mkBuf (forward_buf b ++ [p]) (latest_links b))
  | Some ls => (filter (linked ls) (forward_buf b) ++ [p], mkBuf [] ls)
  end.
Fixpoint buf_run (b : Buffer) (ps : list A) : list (list A) :=
  match ps with [] => [] | p :: r => let '(o, b') := buf_push b p in o :: buf_run b' r end.
End Buffer.
