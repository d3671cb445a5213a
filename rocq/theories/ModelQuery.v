(** Model of database queries: crates/core/src/env/lmdb/{queries,tree_iter,get,db}.rs,
    crates/core/src/predicate/treekey.rs and crates/core/src/stamp_range.rs.

    The iterators of the code are lazy; the model computes the whole list of results.  An
    LMDB cursor on the tree table is the entry it is at, its operations are searches in the
    ordered table.  LMDB does not say what the relative operations of a cursor return after
    a positioning failed; the model takes that entry as a parameter [stale]. *)
From Verif Require Import Bytes ModelSpace ModelPkt ModelTree ModelTestSet ModelStore ModelPred.

(** Every error of the functions called here is unwrapped. *)
Definition crash {E A} (o : outcome E A) : outcome TestErr A :=
  match o with Ok a => Ok a | OutOfFuel => OutOfFuel | _ => Panic end.

(** stamp_range.rs:13-17 *)
Record StampRange := mkRange { sr_start : N; sr_end : N }.
(** value_test.rs:637-645 *)
Definition stamp_range (b : Bound) (asc : bool) : StampRange :=
  if asc then mkRange (low b) (high b) else mkRange (high b) (low b).
(** stamp_range.rs:69-82 *)
Definition sr_contains (r : StampRange) (i : N) : bool :=
  match sr_start r ?= i, sr_end r ?= i with
  | Lt, Lt | Gt, Gt => false
  | _, _ => true
  end.
(** stamp_range.rs:84-99 [iter_cmp_u64], 147-163 *)
Inductive IterCmp := Pre | In_ | Post.
Definition as_i8 (c : comparison) : Z := match c with Lt => -1 | Eq => 0 | Gt => 1 end.
Definition iter_cmp (r : StampRange) (i : N) : IterCmp :=
  let s := as_i8 (sr_start r ?= i) in
  let e := as_i8 (sr_end r ?= i) in
  let c := (if s =? e then s else 0)%Z in
  let v := match sr_start r ?= sr_end r with Eq => (- c)%Z | d => (as_i8 d * c)%Z end in
  if (v <? 0)%Z then Pre else if (v =? 0)%Z then In_ else Post.

(** ** The tree table *)
Definition entry : Type := bytes * bytes.
Definition key_le (a b : bytes) : bool := match lex a b with Gt => false | _ => true end.
Definition key_lt (a b : bytes) : bool := match lex a b with Lt => true | _ => false end.
Definition entry_eqb (a b : entry) : bool := beqb (fst a) (fst b) && beqb (snd a) (snd b).
(** The values of a key in the order of the iteration. *)
Definition dups (t : list entry) (asc : bool) (k : bytes) : list entry :=
  let l := filter (fun e => beqb (fst e) k) t in if asc then l else rev l.
(** What follows an entry in a list. *)
Fixpoint after (e : entry) (l : list entry) : list entry :=
  match l with [] => [] | x :: r => if entry_eqb x e then r else after e r end.
(** db.rs:295-303 [set_range]: MDB_SET_RANGE, then MDB_LAST_DUP when descending. *)
Definition set_range (t : list entry) (asc : bool) (start : bytes) : option entry :=
  match find (fun e => key_le start (fst e)) t with
  | Some e => hd_error (dups t asc (fst e))
  | None => None
  end.
(** db.rs:304-313 [get_next_entry]: MDB_NEXT_DUP or MDB_PREV_DUP. *)
Definition get_next_entry (t : list entry) (asc : bool) (at_ : entry) : option entry :=
  hd_error (after at_ (dups t asc (fst at_))).
(** db.rs:314-322 [get_next_range]: MDB_NEXT_NODUP, then MDB_LAST_DUP when descending. *)
Definition get_next_range (t : list entry) (asc : bool) (k : bytes) : option entry :=
  match find (fun e => key_lt k (fst e)) t with
  | Some e => hd_error (dups t asc (fst e))
  | None => None
  end.

(** treekey.rs:19-27 [TreeKeys]; the prefix as the bytes of its space. *)
Record TreeKeys := mkTreeKeys {
  tk_domain : TestSet; tk_group : TestSet; tk_space : space; tk_depth : N; tk_pubkey : TestSet;
  tk_stamp : StampRange }.
(** pkt_predicates.rs:333-343 [compile_tree_keys]. *)
Definition compile_tree_keys (p : PktPredicates) (asc : bool) : outcome TestErr TreeKeys :=
  obind (crash (rs_space (p_prefix p))) (fun sp =>
  Ok (mkTreeKeys (p_sets p DomainF) (p_sets p GroupIDF) sp (from_rules (p_sets p DepthF)) (p_sets p PubKeyF)
                 (stamp_range (bound (p_sets p CreateF)) asc))).
Definition unwrap_opt {A} (o : option A) : outcome TestErr A := match o with Some a => Ok a | None => Panic end.
(** treekey.rs:29-53 [lower_bound]; queries.rs:47 unwraps it. *)
Definition lower_bound (k : TreeKeys) : outcome TestErr bytes :=
  obind (crash (info 256 (tk_group k) 0)) (fun g =>
  obind (unwrap_opt (sval g)) (fun g =>
  obind (crash (info 128 (tk_domain k) 0)) (fun d =>
  obind (unwrap_opt (sval d)) (fun d =>
  obind (unwrap_opt (sval (bit_info (tk_depth k) 0))) (fun n =>
  obind (crash (info 256 (tk_pubkey k) 0)) (fun p =>
  obind (unwrap_opt (sval p)) (fun p =>
  Ok (be_encode 32 g ++ be_encode 16 d ++ [n] ++ tk_space k ++ be_encode 32 p)))))))).

(** tree_iter.rs:30-41 [next_stamp_match]: [rest] are the later values of the key. *)
Fixpoint next_stamp_match (r : StampRange) (at_ : entry) (rest : list entry) : option entry :=
  match iter_cmp r (val_create (snd at_)) with
  | In_ => Some at_
  | Post => None
  | Pre => match rest with [] => None | e :: rest' => next_stamp_match r e rest' end
  end.
(** tree_iter.rs:49-62: the fields of a key compared to the sets. *)
Record KeyStatus := mkStatus {
  ks_group : SetValueInfo; ks_domain : SetValueInfo; ks_depth : SetValueInfo; ks_key : SetValueInfo;
  ks_prefix : bool; ks_space : space }.
Definition key_status (k : TreeKeys) (key : bytes) : outcome TestErr KeyStatus :=
  obind (crash (key_fields key)) (fun '(g, d, n, sp, pk) =>
  obind (crash (info 256 (tk_group k) (be_decode g))) (fun gi =>
  obind (crash (info 128 (tk_domain k) (be_decode d))) (fun di =>
  obind (crash (info 256 (tk_pubkey k) (be_decode pk))) (fun ki =>
  Ok (mkStatus gi di (bit_info (tk_depth k) n) ki (space_starts_with sp (tk_space k)) sp))))).
Definition all_in_set (s : KeyStatus) : bool :=
  in_set (ks_key s) && in_set (ks_depth s) && ks_prefix s && in_set (ks_domain s) && in_set (ks_group s).
Definition or255 (o : option N) : N := match o with Some v => v | None => 255 end.
(** tree_iter.rs:83-124: the key to jump to, [None] to stop. *)
Definition jump_key (k : TreeKeys) (lb : bytes) (s : KeyStatus) : outcome TestErr (option bytes) :=
  match sval (ks_group s) with
  | None => Ok None
  | Some g =>
      let extend j := Ok (Some (j ++ dropN (lenN j) lb)) in
      let j1 := be_encode 32 g in
      if in_set (ks_group s) then
        let j2 := j1 ++ match sval (ks_domain s) with Some d => be_encode 16 d | None => repeat 255 16 end in
        match sval (ks_domain s) with
        | None => extend (j2 ++ [255])
        | Some _ =>
            if in_set (ks_domain s) then
              let deeper := or255 (next_depth (tk_depth k) (or255 (sval (ks_depth s)))) in
              if negb (in_set (ks_depth s)) then extend (j2 ++ [deeper])
              else if negb (ks_prefix s) then extend (j2 ++ [deeper])
              else if negb (in_set (ks_key s)) then
                extend (j2 ++ [or255 (sval (ks_depth s))] ++ ks_space s ++
                        match sval (ks_key s) with Some v => be_encode 32 v | None => repeat 255 32 end)
              else Panic
            else extend j2
        end
      else extend j1
  end.
(** tree_iter.rs:43-131 [set_pointer_at_match]. *)
Fixpoint set_pointer_at_match (fuel : nat) (t : list entry) (asc : bool) (k : TreeKeys) (lb : bytes) (at_ : entry)
  : outcome TestErr (option entry) :=
  match fuel with
  | O => OutOfFuel
  | S f =>
      obind (key_status k (fst at_)) (fun s =>
      if all_in_set s then
        match next_stamp_match (tk_stamp k) at_ (after at_ (dups t asc (fst at_))) with
        | Some e => Ok (Some e)
        | None => match set_range t asc (fst at_ ++ [255]) with
                  | Some n => set_pointer_at_match f t asc k lb n
                  | None => Ok None
                  end
        end
      else
        obind (jump_key k lb s) (fun j =>
        match j with
        | None => Ok None
        | Some j => match set_range t asc j with
                    | Some n => set_pointer_at_match f t asc k lb n
                    | None => Ok None
                    end
        end))
  end.

(** queries.rs:95-99: the tests on the value of an entry. *)
Definition entry_ok (p : PktPredicates) (e : entry) : bool :=
  let v := snd e in
  test 64 (p_sets p CreateF) (val_create v) &&
  bound_test (p_recv p) (val_logptr v) &&
  test 256 (p_sets p PktHashF) (be_decode (val_hash v)) &&
  test 16 (p_sets p LinksLenF) (val_links_len v) &&
  test 16 (p_sets p DataSizeF) (val_data_size v).

(** The state of a [TreeKeysIter] is its cursor; [None] after a positioning failed. *)
Definition cursor : Type := option entry.
(** tree_iter.rs:23-29 [next_entry]: the entry and the cursor afterwards. *)
Definition next_entry (t : list entry) (asc : bool) (k : TreeKeys) (stale : option entry) (c : cursor)
  : option entry * cursor :=
  match (match c with Some e => get_next_entry t asc e | None => stale end) with
  | Some e => (if sr_contains (tk_stamp k) (val_create (snd e)) then Some e else None, Some e)
  | None => (None, c)
  end.
(** tree_iter.rs:133-137 [next_scope]. *)
Definition next_scope (fuel : nat) (t : list entry) (asc : bool) (k : TreeKeys) (lb : bytes) (c : cursor)
  : outcome TestErr (option entry) :=
  match c with
  | None => Ok None
  | Some e => match get_next_range t asc (fst e) with
              | Some n => set_pointer_at_match fuel t asc k lb n
              | None => Ok None
              end
  end.
(** queries.rs:71-123: the closure of [query_tree_entries], called until it returns None.
    [ptr] is [key_ptr] and [y] the position of [yields]. *)
Fixpoint walk (fuel : nat) (t : list entry) (asc : bool) (k : TreeKeys) (lb : bytes) (p : PktPredicates)
  (stale : option entry) (n : nat) (ptr : option entry) (c : cursor) (y : N) : outcome TestErr (list entry) :=
  match n with
  | O => OutOfFuel
  | S n' =>
      let '(item, c1) := match ptr with Some e => (Some e, c) | None => next_entry t asc k stale c end in
      match item with
      | None =>
          obind (next_scope fuel t asc k lb c1) (fun r =>
          match r with
          | Some e => walk fuel t asc k lb p stale n' (Some e) (Some e) 0
          | None => Ok []
          end)
      | Some e =>
          if entry_ok p e then
            match member_next 32 (p_limits p QBranch) y with
            | (Some true, y') =>
                let '(ptr2, c2) :=
                  match member_peek 32 (p_limits p QBranch) y' with
                  | None => next_entry t asc k stale c1
                  | Some _ => (None, c1)
                  end in
                obind (walk fuel t asc k lb p stale n' ptr2 c2 y') (fun r => Ok (e :: r))
            | (Some false, y') => walk fuel t asc k lb p stale n' None c1 y'
            | (None, _) =>
                obind (next_scope fuel t asc k lb c1) (fun r => walk fuel t asc k lb p stale n' r r 0)
            end
          else walk fuel t asc k lb p stale n' None c1 y
      end
  end.
(** queries.rs:39-70 [scope_iter], [query_tree_entries]. *)
Definition query_tree_entries (fuel : nat) (t : list entry) (asc : bool) (p : PktPredicates) (stale : option entry)
  : outcome TestErr (list entry) :=
  match member_peek 32 (p_limits p QBranch) 0 with
  | None => Panic
  | Some _ =>
      obind (compile_tree_keys p asc) (fun k =>
      obind (lower_bound k) (fun lb =>
      match set_range t asc lb with
      | None => Ok []
      | Some at_ =>
          obind (set_pointer_at_match fuel t asc k lb at_) (fun r =>
          match r with
          | None => Ok []
          | Some e => walk fuel t asc k lb p stale fuel (Some e) (Some e) 0
          end)
      end))
  end.

(** get.rs:26-36: reading the packet of a stamp, unwrapped. *)
Definition read_unwrap (d : db) (s : N) : outcome TestErr (N * bytes) := unwrap_opt (read_at d s).
Fixpoint omap {E A B} (f : A -> outcome E B) (l : list A) : outcome E (list B) :=
  match l with [] => Ok [] | a :: r => obind (f a) (fun b => obind (omap f r) (fun bs => Ok (b :: bs))) end.
(** test_pkt.rs:26-60: the packets that pass a list of tests. *)
Definition pkt_test (ts : list PktTest) (r : N * bytes) : bool :=
  match view (snd r) with Ok np => run_tests ts np | _ => false end.
(** queries.rs:126-150 [query_tree]. *)
Definition query_tree (fuel : nat) (d : db) (asc : bool) (p : PktPredicates) (stale : option entry)
  : outcome TestErr (list (N * bytes)) :=
  let filter_ := List.filter (fun t => negb (treekey_checked (test_rule t))) (compile_predicates p) in
  obind (query_tree_entries fuel (tree_t d) asc p stale) (fun es =>
  obind (omap (fun e => read_unwrap d (val_logptr (snd e))) es) (fun rs =>
  Ok (zip_members 32 (p_limits p QIndex) 0 (filter (pkt_test filter_) rs)))).

(** get.rs:63-75 [log_range], misc.rs:31-37; db.rs:218-246: [range_uniq] runs to the end
    of the log, [range_uniq_rev] from its end (MDB_LAST ignores the key) to its start. *)
Definition log_range (d : db) (r : StampRange) : list (N * bytes) :=
  if sr_start r <=? sr_end r then filter (fun e => sr_start r <=? fst e) (log_t d) else rev (log_t d).
(** queries.rs:152-169 [query_log2]. *)
Definition query_log (d : db) (asc : bool) (p : PktPredicates) : outcome TestErr (list (N * bytes)) :=
  let l := zip_members 32 (p_limits p QBranch) 0 (log_range d (stamp_range (p_recv p) asc)) in
  Ok (zip_members 32 (p_limits p QIndex) 0 (filter (pkt_test (compile_predicates p)) l)).

Fixpoint take_while {A} (f : A -> bool) (l : list A) : list A :=
  match l with [] => [] | a :: r => if f a then a :: take_while f r else [] end.
(** queries.rs:171-206 [query_hash_entries]. *)
Definition query_hash_entries (d : db) (s : TestSet) (recv : Bound) (asc : bool) : outcome TestErr (list N) :=
  if asc then
    let from := filter (fun e => key_le (be_encode 32 (low (bound s))) (fst e)) (hash_t d) in
    let upto := take_while (fun e => be_decode (fst e) <=? high (bound s)) from in
    Ok (map snd (filter (fun e => bound_test recv (snd e) && mask_test (mask s) (be_decode (fst e))) upto))
  else Panic.
(** queries.rs:207-226 [query_hash]. *)
Definition not_hash (t : PktTest) : bool := match test_rule t with RField PktHashF => false | _ => true end.
Definition query_hash (d : db) (asc : bool) (p : PktPredicates) : outcome TestErr (list (N * bytes)) :=
  obind (query_hash_entries d (p_sets p PktHashF) (p_recv p) asc) (fun ss =>
  obind (omap (read_unwrap d) ss) (fun rs =>
  Ok (zip_members 32 (p_limits p QIndex) 0 (filter (pkt_test (List.filter not_hash (compile_predicates p))) rs)))).

(** crates/core/src/env/query_mode.rs:34-46 *)
Inductive Table := THash | TTree | TLog.
(** queries.rs:228-269 [query]: [nth] is the position of the first result. *)
Definition query_all (fuel : nat) (d : db) (tb : Table) (asc : bool) (p : PktPredicates) (stale : option entry)
  : outcome TestErr (list (N * bytes)) :=
  match tb with
  | THash => query_hash d asc p
  | TTree => query_tree fuel d asc p stale
  | TLog => query_log d asc p
  end.
Definition query (fuel : nat) (d : db) (tb : Table) (asc : bool) (p : PktPredicates) (stale : option entry) (nth_ : N)
  : outcome TestErr (list (N * bytes)) :=
  obind (query_all fuel d tb asc p stale) (fun rs => Ok (zip_members 32 (p_limits p QQuery) nth_ rs)).
