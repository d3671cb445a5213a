(** Model of getting packets by their hashes and of the callbacks of Python.  Source:
    crates/linkspace/src/lib.rs, crates/core/src/env/lmdb/get.rs, crates/core/src/query.rs,
    ffi/linkspace-py/src/lib.rs.  The parsing of the arguments of Python and the tracing are left out. *)
From Verif Require Import Bytes ModelPkt ModelTestSet ModelStore ModelPred ModelQuery ModelQText ModelWatch.

(** core/src/env/lmdb/get.rs:96-106 [get_pkts_by_hash]: a hash that is not there, or that cannot be
    read, is skipped. *)
Fixpoint get_pkts_by_hash (d : db) (hs : list bytes) : list (N * bytes) :=
  match hs with
  | [] => []
  | h :: r => match read d h with Some p => p :: get_pkts_by_hash d r | None => get_pkts_by_hash d r end
  end.

(** linkspace/src/lib.rs:858-873 [lk_get_hashes]: the packets the callback is called with, its state
    and the result; the counter is u32 and wraps (release build). *)
Fixpoint hashes_loop {C} (ps : list (N * bytes)) (n : N) (c : C) (cb : C -> N * bytes -> C * bool) : list (N * bytes) * C * Z :=
  match ps with
  | [] => ([], c, saturating_cast n)
  | p :: r =>
      let n' := (n + 1) mod 2 ^ 32 in
      let '(c', b) := cb c p in
      if b then ([p], c', saturating_neg_cast n')
      else let '(l, c2, z) := hashes_loop r n' c' cb in (p :: l, c2, z)
  end.
Definition lk_get_hashes {C A} (s : rt A) (hs : list bytes) (c : C) (cb : C -> N * bytes -> C * bool) : list (N * bytes) * C * Z :=
  hashes_loop (get_pkts_by_hash (@r_snap A s) hs) 0 c cb.

(** core/src/query.rs:156-169 [hash_eq], linkspace/src/lib.rs:627-629 [lk_hash_query]; [h] is the hash
    as a number (byte-fmt: big endian). *)
Definition hash_eq (h : bytes) : TQuery :=
  let p := with_set preds_default PktHashF (add 256 (p_sets preds_default PktHashF) Equal (be_decode h)) in
  let p := with_limit p QQuery (add 32 (p_limits p QQuery) Equal 0) in
  add_option (mkQ p []) (str "mode") [str "hash-asc"].

(** ffi/linkspace-py/src/lib.rs:433-440 [call_cont_py]: what the function of Python gives, a value that
    is not a bool counting as false. *)
Inductive PyRet (X : Type) := Raise (x : X) | Ret (b : option bool).
Arguments Raise {X} x. Arguments Ret {X} b.
Definition call_cont_py {X} (r : PyRet X) : outcome X bool :=
  match r with Raise x => Err x | Ret (Some b) => Ok b | Ret None => Ok false end.
(** :449-454 and 461-466: the callback given to Rust; [cb_err] is assigned at every call. *)
Definition py_cb {C X} (cb : C -> N * bytes -> C * PyRet X) (st : C * option X) (r : N * bytes) : (C * option X) * bool :=
  let '(c', v) := cb (fst st) r in
  match call_cont_py v with Ok b => ((c', None), b) | Err x => ((c', Some x), false) | _ => ((c', None), false) end.
Definition py_end {X} (e : option X) (z : Z) : outcome X Z := match e with Some x => Err x | None => Ok z end.
(** :458-486 [lk_get_hashes] *)
Definition py_get_hashes {C X A} (s : rt A) (hs : list bytes) (c : C) (cb : C -> N * bytes -> C * PyRet X) : list (N * bytes) * C * outcome X Z :=
  let '(l, (c', e), z) := lk_get_hashes s hs (c, None) (py_cb cb) in (l, c', py_end e z).
(** :446-457 [lk_get_all]; an error of the query itself is kept apart. *)
Definition py_get_all {C X} (qfuel : nat) (stale : option entry) (s : rt (C * option X)) (tb : Table) (asc : bool) (p : PktPredicates) (c : C)
  (cb : C -> N * bytes -> C * PyRet X) : outcome TestErr (list (N * bytes) * C * outcome X Z) :=
  obind (@lk_get_all (C * option X) qfuel stale s tb asc p (c, None) (py_cb cb)) (fun '(l, (c', e), z) => Ok (l, c', py_end e z)).
(** :63-103 [PyPktStreamHandler::handle_pkt]: whether the watch breaks; [on_err] gets the exception. *)
Definition py_handle {C X} (on_match : option (C -> N * bytes -> C * PyRet X)) (on_err : option (C -> X -> N * bytes -> C * PyRet X)) (c : C) (r : N * bytes) : C * bool :=
  match on_match with
  | None => (c, false)
  | Some f =>
      let '(c1, v) := f c r in
      match call_cont_py v with
      | Ok b => (c1, b)
      | Err x =>
          match on_err with
          | Some g => let '(c2, w) := g c1 x r in (c2, match call_cont_py w with Ok true => false | _ => true end)
          | None => (c1, true)
          end
      | _ => (c1, true)
      end
  end.
(** :104-116 [stopped]: [on_close] is a [todo!]. *)
Definition py_stopped {C X} (on_close : option (C -> C * PyRet X)) (c : C) : outcome X C :=
  match on_close with Some _ => Panic | None => Ok c end.
