(** Watches and the runtime: crates/core/src/matcher/mod.rs,
    crates/common/src/runtime/rx.rs and crates/linkspace/src/lib.rs:819-958. *)
From Verif Require Import Bytes ModelPkt ModelTree ModelTestSet ModelStore ModelPred ModelQuery.

(** crates/common/src/runtime/handlers.rs:28-33 *)
Inductive StopReason := SBreak | SFinish | SReplaced | SClosed.

(** crates/common/src/lib.rs:60-69 [saturating_cast], [saturating_neg_cast] (release build:
    the negation of the smallest i32 is itself). *)
Definition saturating_cast (v : N) : Z := Z.of_N (N.min v (2 ^ 31 - 1)).
Definition saturating_neg_cast (v : N) : Z := if 2 ^ 31 <? v then (- 2 ^ 31)%Z else (- Z.of_N v)%Z.

(** pkt_predicates.rs:58-60 [check_db]. *)
Definition check_db (p : PktPredicates) : bool := has_any 32 (p_limits p QBranch) && has_any 32 (p_limits p QIndex).

Section Runtime.
(** The state of a callback. *)
Variable C : Type.

(** matcher/mod.rs:38-51 [WatchEntry]: [tests], [i_query], [i_new] and [recv_bounds] are
    copied from the predicates when it is made and are read from them here; [last_test] is
    passed along by [trigger]. *)
Record Watch := mkWatch { w_id : N; w_qid : bytes; w_pred : PktPredicates; w_nthq : N; w_nthn : N; w_ctx : C }.
Definition set_ctx (w : Watch) (c : C) : Watch := mkWatch (w_id w) (w_qid w) (w_pred w) (w_nthq w) (w_nthn w) c.

(** matcher/mod.rs:60-97 [update_tests], [new]: [None] when no result can follow. *)
Definition has_next (s : TestSet) (at_ : N) : outcome TestErr bool :=
  if has_any 32 s then obind (info 32 s at_) (fun i => Ok (match sval i with Some _ => true | None => false end)) else Ok false.
Definition watch_new (id : N) (q : bytes) (p : PktPredicates) (nthq : N) (c : C) : outcome TestErr (option Watch) :=
  obind (has_next (p_limits p QNew) 0) (fun a => if negb a then Ok None else
  obind (has_next (p_limits p QQuery) nthq) (fun b => if negb b then Ok None else Ok (Some (mkWatch id q p nthq 0 c)))).

(** matcher/mod.rs:145-171 [_test]: whether the packet [r] is accepted and whether the watch
    breaks. The counters are u32 and wrap (release build). *)
Definition watch_test (w : Watch) (r : N * bytes) : Watch * bool * bool :=
  let p := w_pred w in
  if high (p_recv p) <? fst r then (w, false, true)
  else if fst r <? low (p_recv p) then (w, false, false)
  else if negb (pkt_test (compile_predicates p) r) then (w, false, false)
  else
    let ok := test 32 (p_limits p QNew) (w_nthn w) && test 32 (p_limits p QQuery) (w_nthq w) in
    let n := (w_nthn w + 1) mod 2 ^ 32 in
    let q := (w_nthq w + 1) mod 2 ^ 32 in
    (mkWatch (w_id w) (w_qid w) p q n (w_ctx w), ok,
     (high (bound (p_limits p QNew)) <? n) || (high (bound (p_limits p QQuery)) <? q)).

(** matcher/mod.rs:185-190 [get]. The binary searches of the sorted list of watches are
    written as linear searches here and below, which find the same place when the ids are
    strictly increasing (C39). *)
Definition find_watch (q : bytes) (l : list Watch) : option Watch := find (fun w => beqb (w_qid w) q) l.
(** matcher/mod.rs:191-207 [register]; [ok]: the receive bound is in the future. *)
Fixpoint register_at (ok : bool) (w : Watch) (l : list Watch) : list Watch * option Watch :=
  match l with
  | [] => (if ok then [w] else [], None)
  | x :: r => match lex (w_qid w) (w_qid x) with
              | Eq => (if ok then w :: r else r, Some x)
              | Lt => (if ok then w :: l else l, None)
              | Gt => let '(r', o) := register_at ok w r in (x :: r', o)
              end
  end.
Definition register (now : N) (w : Watch) (l : list Watch) : list Watch * option Watch :=
  register_at (now <? high (p_recv (w_pred w))) w l.
Fixpoint drop_while {A} (f : A -> bool) (l : list A) : list A :=
  match l with [] => [] | a :: r => if f a then drop_while f r else l end.
(** matcher/mod.rs:208-236 [deregister]: the watches kept and those removed. *)
Fixpoint deregister (q : bytes) (range : bool) (l : list Watch) : list Watch * list Watch :=
  match l with
  | [] => ([], [])
  | x :: r => match lex q (w_qid x) with
              | Eq => if range
                      then (drop_while (fun w => starts_with (w_qid w) q) l, take_while (fun w => starts_with (w_qid w) q) l)
                      else (r, [x])
              | Lt => (l, [])
              | Gt => let '(k, dr) := deregister q range r in (x :: k, dr)
              end
  end.
(** matcher/mod.rs:255-273 [gc]: the watches kept, and when to look again; removed ones are
    not told. *)
Definition gc (logptr : N) (l : list Watch) : list Watch * option N :=
  let k := filter (fun w => logptr <? high (p_recv (w_pred w))) l in
  (k, match k with [] => None | _ => Some (fold_left (fun m w => N.min (high (p_recv (w_pred w))) m) k (2 ^ 64 - 1)) end).

(** rx.rs:42-45 [Pending]. *)
Inductive Pend := NewWatch (w : Watch) | Close (q : bytes) (range : bool).
(** What callbacks and the user can do: lk_watch, lk_stop, lk_process, lk_save_all; and time
    passes. *)
Inductive cmd :=
| CWatch (q : bytes) (tb : Table) (asc : bool) (p : PktPredicates) (c : C)
| CStop (q : bytes) (range : bool)
| CProcess
| CSave (f : faults) (now : N) (ps : list item)
| CTick (now : N).
(** What callbacks see: that they are called with a packet, or stopped (with [nth_query] and
    [nth_new], interop.rs:62-73). [q] is the id of their watch. *)
Inductive event := Called (q : bytes) (r : N * bytes) | Stopped (q : bytes) (reason : StopReason) (nthq nthn : N).

(** rx.rs:27-57 [Linkspace], [Executor]: the database and its last read transaction, the
    watches, the pending commands; also the thread's WATCH_ID counter, the clock and the
    events so far. [is_running], [is_reading] and [written] (which is never set) are left
    out. *)
Record rt := mkRt { r_db : db; r_snap : db; r_upto : N; r_cbs : list Watch; r_pend : list Pend; r_ids : N; r_now : N; r_trace : list event }.
Definition set_db s x := mkRt x (r_snap s) (r_upto s) (r_cbs s) (r_pend s) (r_ids s) (r_now s) (r_trace s).
Definition set_snap s x := mkRt (r_db s) x (r_upto s) (r_cbs s) (r_pend s) (r_ids s) (r_now s) (r_trace s).
Definition set_upto s x := mkRt (r_db s) (r_snap s) x (r_cbs s) (r_pend s) (r_ids s) (r_now s) (r_trace s).
Definition set_cbs s x := mkRt (r_db s) (r_snap s) (r_upto s) x (r_pend s) (r_ids s) (r_now s) (r_trace s).
Definition set_pend s x := mkRt (r_db s) (r_snap s) (r_upto s) (r_cbs s) x (r_ids s) (r_now s) (r_trace s).
Definition set_ids s x := mkRt (r_db s) (r_snap s) (r_upto s) (r_cbs s) (r_pend s) x (r_now s) (r_trace s).
Definition set_now s x := mkRt (r_db s) (r_snap s) (r_upto s) (r_cbs s) (r_pend s) (r_ids s) x (r_trace s).
Definition add_event s e := mkRt (r_db s) (r_snap s) (r_upto s) (r_cbs s) (r_pend s) (r_ids s) (r_now s) (r_trace s ++ [e]).
Definition push s x := set_pend s (r_pend s ++ [x]).
(** rx.rs:78-100 [new_opt_rt]. *)
Definition new_rt (d : db) (ids now : N) : rt := mkRt d d (log_head d) [] [] ids now [].

(** The callbacks, as functions of their state: what they do when called with a packet (the
    new state, whether they break, the commands they give) and when stopped. The commands
    are run after the callback instead of during it. *)
Variable handle : C -> N * bytes -> C * bool * list cmd.
Variable stopped : C -> StopReason -> list cmd.
(** Bounds the work of a tree query; the undefined cursor (ModelQuery). *)
Variable qfuel : nat.
Variable stale : option entry.

(** Whether the list of watches is mutably borrowed ([callbacks]), and whether [pending] is
    as well (during [drain_pending]). *)
Inductive lock := Free | Locked | Draining.
Notation result := (outcome TestErr).

(** What follows is parameterised by [ex], which runs commands. *)
Section Step.
Variable ex : lock -> rt -> list cmd -> result rt.

(** rx.rs:494-497 [drop_watch]. *)
Definition drop_watch (m : lock) (s : rt) (w : Watch) (reason : StopReason) : result rt :=
  ex m (add_event s (Stopped (w_qid w) reason (w_nthq w) (w_nthn w))) (stopped (w_ctx w) reason).
Fixpoint drop_all (m : lock) (s : rt) (ws : list Watch) (reason : StopReason) : result rt :=
  match ws with [] => Ok s | w :: r => obind (drop_watch m s w reason) (fun s' => drop_all m s' r reason) end.

(** rx.rs:102-116 [insert_watch], 445-457 [close] and 458-470 [close_range]. While
    [drain_pending] runs, [pending] can not be borrowed again. *)
Definition register_now (m : lock) (s : rt) (w : Watch) : result rt :=
  let '(l, o) := register (r_now s) w (r_cbs s) in
  match o with
  | Some x => drop_watch m (set_cbs s l) x SReplaced
  | None => Ok (set_cbs s l)
  end.
Definition close_now (m : lock) (s : rt) (q : bytes) (range : bool) : result rt :=
  let '(k, dr) := deregister q range (r_cbs s) in drop_all m (set_cbs s k) dr SClosed.
Definition insert_watch (m : lock) (s : rt) (w : Watch) : result rt :=
  match m with Free => register_now Locked s w | Locked => Ok (push s (NewWatch w)) | Draining => Panic end.
Definition close (m : lock) (s : rt) (q : bytes) (range : bool) : result rt :=
  match m with Free => close_now Locked s q range | Locked => Ok (push s (Close q range)) | Draining => Panic end.
(** rx.rs:117-130 [drain_pending]. *)
Fixpoint drain_list (s : rt) (ps : list Pend) : result rt :=
  match ps with
  | [] => Ok s
  | NewWatch w :: r => obind (register_now Draining s w) (fun s' => drain_list s' r)
  | Close q range :: r => obind (close_now Draining s q range) (fun s' => drain_list s' r)
  end.
Definition drain_pending (s : rt) : result rt := drain_list (set_pend s []) (r_pend s).

(** matcher/mod.rs:237-256 [trigger] with the callbacks of rx.rs:304-319; [ws] are the
    watches still to be tried, the result those that are kept. *)
Fixpoint trigger (r : N * bytes) (ws : list Watch) (s : rt) : result (list Watch * rt) :=
  match ws with
  | [] => Ok ([], s)
  | w :: ws' =>
      let '(w1, ok, brk) := watch_test w r in
      obind (if ok
             then let '(c', b, cs) := handle (w_ctx w1) r in
                  obind (ex Locked (add_event s (Called (w_qid w1) r)) cs) (fun s' => Ok (set_ctx w1 c', b, s'))
             else Ok (w1, false, s)) (fun '(w2, b, s1) =>
      if b || brk
      then obind (drop_watch Locked s1 w2 (if brk then SBreak else SFinish)) (fun s2 => trigger r ws' s2)
      else obind (trigger r ws' s1) (fun '(k, s2) => Ok (w2 :: k, s2)))
  end.
Fixpoint trigger_all (rs : list (N * bytes)) (s : rt) : result rt :=
  match rs with
  | [] => Ok s
  | r :: rs' => obind (trigger r (r_cbs s) s) (fun '(k, s') => trigger_all rs' (set_cbs s' k))
  end.
(** rx.rs:256-335 [process]. It needs to borrow the watches once there is something new. *)
Definition process (m : lock) (s : rt) : result rt :=
  let from := r_upto s in
  let d := r_db s in
  let s1 := set_snap s d in
  if log_head d <=? from then Ok s1
  else match m with
       | Free =>
           obind (drain_pending s1) (fun s2 =>
           obind (trigger_all (pkts_after d from) s2) (fun s3 =>
           obind (drain_pending s3) (fun s4 => Ok (set_upto s4 (last (map fst (pkts_after d from)) (log_head d))))))
       | _ => Panic
       end.

(** rx.rs:402-428: the callback is called with the results of the query at the positions [i]
    allows. The results are found before the first call here, one at a time in the code. *)
Fixpoint scan (m : lock) (q : bytes) (lim : TestSet) (rs : list (N * bytes)) (at_ : N) (c : C) (s : rt) : result (rt * C * N * bool) :=
  match rs with
  | [] => Ok (s, c, at_, false)
  | r :: rs' =>
      match member_next 32 lim at_ with
      | (None, _) => Ok (s, c, at_, false)
      | (Some false, nt) => scan m q lim rs' nt c s
      | (Some true, nt) =>
          let '(c', b, cs) := handle c r in
          obind (ex m (add_event s (Called q r)) cs) (fun s' => if b then Ok (s', c', nt, true) else scan m q lim rs' nt c' s')
      end
  end.
(** rx.rs:385-444 [watch] ([watch_query], 360-383, without the option [follow]): the number
    it returns. *)
Definition watch (m : lock) (s : rt) (q : bytes) (tb : Table) (asc : bool) (p : PktPredicates) (c : C) : result (rt * Z) :=
  obind (close m s q false) (fun s1 =>
  obind (if check_db p
         then obind (query_all qfuel (r_snap s1) tb asc p stale) (fun rs => scan m q (p_limits p QQuery) rs 0 c s1)
         else Ok (s1, c, 0, false)) (fun '(s2, c', n, b) =>
  if b then Ok (s2, saturating_cast n)
  else
    let id := N.min (r_ids s2 + 1) (2 ^ 64 - 1) in
    obind (watch_new id q p n c') (fun o =>
    obind (match o with Some w => insert_watch m (set_ids s2 id) w | None => Ok (set_ids s2 id) end) (fun s3 =>
    Ok (s3, saturating_neg_cast n))))).

Definition exec1 (m : lock) (s : rt) (c : cmd) : result rt :=
  match c with
  | CWatch q tb asc p c => obind (watch m s q tb asc p c) (fun '(s', _) => Ok s')
  | CStop q range => close m s q range
  | CProcess => process m s
  | CSave f now ps => let '(d, _, _) := save f now (r_db s) ps in Ok (set_db s d)
  | CTick now => Ok (set_now s now)
  end.
End Step.

Fixpoint run_cmds (f : rt -> cmd -> result rt) (s : rt) (cs : list cmd) : result rt :=
  match cs with [] => Ok s | c :: r => obind (f s c) (fun s' => run_cmds f s' r) end.
(** Callbacks calling callbacks, [fuel] levels deep (the stack of the program is finite). *)
Fixpoint exec (fuel : nat) (m : lock) (s : rt) (cs : list cmd) : result rt :=
  match fuel with
  | O => match cs with [] => Ok s | _ => OutOfFuel end
  | S n => run_cmds (exec1 (exec n) m) s cs
  end.

(** crates/linkspace/src/lib.rs:819-838 [lk_get_all]: the packets the callback is called with
    and the result; the callback is a function of its state. *)
Fixpoint get_loop (lim : TestSet) (rs : list (N * bytes)) (at_ : N) (c : C) (cb : C -> N * bytes -> C * bool) : list (N * bytes) * C * N * bool :=
  match rs with
  | [] => ([], c, at_, false)
  | r :: rs' =>
      match member_next 32 lim at_ with
      | (None, _) => ([], c, at_, false)
      | (Some false, nt) => get_loop lim rs' nt c cb
      | (Some true, nt) =>
          let '(c', b) := cb c r in
          if b then ([r], c', nt, true)
          else let '(l, c2, n, b2) := get_loop lim rs' nt c' cb in (r :: l, c2, n, b2)
      end
  end.
Definition lk_get_all (s : rt) (tb : Table) (asc : bool) (p : PktPredicates) (c : C) (cb : C -> N * bytes -> C * bool) : result (list (N * bytes) * C * Z) :=
  obind (query_all qfuel (r_snap s) tb asc p stale) (fun rs =>
  let '(l, c', n, b) := get_loop (p_limits p QQuery) rs 0 c cb in
  Ok (l, c', if b then saturating_neg_cast n else saturating_cast n)).
(** lib.rs:841-857 [lk_get], [lk_get_ref]: the first result. *)
Definition lk_get (s : rt) (tb : Table) (asc : bool) (p : PktPredicates) : result (option (N * bytes)) :=
  obind (query qfuel (r_snap s) tb asc p stale 0) (fun rs => Ok (hd_error rs)).
End Runtime.
