(** Specification of watches. *)
From Coq Require Import Sorting.Sorted.
From Verif Require Import Bytes ModelPkt ModelTestSet SpecTestSet ModelStore SpecStore ModelPred SpecPred SpecQuery ModelQuery ModelWatch.

Arguments mkWatch {C}. Arguments w_id {C}. Arguments w_qid {C}. Arguments w_pred {C}. Arguments w_nthq {C}. Arguments w_nthn {C}. Arguments w_ctx {C}.
Arguments mkRt {C}. Arguments r_db {C}. Arguments r_snap {C}. Arguments r_upto {C}. Arguments r_cbs {C}. Arguments r_pend {C}. Arguments r_trace {C}. Arguments r_now {C}. Arguments r_ids {C}.
Arguments NewWatch {C}. Arguments Close {C}. Arguments CWatch {C}. Arguments CStop {C}. Arguments CProcess {C}. Arguments CSave {C}. Arguments CTick {C}.
Arguments find_watch {C}. Arguments register_at {C}. Arguments register {C}. Arguments deregister {C}. Arguments gc {C}. Arguments set_ctx {C}. Arguments watch_test {C}. Arguments watch_new {C}.
Arguments set_db {C}. Arguments set_snap {C}. Arguments set_upto {C}. Arguments set_cbs {C}. Arguments set_pend {C}. Arguments set_ids {C}. Arguments set_now {C}. Arguments add_event {C}. Arguments push {C}.
Arguments drop_watch {C}. Arguments drop_all {C}. Arguments register_now {C}. Arguments close_now {C}. Arguments insert_watch {C}. Arguments close {C}. Arguments drain_list {C}. Arguments drain_pending {C}.
Arguments trigger {C}. Arguments trigger_all {C}. Arguments process {C}. Arguments scan {C}. Arguments watch {C}. Arguments exec1 {C}. Arguments run_cmds {C}. Arguments exec {C}. Arguments get_loop {C}. Arguments lk_get_all {C}. Arguments lk_get {C}. Arguments new_rt {C}.

(** The ids of the watches are strictly increasing. *)
Definition by_id {C} (l : list (Watch C)) : Prop := StronglySorted (fun a b => lex (w_qid a) (w_qid b) = Lt) l.
(** The packets the callback of the watch [q] was called with. *)
Definition calls (q : bytes) (t : list event) : list (N * bytes) :=
  flat_map (fun e => match e with Called q' r => if beqb q' q then [r] else [] | _ => [] end) t.
(** The command is about the watch [q]. *)
Definition touches {C} (q : bytes) (c : cmd C) : Prop :=
  match c with
  | CWatch q' _ _ _ _ => q' = q
  | CStop q' false => q' = q
  | CStop q' true => starts_with q q' = true
  | _ => False
  end.
(** Neither the commands [cs] nor the callbacks touch the watch [q]. *)
Definition leave_alone {C} (handle : C -> N * bytes -> C * bool * list (cmd C)) (stopped : C -> StopReason -> list (cmd C)) (q : bytes) (cs : list (cmd C)) : Prop :=
  Forall (fun c => ~ touches q c) cs /\ (forall c r, Forall (fun c => ~ touches q c) (snd (handle c r))) /\ (forall c x, Forall (fun c => ~ touches q c) (stopped c x)).
(** No pending command touches the watch [q]. *)
Definition pending_clear {C} (q : bytes) (s : rt C) : Prop :=
  Forall (fun x => match x with NewWatch w => w_qid w <> q | Close q' range => ~ touches q (@CStop C q' range) end) (r_pend s).
(** What a callback in the state [c] makes of the packets [xs], if nothing else ends its
    watch: those it is called with, and its state afterwards unless it broke. *)
Fixpoint until_break {C} (handle : C -> N * bytes -> C * bool * list (cmd C)) (c : C) (xs : list (N * bytes)) : list (N * bytes) * option C :=
  match xs with
  | [] => ([], Some c)
  | x :: r => let '(c', b, _) := handle c x in
              if b then ([x], None) else let '(l, o) := until_break handle c' r in (x :: l, o)
  end.
(** The command is not lk_process, nor are those of callbacks. *)
Definition no_process {C} (c : cmd C) : Prop := match c with CProcess => False | _ => True end.
Definition never_process {C} (handle : C -> N * bytes -> C * bool * list (cmd C)) (stopped : C -> StopReason -> list (cmd C)) : Prop :=
  (forall c r, Forall no_process (snd (handle c r))) /\ (forall c x, Forall no_process (stopped c x)).
(** The states of the runtime: a fresh one on a store, after any commands. *)
Definition reached {C} (handle : C -> N * bytes -> C * bool * list (cmd C)) (stopped : C -> StopReason -> list (cmd C)) (qfuel : nat) (stale : option entry) (s : rt C) : Prop :=
  exists d l ids now fuel cs, represents d l /\ exec handle stopped qfuel stale fuel Free (new_rt d ids now) cs = Ok s.
(** The store [d'] has the packets of [d] and later ones. *)
Definition grows (d d' : db) : Prop := forall l, represents d l -> exists l', represents d' (l ++ l').
(** Position [k] after the positions [n] and [q] is allowed by the limits on new packets and
    on all results. *)
Definition new_position (rs : list Predicate) (n q k : N) : Prop := position_ok rs QNew (n + k) /\ position_ok rs QQuery (q + k).
(** The limits of the scope use only interval operators. *)
Definition limit_ops (rs : list Predicate) (sc : QScope) : Prop := Forall (fun r => p_kind r = RLimit sc -> interval_op (p_op r)) rs.
(** Some position from [n] on is allowed. *)
Definition open_at (rs : list Predicate) (sc : QScope) (n : N) : Prop := exists k, n <= k /\ k < 2 ^ 32 /\ position_ok rs sc k.
(** What has become of the watch [w] after the packets [ms] were found to match. *)
Definition watch_after {C} (rs : list Predicate) (w : Watch C) (l1 ms : list stored) (left_ : option C) (o : option (Watch C)) : Prop :=
  match o with
  | Some w' => left_ = Some (w_ctx w') /\ w_qid w' = w_qid w /\ w_pred w' = w_pred w /\ w_nthn w' = w_nthn w + lenN ms /\ w_nthq w' = w_nthq w + lenN ms /\
      (forall e, In e l1 -> exists u, fst e <= u /\ u < 2 ^ 64 /\ recv_allowed rs u) /\
      forall sc n, sc = QNew /\ n = w_nthn w \/ sc = QQuery /\ n = w_nthq w ->
        limit_ops rs sc -> open_at rs sc n -> open_at rs sc (n + lenN ms)
  | None => left_ = None \/ (exists e, In e l1 /\ forall u, fst e <= u -> u < 2 ^ 64 -> ~ recv_allowed rs u) \/
            (forall k, lenN ms <= k -> w_nthn w + k < 2 ^ 32 -> w_nthq w + k < 2 ^ 32 -> ~ new_position rs (w_nthn w) (w_nthq w) k)
  end.
(** The limits of the scope allow every position; the callback never breaks. *)
Definition no_limit (rs : list Predicate) (sc : QScope) : Prop := forall n, position_ok rs sc n.
Definition never_breaks {C} (handle : C -> N * bytes -> C * bool * list (cmd C)) : Prop := forall c r, snd (fst (handle c r)) = false.
