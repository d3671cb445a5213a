(** lk_process_while: crates/common/src/runtime/rx.rs:147-257 [run_while], :481-491 [next_work];
    crates/linkspace/src/lib.rs:929-946. *)
From Verif Require Import Bytes ModelPkt ModelTree ModelTestSet ModelStore ModelPred ModelQuery ModelWatch SpecWatch.

(** What other threads and processes do meanwhile: packets are saved, time passes. *)
Inductive outside := OSave (f : faults) (now : N) (ps : list item) | OTick (now : N).
Definition outside1 {C} (s : rt C) (o : outside) : rt C :=
  match o with
  | OSave f now ps => let '(d, _, _) := save f now (r_db s) ps in set_db s d
  | OTick now => set_now s now
  end.
Definition others {C} (s : rt C) (l : list outside) : rt C := fold_left outside1 l s.
(** Once around the loop: what happens outside after [process] has looked at the log and before
    [next_deadline] has registered its listener; and how the wait ends ([Sleeps]: not yet). *)
Inductive waiting := Sleeps | Woken (l : list outside) | TimedOut (l : list outside).
Record turn := mkTurn { t_mid : list outside; t_wait : waiting }.

(** How far the loop has come when the turns are used up: it has returned, it waits in [next_deadline], or it
    goes on without waiting ([continue]).  The watches dropped by [gc] are listed as well. *)
Inductive ran (C : Type) :=
| Returned (s : rt C) (z : Z) (dropped : list (Watch C))
| Asleep (s : rt C) (until : N) (dropped : list (Watch C))
| Going (s : rt C) (dropped : list (Watch C)).
Arguments Returned {C}. Arguments Asleep {C}. Arguments Going {C}.

Section Run.
Variable C : Type.
Variable handle : C -> N * bytes -> C * bool * list (cmd C).
Variable stopped : C -> StopReason -> list (cmd C).
Variable qfuel : nat.
Variable stale : option entry.
Variable depth : nat.
Notation result := (outcome TestErr).

(** :142-145 [watch_status]: the identity of the watch and its count. *)
Definition watch_status (s : rt C) (q : bytes) : option (N * N) :=
  match find_watch q (r_cbs s) with Some w => Some (w_id w, w_nthq w) | None => None end.
(** :188-204: whether the loop ends because of the user's watch *)
Definition check_watch (s : rt C) (u : option (bytes * (N * N))) : option Z :=
  match u with
  | None => None
  | Some (q, (id, n)) =>
      match watch_status s q with
      | None => Some 1%Z
      | Some (id', n') => if negb (id' =? id) then Some 1%Z else if negb (n' =? n) then Some (-1)%Z else None
      end
  end.
(** :481-491 [next_work]; [is_running] is false here *)
Definition next_work (s : rt C) : rt C * list (Watch C) * option (option N) :=
  match r_pend s with
  | _ :: _ => (s, [], Some None)
  | [] => let '(k, nx) := gc (r_now s) (r_cbs s) in
          (set_cbs s k, filter (fun w => negb (r_now s <? high (p_recv (w_pred w)))) (r_cbs s),
           match nx with Some t => Some (Some t) | None => None end)
  end.
(** :178-256 the loop.  Instants and stamps are numbers on one clock, in microseconds, read once per turn.
    [t0] is when the call was made. *)
Fixpoint run_loop (t0 : N) (last : option N) (u : option (bytes * (N * N))) (ts : list turn) (s : rt C) (dr : list (Watch C)) : result (ran C) :=
  obind (process handle stopped (exec handle stopped qfuel stale depth) Free s) (fun s1 =>
  match check_watch s1 u with
  | Some z => Ok (Returned s1 z dr)
  | None =>
      match ts with
      | [] => Ok (Going s1 dr)
      | t :: r =>
          let s2 := others s1 (t_mid t) in
          let passed := match last with Some l => l <? r_now s2 | None => false end in
          if passed then Ok (Returned s2 0 dr)
          else
            let next_check := match last with Some l => N.min (t0 + (2 ^ 64 - 1)) l | None => t0 + (2 ^ 64 - 1) end in
            let '(s3, gone, work) := next_work s2 in
            let dr' := dr ++ gone in
            match work with
            | None => Ok (Returned s3 1 dr')
            | Some None => run_loop t0 last u r s3 dr'
            | Some (Some oob) =>
                if negb (oob =? 2 ^ 64 - 1) && (oob <? r_now s3) then run_loop t0 last u r s3 dr'
                else
                  let deadline := if oob =? 2 ^ 64 - 1 then next_check else N.min next_check oob in
                  match t_wait t with
                  | Sleeps => Ok (Asleep s3 deadline dr')
                  | Woken l => run_loop t0 last u r (others s3 l) dr'
                  | TimedOut l => let s4 := others s3 l in run_loop t0 last u r (set_now s4 (N.max (r_now s4) deadline)) dr'
                  end
            end
      end
  end).
(** :154-177.  [is_running] is false: the loop is not called from a callback (there it is an error).  [None]: the watch
    does not exist. *)
Definition run_while (last : option N) (q : option bytes) (ts : list turn) (s : rt C) : option (result (ran C)) :=
  match q with
  | None => Some (run_loop (r_now s) last None ts s [])
  | Some id => match watch_status s id with
               | None => None
               | Some st => Some (run_loop (r_now s) last (Some (id, st)) ts s [])
               end
  end.
(** lib.rs:929-937 [lk_process_while]: a timeout of zero is none *)
Definition lk_process_while (q : option bytes) (timeout : N) (ts : list turn) (s : rt C) : option (result (ran C)) :=
  run_while (if timeout =? 0 then None else Some (r_now s + timeout)) q ts s.
End Run.
