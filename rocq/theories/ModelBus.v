(** Model of the bus that tells threads and processes about new packets.
    Source: crates/ipcbus/src/{udp_procbus,inotify}.rs.
    Threads interleave at single atomic operations; [AtomicU64] is modelled as sequentially consistent
    (there is one variable, so its modification order is the order of the steps). *)
From Verif Require Import Bytes.

(** ** udp_procbus.rs *)
(** Where a thread is.  [SKIP_UDP] is [skip]; a waiter's [notified] is the state of its listener in
    [event_listener::Event]. *)
Inductive pc :=
| ELoad (v : N) (skip : bool)              (* :92 before the load *)
| ELoop (v : N) (skip : bool) (old : N)    (* :94-107 at the top of the loop *)
| ESend (v : N) (skip : bool)              (* :108 the exchange succeeded *)
| ENotify (v : N) (skip : bool)            (* :122 *)
| EDone (v : N) (skip : bool) (ret : N)    (* :97 or :123 *)
| WStart                                   (* :152-154 before [listen] *)
| WWait (notified : bool)                  (* :157-165 *)
| WLoad                                    (* :166 *)
| WDone (ret : option N).                  (* :161, :168 *)
Record proc := mkProc { p_pid : N; p_val : N; p_threads : list pc }.
(** A datagram on its way to the process with the given number: the sender's pid and the value.  The
    bus id is left out here: the messages of another bus are ignored (see [rx_parse]). *)
Record msg := mkMsg { m_to : nat; m_pid : N; m_val : N }.
Record sys := mkSys { s_procs : list proc; s_net : list msg }.

Definition upd {A} (i : nat) (x : A) (l : list A) : list A := firstn i l ++ [x] ++ skipn (S i) l.
Definition with_val (p : proc) (v : N) : proc := mkProc (p_pid p) v (p_threads p).
Definition with_thread (p : proc) (j : nat) (t : pc) : proc := mkProc (p_pid p) (p_val p) (upd j t (p_threads p)).
Definition add_thread (p : proc) (t : pc) : proc := mkProc (p_pid p) (p_val p) (p_threads p ++ [t]).
(** [Event::notify(usize::MAX)]: every registered listener *)
Definition wake (t : pc) : pc := match t with WWait _ => WWait true | t => t end.
Definition notify_all (p : proc) : proc := mkProc (p_pid p) (p_val p) (map wake (p_threads p)).

(** One step of thread [j] inside its process; the datagrams it sends are the last component.  The
    exchange may fail spuriously ([compare_exchange_weak]).  [lossy] allows the send to fail. *)
Inductive tstep (lossy : bool) (n : nat) (p : proc) (j : nat) : pc -> proc -> list msg -> Prop :=
| TLoad v skip : tstep lossy n p j (ELoad v skip) (with_thread p j (ELoop v skip (p_val p))) []
| TOld v skip old : v < old -> tstep lossy n p j (ELoop v skip old) (with_thread p j (EDone v skip old)) []
| TCas v skip old : old <= v -> p_val p = old -> tstep lossy n p j (ELoop v skip old) (with_thread (with_val p v) j (ESend v skip)) []
| TRetry v skip old : old <= v -> tstep lossy n p j (ELoop v skip old) (with_thread p j (ELoop v skip (p_val p))) []
| TSend v : tstep lossy n p j (ESend v false) (with_thread p j (ENotify v false)) (map (fun i => mkMsg i (p_pid p) v) (seq 0 n))
| TSendErr v : lossy = true -> tstep lossy n p j (ESend v false) (with_thread p j (ENotify v false)) []
| TSkip v : tstep lossy n p j (ESend v true) (with_thread p j (ENotify v true)) []
| TNotify v skip : tstep lossy n p j (ENotify v skip) (with_thread (notify_all p) j (EDone v skip v)) []
| TListen : tstep lossy n p j WStart (with_thread p j (WWait false)) []
| TWake : tstep lossy n p j (WWait true) (with_thread p j WLoad) []
| TRead : tstep lossy n p j WLoad (with_thread p j (WDone (Some (p_val p)))) []
| TTimeout b : tstep lossy n p j (WWait b) (with_thread p j (WDone None)) [].

(** Steps of the system.  [emit] and [next_deadline] can be called at any time in any process.  The
    receiving thread (:126-145) drops the messages of its own process; for the others it runs [_emit]
    to its end before taking the next, here each runs in a thread of its own, which allows more
    interleavings.  Delivery is in any order; if [lossy], a message may be lost. *)
Inductive step (lossy : bool) : sys -> sys -> Prop :=
| SThread ps net i p j t p' ms : nth_error ps i = Some p -> nth_error (p_threads p) j = Some t ->
    tstep lossy (length ps) p j t p' ms -> step lossy (mkSys ps net) (mkSys (upd i p' ps) (net ++ ms))
| SEmit ps net i p v : nth_error ps i = Some p -> step lossy (mkSys ps net) (mkSys (upd i (add_thread p (ELoad v false)) ps) net)
| SWait ps net i p : nth_error ps i = Some p -> step lossy (mkSys ps net) (mkSys (upd i (add_thread p WStart) ps) net)
| SOwn ps a m b p : nth_error ps (m_to m) = Some p -> p_pid p = m_pid m -> step lossy (mkSys ps (a ++ m :: b)) (mkSys ps (a ++ b))
| SDeliver ps a m b p : nth_error ps (m_to m) = Some p -> p_pid p <> m_pid m ->
    step lossy (mkSys ps (a ++ m :: b)) (mkSys (upd (m_to m) (add_thread p (ELoad (m_val m) true)) ps) (a ++ b))
| SLose ps a m b : lossy = true -> step lossy (mkSys ps (a ++ m :: b)) (mkSys ps (a ++ b)).
(** :84-89 [new]: the value starts at zero *)
Definition start (pids : list N) : sys := mkSys (map (fun i => mkProc i 0 []) pids) [].

(** :110-115 and :129-143: the message and how it is read; native byte order, here little endian.
    [Panic] is in the receiving thread. *)
Definition le (k : nat) (n : N) : bytes := rev (be_encode k n).
Definition le_num (b : bytes) : N := be_decode (rev b).
Definition tx_message (bus pid v : N) : bytes := le 8 bus ++ le 4 pid ++ le 8 v.
Definition rx_parse (bus pid : N) (b : bytes) : outcome unit (option N) :=
  if lenN b <? 8 then Panic
  else if negb (le_num (takeN 8 b) =? bus) then Ok None
  else let rest := dropN 8 b in
       if lenN rest <? 4 then Panic
       else if beqb (takeN 4 rest) (le 4 pid) then Ok None
       else let v := dropN 4 rest in if lenN v =? 8 then Ok (Some (le_num v)) else Panic.

(** :21-53 [get_port] on the contents of the file: the port and the new contents.  A file that cannot be read
    or written is a panic and is left out, as is the lock. *)
Fixpoint chunks10 (fuel : nat) (b : bytes) : list bytes :=
  match fuel with O => [] | S f => if lenN b <? 10 then [] else takeN 10 b :: chunks10 f (dropN 10 b) end.
Fixpoint find_port (bus : N) (cs : list bytes) (new_port : N) : N * bool :=
  match cs with
  | [] => (new_port, false)
  | b :: r => let saved := le_num (dropN 8 b) in
              if le_num (takeN 8 b) =? bus then (saved, true) else find_port bus r (N.max new_port saved)
  end.
Definition get_port (bus : N) (file : bytes) : N * bytes :=
  match find_port bus (chunks10 (length file) file) 10501 with
  | (p, true) => (p, file)
  | (p, false) => let new := N.min (p + 1) 65535 in (new, file ++ le 8 bus ++ le 2 new)
  end.

(** ** inotify.rs *)
(** The value is in memory shared by all processes.  Steps of [_emit]: :65 the atomic maximum, then
    :66-68 return if it was the value, then [set_times] and [notify]. *)
Inductive ipc := IStart (v : N) | INotify (v : N) | IDone (v ret : N).
Record isys := mkISys { i_val : N; i_threads : list ipc }.
Inductive istep : isys -> isys -> Prop :=
| IEmit s v : istep s (mkISys (i_val s) (i_threads s ++ [IStart v]))
| ISame s j v : nth_error (i_threads s) j = Some (IStart v) -> i_val s = v -> istep s (mkISys (N.max (i_val s) v) (upd j (IDone v v) (i_threads s)))
| IMax s j v : nth_error (i_threads s) j = Some (IStart v) -> i_val s <> v -> istep s (mkISys (N.max (i_val s) v) (upd j (INotify v) (i_threads s)))
| INot s j v : nth_error (i_threads s) j = Some (INotify v) -> istep s (mkISys (i_val s) (upd j (IDone v v) (i_threads s))).
