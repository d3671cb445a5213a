(** What a user of the bus relies on (C52, C71): executions, emitted values, settled states. *)
From Verif Require Import Bytes ModelBus.

Inductive exec (lossy : bool) : sys -> sys -> Prop :=
| exec_refl s : exec lossy s s
| exec_step s1 s2 s3 : exec lossy s1 s2 -> step lossy s2 s3 -> exec lossy s1 s3.
(** thread [j] of process [i] *)
Definition at_pc (s : sys) (i j : nat) (t : pc) : Prop :=
  exists p, nth_error (s_procs s) i = Some p /\ nth_error (p_threads p) j = Some t.
Definition value (s : sys) (i : nat) (x : N) : Prop :=
  exists p, nth_error (s_procs s) i = Some p /\ p_val p = x.
(** a call [emit v] was made in process [i] *)
Definition called_emit (s : sys) (i : nat) (v : N) : Prop :=
  exists j t, at_pc s i j t /\
    match t with
    | ELoad w false | ELoop w false _ | ESend w false | ENotify w false | EDone w false _ => w = v
    | _ => False
    end.
(** a thread that still has something of an [_emit] to do *)
Definition busy (t : pc) : Prop :=
  match t with ELoad _ _ | ELoop _ _ _ | ESend _ _ | ENotify _ _ => True | _ => False end.
Definition settled (s : sys) (i : nat) : Prop := forall j t, at_pc s i j t -> ~ busy t.
(** the largest of zero and the values satisfying [P] *)
Definition largest (P : N -> Prop) (x : N) : Prop := (forall v, P v -> v <= x) /\ (x = 0 \/ P x).

(** the same for the shared-memory bus *)
Inductive iexec : isys -> isys -> Prop :=
| iexec_refl s : iexec s s
| iexec_step s1 s2 s3 : iexec s1 s2 -> istep s2 s3 -> iexec s1 s3.
Definition icalled (s : isys) (v : N) : Prop :=
  exists t, In t (i_threads s) /\ match t with IStart w | INotify w | IDone w _ => w = v end.
Definition isettled (s : isys) : Prop := forall t, In t (i_threads s) -> exists v r, t = IDone v r.

(** The file of ports: records of a bus and its port. *)
Definition port_file (l : list (N * N)) : bytes := concat (map (fun e => le 8 (fst e) ++ le 2 (snd e)) l).
(** The file after asking for the ports of [buses] in turn, and the answers. *)
Fixpoint ask (buses : list N) (file : bytes) : list N * bytes :=
  match buses with
  | [] => ([], file)
  | b :: r => let (p, f) := get_port b file in let (ps, f') := ask r f in (p :: ps, f')
  end.
