(** * What collecting packets has to do, apart from the collector. *)
From Coq Require Import List NArith Bool.
From Verif Require Import Bytes ModelPkt ModelCollect SpecPkt.
Import ListNotations.
Local Open Scope N_scope.

(** The packets received before the input ends or fails. *)
Fixpoint received (vs : list Event) : list NetPktParts :=
  match vs with
  | VPkt p :: vs => p :: received vs
  | VTimeout _ :: vs => received vs
  | _ => []
  end.
(** No timeouts. *)
Definition untimed (vs : list Event) : Prop := forall b, ~ In (VTimeout b) vs.

(** A packet that may be written: all of them with [--private], else those outside the private
    group. *)
Definition shown (private : option bool) (p : NetPktParts) : bool :=
  match private with
  | Some true => true
  | _ => match parts_group (point_parts p) with Some g => negb (beqb g PRIVATE) | None => true end
  end.
Definition is_buffer (d : Dest) : bool := match d with DBuffer => true | _ => false end.
(** What writing a packet adds to the outputs, and to the buffer. *)
Definition direct (private : option bool) (ds : list Dest) (p : NetPktParts) : list (Dest * NetPktParts) :=
  if shown private p then map (fun d => (d, p)) (filter (fun d => negb (is_buffer d)) ds) else [].
Definition buffered (private : option bool) (ds : list Dest) (p : NetPktParts) : list NetPktParts :=
  if shown private p then map (fun _ => p) (filter is_buffer ds) else [].

(** A packet in memory is the point, with that hash. *)
Definition is_packet (c : crypto) (nh : bytes) (p : NetPktParts) (pt : point) : Prop :=
  seg_bytes (np_byte_segments p) = packet (hash c) nh pt /\ np_hash p = hash c (content pt).

(** One link for each packet of the group, in order. *)
Definition tagged (tag : NetPktParts -> option bytes) (g : list NetPktParts) (ls : list (bytes * bytes)) : Prop :=
  Forall2 (fun q l => tag q = Some (fst l) /\ snd l = np_hash q) g ls.
(** The links a result starts with: to the result before it, and those of the point. *)
Definition starts_after (chain : option (NetPktParts -> option bytes)) (extra : NetPktParts -> option (list (bytes * bytes)))
  (p : NetPktParts) (pre : list (bytes * bytes)) : Prop :=
  exists ch ex, match chain with
                | None => ch = []
                | Some f => exists t, f p = Some t /\ ch = [(t, np_hash p)]
                end /\ extra p = Some ex /\ pre = ch ++ ex.

(** [results … n pre gs fs bs ps]: the [ps] are the results for the groups of packets [gs], with
    the blocks of data [bs] asked for with the free spaces [fs]; the first is result [n] and its
    links start with [pre].  [room]: what links, space and data have together. *)
Inductive results (c : crypto) (nh : bytes) (mk : nat -> list (bytes * bytes) -> bytes -> point) (room : N)
  (tag : NetPktParts -> option bytes) (chain : option (NetPktParts -> option bytes))
  (extra : NetPktParts -> option (list (bytes * bytes)))
  : nat -> list (bytes * bytes) -> list (list NetPktParts) -> list N -> list bytes -> list NetPktParts -> Prop :=
| results_nil n pre : results c nh mk room tag chain extra n pre [] [] [] []
| results_cons n pre ls pre' g gs f fs b bs p ps :
    tagged tag g ls -> f + 48 * lenN (pre ++ ls) = room -> is_packet c nh p (mk n (pre ++ ls) b) ->
    starts_after chain extra p pre' ->
    results c nh mk room tag chain extra (S n) pre' gs fs bs ps ->
    results c nh mk room tag chain extra n pre (g :: gs) (f :: fs) (b :: bs) (p :: ps).

(** The outputs of a group and its result: the packets as they come, the result, and then what
    went to the buffer, on standard output. *)
Definition group_log (private : option bool) (forward write : list Dest) (g : list NetPktParts) (p : NetPktParts)
  : list (Dest * NetPktParts) :=
  flat_map (direct private forward) g ++ direct private write p ++
  map (fun q => (DOut 0, q)) (flat_map (buffered private forward) g ++ buffered private write p).
Fixpoint groups_log (private : option bool) (forward write : list Dest) (gs : list (list NetPktParts)) (ps : list NetPktParts)
  : list (Dest * NetPktParts) :=
  match gs, ps with
  | g :: gs, p :: ps => group_log private forward write g p ++ groups_log private forward write gs ps
  | _, _ => []
  end.
