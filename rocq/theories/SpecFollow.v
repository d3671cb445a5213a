(** Specification of the options [follow] and [notify-close] of watches. *)
From Verif Require Import Bytes ModelPkt SpecPkt ModelStore SpecStore SpecQuery ModelWatch ModelFollow SpecStatus.

(** A callback is called with the packets in turn, until it breaks. *)
Fixpoint feed {C} (f : C -> seen_pkt -> C * bool) (c : C) (xs : list seen_pkt) : C * bool :=
  match xs with [] => (c, false) | x :: r => let '(c', b) := f c x in if b then (c', true) else feed f c' r end.

(** The packets a packet links to that are stored, in the order of its links. *)
Definition targets (l : list stored) (p : point) : list stored :=
  flat_map (fun k => filter (fun e => beqb (np_hash (snd e)) (snd k)) l) (point_links p).

(** The second flag of a packet says that it is linked, the third is off, and the others are as they were. *)
Definition flag_byte (linked : bool) (b b' : N) : Prop :=
  N.testbit b' 1 = linked /\ N.testbit b' 2 = false /\ forall i, i <> 1 -> i <> 2 -> N.testbit b' i = N.testbit b i.
(** What the callback is shown of a stored packet. *)
Definition shown (hash : bytes -> bytes) (linked : bool) (e : stored) (x : seen_pkt) : Prop :=
  exists pre b b' post p, packet_at hash e (pre ++ b :: post) p /\ lenN pre = 3 /\ flag_byte linked b b' /\
    x = (Some (fst e), packet hash (pre ++ b' :: post) p).

(** The life of a watch: the callback is given the packets [rs] with the transactions of the time, and then stopped
    with a transaction [d] for a reason. *)
Fixpoint live {C} (h : handler C) (rs : list (db * seen_pkt)) (c : C) : C :=
  match rs with [] => c | (d, r) :: rs' => let '(c', b) := h_pkt h d c r in if b then c' else live h rs' c' end.
Definition life {C} (h : handler C) (rs : list (db * seen_pkt)) (d : db) (reason : StopReason) (c : C) : C := h_stopped h d (live h rs c) reason.
(** A callback that writes down what it is given, until it is full, and when it is stopped. *)
Inductive note := NPkt (r : seen_pkt) | NStop (reason : StopReason).
Definition recorder (full : nat) : handler (list note) :=
  mkHandler (fun _ c r => (c ++ [NPkt r], Nat.leb full (length c))) (fun _ c reason => c ++ [NStop reason]).
