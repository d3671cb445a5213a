(** Specification of getting packets by their hashes, and of the callbacks of Python. *)
From Verif Require Import Bytes ModelPkt SpecPkt ModelStore SpecStore ModelPred SpecPred SpecQuery ModelByHash.

(** The stored packet has the hash [h]. *)
Definition has_hash (hash : bytes -> bytes) (h : bytes) (e : stored) : Prop :=
  exists nh p, packet_at hash e nh p /\ hash (content p) = h.
(** The packets of [l] with the hashes [hs], in the order of the hashes. *)
Inductive found (hash : bytes -> bytes) (l : list stored) : list bytes -> list (N * bytes) -> Prop :=
| found_none : found hash l [] []
| found_one h hs e xs : In e l -> has_hash hash h e -> found hash l hs xs -> found hash l (h :: hs) (answer e :: xs)
| found_skip h hs xs : (forall e, In e l -> ~ has_hash hash h e) -> found hash l hs xs -> found hash l (h :: hs) xs.
(** The callback, in state [c], is called with the packets in order until it breaks. *)
Inductive visits {C} (cb : C -> N * bytes -> C * bool) : C -> list (N * bytes) -> list (N * bytes) -> C -> bool -> Prop :=
| visits_end c : visits cb c [] [] c false
| visits_break c x xs c' : cb c x = (c', true) -> visits cb c (x :: xs) [x] c' true
| visits_next c x xs c' l c2 b : cb c x = (c', false) -> visits cb c' xs l c2 b -> visits cb c (x :: xs) (x :: l) c2 b.
(** The calls of a function of Python and what they gave; only True breaks. *)
Inductive py_calls {C X} (cb : C -> N * bytes -> C * PyRet X) : C -> list (N * bytes) -> list (N * bytes) -> list (PyRet X) -> C -> Prop :=
| calls_end c : py_calls cb c [] [] [] c
| calls_break c x xs c' : cb c x = (c', Ret (Some true)) -> py_calls cb c (x :: xs) [x] [Ret (Some true)] c'
| calls_next c x xs c' v l vs c2 : cb c x = (c', v) -> v <> Ret (Some true) -> py_calls cb c' xs l vs c2 -> py_calls cb c (x :: xs) (x :: l) (v :: vs) c2.
(** What the last call gave. *)
Definition last_ret {X} (vs : list (PyRet X)) : option (PyRet X) := match rev vs with [] => None | v :: _ => Some v end.
Definition raised {X} (o : outcome X Z) (vs : list (PyRet X)) : Prop := forall x, o = Err x <-> last_ret vs = Some (Raise x).
