(** What a user of lk_process_while relies on (C72). *)
From Verif Require Import Bytes ModelPkt ModelTestSet SpecTestSet ModelStore SpecStore ModelPred SpecPred ModelQuery ModelWatch SpecWatch ModelRun.

(** the watch [q] is still the one that was there, [n] times matched *)
Definition still {C} (s : rt C) (q : bytes) (id n : N) : Prop :=
  exists w, In w (r_cbs s) /\ w_qid w = q /\ w_id w = id /\ w_nthq w = n.
(** the watch [q] was removed or replaced *)
Definition ended {C} (s : rt C) (q : bytes) (id : N) : Prop :=
  forall w, In w (r_cbs s) -> w_qid w = q -> w_id w <> id.
(** nothing is saved from outside between looking at the log and waiting *)
Definition quiet_mid (ts : list turn) : Prop :=
  Forall (fun t => Forall (fun o => match o with OSave _ _ _ => False | OTick _ => True end) (t_mid t)) ts.
Definition no_save {C} (c : cmd C) : Prop := match c with CSave _ _ _ => False | _ => True end.
Definition never_save {C} (handle : C -> N * bytes -> C * bool * list (cmd C)) (stopped : C -> StopReason -> list (cmd C)) : Prop :=
  (forall c r, Forall no_save (snd (handle c r))) /\ (forall c x, Forall no_save (stopped c x)).
(** processing, saves and the clock only *)
Definition serving {C} (c : cmd C) : Prop := match c with CProcess | CSave _ _ _ | CTick _ => True | _ => False end.
Definition final {C} (r : ran C) : rt C := match r with Returned s _ _ | Asleep s _ _ | Going s _ => s end.
Definition gone {C} (r : ran C) : list (Watch C) := match r with Returned _ _ d | Asleep _ _ d | Going _ d => d end.
