(** Specification of opening a linkspace.  Nothing here refers to how the code opens one. *)
From Verif Require Import Bytes ModelOpen.

(** The path asked for: the argument, else $LK_DIR, else the directory linkspace in $HOME *)
Definition in_home (h p : bytes) : Prop :=
  exists sep, p = h ++ sep ++ [108;105;110;107;115;112;97;99;101] /\ (sep = [47] /\ h <> [] /\ ~ (exists x, h = x ++ [47]) \/ sep = [] /\ (h = [] \/ exists x, h = x ++ [47])).
Definition chosen (lk_dir home : option bytes) (c : Call) (p : bytes) : Prop :=
  c_dir c = Some p \/ c_dir c = None /\ (lk_dir = Some p \/ lk_dir = None /\ exists h, home = Some h /\ in_home h p).
(** Nothing to choose *)
Definition no_choice (lk_dir home : option bytes) (c : Call) : Prop := c_dir c = None /\ lk_dir = None /\ home = None.
(** Making a directory leaves the directories there are *)
Definition fs_ok (handle_of : list bytes -> bytes -> option N) : Prop :=
  forall made p q h, handle_of made q = Some h -> handle_of (p :: made) q = Some h.
(** The runtimes given to a thread, with the calls, in order *)
Definition given (t : N) (res : list (N * Call * Res)) : list (Call * Rt) :=
  flat_map (fun '(u, c, r) => match r with ROk x => if u =? t then [(c, x)] else [] | RErr => [] end) res.
Definition by_open (l : list (Call * Rt)) : list (Call * Rt) := filter (fun x => match c_kind (fst x) with LkOpen => true | GetLk => false end) l.
