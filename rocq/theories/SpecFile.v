(** Specification of the files of an instance. *)
From Verif Require Import Bytes ModelAbe ModelFile.
Local Open Scope N_scope.

(** A file system: the root is a directory, and everything is in a directory. *)
Definition fs_ok (m : fs) : Prop := m [] = Some Dir /\ forall p n, m (p ++ [n]) <> None -> m p = Some Dir.
(** A name in a directory *)
Definition ordinary (n : bytes) : Prop := n <> [] /\ n <> str "." /\ n <> str ".." /\ ~ In 47 n /\ ~ In 0 n.
(** The instance: an existing directory *)
Definition instance (m : fs) (loc : list bytes) : Prop := Forall ordinary loc /\ m loc = Some Dir.
(** The parts of a text between its slashes *)
Fixpoint slashed (gs : list bytes) : bytes := match gs with [] => [] | [g] => g | g :: r => g ++ str "/" ++ slashed r end.
Definition parts (t : bytes) (gs : list bytes) : Prop := gs <> [] /\ t = slashed gs /\ Forall (fun g => ~ In 47 g) gs.
(** A path that may be used: relative, without a part "..", not starting with a part "." *)
Definition allowed (gs : list bytes) : Prop :=
  (forall r, gs <> [] :: r \/ r = []) /\ ~ In (str "..") gs /\ (forall r, gs <> str "." :: r).
(** The names in a path: its parts but for the empty ones and the dots *)
Inductive names : list bytes -> list bytes -> Prop :=
| names_nil : names [] []
| names_skip g gs ns : g = [] \/ g = str "." -> names gs ns -> names (g :: gs) ns
| names_take g gs ns : g <> [] -> g <> str "." -> names gs ns -> names (g :: gs) (g :: ns).
(** The path says that it is a directory. *)
Definition says_dir (gs : list bytes) : Prop := exists l, gs = l ++ [[]] \/ gs = l ++ [str "."].
(** Nothing is at the path, and nothing but directories on the way *)
Definition absent (m : fs) (p : list bytes) : Prop := exists q n r, p = q ++ n :: r /\ m q = Some Dir /\ m (q ++ [n]) = None.
(** [q] is above [p]. *)
Definition above (q p : list bytes) : Prop := exists n r, p = q ++ n :: r.
(** The place of a file of the instance *)
Definition place (loc ns : list bytes) : list bytes := loc ++ str "files" :: ns.
(** The same but for new directories on the way to the place *)
Definition only_dirs (m m' : fs) (loc ns : list bytes) : Prop :=
  forall q, m' q = m q \/ m q = None /\ m' q = Some Dir /\ above loc q /\ above q (place loc ns).
