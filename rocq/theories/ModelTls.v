(** The defaults of a thread: crates/common/src/thread_local.rs [group], [set_group], [domain], [set_domain].  A panic is caught
    by the caller (Python turns it into an exception), so that a thread goes on after one. *)
From Verif Require Import Bytes ModelLns.

(** Which default: thread_local.rs:6-7 [GROUP], 51-52 [DOMAIN] *)
Inductive Which := Group | Domain.
(** $LK_GROUP or $LK_DOMAIN when it is read: not there, not text, or text with what its expression evaluates to, [None] if it
    does not parse or evaluate.  Evaluating may open a linkspace (ModelOpen.v), which is not followed here; an expression that asks for the default it defines does not evaluate. *)
Inductive Var := NotPresent | NotText | Text (v : option bytes).
(** Without a variable: thread_local.rs:30 and 75 *)
Definition default (w : Which) : bytes := match w with Group => PUBLIC | Domain => repeat 0 16 end.
(** thread_local.rs:29-45 and 74-90: what [get_or_init] is given *)
Definition init (w : Which) (x : Var) : outcome unit bytes :=
  match x with NotPresent => Ok (default w) | Text (Some v) => Ok v | Text None => Panic | NotText => Panic end.
(** [OnceCell::get_or_init]: a panic of [f] leaves the cell empty *)
Definition get_or_init (cell : option bytes) (f : outcome unit bytes) : option bytes * outcome unit bytes :=
  match cell with
  | Some v => (cell, Ok v)
  | None => match f with Ok v => (Some v, Ok v) | r => (None, r) end
  end.
(** What a thread does: read a default, with the variable as it is then, or set it *)
Inductive Op := Read (x : Var) | Set_ (v : bytes).
(** thread_local.rs:20-46 [group], 65-91 [domain], 8-14 [set_group], 55-61 [set_domain] *)
Definition op (w : Which) (cell : option bytes) (o : Op) : option bytes * outcome unit bytes :=
  match o with
  | Read x => get_or_init cell (init w x)
  | Set_ v => match get_or_init cell (Ok v) with
              | (cell, Ok got) => (cell, if list_eq_dec N.eq_dec got v then Ok v else Panic)
              | r => r
              end
  end.
(** thread_local.rs:6-7, 51-52: the cells of all threads; they are local to the thread *)
Definition Cells : Type := N -> Which -> option bytes.
(** Which of the two cells *)
Definition which_eqb (a b : Which) : bool := match a, b with Group, Group | Domain, Domain => true | _, _ => false end.
(** One cell of one thread replaced *)
Definition put (c : Cells) (t : N) (w : Which) (x : option bytes) : Cells :=
  fun u v => if (u =? t) && which_eqb v w then x else c u v.
(** Operations of any threads, in the order they happen, with their results *)
Fixpoint ops (c : Cells) (l : list (N * Which * Op)) : Cells * list (outcome unit bytes) :=
  match l with
  | [] => (c, [])
  | (t, w, o) :: l => let '(x, r) := op w (c t w) o in let '(c, rs) := ops (put c t w x) l in (c, r :: rs)
  end.
(** thread_local.rs:7, 52 [OnceCell::new] *)
Definition fresh : Cells := fun _ _ => None.
