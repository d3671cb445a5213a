(** Specification of predicate sets: what each operator means, and what the next member
    of a set of numbers is. *)
From Verif Require Import Bytes ModelTestSet.

(** Bit [i] of a number. *)
Definition bit (v i : N) : bool := N.odd (v / 2 ^ i).

(** Mask0: every bit set in the value is set in the operand; Mask1: every bit set in the
    operand is set in the value. *)
Definition holds (op : TestOp) (v x : N) : Prop :=
  match op with
  | Nop => True
  | Equal => v = x
  | Less => v < x
  | Greater => v > x
  | Mask0 => forall i, bit v i = true -> bit x i = true
  | Mask1 => forall i, bit x i = true -> bit v i = true
  end.
Definition accepts (ts : list (TestOp * N)) (v : N) : Prop := Forall (fun t => holds (fst t) v (snd t)) ts.
Definition operands_ok (w : N) (ts : list (TestOp * N)) : Prop := Forall (fun t => snd t < 2 ^ w) ts.

(** [r] is the least element of [P] that is at least [v]; [None] when there is none. *)
Definition next_member (w : N) (P : N -> Prop) (v : N) (r : option N) : Prop :=
  match r with
  | Some x => v <= x /\ x < 2 ^ w /\ P x /\ forall y, v <= y -> y < 2 ^ w -> P y -> x <= y
  | None => forall y, v <= y -> y < 2 ^ w -> ~ P y
  end.

(** The set built by adding tests to the set that accepts everything. *)
Definition built (w : N) (ts : list (TestOp * N)) : TestSet :=
  fold_left (fun s t => add w s (fst t) (snd t)) ts (set_default w).
(** ... by [try_add], which may refuse. *)
Fixpoint try_build (w : N) (s : TestSet) (ts : list (TestOp * N)) : outcome TestErr TestSet :=
  match ts with
  | [] => Ok s
  | t :: ts' => obind (try_add w s (fst t) (snd t)) (fun s' => try_build w s' ts')
  end.

(** [r] is what is left of the results [l], the first of which has position [i], when only
    the positions in [P] are kept. *)
Inductive picks {A} (P : N -> Prop) : N -> list A -> list A -> Prop :=
| picks_nil i : picks P i [] []
| picks_in i a l r : P i -> picks P (i + 1) l r -> picks P i (a :: l) (a :: r)
| picks_out i a l r : ~ P i -> picks P (i + 1) l r -> picks P i (a :: l) r.
