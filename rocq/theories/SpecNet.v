(** Specification of header changes, the duplicate filter and the buffer. *)
From Verif Require Import Bytes ModelAbe ModelQText ModelPred ModelNet.

(** ** Headers *)
(** A change: a field of the header and the bytes to assign. *)
Definition change : Type := (Field * bytes)%type.
(** Where the fields of a header are: the first byte and the byte after the last. *)
Definition span (f : Field) : option (nat * nat) :=
  match f with
  | VarNetFlagsF => Some (3, 4) | VarHopF => Some (4, 8) | VarStampF => Some (8, 16)
  | VarUBits0F => Some (16, 20) | VarUBits1F => Some (20, 24) | VarUBits2F => Some (24, 28) | VarUBits3F => Some (28, 32)
  | _ => None
  end%nat.
Definition change_ok (c : change) : Prop := bytes_ok (snd c) /\ exists i j, span (fst c) = Some (i, j) /\ List.length (snd c) = (j - i)%nat.
Definition change_stmt (c : change) : ABList := [(None, field_name (fst c)); (Some CColon, str "="); (Some CColon, snd c)].
(** The last value assigned to a field. *)
Fixpoint last_value (f : Field) (l : list change) : option bytes :=
  match l with
  | [] => None
  | (g, v) :: r => match last_value f r with Some w => Some w | None => if field_eqb g f then Some v else None end
  end.
Definition field_bytes (i j : nat) (h : bytes) : bytes := firstn (j - i) (skipn i h).
(** The bytes of both. *)
Fixpoint both (a b : bytes) : bytes := match a, b with x :: a', y :: b' => N.lor x y :: both a' b' | _, _ => [] end.

(** ** Duplicate filter *)
Fixpoint dedup_run (d : list bytes) (hs : list bytes) : outcome QErr (list bool) :=
  match hs with
  | [] => Ok []
  | h :: r => obind (probable_contains d h) (fun '(b, d') => obind (dedup_run d' r) (fun bs => Ok (b :: bs)))
  end.
(** The last of [hs] that falls in the same slot as [h], if any. *)
Fixpoint last_in_slot (slot : bytes -> nat) (h : bytes) (hs : list bytes) : option bytes :=
  match hs with
  | [] => None
  | x :: r => match last_in_slot slot h r with Some y => Some y | None => if Nat.eqb (slot x) (slot h) then Some x else None end
  end.

(** ** Buffer *)
Section Buffer.
Context {A : Type} (hash_of : A -> bytes) (links_of : A -> option (list bytes)).
Definition is_data (p : A) : Prop := links_of p = None.
Definition links_to (k p : A) : bool := match links_of k with Some ls => existsb (beqb (hash_of p)) ls | None => false end.
(** What comes out for [k] when [last] is the last point with links before it, and the datapoints [d]
    came in between: a datapoint only if [last] links to it; a point with links always, after those
    of [d] that it links to and that did not come out already. *)
Definition comes_out (last : option A) (d : list A) (k : A) : list A :=
  let done x := match last with Some l => links_to l x | None => false end in
  match links_of k with
  | None => if done k then [k] else []
  | Some _ => filter (fun x => links_to k x && negb (done x)) d ++ [k]
  end.
End Buffer.
