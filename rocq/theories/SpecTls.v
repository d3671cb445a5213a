(** Specification of the defaults of a thread, from what was done before.  Nothing here refers to cells. *)
From Verif Require Import Bytes ModelLns ModelTls.

(** What an operation settles the default to, if it is the first to *)
Definition settles (w : Which) (o : Op) (v : bytes) : Prop :=
  match o with
  | Set_ x => v = x
  | Read NotPresent => v = match w with Group => PUBLIC | Domain => [0;0;0;0;0;0;0;0;0;0;0;0;0;0;0;0] end
  | Read (Text (Some x)) => v = x
  | Read _ => False
  end.
(** The operations of this thread on this default *)
Definition same (t : N) (w : Which) (x : N * Which * Op) : Prop := fst x = (t, w).
(** The default is settled to [v] by the first operation that settles it *)
Definition settled (l : list (N * Which * Op)) (t : N) (w : Which) (v : bytes) : Prop :=
  exists a o b, l = a ++ (t, w, o) :: b /\ settles w o v /\ forall x y, In x a -> same t w x -> ~ settles w (snd x) y.
Definition unsettled (l : list (N * Which * Op)) (t : N) (w : Which) : Prop := forall x y, In x l -> same t w x -> ~ settles w (snd x) y.
