(** What a packet in Python should be: an object whose header attributes can be changed one by one. *)
From Coq Require Import ZArith.
From Verif Require Import Bytes SpecPkt.

(** The header as fields *)
Record Header := mkHeader { h_prefix : bytes; h_flags : N; h_hop : bytes; h_stamp : bytes; h_u0 : bytes; h_u1 : bytes; h_u2 : bytes; h_u3 : bytes }.
Definition header_ok (h : Header) : Prop :=
  lenN (h_prefix h) = 3 /\ lenN (h_hop h) = 4 /\ lenN (h_stamp h) = 8 /\
  lenN (h_u0 h) = 4 /\ lenN (h_u1 h) = 4 /\ lenN (h_u2 h) = 4 /\ lenN (h_u3 h) = 4.
Definition header_bytes (h : Header) : bytes :=
  h_prefix h ++ [h_flags h] ++ h_hop h ++ h_stamp h ++ h_u0 h ++ h_u1 h ++ h_u2 h ++ h_u3 h.

(** An assignment to an attribute *)
Inductive assign := AFlags (f : N) | AHop (v : bytes) | AStamp (v : bytes) | AU0 (v : bytes) | AU1 (v : bytes) | AU2 (v : bytes) | AU3 (v : bytes).
(** The flags that have a name; every other value has the size of its field. *)
Definition assign_ok (a : assign) : Prop :=
  match a with
  | AFlags f => f < 256 /\ N.testbit f 4 = false /\ N.testbit f 5 = false /\ N.testbit f 6 = false
  | AStamp v => lenN v = 8
  | AHop v | AU0 v | AU1 v | AU2 v | AU3 v => lenN v = 4
  end.
Definition assigned (h : Header) (a : assign) : Header :=
  let 'mkHeader p f ho st a0 a1 a2 a3 := h in
  match a with
  | AFlags v => mkHeader p v ho st a0 a1 a2 a3
  | AHop v => mkHeader p f v st a0 a1 a2 a3
  | AStamp v => mkHeader p f ho v a0 a1 a2 a3
  | AU0 v => mkHeader p f ho st v a1 a2 a3
  | AU1 v => mkHeader p f ho st a0 v a2 a3
  | AU2 v => mkHeader p f ho st a0 a1 v a3
  | AU3 v => mkHeader p f ho st a0 a1 a2 v
  end.

(** [l[i]] of a Python list; the answer for an index out of range is left to the caller *)
Definition list_item {A} (l : list A) (i : Z) (r : option A) : Prop :=
  (0 <= i -> r = nth_error l (Z.to_nat i))%Z /\
  (i < 0 -> Z.of_nat (length l) + i < 0 -> r = None)%Z /\
  (i < 0 -> 0 <= Z.of_nat (length l) + i -> r = nth_error l (Z.to_nat (Z.of_nat (length l) + i)))%Z.
(** The points with a space and links *)
Definition linked (p : point) : Prop := match p with PLink _ _ _ _ _ _ | PKey _ _ _ _ _ _ _ _ => True | _ => False end.
