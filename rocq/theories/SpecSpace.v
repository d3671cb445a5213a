(** Independent specification of spaces: what the documentation says a space and
    a rooted space are, as functions of the list of components.  Nothing here
    mentions the model. *)
From Verif Require Import Bytes.

(** "Serializable length delimited &[&[u8]]" (space.rs:8). *)
Definition wire_space (cs : list bytes) : bytes :=
  flat_map (fun c => N.of_nat (length c) :: c) cs.

Definition component_ok (c : bytes) : Prop := 1 <= N.of_nat (length c) <= 200.

(** Components of 1 to 200 bytes, at most 242 bytes in total. *)
Definition space_ok (cs : list bytes) : Prop :=
  Forall component_ok cs /\ N.of_nat (length (wire_space cs)) <= 242.

(** Offset of component [i]: the bytes taken by the components before it. *)
Definition offset (cs : list bytes) (i : nat) : N :=
  N.of_nat (length (wire_space (firstn i cs))).

(** Offsets 1..7 as stored in the prefix. *)
Definition offsets (cs : list bytes) : list N := map (offset cs) (seq 1 7).

(** Depth byte [d], seven offsets, the space. *)
Definition rooted_with (d : N) (cs : list bytes) : bytes := d :: offsets cs ++ wire_space cs.

(** "Space's with a [u8;8] prefix that holds the number of components and their
    offset" (space.rs:11); the empty space has no prefix. *)
Definition wire_rooted (cs : list bytes) : bytes :=
  match cs with [] => [] | _ => rooted_with (N.of_nat (length cs)) cs end.

(** The byte string [b] is the space with components [cs]. *)
Definition is_space (b : bytes) (cs : list bytes) : Prop := space_ok cs /\ b = wire_space cs.
