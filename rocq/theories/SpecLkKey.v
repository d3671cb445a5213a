(** Specification of keys that are found by name. *)
From Verif Require Import Bytes ModelAbe SpecSpace ModelPkt SpecPkt SpecTree ModelStore SpecStore SpecPred SpecQuery ModelLns SpecLns.

(** The stored packet is a point of the private group and the domain lns at the space [cs], made before [now]. *)
Definition private_at (hash : bytes -> bytes) (cs : list bytes) (now : N) (e : stored) : Prop :=
  exists ix, index_at hash e ix /\ i_group ix = repeat 0 32 /\ i_domain ix = LNS /\ i_space ix = cs /\ i_create ix < now.
(** The space of the claims of a name. *)
Definition claims_of (cs : list bytes) : list bytes := str "claims" :: rev cs.
(** The one that comes first in the tree, newest first: keyless points before those of keys, and of these the
    newest, by hash if made at the same time. *)
Definition comes_first (hash : bytes -> bytes) (l : list stored) (cs : list bytes) (now : N) (e : stored) : Prop :=
  In e l /\ private_at hash cs now e /\ forall e', In e' l -> private_at hash cs now e' -> e' = e \/ tree_before hash false e e'.
Definition nothing_at (hash : bytes -> bytes) (l : list stored) (cs : list bytes) (now : N) : Prop :=
  forall e, In e l -> ~ private_at hash cs now e.
Definition never_at (hash : bytes -> bytes) (l : list stored) (cs : list bytes) : Prop := forall now, nothing_at hash l cs now.

(** The space of the lookup entries of a public key. *)
Definition entries_of (pk : bytes) : list bytes := [str "by-tag"; str "pubkey@"; pk].
(** What a new key is stored as: a claim of the name that never expires, with a link to the public key and the
    encrypted key as its data, and a lookup entry with a link to that claim. *)
Definition key_claim (cs : list bytes) (pk enckey : bytes) : point :=
  PLink (repeat 0 32) LNS 0 [(repeat 255 8 ++ 0 :: str "pubkey@", pk)] (wire_rooted (claims_of cs)) enckey.
Definition key_entry (hash : bytes -> bytes) (now : N) (cs : list bytes) (pk enckey : bytes) : point :=
  PLink (repeat 0 32) LNS now [(repeat 255 8 ++ repeat 0 8, hash (content (key_claim cs pk enckey)))] (wire_rooted (entries_of pk)) [].
(** ** No collisions *)
Definition held (hash : bytes -> bytes) (l : list stored) (p : point) : Prop := exists e nh, In e l /\ packet_at hash e nh p.
(** No two different points, of those stored and those that are new, have the same hash. *)
Definition no_collision (hash : bytes -> bytes) (l : list stored) (new : list point) : Prop :=
  forall p q, held hash l p \/ In p new -> held hash l q \/ In q new -> hash (content p) = hash (content q) -> p = q.
(** All the times that are read are sensible. *)
Definition sane (now : N) : Prop := 2 <= now < 2 ^ 63.
