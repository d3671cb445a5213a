(** Specification of the tree order: "( group, domain, space_depth, spacename, pubkey,
    create stamp, hash )" (tree_order.rs:10-14). *)
From Verif Require Import Bytes SpecSpace SpecPkt.

Definition thenc (a b : comparison) : comparison := match a with Eq => b | _ => a end.

(** Byte strings of a fixed size are ordered by their bytes.  Spaces of the same depth
    are ordered by their first differing component; components by length, then bytes. *)
Definition component_compare (a b : bytes) : comparison := thenc (lenN a ?= lenN b) (lex a b).
Fixpoint components_compare (a b : list bytes) : comparison :=
  match a, b with
  | [], [] => Eq
  | [], _ => Lt
  | _, [] => Gt
  | x :: a', y :: b' => thenc (component_compare x y) (components_compare a' b')
  end.

(** What the index orders points by. *)
Record indexed := mkIndexed {
  i_group : bytes; i_domain : bytes; i_space : list bytes; i_pubkey : bytes;
  i_create : N; i_hash : bytes }.
Definition branch_compare (a b : indexed) : comparison :=
  thenc (lex (i_group a) (i_group b))
 (thenc (lex (i_domain a) (i_domain b))
 (thenc (lenN (i_space a) ?= lenN (i_space b))
 (thenc (components_compare (i_space a) (i_space b))
        (lex (i_pubkey a) (i_pubkey b))))).
Definition tree_compare (a b : indexed) : comparison :=
  thenc (branch_compare a b) (thenc (i_create a ?= i_create b) (lex (i_hash a) (i_hash b))).
Definition indexed_ok (a : indexed) : Prop :=
  lenN (i_group a) = 32 /\ lenN (i_domain a) = 16 /\ space_ok (i_space a) /\ lenN (i_pubkey a) = 32 /\
  i_create a < 2 ^ 64 /\ lenN (i_hash a) = 32.

(** The fields of a decoded packet are those of the point [p]. *)
From Verif Require Import ModelPkt.
Definition has_fields (f : PointFields) (p : point) : Prop :=
  match f with
  | FData d => p = PData d
  | FError d => p = PError d
  | FLink lp => p = PLink (group (head lp)) (domain (head lp)) (create_stamp (head lp))
                          (links (tail lp)) (rspace (tail lp)) (tdata (tail lp))
  | FKey lp s => p = PKey (group (head lp)) (domain (head lp)) (create_stamp (head lp))
                          (links (tail lp)) (rspace (tail lp)) (tdata (tail lp)) (s_pubkey s) (s_signature s)
  | FUnknown _ => False
  end.
(** The packet [np] carries the point [p], whose space has the components [cs]. *)
Definition carries (hash : bytes -> bytes) (np : NetPktParts) (p : point) : Prop :=
  has_fields (fields (point_parts np)) p /\ point_ok p /\ np_hash np = hash (content p).
Definition in_tree (p : point) (cs : list bytes) (ix : indexed) (hash : bytes -> bytes) : Prop :=
  match p with
  | PLink g dm c ls rs d => rs = wire_rooted cs /\ ix = mkIndexed g dm cs (repeat 0 32) c (hash (content p))
  | PKey g dm c ls rs d pk sg => rs = wire_rooted cs /\ ix = mkIndexed g dm cs pk c (hash (content p))
  | _ => False
  end /\ space_ok cs.
