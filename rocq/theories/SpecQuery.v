(** Specification of database queries. *)
From Coq Require Import Sorting.Sorted.
From Verif Require Import Bytes SpecSpace SpecPkt ModelPkt ModelTree SpecTree ModelTestSet SpecTestSet ModelStore SpecStore ModelPred SpecPred.

(** A stored packet: its stamp, and the header [nh] and the point [p] it has. *)
Definition stored : Type := N * NetPktParts.
Definition packet_at (hash : bytes -> bytes) (e : stored) (nh : bytes) (p : point) : Prop :=
  packet_of hash (np_bytes (snd e)) nh p /\ carries hash (snd e) p /\ fst e < 2 ^ 64.
(** The tables [d] hold the valid packets [l]. *)
Definition valid_store (hash : bytes -> bytes) (d : db) (l : list stored) : Prop :=
  represents d l /\ lenN l < 2 ^ 32 /\ Forall (fun e => exists nh p, packet_at hash e nh p) l.
(** The packet satisfies every predicate. *)
Definition matches (hash : bytes -> bytes) (rs : list Predicate) (e : stored) : Prop :=
  exists nh p, packet_at hash e nh p /\ Forall (satisfies hash (fst e) nh p) rs.

(** What a query gives the user: the stamp and the bytes of a packet. *)
Definition answer (e : stored) : N * bytes := (fst e, np_bytes (snd e)).
(** [out] is what the index predicates [i_db] and [i] leave of the packets [ms]; [i] counts
    from [nth]. *)
Definition answers (rs : list Predicate) (nth_ : N) (ms : list stored) (out : list (N * bytes)) : Prop :=
  exists mid, picks (position_ok rs QIndex) 0 (map answer ms) mid /\ picks (position_ok rs QQuery) nth_ mid out.

(** The list [ms] has exactly the elements of [l] that satisfy [Q], ordered by [R]. *)
Definition exactly {A} (l : list A) (Q : A -> Prop) (R : A -> A -> Prop) (ms : list A) : Prop :=
  StronglySorted R ms /\ forall e, In e ms <-> In e l /\ Q e.

Definition hash_before (a b : stored) : Prop := lex (np_hash (snd a)) (np_hash (snd b)) = Lt.
Definition recv_before (asc : bool) (a b : stored) : Prop := if asc then fst a < fst b else fst b < fst a.

(** The place of a link or key point in the tree. *)
Definition index_of (hash : bytes -> bytes) (p : point) (ix : indexed) : Prop :=
  match p with
  | PLink g dm c ls rs d => exists cs, has_space rs cs /\ ix = mkIndexed g dm cs (repeat 0 32) c (hash (content p))
  | PKey g dm c ls rs d pk sg => exists cs, has_space rs cs /\ ix = mkIndexed g dm cs pk c (hash (content p))
  | _ => False
  end.
Definition index_at (hash : bytes -> bytes) (e : stored) (ix : indexed) : Prop :=
  exists nh p, packet_at hash e nh p /\ index_of hash p ix.
(** The order of the tree: by branch (group, domain, depth, space, public key), then by
    create stamp and hash; only the order within a branch is reversed. *)
Definition leaf_compare (a b : indexed) : comparison := thenc (i_create a ?= i_create b) (lex (i_hash a) (i_hash b)).
Definition tree_before (hash : bytes -> bytes) (asc : bool) (a b : stored) : Prop :=
  exists ia ib, index_at hash a ia /\ index_at hash b ib /\
  (branch_compare ia ib = Lt \/ branch_compare ia ib = Eq /\ leaf_compare ia ib = (if asc then Lt else Gt)).
(** Two packets in the same branch. *)
Definition same_branch (hash : bytes -> bytes) (a b : stored) : Prop :=
  exists ia ib, index_at hash a ia /\ index_at hash b ib /\ branch_compare ia ib = Eq.

(** The packets of the store declare the right depth (C15) and no public key is the
    all-ones string, which is not the encoding of a key. *)
Definition well_formed (p : point) : Prop :=
  depth_honest p /\ match p with PKey _ _ _ _ _ _ pk _ => pk <> repeat 255 32 | _ => True end.
Definition honest_store (hash : bytes -> bytes) (d : db) (l : list stored) : Prop :=
  valid_store hash d l /\ Forall (fun e => exists nh p, packet_at hash e nh p /\ well_formed p) l.

(** ** Conditions on the predicates of a query *)
Definition no_pred (k : RuleType) (rs : list Predicate) : Prop := Forall (fun r => p_kind r <> k) rs.
(** The value of the field is fixed. *)
Definition fixes (f : Field) (rs : list Predicate) : Prop := exists v, In (mkPred (RField f) Equal (PNum v)) rs.
Definition fixes_space (rs : list Predicate) : Prop := exists sp, In (mkPred (RField SpaceNameF) Equal (PSpace sp)) rs.
(** Predicates on the depth use only these operators. *)
Definition depth_ops (ok : TestOp -> Prop) (rs : list Predicate) : Prop :=
  Forall (fun r => p_kind r = RField DepthF -> ok (p_op r)) rs.
(** The depth [n] is allowed by the predicates on depth and space. *)
Definition depth_allowed (rs : list Predicate) (n : N) : Prop :=
  Forall (fun r => match p_kind r, p_val r with
                   | RField DepthF, PNum v => holds (p_op r) n v
                   | RField SpaceNameF, PSpace sp => exists cs, space_ok cs /\ sp = wire_space cs /\ n = lenN cs
                   | RPrefix, PSpace sp => exists cs, space_ok cs /\ sp = wire_space cs /\ lenN cs <= n
                   | _, _ => True
                   end) rs.
(** The value [u] is allowed by the predicates on the field [f]. *)
Definition field_allowed (rs : list Predicate) (f : Field) (u : N) : Prop :=
  Forall (fun r => match p_kind r, p_val r with RField g, PNum v => f = g -> holds (p_op r) u v | _, _ => True end) rs.
(** The predicates on group, domain, public key and depth each allow some value, for the
    depth one a space can have (adding predicates refuses most lists for which this is
    false, but see C23). *)
Definition possible (rs : list Predicate) : Prop :=
  (exists n, n <= 8 /\ depth_allowed rs n) /\
  (exists g, g < 2 ^ 256 /\ field_allowed rs GroupIDF g) /\
  (exists d, d < 2 ^ 128 /\ field_allowed rs DomainF d) /\
  (exists k, k < 2 ^ 256 /\ field_allowed rs PubKeyF k).
(** The queries whose tree search is complete: no predicate on the space, or group and
    domain fixed and either the space fixed or no predicate on the public key and the
    depths allowed without a gap, a single one if a prefix is asked for. *)
Definition interval_op (op : TestOp) : Prop := match op with Mask0 | Mask1 => False | _ => True end.
Definition unskipped (rs : list Predicate) : Prop :=
  (no_pred RPrefix rs /\ no_pred (RField SpaceNameF) rs /\ depth_ops (fun op => op = Less) rs) \/
  (fixes GroupIDF rs /\ fixes DomainF rs /\
   (fixes_space rs \/
    no_pred (RField PubKeyF) rs /\
    (fixes DepthF rs \/ no_pred RPrefix rs /\ no_pred (RField SpaceNameF) rs /\ depth_ops interval_op rs))).
(** More than one create stamp is allowed. *)
Definition create_wide (rs : list Predicate) : Prop :=
  exists a b, a < b /\ b < 2 ^ 64 /\ field_allowed rs CreateF a /\ field_allowed rs CreateF b.
(** The packets a tree query is about: matching link and key points. *)
Definition tree_matches (hash : bytes -> bytes) (rs : list Predicate) (e : stored) : Prop :=
  matches hash rs e /\ exists ix, index_at hash e ix.

(** ** Limits on branches *)
(** The predicates that are tested before the packets of a branch are counted. *)
Definition counted_pred (r : Predicate) : Prop :=
  match p_kind r with
  | RField CreateF | RField PktHashF | RField LinksLenF | RField DataSizeF | RRecv => True
  | _ => False
  end.
Definition counted (hash : bytes -> bytes) (rs : list Predicate) (e : stored) : Prop :=
  exists nh p, packet_at hash e nh p /\ Forall (fun r => counted_pred r -> satisfies hash (fst e) nh p r) rs.
(** [n] packets of the branch of [e] that satisfy those come before [e]. *)
Definition branch_position (hash : bytes -> bytes) (l : list stored) (asc : bool) (rs : list Predicate) (e : stored) (n : N) : Prop :=
  exists fs, NoDup fs /\ lenN fs = n /\
  forall f, In f fs <-> In f l /\ same_branch hash f e /\ tree_before hash asc f e /\ counted hash rs f.

(** ** Receive stamps *)
(** Every predicate but those on the receive stamp. *)
Definition matches_but_recv (hash : bytes -> bytes) (rs : list Predicate) (e : stored) : Prop :=
  exists nh p, packet_at hash e nh p /\ Forall (fun r => p_kind r <> RRecv -> satisfies hash (fst e) nh p r) rs.
(** The predicates allow the receive stamp [u]; they allow it or a lower one. *)
Definition recv_allowed (rs : list Predicate) (u : N) : Prop :=
  Forall (fun r => match p_kind r, p_val r with RRecv, PNum v => holds (p_op r) u v | _, _ => True end) rs.
Definition recv_from (rs : list Predicate) (u : N) : Prop :=
  Forall (fun r => match p_kind r, p_val r, p_op r with
                   | RRecv, PNum v, Greater => v < u
                   | RRecv, PNum v, Equal => v <= u
                   | _, _, _ => True
                   end) rs.
Definition recv_wide (rs : list Predicate) : Prop :=
  exists a b, a < b /\ b < 2 ^ 64 /\ recv_allowed rs a /\ recv_allowed rs b.
(** The meaning of [spacename] predicates is that of C60 only for packets that declare the
    right depth. *)
Definition spaces_clear (hash : bytes -> bytes) (l : list stored) (rs : list Predicate) : Prop :=
  no_spacename rs \/ Forall (fun e => forall nh p, packet_at hash e nh p -> depth_honest p) l.
