(** Specification of packet predicates: what it means for a packet to satisfy one. *)
From Verif Require Import Bytes SpecSpace SpecPkt ModelTestSet SpecTestSet ModelPred.

(** [b] are the bytes of a valid packet with routing header [nh] and point [p]. *)
Definition packet_of (hash : bytes -> bytes) (b nh : bytes) (p : point) : Prop :=
  b = packet hash nh p /\ lenN nh = 32 /\ point_ok p /\ bytes_ok b.

(** The part of [nh] from byte [i] to byte [j], as a big-endian number. *)
Definition nh_num (nh : bytes) (i j : nat) : N := be_decode (firstn (j - i) (skipn i nh)).
(** The space of a point and the depth it declares (its first byte). *)
Definition point_rspace (p : point) : option bytes :=
  match p with PLink _ _ _ _ rs _ | PKey _ _ _ _ rs _ _ _ => Some rs | _ => None end.
Definition declared_depth (rs : bytes) : N := match rs with [] => 0 | d :: _ => d end.
Definition has_space (rs : bytes) (cs : list bytes) : Prop :=
  space_ok cs /\ ((exists d, rs = rooted_with d cs) \/ rs = [] /\ cs = []).

(** The numeric value of a field of a packet; [None] when the packet does not have the
    field.  Error points have no field at all. *)
Definition num_field (hash : bytes -> bytes) (f : Field) (nh : bytes) (p : point) : option N :=
  match p with
  | PError _ => None
  | _ =>
    match f with
    | VarNetFlagsF => Some (nh_num nh 3 4)
    | VarHopF => Some (nh_num nh 4 8)
    | VarStampF => Some (nh_num nh 8 16)
    | VarUBits0F => Some (nh_num nh 16 20)
    | VarUBits1F => Some (nh_num nh 20 24)
    | VarUBits2F => Some (nh_num nh 24 28)
    | VarUBits3F => Some (nh_num nh 28 32)
    | PktHashF => Some (be_decode (hash (content p)))
    | PktTypeF => Some (type_byte p)
    | SizeF => Some (lenN (packet hash nh p))
    | DataSizeF => match p with PData d | PError d | PLink _ _ _ _ _ d | PKey _ _ _ _ _ d _ _ => Some (lenN d) end
    | LinksLenF => match p with PLink _ _ _ ls _ _ | PKey _ _ _ ls _ _ _ _ => Some (lenN ls) | _ => None end
    | CreateF => match p with PLink _ _ c _ _ _ | PKey _ _ c _ _ _ _ _ => Some c | _ => None end
    | GroupIDF => match p with PLink g _ _ _ _ _ | PKey g _ _ _ _ _ _ _ => Some (be_decode g) | _ => None end
    | DomainF => match p with PLink _ d _ _ _ _ | PKey _ d _ _ _ _ _ _ => Some (be_decode d) | _ => None end
    | PubKeyF => match p with PKey _ _ _ _ _ _ pk _ => Some (be_decode pk) | _ => None end
    | DepthF => match point_rspace p with Some rs => Some (declared_depth rs) | None => None end
    | _ => None
    end
  end.

(** The packet with receive stamp [recv], header [nh] and point [p] satisfies the
    predicate.  [spacename] asks for that space and its depth, [prefix] for a space that
    starts with the given components; limits do not look at the packet. *)
Definition satisfies (hash : bytes -> bytes) (recv : N) (nh : bytes) (p : point) (r : Predicate) : Prop :=
  match p_kind r, p_val r with
  | RField SpaceNameF, PSpace sp =>
      exists rs cs, point_rspace p = Some rs /\ has_space rs cs /\ sp = wire_space cs /\
                    declared_depth rs = N.of_nat (length cs)
  | RField f, PNum v => exists x, num_field hash f nh p = Some x /\ holds (p_op r) x v
  | RRecv, PNum v => holds (p_op r) recv v
  | RPrefix, PSpace sp =>
      sp = [] \/ exists rs cs more, point_rspace p = Some rs /\ has_space rs (cs ++ more) /\ sp = wire_space cs /\
                    N.of_nat (length cs) <= declared_depth rs
  | RLimit _, PNum _ => True
  | _, _ => False
  end.

(** The position [n] in the scope [q] is allowed by the limits; asking for a hash implies
    asking for the first result only. *)
Definition position_ok (rs : list Predicate) (q : QScope) (n : N) : Prop :=
  Forall (fun r => match p_kind r, p_op r, p_val r with
                   | RLimit q', op, PNum v => q' = q -> holds op n v
                   | RField PktHashF, Equal, _ => q = QQuery -> n = 0
                   | _, _, _ => True
                   end) rs.
(** The limits leave no result at all. *)
Definition no_positions (rs : list Predicate) (q : QScope) : Prop := forall n, n < 2 ^ 32 -> ~ position_ok rs q n.
Definition no_results (rs : list Predicate) : Prop :=
  no_positions rs QQuery \/ no_positions rs QNew /\ (no_positions rs QIndex \/ no_positions rs QBranch).

(** Predicates a query accepts: the operand fits the field, spaces are compared by
    equality and have at most eight components, [recv] is compared by =, < and >. *)
Definition num_kind (f : Field) : Prop :=
  match f with SignatureF | DataF | RSpaceNameF | SpaceCompF _ | SpaceNameF => False | _ => True end.
Definition pred_ok (r : Predicate) : Prop :=
  match p_kind r, p_val r with
  | RField SpaceNameF, PSpace sp | RPrefix, PSpace sp =>
      p_op r = Equal /\ exists cs, space_ok cs /\ (length cs <= 8)%nat /\ sp = wire_space cs
  | RField f, PNum v => num_kind f /\ v < 2 ^ field_width f
  | RRecv, PNum v => v < 2 ^ 64 /\ match p_op r with Mask0 | Mask1 => False | _ => True end
  | RLimit _, PNum v => v < 2 ^ 32
  | _, _ => False
  end.

(** The packet's depth byte is the number of components of its space (validation does not
    check the depth byte of spaces with eight components, C15). *)
Definition depth_honest (p : point) : Prop :=
  forall rs, point_rspace p = Some rs -> exists cs, has_space rs cs /\ declared_depth rs = N.of_nat (length cs).
Definition no_spacename (rs : list Predicate) : Prop := Forall (fun r => p_kind r <> RField SpaceNameF) rs.
