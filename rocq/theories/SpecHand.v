(** Specification of the pairwise group and of the handshake: what packets there are, who signed
    them, and what they say.  The agreement of two parties is about runs of the program, so that part
    mentions the model's phases, as the actions of an honest party. *)
From Verif Require Import Bytes SpecSpace SpecPkt SpecPred ModelPkt ModelAbe ModelHand.

(** Bit by bit the exclusive or. *)
Definition pairwise_group (a b g : bytes) : Prop :=
  List.length g = 32%nat /\
  forall i j, N.testbit (nth i g 0) j = xorb (N.testbit (nth i a 0) j) (N.testbit (nth i b 0) j).

Definition signer (p : point) : option bytes := match p with PKey _ _ _ _ _ _ pk _ => Some pk | _ => None end.
Definition created (p : point) : N := match p with PLink _ _ t _ _ _ | PKey _ _ t _ _ _ _ _ => t | _ => 0 end.
Definition links_of (p : point) : list (bytes * bytes) := match p with PLink _ _ _ ls _ _ | PKey _ _ _ ls _ _ _ _ => ls | _ => [] end.
Definition domain_of (p : point) : option bytes := match p with PLink _ d _ _ _ _ | PKey _ d _ _ _ _ _ _ => Some d | _ => None end.
Definition data_of (p : point) : bytes := match p with PLink _ _ _ _ _ d | PKey _ _ _ _ _ d _ _ | PData d | PError d => d end.
(** The point links to the point [q]. *)
Definition refers (hash : bytes -> bytes) (p q : point) : Prop := exists tag, In (tag, hash (content q)) (links_of p).
(** The domain is [0xFF "handshake"] and the space is [/sentinal]. *)
Definition handshake_domain : bytes := [0; 0; 0; 0; 0; 0; 255; 104; 97; 110; 100; 115; 104; 97; 107; 101].
Definition in_handshake (g : bytes) (p : point) : Prop :=
  point_group p = Some g /\ domain_of p = Some handshake_domain /\ point_rspace p = Some (wire_rooted [str "sentinal"]).
(** The two times differ by less than so many seconds (15 unless given), in micro seconds. *)
Definition tolerance (max : option N) : N := 1000000 * match max with Some n => n | None => 15 end.
Definition within (d a b : N) : Prop := a < b + d /\ b < a + d.
Definition hops (nh : bytes) : N := nh_num nh 4 8.

(** A packet with a correct hash. *)
Definition net (c : crypto) (nh : bytes) (p : point) : bytes := packet (hash c) nh p.
(** It is well formed and its signature verifies. *)
Definition authentic (c : crypto) (p : point) : Prop := point_ok p /\ signature_ok (hash c) (validate_signature c) p.

(** A point the holder of [k] makes for a handshake: where it is, when, and what it links to. *)
Definition made (c : crypto) (k : skey c) (g : bytes) (t : N) (to : list point) (p : point) : Prop :=
  authentic c p /\ signer p = Some (pubkey_of c k) /\ created p = t /\ in_handshake g p /\ data_of p = [] /\
  map snd (links_of p) = map (fun q => hash c (content q)) to.

(** The program's value [P] is the packet with header [nh] and point [p]. *)
Definition holds (c : crypto) (P : NetPktParts) (nh : bytes) (p : point) : Prop :=
  lenN nh = 32 /\ point_ok p /\ parts_of_bytes (packet (hash c) nh p) = Ok P /\ to_wire P = packet (hash c) nh p.

(** What an honest holder of [k] signs: points outside of the handshake's domain, and the results of
    the handshake's own steps on packets it was given, at any time, in any number of sessions and in
    both roles. *)
Inductive ran_phase0 (c : crypto) (k : skey c) : point -> Prop :=
| RP0 t nh P p : phase0_client_init c k t nh = Ok P -> holds c P nh p -> ran_phase0 c k p.
Inductive ran_phase1 (c : crypto) (k : skey c) (theirs : point) : point -> Prop :=
| RP1 T nhT max tc t nh P p : holds c T nhT theirs -> phase1_server_signs c T k max tc t nh = Ok P -> holds c P nh p ->
    ran_phase1 c k theirs p.
Inductive ran_phase2 (c : crypto) (k : skey c) (mine theirs : point) : bytes -> point -> Prop :=
| RP2 M nhM T nhT max tc t nh P key p : holds c M nhM mine -> holds c T nhT theirs ->
    phase2_client_signs c M T k max tc t nh = Ok (P, key) -> holds c P nh p -> ran_phase2 c k mine theirs key p.
Inductive honest (c : crypto) (k : skey c) (p : point) : Prop :=
| ByPhase0 : ran_phase0 c k p -> honest c k p
| ByPhase1 theirs : ran_phase1 c k theirs p -> honest c k p
| ByPhase2 mine theirs key : ran_phase2 c k mine theirs key p -> honest c k p
| Elsewhere : point_ok p -> signer p = Some (pubkey_of c k) -> domain_of p <> Some handshake_domain -> honest c k p.
(** The signature on [p] is the one made on [q]: [q] was signed by the holder and the signed digests
    are equal. *)
Definition signed_as (c : crypto) (p q : point) : Prop := hash c (unsigned_content p) = hash c (unsigned_content q).
