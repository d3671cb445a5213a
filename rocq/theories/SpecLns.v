(** Specification of names, claims and votes. *)
From Verif Require Import Bytes SpecSpace SpecPkt ModelAbe ModelPkt ModelTree ModelLns.

(** ** Names *)
(** A name is one to seven components of 1 to 200 bytes, at most 234 bytes with their lengths. *)
Definition name_ok (cs : list bytes) : Prop :=
  Forall component_ok cs /\ (1 <= List.length cs <= 7)%nat /\ N.of_nat (List.length (wire_space cs)) <= 234.
(** Names that end in [local] are local. *)
Definition is_local (cs : list bytes) : Prop := last cs [] = str "local".
(** What a name means: its components in reverse order, and whether it is local. *)
Definition names (cs : list bytes) (n : Name) : Prop :=
  n_space n = wire_space (rev cs) /\ (n_type n = Local <-> is_local cs).

(** ** Claims *)
(** What makes a point a claim of the name [cs]. *)
Definition claim_point (cs : list bytes) (p : point) : Prop :=
  exists g c ls rs d k, p = PLink g LNS c ls rs d /\ name_ok cs /\ rs = rooted_with k (str "claims" :: rev cs) /\ ls <> [] /\
    (is_local cs -> g = repeat 0 32) /\ (~ is_local cs -> g = PUBLIC).
(** The expiry of a claim point: the first 8 bytes of the tag of its first link. *)
Definition point_until (p : point) (u : bytes) : Prop :=
  exists g dm c tail ptr ls rs d, p = PLink g dm c ((u ++ tail, ptr) :: ls) rs d /\ lenN u = 8 /\ lenN tail = 8.

(** ** Lookup entries *)
(** A link has expired at [now] unless the first 8 bytes of its tag are a later stamp. *)
Definition expired (now : N) (l : bytes * bytes) : Prop := be_decode (firstn 8 (fst l)) <= now.
(** [ks] are the links of [ls] that satisfy [P], in their order. *)
Inductive kept {A} (P : A -> Prop) : list A -> list A -> Prop :=
| kept_nil : kept P [] []
| kept_yes x ls ks : P x -> kept P ls ks -> kept P (x :: ls) (x :: ks)
| kept_no x ls ks : ~ P x -> kept P ls ks -> kept P (x :: ls) ks.

(** ** Votes *)
Section Votes.
Variable vote_of : bytes -> option NetPktParts.
(** The claim a key votes for: the pointer of the first link of its vote, if that has the tag [vote]. *)
Definition choice (a : bytes) : option bytes :=
  match vote_of a with
  | Some v => match pkt_links v with (tag, ptr) :: _ => if beqb tag VOTE_TAG then Some ptr else None | [] => None end
  | None => None
  end.
Definition votes_for (h a : bytes) : bool := match choice a with Some h' => beqb h' h | None => false end.
(** How many of the authorities vote for [h], and when the last of these votes was made. *)
Definition tally (auths : list bytes) (h : bytes) : nat := List.length (filter (votes_for h) auths).
Definition stamp_of (a : bytes) : N := match vote_of a with Some v => get_create_stamp (pf v) | None => 0 end.
Definition settled (auths : list bytes) (h : bytes) : N := fold_right N.max 0 (map stamp_of (filter (votes_for h) auths)).
(** More votes are better; with as many, those that were complete earlier. *)
Definition better (auths : list bytes) (h k : bytes) : Prop :=
  (tally auths k < tally auths h)%nat \/ tally auths k = tally auths h /\ settled auths h < settled auths k.
Definition best (auths : list bytes) (h : bytes) : Prop :=
  (0 < tally auths h)%nat /\ forall k, k <> h -> (0 < tally auths k)%nat -> better auths h k.
End Votes.
