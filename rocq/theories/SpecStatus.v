(** Specification of status requests: what is asked, and which packets ask and answer. *)
From Verif Require Import Bytes ModelPkt ModelAbe SpecSpace SpecPkt SpecTree SpecPred.
From Verif Require Import SpecStore SpecQuery ModelTestSet ModelPred ModelWatch ModelStatus.

(** The place of a status: below "status", the group, the kind of object and, if given, the instance. *)
Definition status_place (st : LkStatus) : list bytes :=
  [255 :: str "status"; st_group st; st_objtype st] ++ match st_instance st with Some i => [i] | None => [] end.
(** A group, a domain, and names that fit together. *)
Definition status_ok (st : LkStatus) : Prop :=
  lenN (st_group st) = 32 /\ bytes_ok (st_group st) /\ lenN (st_domain st) = 16 /\ bytes_ok (st_domain st) /\
  0 < lenN (st_objtype st) /\ lenN (st_objtype st) <= 200 /\ bytes_ok (st_objtype st) /\
  match st_instance st with
  | None => True
  | Some i => 0 < lenN i /\ lenN (st_objtype st) + lenN i <= 199 /\ bytes_ok i
  end.
(** The point is a link or key point of that domain in the local group, at or below those components. *)
Definition local_below (d : bytes) (cs : list bytes) (p : point) : Prop :=
  exists c ls rs data more, (p = PLink (repeat 0 32) d c ls rs data \/ exists k s, p = PKey (repeat 0 32) d c ls rs data k s) /\
    has_space rs (cs ++ more) /\ lenN cs <= declared_depth rs.
Definition point_create (p : point) : option N := match p with PLink _ _ c _ _ _ | PKey _ _ c _ _ _ _ _ => Some c | _ => None end.
Definition point_links (p : point) : list (bytes * bytes) := match p with PLink _ _ _ ls _ _ | PKey _ _ _ ls _ _ _ _ => ls | _ => [] end.
Definition point_data (p : point) : bytes := match p with PData d | PError d | PLink _ _ _ _ _ d | PKey _ _ _ _ _ d _ _ => d end.
(** A request has no links and no data, a reply has both. *)
Definition asks (p : point) : Prop := point_links p = [] /\ point_data p = [].
Definition replies (p : point) : Prop := point_links p <> [] /\ point_data p <> [].
(** Made in the last [age] before [now]. *)
Definition recent (age now : N) (p : point) : Prop := exists c, point_create p = Some c /\ now - age < c.
(** The request for a status. *)
Definition request_point (st : LkStatus) (create : N) : point := PLink (repeat 0 32) (st_domain st) create [] (wire_rooted (status_place st)) [].
(** What the queries ask for. *)
Definition seen_preds (st : LkStatus) (age now : N) : list Predicate :=
  [mkPred (RField GroupIDF) Equal (PNum 0); mkPred (RField DomainF) Equal (PNum (be_decode (st_domain st)));
   mkPred (RField CreateF) Greater (PNum (now - age)); mkPred RPrefix Equal (PSpace (wire_space (status_place st)))].
Definition watch_preds (st : LkStatus) (age now until : N) : list Predicate :=
  seen_preds st age now ++
  [mkPred (RField DataSizeF) Greater (PNum 0); mkPred (RField LinksLenF) Greater (PNum 0); mkPred RRecv Less (PNum until); mkPred (RLimit QIndex) Less (PNum 0)].
Definition set_preds (st : LkStatus) : list Predicate :=
  [mkPred (RField DataSizeF) Equal (PNum 0); mkPred (RField LinksLenF) Equal (PNum 0);
   mkPred RPrefix Equal (PSpace (wire_space (status_place (with_instance st None)))); mkPred (RLimit QIndex) Less (PNum 0)].
(** What is made of the packets [xs] found first, of which [req] tells the requests: the requests seen, the packets
    the callback is called with, until it breaks, and its state then. *)
Fixpoint first_pass {C} (req : N * bytes -> bool) (handle : C -> N * bytes -> C * bool * list (cmd C)) (c : C) (xs : list (N * bytes)) : list (N * bytes) * list (N * bytes) * C :=
  match xs with
  | [] => ([], [], c)
  | x :: r => if req x then let '(a, b, c') := first_pass req handle c r in (x :: a, b, c')
              else let '(c1, brk, _) := handle c x in
                   if brk then ([], [x], c1) else let '(a, b, c') := first_pass req handle c1 r in (a, x :: b, c')
  end.
(** The sum of two stamps, at most the largest one. *)
Definition capped_sum (a b : N) : N := if a + b <? 2 ^ 64 then a + b else 2 ^ 64 - 1.
(** A recent packet for the status, and a reply received before [until]. *)
Definition seen_packet (hash : bytes -> bytes) (st : LkStatus) (age now : N) (e : stored) : Prop :=
  exists nh p, packet_at hash e nh p /\ local_below (st_domain st) (status_place st) p /\ recent age now p.
Definition reply_packet (hash : bytes -> bytes) (st : LkStatus) (age now until : N) (e : stored) : Prop :=
  exists nh p, packet_at hash e nh p /\ local_below (st_domain st) (status_place st) p /\ recent age now p /\ replies p /\ fst e < until.
(** The packets a callback saves when it is called with [rs], until it breaks. *)
Fixpoint saved {C} (handle : C -> N * bytes -> C * bool * list (cmd C)) (c : C) (rs : list (N * bytes)) : list NetPktParts :=
  match rs with
  | [] => []
  | r :: rs' => let '(c', b, cs) := handle c r in
                flat_map (fun x => match x with CSave _ _ _ ps => map fst ps | _ => [] end) cs ++ if b then [] else saved handle c' rs'
  end.
(** A reply of that domain, group and space, with data and the link. *)
Definition reply_made (hash : bytes -> bytes) (d g sp : bytes) (l : bytes * bytes) (np : NetPktParts) : Prop :=
  exists p c ls data, carries hash np p /\ data <> [] /\ In l ls /\ (p = PLink g d c ls sp data \/ exists k s, p = PKey g d c ls sp data k s).
(** The program's update always makes such replies. *)
Definition updates_well {U} (hash : bytes -> bytes) (update : U -> bytes -> bytes -> bytes -> bytes * bytes -> U * outcome unit (NetPktParts * N)) : Prop :=
  forall u d g sp l, exists u' np t, update u d g sp l = (u', Ok (np, t)) /\ reply_made hash d g sp l np.
(** Each reply links to the hash of the one before. *)
Fixpoint chained (hash : bytes -> bytes) (d sp prev : bytes) (nps : list NetPktParts) : Prop :=
  match nps with [] => True | np :: r => reply_made hash d (repeat 0 32) sp (repeat 0 12 ++ str "prev", prev) np /\ chained hash d sp (np_hash np) r end.
(** A request for every instance or for this one; for another one. *)
Definition for_us (st : LkStatus) (p : point) : Prop :=
  point_rspace p = Some (wire_rooted (status_place (with_instance st None))) \/ point_rspace p = Some (wire_rooted (status_place st)).
Definition for_other (st : LkStatus) (p : point) : Prop :=
  exists i, st_instance st <> Some i /\ space_ok (status_place (with_instance st (Some i))) /\ point_rspace p = Some (wire_rooted (status_place (with_instance st (Some i)))).
(** A request below that place, in any group and domain. *)
Definition asks_below (st : LkStatus) (p : point) : Prop :=
  exists rs more, point_rspace p = Some rs /\ has_space rs (status_place st ++ more) /\ lenN (status_place st) <= declared_depth rs /\ asks p.
