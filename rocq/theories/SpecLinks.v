(** * What following the links of packets has to do, apart from the command. *)
From Coq Require Import List NArith Bool.
From Verif Require Import Bytes ModelPkt SpecPkt SpecTree ModelCollect SpecCollect.
Import ListNotations.
Local Open Scope N_scope.

(** The links of a packet. *)
Definition has_links (np : NetPktParts) (ls : list (bytes * bytes)) : Prop :=
  match fields (point_parts np) with
  | FLink lp | FKey lp _ => ls = links (ModelPkt.tail lp)
  | _ => ls = []
  end.
(** [p] links to [q]. *)
Definition links_to (find : bytes -> option NetPktParts) (ls : list (bytes * bytes)) (q : NetPktParts) : Prop :=
  exists t ptr, In (t, ptr) ls /\ find ptr = Some q.
(** [q] is at the end of a path of at most [n + 1] links that starts with one of [ls]. *)
Inductive within (find : bytes -> option NetPktParts) : nat -> list (bytes * bytes) -> NetPktParts -> Prop :=
| within_now n ls q : links_to find ls q -> within find n ls q
| within_later n ls q ms q' : links_to find ls q -> has_links q ms -> within find n ms q' -> within find (S n) ls q'.

(** The packets linked, [n] levels deep: each followed by those it links itself, the links of
    each in order. *)
Inductive listing (find : bytes -> option NetPktParts) : nat -> list (bytes * bytes) -> list NetPktParts -> Prop :=
| listing_nil n : listing find n [] []
| listing_missing n t ptr ls qs : find ptr = None -> listing find n ls qs -> listing find n ((t, ptr) :: ls) qs
| listing_last t ptr ls q qs : find ptr = Some q -> listing find 0 ls qs -> listing find 0 ((t, ptr) :: ls) (q :: qs)
| listing_deeper n t ptr ls q ms qs1 qs : find ptr = Some q -> has_links q ms -> listing find n ms qs1 ->
    listing find (S n) ls qs -> listing find (S n) ((t, ptr) :: ls) (q :: qs1 ++ qs).

(** What is written for the packets [ps]: for each what it links, then the packet. *)
Inductive links_log (find : bytes -> option NetPktParts) (n : nat) (private : option bool) (write forward : list Dest)
  : list NetPktParts -> list (Dest * NetPktParts) -> Prop :=
| links_log_nil : links_log find n private write forward [] []
| links_log_cons p ps ls qs log : has_links p ls -> listing find n ls qs -> links_log find n private write forward ps log ->
    links_log find n private write forward (p :: ps) (flat_map (direct private write) qs ++ direct private forward p ++ log).
(** Every link is found. *)
Definition all_found (find : bytes -> option NetPktParts) (ls : list (bytes * bytes)) : Prop :=
  Forall (fun l => find (snd l) <> None) ls.
