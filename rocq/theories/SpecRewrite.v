(** * What rewriting packets has to do, apart from the command. *)
From Coq Require Import List NArith Bool.
From Verif Require Import Bytes ModelPkt ModelAbe ModelEval ModelReader ModelCollect ModelRewrite SpecPkt SpecTree SpecReader SpecCollect.
Import ListNotations.
Local Open Scope N_scope.

(** A field is as it was, unless an option says what it becomes. *)
Definition becomes {A} (o : option (NetPktParts -> option A)) (p : NetPktParts) (old new : A) : Prop :=
  match o with None => new = old | Some f => f p = Some new end.

(** What happens to a point: it stays, or is made again with or without a key. *)
Inductive fate (c : crypto) := Stay | Make (k : option (skey c)).
Arguments Stay {c}.
Arguments Make {c} k.
(** [key]: the key of the command, which is there if the mode needs one.  Datapoints stay; error points have no fate. *)
Definition fate_of {c} (mode : SignMode) (key : option (skey c)) (pt : point) : option (fate c) :=
  match pt, mode with
  | PData _, _ => Some Stay
  | PLink _ _ _ _ _ _, SignAll => Some (Make key)
  | PLink _ _ _ _ _ _, _ => Some (Make None)
  | PKey _ _ _ _ _ _ _ _, Skip => Some Stay
  | PKey _ _ _ _ _ _ _ _, Unsign => Some (Make None)
  | PKey _ _ _ _ _ _ _ _, _ => Some (Make key)
  | PError _, _ => None
  end.
(** The fields of a point that is made again. *)
Definition fields_link (pt : point) : option (bytes * bytes * N * list (bytes * bytes) * bytes * bytes) :=
  match pt with
  | PLink g dm t ls rs d | PKey g dm t ls rs d _ _ => Some (g, dm, t, ls, rs, d)
  | _ => None
  end.
(** What a space takes of the free space as it is computed: nothing for the empty one. *)
Definition space_cost (rs : bytes) : N := if lenN rs <=? 8 then 0 else lenN rs.

(** [rewrites … r ps qs]: the packets [ps], which carry these points, become [qs]; [r] is the
    reader of the data, which is asked for data once for each point that is made again. *)
Inductive rewrites (fuel : nat) (scope_of : NetPktParts -> scope) (c : crypto) (nh : bytes)
  (og od os : option (NetPktParts -> option bytes)) (oc : option (NetPktParts -> option N))
  (interpret : bool) (mode : SignMode) (key : option (skey c))
  : Reader -> list (NetPktParts * point) -> list NetPktParts -> Prop :=
| rewrites_nil r : rewrites fuel scope_of c nh og od os oc interpret mode key r [] []
| rewrites_stay r p pt ps qs :
    fate_of mode key pt = Some Stay ->
    rewrites fuel scope_of c nh og od os oc interpret mode key r ps qs ->
    rewrites fuel scope_of c nh og od os oc interpret mode key r ((p, pt) :: ps) (p :: qs)
| rewrites_make r r1 p pt q ps qs k g dm t ls rs d g' dm' t' rs' b :
    fate_of mode key pt = Some (Make k) -> fields_link pt = Some (g, dm, t, ls, rs, d) ->
    becomes og p g g' -> becomes od p dm dm' -> becomes os p rs rs' -> becomes oc p t t' ->
    (if interpret
     then exists f, f + 48 * lenN ls + space_cost rs' = (match k with Some _ => 64924 | None => 64960 end) /\
                    read_next_data fuel (scope_of p) r f = (r1, Ok (Some b))
     else r1 = r /\ b = d) ->
    is_packet c nh q (point_with c g' dm' rs' k (fun _ => t') 0 ls b) ->
    rewrites fuel scope_of c nh og od os oc interpret mode key r1 ps qs ->
    rewrites fuel scope_of c nh og od os oc interpret mode key r ((p, pt) :: ps) (q :: qs).

(** What is written: for each packet what it became, and then the packet. *)
Fixpoint rewritten_log (private : option bool) (write forward : list Dest) (ps qs : list NetPktParts) : list (Dest * NetPktParts) :=
  match ps, qs with
  | p :: ps, q :: qs => direct private write q ++ direct private forward p ++ rewritten_log private write forward ps qs
  | _, _ => []
  end.
