(** * What filtering a stream of packets has to do, apart from the command. *)
From Coq Require Import List NArith Bool.
From Verif Require Import Bytes ModelPkt SpecPkt ModelPred SpecPred SpecQuery ModelWatch SpecWatch ModelCollect SpecCollect ModelSelect.
Import ListNotations.
Local Open Scope N_scope.

(** The packets read before the input ends, with the clock. *)
Fixpoint sel_input (vs : list SelEvent) : list stored :=
  match vs with SPkt now p :: vs => (now, p) :: sel_input vs | _ => [] end.
(** The packet is a datapoint. *)
Definition data_packet (hash : bytes -> bytes) (e : stored) : Prop := exists nh d, packet_at hash e nh (PData d).
(** No position from [k] on is allowed. *)
Definition done (rs : list Predicate) (k : N) : Prop := forall j, k <= j -> j < 2 ^ 32 -> ~ new_position rs 0 0 j.
(** No packet from this time on can be allowed. *)
Definition too_late (rs : list Predicate) (now : N) : Prop := forall u, now <= u -> u < 2 ^ 64 -> ~ recv_allowed rs u.
(** Going on after the position [k]: limits that are intervals are not used up. *)
Definition goes_on (rs : list Predicate) (k : N) : Prop :=
  forall sc, sc = QNew \/ sc = QQuery -> limit_ops rs sc -> open_at rs sc 0 -> open_at rs sc k.

(** [selects … rs k l bs rest]: of the packets [l], read with the predicates [rs] after [k] packets
    that matched, the first ones are taken ([true]) or not as [bs] says, and the others, [rest],
    are not read. *)
Inductive selects (hash : bytes -> bytes) (stmts : option NetPktParts -> option (list Predicate)) (allow live : bool)
  : list Predicate -> N -> list stored -> list bool -> list stored -> Prop :=
| sel_end rs k : selects hash stmts allow live rs k [] [] []
| sel_data rs k e l bs rest : allow = true -> data_packet hash e ->
    selects hash stmts allow live rs k l bs rest -> selects hash stmts allow live rs k (e :: l) (true :: bs) rest
| sel_no rs k e l bs rest : (allow = true -> ~ data_packet hash e) -> ~ matches hash rs e -> ~ too_late rs (fst e) ->
    selects hash stmts allow live rs k l bs rest -> selects hash stmts allow live rs k (e :: l) (false :: bs) rest
| sel_late rs k e l : (allow = true -> ~ data_packet hash e) -> ~ matches hash rs e -> too_late rs (fst e) ->
    selects hash stmts allow live rs k (e :: l) [false] l
| sel_skip rs k e l bs rest : (allow = true -> ~ data_packet hash e) -> matches hash rs e -> ~ new_position rs 0 0 k -> goes_on rs (k + 1) ->
    selects hash stmts allow live rs (k + 1) l bs rest -> selects hash stmts allow live rs k (e :: l) (false :: bs) rest
| sel_skip_last rs k e l : (allow = true -> ~ data_packet hash e) -> matches hash rs e -> ~ new_position rs 0 0 k -> done rs (k + 1) ->
    selects hash stmts allow live rs k (e :: l) [false] l
| sel_yes rs rs' k e l bs rest : (allow = true -> ~ data_packet hash e) -> matches hash rs e -> new_position rs 0 0 k -> goes_on rs (k + 1) ->
    (if live then stmts (Some (snd e)) = Some rs' else rs' = rs) ->
    selects hash stmts allow live rs' (k + 1) l bs rest -> selects hash stmts allow live rs k (e :: l) (true :: bs) rest
| sel_yes_last rs k e l : (allow = true -> ~ data_packet hash e) -> matches hash rs e -> new_position rs 0 0 k ->
    done rs (k + 1) \/ (live = true /\ exists rs', stmts (Some (snd e)) = Some rs' /\ done rs' (k + 1)) ->
    selects hash stmts allow live rs k (e :: l) [true] l.

(** What is written: each packet that was read to one of the two. *)
Fixpoint split_log (private : option bool) (write write_false : list Dest) (l : list stored) (bs : list bool) : list (Dest * NetPktParts) :=
  match l, bs with
  | e :: l, b :: bs => direct private (if b then write else write_false) (snd e) ++ split_log private write write_false l bs
  | _, _ => []
  end.
(** Predicates about spaces are only asked of packets whose depth byte is right (C60). *)
Definition asked_well (hash : bytes -> bytes) (live : bool) (rs : list Predicate) (l : list stored) : Prop :=
  live = false /\ no_spacename rs \/ forall e nh p, In e l -> packet_at hash e nh p -> depth_honest p.
