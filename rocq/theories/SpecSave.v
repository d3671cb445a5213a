(** * What saving a stream has to do, apart from the command. *)
From Coq Require Import List NArith Bool.
From Verif Require Import Bytes ModelPkt SpecStore ModelCollect SpecCollect.
Import ListNotations.
Local Open Scope N_scope.

(** [saves news olds seen ps new log]: of the packets [ps] those of [new] have a hash that is not
    among [seen] nor that of an earlier one.  The new ones go to [news], the others to [olds]. *)
Inductive saves (private : option bool) (news olds : list Dest)
  : list bytes -> list NetPktParts -> list NetPktParts -> list (Dest * NetPktParts) -> Prop :=
| saves_nil seen : saves private news olds seen [] [] []
| saves_new seen p ps new log : ~ In (np_hash p) seen -> saves private news olds (np_hash p :: seen) ps new log ->
    saves private news olds seen (p :: ps) (p :: new) (direct private news p ++ log)
| saves_old seen p ps new log : In (np_hash p) seen -> saves private news olds seen ps new log ->
    saves private news olds seen (p :: ps) new (direct private olds p ++ log).
(** The destinations that are outputs. *)
Definition outputs (ds : list Dest) (stdout : bool) : list Dest :=
  filter (fun d => match d with DDb => false | _ => true end) ds ++ (if stdout then [DOut 0] else []).
