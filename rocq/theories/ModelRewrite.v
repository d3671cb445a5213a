(** * The command [lk rewrite] (cli/linkspace/src/rewrite.rs) *)
From Coq Require Import List NArith ZArith Bool.
From Verif Require Import Bytes ModelSpace ModelPkt ModelAbe ModelEval ModelReader ModelCollect.
Import ListNotations.
Local Open Scope N_scope.

(** :114-120 [SignMode]. *)
Inductive SignMode := SignAll | Unsign | Skip | Resign.
Definition signs (m : SignMode) : bool := match m with SignAll | Resign => true | _ => false end.

Inductive RwError := RwRead (e : ReadError) | RwWrite (e : CmdError) | RwExpr | RwNoData | RwFree | RwPoint (e : PktError) | RwKey | RwInput.
Definition of_read {A} (o : outcome ReadError A) : outcome RwError A :=
  match o with Ok a => Ok a | Err e => Err (RwRead e) | Panic => Panic | OutOfFuel => OutOfFuel end.
Definition of_write {A} (o : outcome CmdError A) : outcome RwError A :=
  match o with Ok a => Ok a | Err e => Err (RwWrite e) | Panic => Panic | OutOfFuel => OutOfFuel end.
Definition of_point {A} (o : outcome PktError A) : outcome RwError A :=
  match o with Ok a => Ok a | Err e => Err (RwPoint e) | Panic => Panic | OutOfFuel => OutOfFuel end.

Section Rewrite.
  (** [scope_of] is the scope with the packet in front; [nh] the default network header. *)
  Variables (fuel : nat) (scope_of : NetPktParts -> scope) (c : crypto) (nh : bytes).
  (** :29-60 [Rewrite].  Expressions are functions of the packet in their scope, [None] if they
      fail; [key] is what [identity] gives, [None] if it fails. *)
  Variables (o_group o_domain o_space : option (NetPktParts -> option bytes)) (o_create : option (NetPktParts -> option N)).
  Variables (interpret : bool) (mode : SignMode) (key : option (skey c)) (private : option bool) (write forward : list Dest).

  (** [opts.x.as_ref().map(eval).transpose()?.unwrap_or(old)]. *)
  Definition changed {A} (o : option (NetPktParts -> option A)) (p : NetPktParts) (old : A) : outcome RwError A :=
    match o with
    | None => Ok old
    | Some f => match f p with Some v => Ok v | None => Err RwExpr end
    end.

  (** :61-112 [rewrite_pkt] of the packet [p] with the fields [lp]. *)
  Definition rewrite_pkt (p : NetPktParts) (lp : LinkPoint) (k : option (skey c)) (r : Reader)
    : Reader * outcome RwError NetPktParts :=
    match changed o_group p (group (ModelPkt.head lp)) with
    | Ok g =>
    match changed o_domain p (domain (ModelPkt.head lp)) with
    | Ok dm =>
    match changed o_space p (ModelPkt.rspace (ModelPkt.tail lp)) with
    | Ok rs =>
        let '(r, data) :=
          if interpret then
            match rs_space rs with
            | Ok sp =>
                let free := calc_free_space sp (links (ModelPkt.tail lp)) [] (match k with Some _ => true | None => false end) in
                if (free <? 0)%Z then (r, Err RwFree)
                else let '(r, d) := read_next_data fuel (scope_of p) r (Z.to_N free) in
                     (r, obind (of_read d) (fun d => match d with Some b => Ok b | None => Err RwNoData end))
            | _ => (r, Panic)
            end
          else (r, Ok (tdata (ModelPkt.tail lp))) in
        (r, obind data (fun b =>
            obind (changed o_create p (create_stamp (ModelPkt.head lp))) (fun t =>
            of_point (try_point c g dm rs (links (ModelPkt.tail lp)) b t k nh))))
    | Err e => (r, Err e) | Panic => (r, Panic) | OutOfFuel => (r, OutOfFuel)
    end
    | Err e => (r, Err e) | Panic => (r, Panic) | OutOfFuel => (r, OutOfFuel)
    end
    | Err e => (r, Err e) | Panic => (r, Panic) | OutOfFuel => (r, OutOfFuel)
    end.

  (** :154-184: the packet to write for [p].  [todo!()] for error points and unknown ones. *)
  Definition rewrite_one (p : NetPktParts) (r : Reader) : Reader * outcome RwError NetPktParts :=
    match fields (point_parts p) with
    | FData _ => (r, Ok p)
    | FLink lp => rewrite_pkt p lp (match mode with SignAll => key | _ => None end) r
    | FKey lp _ =>
        match mode with
        | Skip => (r, Ok p)
        | Resign | SignAll => match key with Some k => rewrite_pkt p lp (Some k) r | None => (r, Err RwKey) end
        | Unsign => rewrite_pkt p lp None r
        end
    | FError _ | FUnknown _ => (r, Panic)
    end.
  (** The loop, :145-188. *)
  Fixpoint rewrite_loop (r : Reader) (vs : list Event) (o : Out) : outcome RwError Out :=
    match vs with
    | [] => OutOfFuel
    | VPkt p :: vs =>
        let '(r, q) := rewrite_one p r in
        obind q (fun q =>
        obind (of_write (write_multi_dest private false write q o)) (fun o =>
        obind (of_write (write_multi_dest private false forward p o)) (fun o => rewrite_loop r vs o)))
    | VTimeout _ :: vs => rewrite_loop r vs o
    | VEnd :: _ => Ok o
    | VBad :: _ => Err RwInput
    end.
  (** :121-144 [rewrite]: the key is asked for first. *)
  Definition rewrite (r : Reader) (vs : list Event) : outcome RwError Out :=
    if signs mode && (match key with None => true | _ => false end) then Err RwKey
    else rewrite_loop r vs (mkOut [] []).
End Rewrite.
