(** * Commands over streams of packets: writing to destinations and [lk collect]
      (crates/common/src/cli/opts.rs, cli/linkspace/src/collect.rs) *)
From Coq Require Import List NArith ZArith Bool.
From Verif Require Import Bytes ModelPkt ModelAbe ModelEval ModelReader.
Import ListNotations.
Local Open Scope N_scope.

(** crates/common/src/cli/mod.rs:166-190 [WriteDest]: a stream (0 is standard output), the
    database, or the buffer of the command.  A destination null is dropped when it is opened.
    The expression a packet may be printed with ([prep]) is left out. *)
Inductive Dest := DOut (n : N) | DDb | DBuffer.
(** What has been written so far, in order, and the buffer. *)
Record Out := mkOut { o_log : list (Dest * NetPktParts); o_buf : list NetPktParts }.

Inductive CmdError := ERead (e : ReadError) | EPrivate | ENoBuffer | EExpr | EInput.

(** crates/common/src/cli/opts.rs:177-192 [check_private]: [Some true] writes packets of the
    private group, [None] leaves them out, [Some false] fails. *)
Definition check_write (private : option bool) (p : NetPktParts) : outcome CmdError bool :=
  match private with
  | Some true => Ok true
  | Some false => match check_private (parts_group (point_parts p)) with Ok _ => Ok true | _ => Err EPrivate end
  | None => match check_private (parts_group (point_parts p)) with Ok _ => Ok true | _ => Ok false end
  end.
(** crates/common/src/cli/opts.rs:199-220 [write_dest]; the writes themselves do not fail. *)
Definition write_dest (private : option bool) (has_buffer : bool) (d : Dest) (p : NetPktParts) (o : Out)
  : outcome CmdError Out :=
  obind (check_write private p) (fun ok =>
  if negb ok then Ok o
  else match d with
       | DBuffer => if has_buffer then Ok (mkOut (o_log o) (o_buf o ++ [p])) else Err ENoBuffer
       | _ => Ok (mkOut (o_log o ++ [(d, p)]) (o_buf o))
       end).
(** crates/common/src/cli/opts.rs:222-234 [write_multi_dest]. *)
Fixpoint write_multi_dest (private : option bool) (has_buffer : bool) (ds : list Dest) (p : NetPktParts) (o : Out)
  : outcome CmdError Out :=
  match ds with
  | [] => Ok o
  | d :: ds => obind (write_dest private has_buffer d p o) (write_multi_dest private has_buffer ds p)
  end.

(** What happens to the command: a packet is read, the interval ends ([started]: the reading
    thread has seen its first packet), the input ends, or is not a packet. *)
Inductive Event := VPkt (p : NetPktParts) | VTimeout (started : bool) | VEnd | VBad.
(** Which [return Ok(())] was taken: at the end of the input, or as there is no data for a
    result. *)
Inductive Finish := InputEnd | DataEnd.

Section Collect.
  Variables (fuel : nat) (s : scope) (c : crypto) (nh : bytes).
  Variables (g dm space rspace : bytes) (key : option (skey c)) (stamp : nat -> N).
  (** The options of cli/linkspace/src/collect.rs:45-76.  Expressions are functions of the
      packet in their scope, [None] if they fail. *)
  Variables (private : option bool) (forward write : list Dest) (allow_empty : bool) (max_links : N) (interval : bool).
  Variables (collect_tag : NetPktParts -> option bytes) (chain_tag : option (NetPktParts -> option bytes))
            (build_links : NetPktParts -> option (list (bytes * bytes))).

  (** cli/linkspace/src/collect.rs:78-88 [Collector], with the number of results so far. *)
  Record Collector := mkCol { c_links : list (bytes * bytes); c_current : N; c_out : Out; c_reader : Reader; c_count : nat }.

  (** :90-136 [Collector::collect]; also the result made, if any.  [Ok false] is [None]. *)
  Definition collect_now (k : Collector) : outcome CmdError (Collector * option NetPktParts * bool) :=
    if negb allow_empty && (match c_links k with [] => true | _ => false end) then Ok (k, None, true)
    else
      match build_with_reader fuel s c nh g dm space rspace key stamp (c_count k) (c_links k) (c_reader k) with
      | (r, Ok None) => Ok (mkCol [] (c_current k) (c_out k) r (c_count k), None, false)
      | (r, Ok (Some p)) =>
          obind (write_multi_dest private true write p (c_out k)) (fun o =>
          match (match chain_tag with
                 | None => Some []
                 | Some f => match f p with Some t => Some [(t, np_hash p)] | None => None end
                 end), build_links p with
          | Some ch, Some ls =>
              Ok (mkCol (ch ++ ls) 0 (mkOut (o_log o ++ map (fun q => (DOut 0, q)) (o_buf o)) []) r (S (c_count k)), Some p, true)
          | _, _ => Err EExpr
          end)
      | (_, Err e) => Err (ERead e)
      | (_, Panic) => Panic
      | (_, OutOfFuel) => OutOfFuel
      end.

  (** :137-151 [Collector::new_pkt]. *)
  Definition new_pkt (k : Collector) (p : NetPktParts) : outcome CmdError (Collector * bool) :=
    match collect_tag p with
    | None => Err EExpr
    | Some t =>
        obind (write_multi_dest private true forward p (c_out k)) (fun o =>
        Ok (mkCol (c_links k ++ [(t, np_hash p)]) (c_current k + 1) o (c_reader k) (c_count k),
            max_links <=? c_current k + 1))
    end.

  (** The end of the input, :199-202 and :247-252. *)
  Definition at_end (k : Collector) : outcome CmdError (Collector * list NetPktParts * Finish) :=
    match c_links k with
    | [] => Ok (k, [], InputEnd)
    | _ => obind (collect_now k) (fun '(k, made, more) =>
           Ok (k, (match made with Some q => [q] | None => [] end), if more then InputEnd else DataEnd))
    end.
  (** :179-262, both loops: without an interval there are no timeouts.  The result lists the
      points made.  Without [VEnd] the input is still open.  With an interval the packets are
      read by a thread (:211-224) whose error nobody reads, the channel just closes. *)
  Fixpoint collect_loop (k : Collector) (vs : list Event) : outcome CmdError (Collector * list NetPktParts * Finish) :=
    match vs with
    | [] => OutOfFuel
    | VBad :: _ => if interval then at_end k else Err EInput
    | VPkt p :: vs =>
        obind (new_pkt k p) (fun '(k, full) =>
        if full then
          obind (collect_now k) (fun '(k, made, more) =>
          if more then
            obind (collect_loop k vs) (fun '(k, l, e) => Ok (k, (match made with Some q => q :: l | None => l end), e))
          else Ok (k, [], DataEnd))
        else collect_loop k vs)
    | VTimeout started :: vs =>
        if started then
          obind (collect_now k) (fun '(k, made, more) =>
          if more then
            obind (collect_loop k vs) (fun '(k, l, e) => Ok (k, (match made with Some q => q :: l | None => l end), e))
          else Ok (k, [], DataEnd))
        else collect_loop k vs
    | VEnd :: _ => at_end k
    end.
  (** :154-178 [collect]: [init] are the initial links and those of the point. *)
  Definition collect (init : list (bytes * bytes)) (r : Reader) (vs : list Event) :=
    collect_loop (mkCol init 0 (mkOut [] []) r 0) vs.
End Collect.
