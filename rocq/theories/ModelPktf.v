(** * The command [lk pktf] (cli/linkspace/src/pktf.rs) *)
From Coq Require Import List NArith Bool.
From Verif Require Import Bytes ModelPkt ModelCollect.
Import ListNotations.
Local Open Scope N_scope.

(** A template in the scope of the command: the bytes it gives for a packet, [None] if it fails. *)
Definition Template := NetPktParts -> option bytes.
(** What the command does, in order: printing bytes (to standard output, or standard error with --inspect), and forwarding a packet. *)
Inductive Act := Print (b : bytes) | Forward (d : Dest) (p : NetPktParts).
Inductive FmtEvent := FPkt (p : NetPktParts) | FEnd | FBad.
Inductive FmtError := FWrite (e : CmdError) | FParse | FEval | FInput.

Section Pktf.
  (** :20-56 [PktFmtOpts].  The templates as given, [None] if one does not parse; the default one; [error] and [delim] as evaluated
      before the first packet; [fast] is [PktFmt] when --fast is given. *)
  Variables (fmts : list (option Template)) (default : Template) (error : option bytes) (join : bool) (delim : bytes) (fast : option (NetPktParts -> bytes)).
  (** :73 [write_private]; the destinations with the standard output that --inspect adds. *)
  Variables (private : option bool) (forward : list Dest).

  (** :75-89: the first template, the second or else the first, the third or else the second. *)
  Definition templates : outcome FmtError (Template * Template * Template) :=
    obind (match nth_error fmts 0 with Some (Some t) => Ok t | Some None => Err FParse | None => Ok default end) (fun d =>
    obind (match nth_error fmts 1 with Some (Some t) => Ok t | Some None => Err FParse | None => Ok d end) (fun l =>
    obind (match nth_error fmts 2 with Some (Some t) => Ok t | Some None => Err FParse | None => Ok l end) (fun k =>
    Ok (d, l, k)))).

  (** :126-140 [write]: prints the text, and forwards the packet; [first] is the flag. *)
  Definition write (first : bool) (p : NetPktParts) (text : bytes) (log : list Act) : outcome FmtError (bool * list Act) :=
    let log := if join && negb first then log ++ [Print delim] else log in
    let log := log ++ [Print text] in
    let log := if negb join then log ++ [Print delim] else log in
    match write_multi_dest private false forward p (mkOut [] []) with
    | Ok o => Ok (false, log ++ map (fun x => Forward (fst x) (snd x)) (o_log o))
    | Err e => Err (FWrite e)
    | Panic => Panic
    | OutOfFuel => OutOfFuel
    end.
  (** :145-150: by the type of the point; anything else is a [todo!()]. *)
  Definition template_of (ts : Template * Template * Template) (p : NetPktParts) : outcome FmtError Template :=
    let '(d, l, k) := ts in
    let t := point_type (pkt_header (point_parts p)) in
    if t =? 1 then Ok d else if t =? 3 then Ok l else if t =? 7 then Ok k else Panic.
  (** :119-164, the loop. *)
  Fixpoint pktf_loop (ts : Template * Template * Template) (first : bool) (vs : list FmtEvent) (log : list Act) : outcome FmtError (list Act) :=
    match vs with
    | [] => OutOfFuel
    | FEnd :: _ => Ok log
    | FBad :: _ => Err FInput
    | FPkt p :: vs =>
        if negb (match private with Some b => b | None => true end) && match parts_group (point_parts p) with Some g => beqb g PRIVATE | None => false end
        then pktf_loop ts first vs log
        else
          obind (match fast with
                 | Some f => Ok (f p)
                 | None =>
                     obind (template_of ts p) (fun t =>
                     match t p, error with
                     | Some b, _ => Ok b
                     | None, Some e => Ok e
                     | None, None => Err FEval
                     end)
                 end) (fun text =>
          obind (write first p text log) (fun '(first, log) => pktf_loop ts first vs log))
    end.
  (** :58-166 [pkt_info]; the trial of the templates on two packets only warns. *)
  Definition pktf (vs : list FmtEvent) : outcome FmtError (list Act) := obind templates (fun ts => pktf_loop ts true vs []).
End Pktf.
