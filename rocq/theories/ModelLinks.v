(** * The command [lk get-links] (cli/linkspace/src/get_links.rs) *)
From Coq Require Import List NArith Bool.
From Verif Require Import Bytes ModelPkt ModelCollect ModelLns.
Import ListNotations.
Local Open Scope N_scope.

(** :31-41 [GetLinksMode]; [Pause] and [Watch], which wait for packets to be saved, are left
    out. *)
Inductive LinksMode := LSkip | LError.
Inductive LinksError := LNotFound | LWrite (e : CmdError) | LInput.

Section Links.
  (** The packet [lk_watch] calls back with for a hash query: the one of the reader's snapshot
      with that hash.  The query is done with its first result, so that no watch is left; the
      watch of a hash that is not found is stopped again (:72-75). *)
  Variable find : bytes -> option NetPktParts.
  Variables (private : option bool) (write forward : list Dest).

  (** :43-89 [get_links] with its callback (:59-65).  An error of the callback
      is logged and dropped ([try_cb], crates/linkspace/src/lib.rs:1034-1047), and the result of
      lk_watch is not 0.  A failing write is taken to have written nothing: so it is for a packet of the
      private group, not for a destination buffer behind others. *)
  Fixpoint get_links (level : nat) (mode : LinksMode) (ls : list (bytes * bytes)) (o : Out) {struct level} : Out * outcome LinksError unit :=
    (fix go (ls : list (bytes * bytes)) (o : Out) : Out * outcome LinksError unit :=
       match ls with
       | [] => (o, Ok tt)
       | (_, ptr) :: ls =>
           match find ptr with
           | Some q =>
               let '(o, res) :=
                 match write_multi_dest private false write q o with
                 | Ok o => match level with O => (o, Ok tt) | S n => get_links n mode (pkt_links q) o end
                 | Err e => (o, Err (LWrite e))
                 | Panic => (o, Panic)
                 | OutOfFuel => (o, OutOfFuel)
                 end in
               match res with
               | Panic => (o, Panic)
               | OutOfFuel => (o, OutOfFuel)
               | _ => go ls o
               end
           | None => match mode with LSkip => go ls o | LError => (o, Err LNotFound) end
           end
       end) ls o.

  (** :91-125 [exec]; [level] is the number of recursions, usize::MAX for -R.  What is written
      stays written when the command fails. *)
  Fixpoint links_loop (level : nat) (mode : LinksMode) (vs : list Event) (o : Out) : Out * outcome LinksError unit :=
    match vs with
    | [] => (o, OutOfFuel)
    | VEnd :: _ => (o, Ok tt)
    | VBad :: _ => (o, Err LInput)
    | VTimeout _ :: vs => links_loop level mode vs o
    | VPkt p :: vs =>
        match (match pkt_links p with [] => (o, Ok tt) | ls => get_links level mode ls o end) with
        | (o, Ok tt) =>
            match write_multi_dest private false forward p o with
            | Ok o => links_loop level mode vs o
            | Err e => (o, Err (LWrite e))
            | Panic => (o, Panic)
            | OutOfFuel => (o, OutOfFuel)
            end
        | (o, e) => (o, e)
        end
    end.
  Definition links_exec (level : nat) (mode : LinksMode) (vs : list Event) : Out * outcome LinksError unit :=
    links_loop level mode vs (mkOut [] []).
End Links.
