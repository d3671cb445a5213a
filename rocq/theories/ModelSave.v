(** * The command [lk save] (cli/linkspace/src/save.rs) *)
From Coq Require Import List NArith Bool.
From Verif Require Import Bytes ModelPkt ModelStore ModelCollect.
Import ListNotations.
Local Open Scope N_scope.

Inductive SaveError := SStore (e : StoreErr) | SWrite (e : CmdError) | SInput | SNoDb.
Definition is_db (d : Dest) : bool := match d with DDb => true | _ => false end.
(** crates/core/src/env/misc.rs:18-20. *)
Definition is_written (s : SaveState) : bool := match s with Written => true | _ => false end.

Section Save.
  (** What can fail and what the clock says when packet [i] is saved. *)
  Variables (f : nat -> faults) (now : nat -> N) (private : option bool).

  (** cli/linkspace/src/save.rs:50-61: the loop, with the destinations other than the database.
      The packets are those the reader gives; it counts a hop in their net header first. *)
  Fixpoint save_loop (new old : list Dest) (i : nat) (vs : list Event) (d : db) (o : Out)
    : db * Out * outcome SaveError unit :=
    match vs with
    | [] => (d, o, OutOfFuel)
    | VEnd :: _ => (d, o, Ok tt)
    | VBad :: _ => (d, o, Err SInput)
    | VTimeout _ :: vs => save_loop new old i vs d o
    | VPkt p :: vs =>
        match save_one (f i) (now i) d p with
        | (d, Ok st) =>
            match write_multi_dest private false (if is_written st then new else old) p o with
            | Ok o => save_loop new old (S i) vs d o
            | Err e => (d, o, Err (SWrite e))
            | Panic => (d, o, Panic)
            | OutOfFuel => (d, o, OutOfFuel)
            end
        | (d, Err e) => (d, o, Err (SStore e))
        | (d, Panic) => (d, o, Panic)
        | (d, OutOfFuel) => (d, o, OutOfFuel)
        end
    end.
  (** :29-49; [-f] adds standard output to both.  A write that fails at a destination buffer is
      taken to have written nothing. *)
  Definition save_exec (new old : list Dest) (forward_stdout : bool) (vs : list Event) (d : db)
    : db * Out * outcome SaveError unit :=
    let new := if forward_stdout then new ++ [DOut 0] else new in
    let old := if forward_stdout then old ++ [DOut 0] else old in
    if negb (existsb is_db new) then (d, mkOut [] [], Err SNoDb)
    else save_loop (filter (fun x => negb (is_db x)) new) (filter (fun x => negb (is_db x)) old) 0 vs d (mkOut [] []).
End Save.
