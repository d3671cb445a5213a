(** * The command [lk filter] (cli/linkspace/src/filter.rs) *)
From Coq Require Import List NArith Bool.
From Verif Require Import Bytes ModelPkt ModelTestSet ModelStore ModelPred ModelQuery ModelWatch ModelCollect.
Import ListNotations.
Local Open Scope N_scope.

(** The input: a packet and the clock when it is read, the end, or bytes that are no packet. *)
Inductive SelEvent := SPkt (now : N) (p : NetPktParts) | SEnd | SBad.
Inductive SelError := SelWrite (e : CmdError) | SelExpr | SelQuery | SelRecv | SelEmpty | SelInput.
Definition sel_write {A} (o : outcome CmdError A) : outcome SelError A :=
  match o with Ok a => Ok a | Err e => Err (SelWrite e) | Panic => Panic | OutOfFuel => OutOfFuel end.
Definition sel_query {E A} (o : outcome E A) : outcome SelError A :=
  match o with Ok a => Ok a | Err _ => Err SelQuery | Panic => Panic | OutOfFuel => OutOfFuel end.

Definition bound_eqb (a b : Bound) : bool := (low a =? low b) && (high a =? high b).

Section Select.
  (** The statements of the query in the scope of the command, or with a packet in scope;
      [None] if an expression fails. *)
  Variable stmts : option NetPktParts -> option (list Predicate).
  (** :11-32 [Filter]. *)
  Variables (allow_datapoint live recv_now : bool) (private : option bool) (write write_false : list Dest).

  (** watch.rs:42-51 [statements2query]. *)
  Definition statements2query (s : option NetPktParts) : outcome SelError PktPredicates :=
    match stmts s with
    | None => Err SelExpr
    | Some rs => sel_query (add_all preds_default rs)
    end.
  (** matcher/mod.rs:60-72 [update_tests] of a watch whose query is replaced: [None] when no
      result can follow. *)
  Definition update_tests (w : Watch unit) (P : PktPredicates) : outcome TestErr (option (Watch unit)) :=
    obind (has_next (p_limits P QNew) (w_nthn _ w)) (fun a => if negb a then Ok None else
    obind (has_next (p_limits P QQuery) (w_nthq _ w)) (fun b => if negb b then Ok None else
    Ok (Some (mkWatch _ (w_id _ w) (w_qid _ w) P (w_nthq _ w) (w_nthn _ w) tt)))).

  Definition is_datapoint (p : NetPktParts) : bool := match fields (point_parts p) with FData _ => true | _ => false end.

  (** The loop, :55-83. *)
  Fixpoint select_loop (w : Watch unit) (vs : list SelEvent) (o : Out) : outcome SelError Out :=
    match vs with
    | [] => OutOfFuel
    | SEnd :: _ => Ok o
    | SBad :: _ => Err SelInput
    | SPkt now p :: vs =>
        if allow_datapoint && is_datapoint p
        then obind (sel_write (write_multi_dest private false write p o)) (fun o => select_loop w vs o)
        else
          let '(w, test_ok, brk) := watch_test _ w (now, np_bytes p) in
          if test_ok then
            obind (sel_write (write_multi_dest private false write p o)) (fun o =>
            if live then
              obind (statements2query (Some p)) (fun P =>
              obind (sel_query (update_tests w P)) (fun w =>
              match w with
              | None => Ok o
              | Some w => if brk then Ok o else select_loop w vs o
              end))
            else if brk then Ok o else select_loop w vs o)
          else
            obind (sel_write (write_multi_dest private false write_false p o)) (fun o =>
            if brk then Ok o else select_loop w vs o)
    end.

  (** :33-54 [select]. *)
  Definition select (vs : list SelEvent) : outcome SelError Out :=
    obind (statements2query None) (fun P =>
    if negb recv_now && negb (bound_eqb (p_recv P) (bound_default 64)) then Err SelRecv else
    obind (sel_query (watch_new _ 0 [] P 0 tt)) (fun w =>
    match w with
    | None => Err SelEmpty
    | Some w => select_loop w vs (mkOut [] [])
    end)).
End Select.
