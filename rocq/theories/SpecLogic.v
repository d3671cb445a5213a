(** Specification of tests, alternatives and spaces in expressions. *)
From Verif Require Import Bytes ModelAbe ModelEval SpecEncode.

(** [lk_eval] gives an error for the text, whatever the fuel above some bound. *)
Definition lk_fails (s : scope) (t : bytes) : Prop := exists n, forall fuel, (n <= fuel)%nat -> exists e, lk_eval fuel s t false = Err e.
(** The value of the first of the texts that has one *)
Definition first_value (s : scope) (ts : list bytes) (v : bytes) : Prop :=
  exists before t after, ts = before ++ t :: after /\ Forall (lk_fails s) before /\ lk_value s t v.
(** The components that are not empty *)
Fixpoint not_empty (cs : list bytes) : list bytes := match cs with [] => [] | [] :: r => not_empty r | c :: r => c :: not_empty r end.
(** Texts behind a slash each, or behind a colon each *)
Definition behind_slash (ts : list bytes) : bytes := List.concat (map (fun t => str "/" ++ t) ts).
Definition behind_colon (ts : list bytes) : bytes := List.concat (map (fun t => str ":" ++ t) ts).
