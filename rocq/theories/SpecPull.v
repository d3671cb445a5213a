(** Specification of pull requests. *)
From Verif Require Import Bytes ModelAbe ModelEval SpecSpace SpecPkt ModelTestSet ModelPred SpecPred.

(** The options of that name that have a value. *)
Definition named (conf : list ABList) (name : bytes) : list ABList :=
  filter (fun l => match l with (_, n) :: _ :: _ => beqb n name | _ => false end) conf.
(** The one value of the option, given once, of a size that fits in a space after the group and the domain. *)
Definition asked_id (conf : list ABList) (id : bytes) : Prop :=
  named conf (str "qid") = [[(Some CColon, str "qid"); (Some CColon, id)]] /\ 0 < lenN id <= 186.
(** The field must have that value. *)
Definition requires (rs : list Predicate) (f : Field) (v : bytes) : Prop := In (mkPred (RField f) Equal (PNum (be_decode v))) rs.
(** The request: a point of the local group in the domain [exchange]. *)
Definition pull_space (g d id : bytes) : list bytes := [str "pull"; g; d; id].
Definition pull_request (g d id data : bytes) (create : N) : point :=
  PLink (repeat 0 32) (repeat 255 8 ++ str "exchange") create [] (wire_rooted (pull_space g d id)) data.
