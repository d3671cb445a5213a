(** * [lk multi-watch] (cli/linkspace/src/multi_watch.rs): the query of a packet with the
      alternatives of [--or] *)
From Coq Require Import List NArith Bool.
From Verif Require Import Bytes ModelSpace ModelTestSet ModelPred ModelAbe ModelEval ModelQText.
Import ListNotations.
Local Open Scope N_scope.

(** What a call that changes a query leaves behind, also when it fails. *)
Definition St (E : Type) : Type := (PktPredicates * outcome E unit)%type.
Definition st_bind {E} (a : St E) (k : PktPredicates -> St E) : St E :=
  match snd a with Ok _ => k (fst a) | _ => a end.
Definition st_err {E A} (p : PktPredicates) (o : outcome E A) (k : A -> St E) : St E :=
  match o with Ok a => k a | Err e => (p, Err e) | Panic => (p, Panic) | OutOfFuel => (p, OutOfFuel) end.
(** crates/core/src/predicate/value_test.rs:593-601 [try_add]: the set is changed and then looked at. *)
Definition add_set_st (p : PktPredicates) (f : Field) (op : TestOp) (v : N) : St PredErr :=
  let s := add (field_width f) (p_sets p f) op v in
  (with_set p f s, if has_any (field_width f) s then Ok tt else Err EIncompat).
(** crates/core/src/predicate/pkt_predicates.rs:134-148. *)
Definition check_space_st (p : PktPredicates) : St PredErr :=
  let d := rs_depth (p_prefix p) in
  st_bind (if d =? 0 then (p, Ok tt) else add_set_st p DepthF Greater (d - 1)) (fun p' =>
  st_err p' (incompat (info 8 (p_sets p' DepthF) d)) (fun i =>
  (p', match sval i with Some _ => Ok tt | None => Err EDepth end))).
(** crates/core/src/predicate/builder.rs:33-46 [prefix]. *)
Definition prefix_st (p : PktPredicates) (sp : space) : St PredErr :=
  st_err p (in_space (rs_space (p_prefix p))) (fun cur =>
  if space_starts_with cur sp then (p, Ok tt)
  else if space_starts_with sp cur then
    st_err p (in_space (try_into_rooted sp)) (fun r => check_space_st (with_prefix p r))
  else (p, Err ESpacePrefix)).
(** crates/core/src/predicate/pkt_predicates.rs:238-331 [and]: [and_] with what it leaves
    ("is in invalid state on error"). *)
Definition and_st (p : PktPredicates) (r : Predicate) : St PredErr :=
  match p_kind r with
  | RField f =>
      st_bind (add_set_st p PktTypeF Mask1 (field_pkts f)) (fun p =>
      match f, p_val r with
      | SpaceNameF, PSpace sp =>
          match p_op r with
          | Equal =>
              st_err p (in_space (try_into_rooted sp)) (fun rs =>
              st_bind (add_set_st p DepthF Equal (rs_depth rs)) (fun p =>
              st_err p (in_space (rs_space (p_prefix p))) (fun cur =>
              st_err p (in_space (rs_space rs)) (fun new =>
              if space_starts_with new cur then check_space_st (with_prefix p rs) else (p, Err ESpacePrefix)))))
          | _ => (p, Err EOperator)
          end
      | (SignatureF | DataF | RSpaceNameF | SpaceCompF _), _ => (p, Panic)
      | SpaceNameF, PNum _ => (p, Err EValue)
      | _, PSpace _ => (p, Err EValue)
      | DepthF, PNum v => st_bind (add_set_st p DepthF (p_op r) v) check_space_st
      | PktHashF, PNum v =>
          st_bind (add_set_st p PktHashF (p_op r) v) (fun p =>
          match p_op r with
          | Equal => let s := add 32 (p_limits p QQuery) Equal 0 in
                     (with_limit p QQuery s, if has_any 32 s then Ok tt else Err EIncompat)
          | _ => (p, Ok tt)
          end)
      | _, PNum v => add_set_st p f (p_op r) v
      end)
  | RRecv => match p_val r with
             | PNum v => let b := bound_add 64 (p_recv p) (p_op r) v in
                         (with_recv p b, if bound_has_any b then Ok tt else Err EIncompat)
             | PSpace _ => (p, Err EValue)
             end
  | RPrefix => match p_op r, p_val r with
               | Equal, PSpace sp => prefix_st p sp
               | Equal, PNum _ => (p, Err EValue)
               | _, _ => (p, Err EOperator)
               end
  | RLimit q => match p_val r with
                | PNum v => let p' := with_limit p q (add 32 (p_limits p q) (p_op r) v) in
                            (p', if is_valid p' then Ok tt else Err ENoResults)
                | PSpace _ => (p, Err EValue)
                end
  end.
(** :224-237 [add_ext_predicate], [add_predicate].  An operand that does not convert is found
    after the point type has been restricted. *)
Definition and_text_st (p : PktPredicates) (t : TextPredicate) : St QErr :=
  let '(kind, op, v) := t in
  match operand kind v with
  | Ok x => let '(p', o) := and_st p (mkPred kind op x) in
            (p', match o with Ok a => Ok a | Err e => Err (QPred e) | Panic => Panic | OutOfFuel => OutOfFuel end)
  | Err e => (match kind with RField f => fst (add_set_st p PktTypeF Mask1 (field_pkts f)) | _ => p end, Err e)
  | Panic => (p, Panic)
  | OutOfFuel => (p, OutOfFuel)
  end.
Fixpoint and_texts_st (p : PktPredicates) (ts : list TextPredicate) : St QErr :=
  match ts with [] => (p, Ok tt) | t :: r => st_bind (and_text_st p t) (fun p' => and_texts_st p' r) end.
(** crates/core/src/query.rs:136-154 [add_stmt], [parse]. *)
Definition add_stmt_st (q : TQuery) (stmt : ABList) : TQuery * outcome QErr unit :=
  match stmt with
  | [] => (q, Panic)
  | (Some _, _) :: _ => (mkQ (q_preds q) (q_conf q ++ [stmt]), Ok tt)
  | _ => let '(p, o) := st_err (q_preds q) (ext_of_stmt stmt) (fun e => st_err (q_preds q) (try_iter e) (and_texts_st (q_preds q))) in
         (mkQ p (q_conf q), o)
  end.
Fixpoint parse_lines_st (fuel : nat) (s : scope) (q : TQuery) (lines : list bytes) : TQuery * outcome QErr unit :=
  match lines with
  | [] => (q, Ok tt)
  | [] :: r => parse_lines_st fuel s q r
  | line :: r =>
      match eval_line fuel s line with
      | Ok v => match add_stmt_st q v with
                | (q', Ok _) => parse_lines_st fuel s q' r
                | x => x
                end
      | Err e => (q, Err e)
      | Panic => (q, Panic)
      | OutOfFuel => (q, OutOfFuel)
      end
  end.
Definition query_parse_st (fuel : nat) (s : scope) (q : TQuery) (t : bytes) : TQuery * outcome QErr unit :=
  parse_lines_st fuel s q (split_on (N.eqb 10) t).

Inductive MultiErr := MQuery (e : QErr) | MNoAlternative.
(** cli/linkspace/src/multi_watch.rs:85-92: the alternatives in turn, on the same query. *)
Fixpoint constrain (fuel : nat) (s : scope) (q : TQuery) (ors : list bytes) : outcome MultiErr TQuery :=
  match ors with
  | [] => Err MNoAlternative
  | t :: ors =>
      match query_parse_st fuel s q t with
      | (q', Ok _) => Ok q'
      | (q', Err _) => constrain fuel s q' ors
      | (_, Panic) => Panic
      | (_, OutOfFuel) => OutOfFuel
      end
  end.
(** :69-92 [setup_watch] up to the query that is watched (or printed): [core] is the scope of the
    query of the packet unless --full-scope is given, [cli] that of the alternatives. *)
Definition setup_query (fuel : nat) (core cli : scope) (full : bool) (ors : list bytes) (data : bytes) : outcome MultiErr TQuery :=
  match query_parse_st fuel (if full then cli else core) q_default data with
  | (q, Ok _) => match ors with [] => Ok q | _ => constrain fuel cli q ors end
  | (_, Err e) => Err (MQuery e)
  | (_, Panic) => Panic
  | (_, OutOfFuel) => OutOfFuel
  end.
