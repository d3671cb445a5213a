(** Model of pull requests.  Source: crates/linkspace/src/conventions/pull.rs. *)
From Verif Require Import Bytes ModelAbe ModelEval ModelSpace ModelPkt ModelTestSet ModelPred ModelQText ModelLns ModelStore.

(** core/src/consts.rs:12, byte-fmt/src/lib.rs:245-250 [abx]: padded with 255 *)
Definition EXCHANGE_DOMAIN : bytes := repeat 255 8 ++ str "exchange".
(** core/src/query.rs:49-55, predicate/pkt_predicates.rs:112-119, exprs.rs:180-184: as [lk_query_print] with
    expressions, without the empty line in between *)
Definition query_display (q : TQuery) : outcome SpaceError bytes :=
  obind (preds_iter (q_preds q)) (fun ts => Ok (conf_display (q_conf q) ++ flat_map (fun t => text_print true t ++ [10]) ts)).
(** predicate/value_test.rs:463-466 *)
Definition set_as_eq (s : TestSet) : option N := bound_as_eq (bound s).

Inductive PullErr := LNoGroup | LNoDomain | LNoQid | LQid (e : QErr) | LPkt (e : PktError) | LStore (e : StoreErr).
(** pull.rs:24-55 [lk_pull_point].  [now] is the clock, [nh] the default routing header; [rspace_buf]
    (pkt/src/rooted_space.rs:368-370) unwraps. *)
Definition lk_pull_point (c : crypto) (q : TQuery) (now : N) (nh : bytes) : outcome PullErr NetPktParts :=
  match set_as_eq (p_sets (q_preds q) GroupIDF) with
  | None => Err LNoGroup
  | Some g =>
  match set_as_eq (p_sets (q_preds q) DomainF) with
  | None => Err LNoDomain
  | Some d =>
  match get_option q (str "qid") with
  | Ok (Some (Some id)) =>
      obind (or_panic (query_display q)) (fun data =>
      obind (or_panic (rs_try_from_iter [str "pull"; be_encode 32 g; be_encode 16 d; id])) (fun sp =>
      match try_linkpoint c PRIVATE EXCHANGE_DOMAIN sp [] data now nh with
      | Ok p => Ok p | Err e => Err (LPkt e) | Panic => Panic | OutOfFuel => OutOfFuel
      end))
  | Ok _ => Err LNoQid
  | Err e => Err (LQid e)
  | Panic => Panic
  | OutOfFuel => OutOfFuel
  end end end.
(** pull.rs:17-22 [lk_pull].  [t] is the clock when the point is saved. *)
Definition lk_pull (f : faults) (c : crypto) (d : db) (q : TQuery) (now t : N) (nh : bytes) : db * outcome PullErr bytes :=
  match lk_pull_point c q now nh with
  | Ok p => let '(d', o) := lk_save f t d p in
            (d', match o with Ok _ => Ok (np_hash p) | Err e => Err (LStore e) | Panic => Panic | OutOfFuel => OutOfFuel end)
  | Err e => (d, Err e) | Panic => (d, Panic) | OutOfFuel => (d, OutOfFuel)
  end.
