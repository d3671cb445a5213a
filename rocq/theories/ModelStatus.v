(** Model of status requests.  Source: crates/linkspace/src/conventions/status.rs. *)
From Verif Require Import Bytes ModelAbe ModelEval ModelSpace ModelPkt ModelTestSet ModelPred ModelQText ModelLns ModelTree ModelStore ModelQuery ModelWatch.

(** status.rs:37, rooted_space.rs:39-58; a failure is one at compile time *)
Definition STATUS_SPACE : outcome SpaceError rspace := ModelSpace.rspace1 (255 :: str "status").
(** :42-53 *)
Record LkStatus := mkStatus { st_domain : bytes; st_group : bytes; st_objtype : bytes; st_instance : option bytes; st_qid : bytes }.
(** :174, :222: a status with another instance *)
Definition with_instance (st : LkStatus) (i : option bytes) : LkStatus := mkStatus (st_domain st) (st_group st) (st_objtype st) i (st_qid st).
Inductive StErr := TSpace (e : SpaceError) | TText (e : QErr) | TPkt (e : PktError) | TTest (e : TestErr) | TStore (e : StoreErr) | TInvalid | TUpdate.
Definition conv_err {E F A} (f : E -> F) (o : outcome E A) : outcome F A :=
  match o with Ok a => Ok a | Err e => Err (f e) | Panic => Panic | OutOfFuel => OutOfFuel end.
(** :76-84 *)
Definition lk_status_space (st : LkStatus) : outcome SpaceError rspace :=
  obind STATUS_SPACE (fun s0 =>
  obind (rs_try_append s0 (st_group st)) (fun s1 =>
  obind (rs_try_append s1 (st_objtype st)) (fun s2 =>
  match st_instance st with Some i => rs_try_append s2 i | None => Ok s2 end))).
(** :87-96.  [now] is the clock, [nh] the default routing header. *)
Definition lk_status_request (c : crypto) (st : LkStatus) (now : N) (nh : bytes) : outcome StErr NetPktParts :=
  obind (conv_err TSpace (lk_status_space st)) (fun sp => conv_err TPkt (try_linkpoint c PRIVATE (st_domain st) sp [] [] now nh)).
(** byte-fmt/src/endian_types.rs, the saturating operations on stamps *)
Definition sat_sub (a b : N) : N := a - b.
Definition sat_add (a b : N) : N := N.min (a + b) (2 ^ 64 - 1).
(** :99-110 *)
Definition lk_status_overwatch (st : LkStatus) (max_age now : N) : outcome StErr TQuery :=
  obind (conv_err TSpace (lk_status_space st)) (fun sp =>
  conv_err TText (
  obind (lk_query_push q_default (str "group") (str "=") PRIVATE) (fun q =>
  obind (lk_query_push q (str "domain") (str "=") (st_domain st)) (fun q =>
  obind (lk_query_push q (str "create") (str ">") (be_encode 8 (sat_sub now max_age))) (fun q =>
  obind (or_panic (rs_space sp)) (fun b =>
  lk_query_push q (str "prefix") (str "=") b)))))).
(** :149-153: what lk_status_watch adds to that query *)
Definition status_watch_query (q : TQuery) (wait_until : N) (qid : bytes) : outcome StErr TQuery :=
  conv_err TText (
  obind (lk_query_push q (str "data_size") (str ">") (be_encode 2 0)) (fun q =>
  obind (lk_query_push q (str "links_len") (str ">") (be_encode 2 0)) (fun q =>
  obind (lk_query_push q (str "recv") (str "<") (be_encode 8 wait_until)) (fun q =>
  obind (lk_query_push q (str "i_db") (str "<") (be_encode 4 0)) (fun q =>
  lk_query_push q [] (str "qid") qid))))).
(** :219-231: the query of lk_status_set *)
Definition status_set_query (st : LkStatus) : outcome StErr TQuery :=
  obind (conv_err TSpace (lk_status_space (with_instance st None))) (fun sp =>
  conv_err TText (
  obind (lk_query_push q_default (str "data_size") (str "=") (be_encode 2 0)) (fun q =>
  obind (lk_query_push q (str "links_len") (str "=") (be_encode 2 0)) (fun q =>
  obind (or_panic (rs_space sp)) (fun b =>
  obind (lk_query_push q (str "prefix") (str "=") b) (fun q =>
  obind (lk_query_push q (str "i_db") (str "<") (be_encode 4 0)) (fun q =>
  lk_query_push q [] (str "qid") (st_qid st)))))))).
(** common/src/runtime/rx.rs:367-371: the id of a watch, whose absence panics.  The options of these queries do not
    name a mode, so that it is the default, the tree newest first (core/src/query.rs:117-135). *)
Definition watch_id (q : TQuery) : outcome StErr bytes :=
  match get_option q (str "qid") with
  | Ok (Some (Some id)) => Ok id
  | Ok _ => Panic
  | Err e => Err (TText e)
  | Panic => Panic
  | OutOfFuel => OutOfFuel
  end.
(** :133, a packet without links and data *)
Definition no_content (r : N * bytes) : bool :=
  match view (snd r) with Ok p => (lenN (pkt_links p) =? 0) && (lenN (get_data (pf p)) =? 0) | _ => false end.
Definition created (r : N * bytes) : N := match view (snd r) with Ok p => get_create_stamp (pf p) | _ => 0 end.

Section Watch.
Variable C : Type.
Variable handle : C -> N * bytes -> C * bool * list (cmd C).
Variable stopped : C -> StopReason -> list (cmd C).
Variable qfuel : nat.
Variable stale : option entry.
Variable fuel : nat.
(** :132-143, the closure over the results of lk_get_all: the state, the callback, whether it was called, and the
    create stamp of the last request seen.  The commands a callback gives are run after it, as in ModelWatch. *)
Fixpoint status_scan (q : bytes) (rs : list (N * bytes)) (c : C) (ok : bool) (last_ : N) (s : rt C) : outcome TestErr (rt C * C * bool * N) :=
  match rs with
  | [] => Ok (s, c, ok, last_)
  | r :: rs' =>
      if no_content r then status_scan q rs' c ok (created r) s
      else let '(c', b, cs) := handle c r in
           obind (exec C handle stopped qfuel stale fuel Free (add_event C s (Called q r)) cs) (fun s' =>
           if b then Ok (s', c', true, last_) else status_scan q rs' c' true last_ s')
  end.
(** :114-156 [lk_status_watch].  [t0], [t1] and [t2] are the clock when the query is made, when a request is made
    and when it is saved.  The state after an error is left out. *)
Definition lk_status_watch (f : faults) (k : crypto) (st : LkStatus) (d_timeout t0 t1 t2 : N) (nh : bytes) (c : C) (s : rt C) : outcome StErr (rt C * bool) :=
  obind (lk_status_overwatch st d_timeout t0) (fun q =>
  obind (conv_err TTest (query qfuel (r_snap C s) TTree false (q_preds q) stale 0)) (fun rs =>
  obind (conv_err TTest (status_scan (st_qid st) rs c false 0 s)) (fun '(s1, c1, ok, l0) =>
  obind (if l0 =? 0
         then match lk_status_request k st t1 nh with
              | Ok req => let '(d, o) := lk_save f t2 (r_db C s1) req in
                          obind (conv_err TStore o) (fun _ => Ok (set_db C s1 d, get_create_stamp (pf req)))
              | OutOfFuel => OutOfFuel
              | _ => Panic
              end
         else Ok (s1, l0)) (fun '(s2, last_) =>
  obind (status_watch_query q (sat_add last_ d_timeout) (st_qid st)) (fun q2 =>
  obind (watch_id q2) (fun id =>
  obind (conv_err TTest (watch C handle stopped qfuel stale (exec C handle stopped qfuel stale fuel) Free s2 id TTree false (q_preds q2) c1)) (fun '(s3, _) =>
  Ok (s3, ok)))))))).
End Watch.

(** :158-168 [is_status_reply] *)
Definition is_status_reply (st : LkStatus) (sp : rspace) (p : NetPktParts) : bool :=
  beqb (get_domain p) (st_domain st) && beqb (get_group p) PRIVATE && beqb (get_rspace p) sp && negb (lenN (pkt_links p) =? 0) && negb (lenN (get_data (pf p)) =? 0).

Section Replies.
(** The state of the user's [update], which gives a packet and the clock when it is saved. *)
Variable U : Type.
Variable update : U -> bytes -> bytes -> rspace -> Link -> U * outcome unit (NetPktParts * N).
Variable f : faults.
(** What the callback of lk_status_set keeps: the hash of its last reply and the state of [update]. *)
Definition SetState : Type := (bytes * U)%type.
(** :176-178 *)
Definition reply_status (st : LkStatus) : LkStatus := with_instance st (Some (match st_instance st with Some i => i | None => str "default" end)).
(** :187-188, :251-252: an update that is checked *)
Definition checked_update (st : LkStatus) (sp : rspace) (u : U) (l : Link) : U * outcome StErr (NetPktParts * N) :=
  let '(u', o) := update u (st_domain st) PRIVATE sp l in
  (u', match o with
       | Ok (p, t) => if is_status_reply st sp p then Ok (p, t) else Err TInvalid
       | Err _ => Err TUpdate | Panic => Panic | OutOfFuel => OutOfFuel
       end).
(** :234-257: the callback, under [try_cb] (lib.rs:1034-1046), which breaks on errors.  The depth is the declared
    one.  That the packet is saved is a command (ModelWatch), so the callback does not see a failure to save here;
    a panic of [update] counts as an error. *)
Definition status_handle (st : LkStatus) (sp : rspace) (c : SetState) (r : N * bytes) : SetState * bool * list (cmd SetState) :=
  let '(prev, u) := c in
  let other := match view (snd r) with
               | Ok p => (rs_depth (get_rspace p) =? rs_depth sp) &&
                         match rs_space (get_rspace p), rs_space sp with Ok a, Ok b => negb (beqb a b) | _, _ => false end
               | _ => false
               end in
  if other then (c, false, [])
  else match checked_update st sp u ((repeat 0 12 ++ str "prev", prev)) with
       | (u', Ok (p, t)) => ((np_hash p, u'), false, [CSave SetState f t [(p, Pending)]])
       | (u', _) => ((prev, u'), true, [])
       end.
(** :171-267 [lk_status_set] up to the watch: the store, and what the watch is made with. *)
Definition lk_status_set (st0 : LkStatus) (u : U) (d : db) : db * outcome StErr (rspace * TQuery * bytes * SetState) :=
  let st := reply_status st0 in
  match conv_err TSpace (lk_status_space st) with
  | Ok sp =>
      match checked_update st sp u ((repeat 0 12 ++ str "init", PRIVATE)) with
      | (u', Ok (p, t)) =>
          let '(d', o) := lk_save f t d p in
          (d', obind (conv_err TStore o) (fun _ => obind (status_set_query st) (fun q => obind (watch_id q) (fun id => Ok (sp, q, id, (np_hash p, u'))))))
      | (_, Err e) => (d, Err e)
      | (_, Panic) => (d, Panic)
      | (_, OutOfFuel) => (d, OutOfFuel)
      end
  | Err e => (d, Err e)
  | Panic => (d, Panic)
  | OutOfFuel => (d, OutOfFuel)
  end.
End Replies.
