(** Properties of status requests: C77. *)
From Coq Require Import Sorting.Sorted.
From Verif Require Import Bytes ModelAbe ModelEval ModelSpace SpecSpace ProofSpace ProofTree SpecPkt ModelPkt ProofPkt2 PropsPkt ModelTestSet SpecTestSet ProofTestSet ModelTree SpecTree ModelStore SpecStore ProofStore PropsStore ModelPred SpecPred ProofPred ProofPred2 PropsPred.
From Verif Require Import ModelQText SpecQText ProofQText ModelLns ModelQuery SpecQuery ProofQuery ProofQuery2 ProofQuery3 ProofQuery4 ExStore PropsQuery ModelWatch SpecWatch ProofWatch2 ProofWatch5 PropsWatch.
From Verif Require Import ModelStatus SpecStatus ProofStatus ProofStatus2 ProofStatus3.

(** ** The place of a status, and requests *)
(** The space of a status has its group, kind and instance, and there is one exactly if they fit. *)
Theorem C77_space st : match lk_status_space st with
  | Ok b => space_ok (status_place st) /\ b = wire_rooted (status_place st)
  | Err _ => ~ space_ok (status_place st)
  | _ => False
  end.
Proof.
  pose proof (status_space_iff st) as H. destruct (status_space_total st) as [[b E]|[e E]]; rewrite E in *.
  - now apply H.
  - intros S. pose proof (proj2 (H _) (conj S eq_refl)) as X. discriminate X.
Qed.
(** Different statuses have different places. *)
Theorem C77_space_injective st st' b : lk_status_space st = Ok b -> lk_status_space st' = Ok b ->
  st_group st = st_group st' /\ st_objtype st = st_objtype st' /\ st_instance st = st_instance st'.
Proof.
  intros A B. apply status_space_iff in A as [SA EA]. apply status_space_iff in B as [SB EB]. rewrite EA in EB.
  assert (wire_space (status_place st) = wire_space (status_place st')) as W by (apply (f_equal rs_space) in EB; rewrite !(proj1 (rs_space_wire _)) in EB; congruence).
  apply wire_space_inj in W; [|apply SA|apply SB]. unfold status_place in W. cbn [app] in W. injection W as G O I. split; [exact G|]. split; [exact O|]. destruct (st_instance st), (st_instance st'); congruence.
Qed.
(** A request is a point without data and links at the place of the status, in the local group. *)
Theorem C77_request k st now nh : status_ok st -> now < 2 ^ 64 -> lk_status_request k st now nh = Ok (net_of k nh (request_point st now)).
Proof. apply link_request. Qed.
(** The query for the recent packets of a status accepts exactly those. *)
Theorem C77_overwatch hash st age now b nh p recv : hash32 hash -> status_ok st -> now < 2 ^ 64 -> now - age < 2 ^ 64 - 1 -> packet_of hash b nh p -> recv < 2 ^ 64 ->
  exists q, lk_status_overwatch st age now = Ok q /\ (passes (q_preds q) b recv <-> local_below (st_domain st) (status_place st) p /\ recent age now p).
Proof.
  intros HL S T A PK R. destruct (watch_added st age now 1 S T A ltac:(lia) ltac:(lia)) as (P & _ & E & _). exists (mkQ P []). rewrite (overwatch_eval st age now S T), E. split; [reflexivity|]. cbn [q_preds].
  rewrite <- (seen_iff hash b nh p recv st age now HL PK S). apply C60_accepts_exactly; auto; [now apply seen_ok|]. unfold no_spacename, seen_preds. repeat (constructor; [discriminate|]). constructor.
Qed.

(** ** Watching a status *)
(** The callback is called with recent packets of the status that are not requests, as found in the store, then with
    each reply that comes into view before the time is up; a request is made if none was seen.  Partial: not every
    recent packet needs to be found (C77_found_refuted). *)
Theorem C77_watch_partial C handle stopped qfuel stale fuel fuel' f k st age t0 t1 t2 nh c (s s1 : rt C) ok cs s' l0 l1 :
  hash32 (hash k) -> status_ok st -> t0 < 2 ^ 64 -> t1 < 2 ^ 64 -> reached handle stopped qfuel stale s ->
  lk_status_watch C handle stopped qfuel stale fuel f k st age t0 t1 t2 nh c s = Ok (s1, ok) -> exec handle stopped qfuel stale fuel' Free s1 cs = Ok s' ->
  leave_alone handle stopped (st_qid st) cs -> never_process handle stopped -> pending_clear (st_qid st) s ->
  honest_store (hash k) (r_snap s) l0 -> valid_store (hash k) (r_snap s') (l0 ++ l1) -> Forall (fun e => 0 < fst e) l1 ->
  exists found req, (forall e, In e found -> In e l0 /\ seen_packet (hash k) st age t0 e) /\
  (forall e nh' p, packet_at (hash k) e nh' p -> (req (answer e) = true <-> asks p)) /\
  (exists asked called c1 from,
    first_pass req handle c (map answer found) = (asked, called, c1) /\ (ok = true <-> called <> []) /\
    match asked with
    | [] => from = t1 /\ exists l e, represents (r_db s1) l /\ In e l /\ np_hash (snd e) = hash k (content (request_point st t1))
    | _ => exists before e nh' p, asked = before ++ [answer e] /\ In e l0 /\ packet_at (hash k) e nh' p /\ point_create p = Some from
    end /\
    (r_now s1 + 1 < capped_sum from age -> exists t ms, r_trace s' = r_trace s ++ t /\
      exactly l1 (reply_packet (hash k) st age t0 (capped_sum from age)) (recv_before true) ms /\
      calls (st_qid st) t = called ++ fst (until_break handle c1 (map answer ms)))).
Proof.
  intros HL S T0 T1 RE W E2 LA NP PC HS VS POS. apply reached_inv in RE.
  destruct (status_watch_main C handle stopped qfuel stale fuel fuel' f k st age t0 t1 t2 nh c s s1 ok cs s' l0 l1 HL S T0 T1 RE W E2 LA NP PC HS VS POS) as (found & A & B).
  exists found, no_content. split; [exact A|]. split; [|exact B]. intros e nh' p PA. exact (no_content_iff (hash k) _ nh' p (fst e) HL (proj1 PA)).
Qed.

(** ** Giving a status *)
(** The query of lk_status_set accepts exactly the requests at or below the kind of object. *)
Theorem C77_set_accepts_partial hash st b nh p recv : hash32 hash -> status_ok (with_instance st None) -> packet_of hash b nh p -> recv < 2 ^ 64 ->
  exists q, status_set_query st = Ok q /\ watch_id q = Ok (st_qid st) /\ (passes (q_preds q) b recv <-> asks_below (with_instance st None) p).
Proof.
  intros HL S PK R. destruct (set_added st S) as (P & E). exists (mkQ P [[(Some CColon, str "qid"); (Some CColon, st_qid st)]]). rewrite (set_eval st S), E. split; [reflexivity|]. split; [unfold watch_id; now rewrite (own_id P [] (st_qid st) : get_option (mkQ P [[(Some CColon, str "qid"); (Some CColon, st_qid st)]]) (str "qid") = _)|]. cbn [q_preds].
  assert (NS : no_spacename (set_preds st)) by (unfold no_spacename, set_preds; repeat (constructor; [discriminate|]); constructor).
  rewrite (C60_accepts_exactly hash (set_preds st) P b nh p recv HL (set_ok_preds st S) E PK R NS). apply set_iff with (1 := HL) (2 := PK) (3 := S).
Qed.
(** A request for the kind of object or for the instance is answered by a reply that links to the last one; a request
    for another instance is not. *)
Theorem C77_answers U update f hash st sp prev (u : U) r nh p : hash32 hash -> packet_of hash (snd r) nh p -> lk_status_space st = Ok sp -> st_instance st <> None ->
  (updates_well hash update -> for_us st p -> exists u' np t, status_handle U update f st sp (prev, u) r = ((np_hash np, u'), false, [CSave f t [(np, Pending)]]) /\
    reply_made hash (st_domain st) (repeat 0 32) sp (repeat 0 12 ++ str "prev", prev) np) /\
  (for_other st p -> status_handle U update f st sp (prev, u) r = ((prev, u), false, [])).
Proof. intros HL PK SP IN. split; [intros UW FU; eapply handled_ours; eauto|intros FO; eapply handled_other; eauto]. Qed.
(** Whatever the program's update does, only replies are saved: points of the domain in the local group, at the place
    of the status, with a link and with data. *)
Theorem C77_only_replies U update f st sp c r c' stop cmds : status_handle U update f st sp c r = (c', stop, cmds) ->
  cmds = [] \/ exists t np lp, cmds = [CSave f t [(np, Pending)]] /\
    (fields (point_parts np) = FLink lp \/ exists sg, fields (point_parts np) = FKey lp sg) /\
    domain (ModelPkt.head lp) = st_domain st /\ group (ModelPkt.head lp) = repeat 0 32 /\ ModelPkt.rspace (ModelPkt.tail lp) = sp /\
    links (ModelPkt.tail lp) <> [] /\ tdata (ModelPkt.tail lp) <> [].
Proof.
  unfold status_handle. destruct c as [prev u]. match goal with |- context[if ?b then _ else _] => destruct b end; [intros [= <- <- <-]; now left|].
  destruct (checked_update U update st sp u _) as [u' [[p t]| | |]] eqn:CU; intros [= <- <- <-]; [|now left..].
  right. unfold checked_update in CU. destruct (update u (st_domain st) PRIVATE sp _) as [u1 [[p1 t1]| | |]]; try discriminate.
  destruct (is_status_reply st sp p1) eqn:IS; [|discriminate]. injection CU as -> -> ->.
  unfold is_status_reply in IS. apply andb_prop in IS as [IS D]. apply andb_prop in IS as [IS L]. apply andb_prop in IS as [IS R]. apply andb_prop in IS as [DM G].
  apply beqb_eq in DM, G, R. exists t, p.
  unfold get_domain, get_group, get_rspace, get_header, pkt_links, pf in *.
  destruct (fields (point_parts p)) as [x|lp|lp sg|x|x]; cbn in L; try discriminate L; exists lp; (split; [reflexivity|]);
    (split; [eauto|]); (split; [exact DM|]); (split; [exact G|]); (split; [exact R|]); cbn in D, L;
    (split; [intros E; rewrite E in L; discriminate L|intros E; rewrite E in D; discriminate D]).
Qed.
(** Any number of requests: as many replies, each linked to the one before. *)
Theorem C77_chain U update f hash st sp rs : hash32 hash -> updates_well hash update -> lk_status_space st = Ok sp -> st_instance st <> None ->
  Forall (fun r => exists nh p, packet_of hash (snd r) nh p /\ for_us st p) rs ->
  forall prev (u : U), let nps := saved (status_handle U update f st sp) (prev, u) rs in
    lenN nps = lenN rs /\ chained hash (st_domain st) sp prev nps /\ fst (until_break (status_handle U update f st sp) (prev, u) rs) = rs.
Proof.
  intros HL UW SP IN F. induction F as [|r rs (nh & p & PK & FU) F IH]; intros prev u; [split; [reflexivity|]; split; [exact I|reflexivity]|].
  destruct (handled_ours U update f hash st sp prev u r nh p HL UW PK FU SP IN) as (u' & np & t & E & RM). cbn [saved until_break]. rewrite E. cbn [flat_map map fst app]. cbv zeta.
  destruct (IH (np_hash np) u') as (A & B & D). rewrite !lenN_cons. split; [lia|]. split; [cbn [chained]; auto|]. destruct (until_break (status_handle U update f st sp) (np_hash np, u') rs). cbn [fst] in *. congruence.
Qed.
(** lk_status_set stores a first status and watches for requests, starting from its hash. *)
Theorem C77_set U update f st0 (u : U) d d' sp q id c l : represents d l -> status_ok (with_instance st0 None) ->
  lk_status_set U update f st0 u d = (d', Ok (sp, q, id, c)) ->
  let st := with_instance st0 (Some (match st_instance st0 with Some i => i | None => str "default" end)) in
  sp = wire_rooted (status_place st) /\ space_ok (status_place st) /\ id = st_qid st0 /\ accepted (set_preds st0) (q_preds q) /\
  exists l' e, represents d' (l ++ l') /\ In e (l ++ l') /\ np_hash (snd e) = fst c.
Proof.
  intros R S E. unfold lk_status_set in E. destruct (lk_status_space (reply_status st0)) as [sp0| | |] eqn:SE; try discriminate. cbn [conv_err] in E.
  destruct (checked_update U update (reply_status st0) sp0 u _) as [u' [[p t]| | |]] eqn:CU; try discriminate.
  destruct (lk_save f t d p) as [d1 o] eqn:SV. injection E as -> E. destruct o as [b| | |]; try discriminate. cbn [conv_err obind] in E.
  destruct (set_added st0 S) as (P & AE). assert (SQ : status_set_query (reply_status st0) = status_set_query st0) by reflexivity. rewrite SQ, (set_eval st0 S), AE in E. cbn [to_query lift conv_err obind] in E.
  unfold watch_id in E. rewrite (own_id P [] (st_qid st0) : get_option (mkQ P [[(Some CColon, str "qid"); (Some CColon, st_qid st0)]]) (str "qid") = _) in E. cbn [obind] in E. injection E as <- <- <- <-.
  apply status_space_iff in SE as [SP ->]. cbv zeta. split; [reflexivity|]. split; [exact SP|]. split; [reflexivity|]. split; [split; [now apply set_ok_preds|exact AE]|]. cbn [fst].
  destruct (C26_lk_save_truthful f t d l p d' b R SV) as (NEW & OLD & ADD). destruct b.
  - destruct (ADD eq_refl) as (x & RX). exists [(x, p)], (x, p). split; [exact RX|]. split; [apply in_app_iff; right; now left|reflexivity].
  - rewrite (OLD eq_refl). assert (IN : In (np_hash p) (hashes l)). { destruct (existsb (beqb (np_hash p)) (hashes l)) eqn:X; [now apply existsb_beqb in X|]. exfalso. assert (false = true) as Y; [|discriminate]. apply NEW. rewrite <- existsb_beqb. congruence. }
    unfold hashes in IN. apply in_map_iff in IN as (e & HE & IE). exists [], e. rewrite app_nil_r. auto.
Qed.
(** Its watch is called with every request that comes into view, in order, until [update] fails. *)
Theorem C77_set_watch U update f hash st0 sp stopped qfuel stale fuel fuel' (s : rt (SetState U)) P c s1 cs s' l0 l1 : hash32 hash -> status_ok (with_instance st0 None) ->
  let handle := status_handle U update f (reply_status st0) sp in
  reached handle stopped qfuel stale s -> accepted (set_preds st0) P ->
  exec handle stopped qfuel stale fuel Free s [CWatch (st_qid st0) TTree false P c] = Ok s1 -> exec handle stopped qfuel stale fuel' Free s1 cs = Ok s' ->
  Forall (fun x => ~ touches (st_qid st0) x) cs -> (forall a x, stopped a x = []) -> pending_clear (st_qid st0) s ->
  represents (r_snap s) l0 -> valid_store hash (r_snap s') (l0 ++ l1) -> Forall (fun e => 0 < fst e) l1 -> r_now s1 < 2 ^ 64 - 1 ->
  exists t ms, r_trace s' = r_trace s ++ t /\
    exactly l1 (fun e => exists nh p, packet_at hash e nh p /\ asks_below (with_instance st0 None) p) (recv_before true) ms /\
    calls (st_qid st0) t = fst (until_break handle c (map answer ms)).
Proof.
  intros HL S handle RE AC E1 E2 NT ST PC R0 VS POS NOW.
  assert (SH : forall a r, exists o, snd (handle a r) = o /\ (o = [] \/ exists t ps, o = [CSave f t ps])).
  { intros [prev u] r. eexists. split; [reflexivity|]. unfold handle, status_handle. match goal with |- context[if ?b then _ else _] => destruct b end; [now left|]. destruct (checked_update U update _ _ _ _) as [u' [[p t]| | |]]; [right; cbn [snd]; eauto|now left..]. }
  assert (LA : leave_alone handle stopped (st_qid st0) cs).
  { split; [exact NT|]. split; [|intros a x; rewrite ST; constructor]. intros a r. destruct (SH a r) as (o & -> & [->|(t & ps & ->)]); repeat constructor. intros []. }
  assert (NP : never_process handle stopped).
  { split; [|intros a x; rewrite ST; constructor]. intros a r. destruct (SH a r) as (o & -> & [->|(t & ps & ->)]); repeat constructor. }
  destruct (C37_new_only (SetState U) handle stopped qfuel stale hash HL (st_qid st0) fuel fuel' s TTree false P c s1 cs s' (set_preds st0) l0 l1 RE E1 E2 LA NP PC AC) as (t & ms & ys & T & EM & PY & K); auto.
  - cbn. tauto.
  - unfold limit_ops, set_preds. repeat (constructor; [cbn; intros; try discriminate; try exact I|]). constructor.
  - left. unfold no_spacename, set_preds. repeat (constructor; [discriminate|]). constructor.
  - exists (2 ^ 64 - 1). split; [exact NOW|]. split; [lia|]. unfold recv_allowed, set_preds. repeat (constructor; [exact I|]). constructor.
  - apply picks_all in PY; [|intros j _ _; split; unfold set_preds; allowed; discriminate]. subst ys. exists t, ms. split; [exact T|]. split; [|exact K].
    destruct EM as [SO EM]. split; [exact SO|]. intros e. rewrite EM. split; intros [IL (nh & p & PA & M)]; (split; [exact IL|]); exists nh, p; (split; [exact PA|]); apply (set_iff hash _ nh p (fst e) st0 HL (proj1 PA) S); exact M.
Qed.

(** ** Examples *)
Definition spt (c : N) (cs : list bytes) (ls : list (bytes * bytes)) (d : bytes) : point := PLink PRIVATE ex_domain c ls (wire_rooted cs) d.
Definition sgroup : bytes := repeat 7 32.
Definition st_all : LkStatus := mkStatus ex_domain sgroup (str "type") None (str "sq").
Definition st_one : LkStatus := with_instance st_all (Some (str "d")).
Lemma st_all_ok : status_ok st_all.
Proof. repeat (split; [first [reflexivity | vm_compute; discriminate | now apply bytes_okb]|]). exact I. Qed.
Lemma st_one_ok : status_ok st_one.
Proof. repeat (split; [first [reflexivity | vm_compute; discriminate | now apply bytes_okb]|]). now apply bytes_okb. Qed.
Lemma spt_ok c cs ls d : cs_okb cs = true -> c < 2 ^ 64 -> Forall SpecPkt.link_ok ls -> point_size (spt c cs ls d) <= 65024 -> forallb (fun x => x <? 256) (packet toy_hash ex_nh (spt c cs ls d)) = true -> well_point (spt c cs ls d).
Proof.
  intros C Hc L S B. destruct (rooted_of cs C) as (R & HS & DD). split.
  - split; [|now apply bytes_okb]. split; [exact S|]. split; [reflexivity|]. split; [reflexivity|]. split; [exact Hc|]. split; [exact L|exact R].
  - split; [|exact I]. intros rs E. injection E as <-. exists cs. auto.
Qed.
Ltac good_status := apply spt_ok; [vm_compute; reflexivity|reflexivity|repeat constructor|vm_compute; discriminate|vm_compute; reflexivity].
Definition ex_link : list (bytes * bytes) := [(repeat 0 12 ++ str "prev", repeat 1 32)].
Definition reply (c : N) (cs : list bytes) : point := spt c cs ex_link [99].
Definition request (c : N) (cs : list bytes) : point := spt c cs [] [].
Definition status_ex (k : N) (st : LkStatus) (ps : list point) : option (rt N * bool) :=
  match lk_status_watch N (count k) silent 100 None 9 no_faults toy st 50 101 101 102 ex_nh 0 (new_rt (store_all 100 ps) 0 101) with Ok r => Some r | _ => None end.
Definition after_ex (k : N) (st : LkStatus) (ps : list point) : rt N := match status_ex k st ps with Some (s, _) => s | None => new_rt empty_db 0 0 end.
Definition ex_before : list point := [reply 95 (status_place st_one); request 98 (status_place st_all)].
Definition ex_after : list point := [reply 101 (status_place st_one); request 101 (status_place st_one); reply 101 (status_place (with_instance st_all (Some (str "e"))))].
Definition ex_news : list (cmd N) := [save_points 102 ex_after; CProcess].
(** A reply and a request are in the store: the callback is called with the reply, then with the two later ones. *)
Example C77_ex : let s := new_rt (store_all 100 ex_before) 0 101 in let s1 := after_ex 0 st_all ex_before in let s' := run_ex 0 s1 ex_news in
  hash32 (hash toy) /\ status_ok st_all /\ reached (count 0) silent 100 None s /\
  lk_status_watch N (count 0) silent 100 None 9 no_faults toy st_all 50 101 101 102 ex_nh 0 s = Ok (s1, true) /\ exec (count 0) silent 100 None 9 Free s1 ex_news = Ok s' /\
  leave_alone (count 0) silent (st_qid st_all) ex_news /\ never_process (count 0) silent /\ pending_clear (st_qid st_all) s /\
  honest_store (hash toy) (r_snap s) (stored_list 100 ex_before) /\ valid_store (hash toy) (r_snap s') (stored_list 100 ex_before ++ stored_list 102 ex_after) /\
  Forall (fun e => 0 < fst e) (stored_list 102 ex_after) /\ r_now s1 + 1 < capped_sum 98 50 /\ r_db s1 = r_db s /\
  map fst (calls (st_qid st_all) (r_trace s')) = [100; 102; 104].
Proof.
  assert (B : Forall well_point ex_before) by (repeat (apply Forall_cons; [good_status|]); apply Forall_nil).
  assert (A : Forall well_point ex_after) by (repeat (apply Forall_cons; [good_status|]); apply Forall_nil).
  assert (H : honest_store toy_hash (store_all 100 ex_before) (stored_list 100 ex_before)) by (apply store_all_honest; [vm_compute; reflexivity|vm_compute; reflexivity|exact B]).
  cbv zeta. split; [exact toy_hash32|]. split; [exact st_all_ok|]. split; [apply (ex_reached 0 _ [] _ _ (proj1 (proj1 H)) 0 101); [reflexivity|vm_compute; reflexivity]|].
  split; [vm_compute; reflexivity|]. split; [apply run_ok; vm_compute; reflexivity|]. split; [apply silent_alone; repeat (constructor; [cbn; tauto|]); constructor|].
  split; [split; intros; constructor|]. split; [constructor|]. split; [exact H|].
  split. { replace (r_snap _) with (store_all 100 (ex_before ++ ex_after)) by (vm_compute; reflexivity). replace (_ ++ _) with (stored_list 100 (ex_before ++ ex_after)) by (vm_compute; reflexivity).
    apply store_all_honest; [vm_compute; reflexivity|vm_compute; reflexivity|apply Forall_app; auto]. }
  split; [repeat (constructor; [reflexivity|]); constructor|]. vm_compute. auto.
Qed.
(** Nothing is in the store: a request is made. *)
Example C77_asks_ex : status_ex 0 st_one [] <> None /\ map fst (log_t (r_db (after_ex 0 st_one []))) = [102] /\
  hash_t (r_db (after_ex 0 st_one [])) = [(toy_hash (content (request_point st_one 101)), 102)].
Proof. split; [vm_compute; discriminate|]. split; vm_compute; reflexivity. Qed.
(** A program whose replies have the given link. *)
Definition ex_update (u : N) (d g sp : bytes) (l : bytes * bytes) : N * outcome unit (NetPktParts * N) :=
  (u + 1, Ok (net_pkt (PLink g d u [l] sp [79; 75]), u)).
Definition ex_set : db * outcome StErr (rspace * TQuery * bytes * SetState N) := lk_status_set N ex_update no_faults st_one 110 (store_all 100 ex_before).
Definition ex_state : SetState N := match snd ex_set with Ok (_, _, _, c) => c | _ => ([], 0) end.
Definition ex_calls : list (N * bytes) := map answer (stored_list 200 [request 120 (status_place st_all); request 121 (status_place st_one); request 122 (status_place (with_instance st_all (Some (str "e")))); request 123 (status_place st_all)]).
Definition ex_handle := status_handle N ex_update no_faults st_one (wire_rooted (status_place st_one)).
Example C77_set_ex : status_ok (with_instance st_one None) /\ map fst (log_t (fst ex_set)) = [100; 101; 110] /\
  match snd ex_set with Ok (sp, q, id, c) => beqb sp (wire_rooted (status_place st_one)) && beqb id (str "sq") && beqb (fst c) (toy_hash (content (PLink PRIVATE ex_domain 110 [(repeat 0 12 ++ str "init", PRIVATE)] sp [79; 75]))) | _ => false end = true /\
  map (fun np => map snd (pkt_links np)) (saved ex_handle ex_state ex_calls) = map (fun h => [h]) (fst ex_state :: removelast (map np_hash (saved ex_handle ex_state ex_calls))) /\
  lenN (saved ex_handle ex_state ex_calls) = 3.
Proof. split; [exact st_all_ok|]. split; [vm_compute; reflexivity|]. split; [vm_compute; reflexivity|]. split; vm_compute; reflexivity. Qed.

(** ** What does not hold *)
(** A recent reply is in the store, but the callback is not called with it: the search in the tree skips it (C33). *)
Theorem C77_found_refuted : exists st ps e s1, honest_store toy_hash (store_all 100 ps) (stored_list 100 ps) /\ status_ok st /\ In e (stored_list 100 ps) /\ reply_packet toy_hash st 50 101 (2 ^ 64) e /\
  status_ex 0 st ps = Some (s1, false) /\ calls (st_qid st) (r_trace s1) = [].
Proof.
  set (p := reply 95 (status_place st_one)). exists st_all, [p; request 96 [255 :: str "zz"; sgroup; str "other"; str "d"]], (100, net_pkt p).
  set (ps := [p; _]). assert (B : Forall well_point ps) by (subst ps p; repeat (apply Forall_cons; [good_status|]); apply Forall_nil).
  exists (after_ex 0 st_all ps). split; [apply store_all_honest; [vm_compute; reflexivity|vm_compute; reflexivity|exact B]|]. split; [exact st_all_ok|]. split; [now left|]. split; [|split; vm_compute; reflexivity].
  exists ex_nh, p. split; [apply at_point; [now inversion B as [|? ? [G _] _]|reflexivity]|]. split; [|split; [exists 95; split; reflexivity|split; [split; discriminate|reflexivity]]].
  exists 95, ex_link, (wire_rooted (status_place st_one)), [99], [str "d"]. split; [left; reflexivity|]. split; [apply (has_wire (status_place st_one)); exact (status_place_ok st_one st_one_ok)|vm_compute; discriminate].
Qed.
(** No request for all instances was made, and none is made: one for a single instance suffices. *)
Theorem C77_asks_refuted : exists st ps s1, honest_store toy_hash (store_all 100 ps) (stored_list 100 ps) /\ status_ok st /\
  ~ In (wire_rooted (status_place st)) (map (fun e => get_rspace (snd e)) (stored_list 100 ps)) /\
  status_ex 0 st ps = Some (s1, false) /\ r_db s1 = store_all 100 ps.
Proof.
  set (ps := [request 98 (status_place st_one)]). exists st_all, ps, (after_ex 0 st_all ps). assert (B : Forall well_point ps) by (subst ps; repeat (apply Forall_cons; [good_status|]); apply Forall_nil).
  split; [apply store_all_honest; [vm_compute; reflexivity|vm_compute; reflexivity|exact B]|]. split; [exact st_all_ok|]. split; [intros [H|[]]; vm_compute in H; discriminate|]. split; vm_compute; reflexivity.
Qed.
(** A callback that breaks on a packet in the store is called again with later ones. *)
Theorem C77_break_refuted : exists st ps cs s1, status_ok st /\ status_ex 1 st ps = Some (s1, true) /\
  map fst (calls (st_qid st) (r_trace s1)) = [100] /\ map fst (calls (st_qid st) (r_trace (run_ex 1 s1 cs))) = [100; 104].
Proof.
  exists st_all, [reply 95 (status_place st_one); request 98 (status_place st_all)]. exists [CTick 102; CTick 103; save_points 104 [reply 101 (status_place st_one)]; CProcess], (after_ex 1 st_all ex_before).
  split; [exact st_all_ok|]. split; [vm_compute; reflexivity|]. split; vm_compute; reflexivity.
Qed.
(** The time to wait is counted from the oldest request that was seen. *)
Theorem F96_oldest_request_counts : exists st ps cs s1, status_ok st /\ status_ex 0 st ps = Some (s1, false) /\ In (request 98 (status_place st)) ps /\
  calls (st_qid st) (r_trace (run_ex 0 s1 cs)) = [] /\ r_now (run_ex 0 s1 cs) < 98 + 50 /\ In (save_points 103 [reply 101 (status_place st_one)]) cs /\ local_below (st_domain st) (status_place st) (reply 101 (status_place st_one)).
Proof.
  exists st_all, [request 52 (status_place st_all); request 98 (status_place st_all)], [save_points 103 [reply 101 (status_place st_one)]; CProcess], (after_ex 0 st_all [request 52 (status_place st_all); request 98 (status_place st_all)]).
  split; [exact st_all_ok|]. split; [vm_compute; reflexivity|]. split; [right; now left|]. split; [vm_compute; reflexivity|]. split; [vm_compute; reflexivity|]. split; [now left|].
  exists 101, ex_link, (wire_rooted (status_place st_one)), [99], [str "d"]. split; [left; reflexivity|]. split; [apply (has_wire (status_place st_one)); exact (status_place_ok st_one st_one_ok)|vm_compute; discriminate].
Qed.
(** A point in another group and domain is taken for a request. *)
Theorem C77_set_local_refuted : exists st q p, status_ok st /\ status_set_query st = Ok q /\ packet_of toy_hash (packet toy_hash ex_nh p) ex_nh p /\
  passes (q_preds q) (packet toy_hash ex_nh p) 5 /\ num_field toy_hash GroupIDF ex_nh p <> Some 0 /\ num_field toy_hash DomainF ex_nh p <> Some (be_decode (st_domain st)).
Proof.
  set (p := PLink (repeat 1 32) (repeat 2 16) 7 [] (wire_rooted (status_place st_all)) []).
  assert (PK : packet_of toy_hash (packet toy_hash ex_nh p) ex_nh p).
  { destruct (rooted_of (status_place st_all) eq_refl) as (R & _). split; [reflexivity|]. split; [reflexivity|]. split; [|apply bytes_okb; vm_compute; reflexivity]. split; [vm_compute; discriminate|]. split; [reflexivity|]. split; [reflexivity|]. split; [reflexivity|]. split; [constructor|exact R]. }
  destruct (C77_set_accepts_partial toy_hash st_all _ _ _ 5 toy_hash32 st_all_ok PK eq_refl) as (q & Q & _ & A). exists st_all, q, p. split; [exact st_all_ok|]. split; [exact Q|]. split; [exact PK|]. split; [|split; vm_compute; discriminate].
  apply A. exists (wire_rooted (status_place st_all)), []. split; [reflexivity|]. split; [rewrite app_nil_r; apply has_wire; exact (status_place_ok st_all st_all_ok)|]. split; [vm_compute; discriminate|split; reflexivity].
Qed.
(** A request below an instance is answered. *)
Theorem F97_deeper_requests_answered : exists r, snd (ex_handle ex_state r) <> [] /\ get_rspace (snd (100, net_pkt (request 98 (status_place st_one ++ [[120]])))) = wire_rooted (status_place st_one ++ [[120]]) /\ r = answer (100, net_pkt (request 98 (status_place st_one ++ [[120]]))).
Proof. exists (answer (100, net_pkt (request 98 (status_place st_one ++ [[120]])))). split; [vm_compute; discriminate|]. split; reflexivity. Qed.
Print Assumptions C77_space.
Print Assumptions C77_space_injective.
Print Assumptions C77_request.
Print Assumptions C77_overwatch.
Print Assumptions C77_watch_partial.
Print Assumptions C77_set_accepts_partial.
Print Assumptions C77_answers.
Print Assumptions C77_only_replies.
Print Assumptions C77_chain.
Print Assumptions C77_set.
Print Assumptions C77_set_watch.
Print Assumptions C77_found_refuted.
Print Assumptions C77_asks_refuted.
Print Assumptions C77_break_refuted.
Print Assumptions C77_set_local_refuted.
Print Assumptions F96_oldest_request_counts.
Print Assumptions F97_deeper_requests_answered.
