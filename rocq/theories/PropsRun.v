(** C72: lk_process_while. *)
From Coq Require Import Lia Sorting.Sorted.
From Verif Require Import Bytes ModelPkt SpecPkt ModelTestSet SpecTestSet ProofTestSet ModelStore SpecStore ProofStore PropsPkt PropsStore ModelPred SpecPred ProofPred ProofPred2 PropsPred.
From Verif Require Import ModelQuery SpecQuery ProofQuery ExStore PropsQuery ModelWatch SpecWatch ProofWatch ProofWatch2 PropsWatch ModelRun SpecRun ProofRun ProofRun2.

Section Runs.
Variable C : Type.
Variable handle : C -> N * bytes -> C * bool * list (cmd C).
Variable stopped : C -> StopReason -> list (cmd C).
Variable qfuel : nat.
Variable stale : option entry.
Variable depth : nat.
Variable hash : bytes -> bytes.
Hypothesis HL : hash32 hash.
Notation reach := (reached handle stopped qfuel stale).
Notation run := (run_while C handle stopped qfuel stale depth).

(** It refuses exactly when there is no watch of that id. *)
Theorem C72_refuses last q ts s : run last q ts s = None <-> exists id, q = Some id /\ forall w, In w (r_cbs s) -> w_qid w <> id.
Proof.
  unfold run_while, watch_status. destruct q as [id|]; [|split; [discriminate|intros (id & E & _); discriminate]].
  pose proof (find_watch_in id (r_cbs s)) as F. destruct (find_watch id (r_cbs s)) as [w|].
  - split; [discriminate|]. intros (id' & E & H). injection E as <-. destruct F as [F1 F2]. destruct (H w F1 F2).
  - split; [|reflexivity]. intros _. exists id. auto.
Qed.
(** What the numbers mean: 1, the watch was removed or replaced (or, without an id, none is left); -1, it is
    still there and was matched; 0, the time is over and it was not matched. Nothing else is returned. *)
Theorem C72_result last q ts s s' z dr : reach s -> run last q ts s = Some (Ok (Returned s' z dr)) ->
  match q with
  | None => z = 1%Z /\ r_cbs s' = [] \/ z = 0%Z /\ exists l, last = Some l /\ l < r_now s'
  | Some id => exists w, In w (r_cbs s) /\ w_qid w = id /\
      (z = 1%Z /\ ended s' id (w_id w) \/
       z = (-1)%Z /\ (exists n, still s' id (w_id w) n /\ n <> w_nthq w) \/
       z = 0%Z /\ still s' id (w_id w) (w_nthq w) /\ exists l, last = Some l /\ l < r_now s')
  end.
Proof.
  intros RE E. apply reached_inv in RE. unfold run_while, watch_status in E. destruct q as [id|].
  - pose proof (find_watch_in id (r_cbs s)) as F. destruct (find_watch id (r_cbs s)) as [w|]; [|discriminate]. destruct F as [F1 F2].
    assert (L : run_loop C handle stopped qfuel stale depth (r_now s) last (Some (id, (w_id w, w_nthq w))) ts s [] = Ok (Returned s' z dr)) by congruence.
    apply loop_verdict in L; [|exact RE]. cbn in L. exists w. split; [exact F1|]. split; [exact F2|].
    destruct L as [[-> L]|[[-> (q0 & i0 & n0 & n' & Q & S & N)]|[-> [L S]]]].
    + auto.
    + right; left. split; [reflexivity|]. exists n'. assert (q0 = id) by congruence. assert (i0 = w_id w) by congruence. assert (n0 = w_nthq w) by congruence. subst. auto.
    + right; right. split; [reflexivity|]. split; [apply S; reflexivity|exact L].
  - assert (L : run_loop C handle stopped qfuel stale depth (r_now s) last None ts s [] = Ok (Returned s' z dr)) by congruence.
    apply loop_verdict in L; [|exact RE]. cbn in L. destruct L as [[-> L]|[[-> (q0 & i0 & n0 & n' & Q & _)]|[-> [L S]]]]; auto; discriminate.
Qed.
(** While it waits there is nothing pending and some watch, none of them past its last receive stamp; it will wait no longer
    than until the given time or the first time a watch ends. *)
Theorem C72_waits last q ts s s' d dr : reach s -> run last q ts s = Some (Ok (Asleep s' d dr)) ->
  r_pend s' = [] /\ r_cbs s' <> [] /\ (forall l, last = Some l -> r_now s' <= l /\ d <= l) /\
  forall w, In w (r_cbs s') -> r_now s' < high (p_recv (w_pred w)) /\ (high (p_recv (w_pred w)) < 2 ^ 64 - 1 -> d <= high (p_recv (w_pred w))).
Proof.
  intros RE E. apply reached_inv in RE. unfold run_while in E. destruct q as [id|].
  - destruct (watch_status C s id) as [st|]; [|discriminate]. assert (L : run_loop C handle stopped qfuel stale depth (r_now s) last (Some (id, st)) ts s [] = Ok (Asleep s' d dr)) by congruence.
    apply loop_verdict in L; [|exact RE]. exact L.
  - assert (L : run_loop C handle stopped qfuel stale depth (r_now s) last None ts s [] = Ok (Asleep s' d dr)) by congruence.
    apply loop_verdict in L; [|exact RE]. exact L.
Qed.
(** The timeout of the call: 0 is returned only later than that after the call, and never with no timeout; it waits no longer than that. *)
Theorem C72_timeout q timeout ts s r : reach s -> lk_process_while C handle stopped qfuel stale depth q timeout ts s = Some (Ok r) ->
  match r with
  | Returned s' z _ => z = 0%Z -> timeout <> 0 /\ r_now s + timeout < r_now s'
  | Asleep s' d _ => timeout <> 0 -> r_now s' <= r_now s + timeout /\ d <= r_now s + timeout
  | Going _ _ => True
  end.
Proof.
  intros RE E. unfold lk_process_while in E. set (last := if timeout =? 0 then None else Some (r_now s + timeout)) in E.
  assert (LT : forall l, last = Some l -> timeout <> 0 /\ l = r_now s + timeout) by (intros l; unfold last; destruct (N.eqb_spec timeout 0); [discriminate|intros [= <-]; auto]).
  destruct r as [s' z dr|s' d dr|s' dr]; [| |exact Logic.I].
  - intros ->. assert (exists l, last = Some l /\ l < r_now s') as (l & E1 & L).
    { apply C72_result in E; [|exact RE]. destruct q as [id|]; [destruct E as (w & _ & _ & [[E _]|[[E _]|(_ & _ & E)]])|destruct E as [[E _]|[_ E]]]; try discriminate; exact E. }
    apply LT in E1 as [T ->]. auto.
  - intros T. apply C72_waits in E; [|exact RE]. destruct E as (_ & _ & E & _). apply E. unfold last. destruct (N.eqb_spec timeout 0); [contradiction|reflexivity].
Qed.
(** As long as no watch is past its last receive stamp, it does what lk_process does whenever it is awake, and nothing else:
    C36 to C40 hold for it. *)
Theorem C72_processes last q ts s r : run last q ts s = Some (Ok r) -> gone r = [] ->
  exists cs, Forall serving cs /\ exec handle stopped qfuel stale (S depth) Free s (CProcess :: cs) = Ok (final r).
Proof.
  intros E G. unfold run_while in E. destruct q as [id|].
  - destruct (watch_status C s id) as [st|]; [|discriminate]. assert (L : run_loop C handle stopped qfuel stale depth (r_now s) last (Some (id, st)) ts s [] = Ok r) by congruence.
    exact (proj2 (loop_cmds _ _ _ _ _ _ _ _ _ _ _ _ _ L G)).
  - assert (L : run_loop C handle stopped qfuel stale depth (r_now s) last None ts s [] = Ok r) by congruence. exact (proj2 (loop_cmds _ _ _ _ _ _ _ _ _ _ _ _ _ L G)).
Qed.
(** In terms of packets: -1 exactly when packets matching the query have come, and 0 when none has. *)
Theorem C72_matched q last ts s s' z w rs l0 l1 : reach s -> run last (Some q) ts s = Some (Ok (Returned s' z [])) ->
  leave_alone handle stopped q [] -> pending_clear q s -> find_watch q (r_cbs s) = Some w -> accepted rs (w_pred w) ->
  represents (r_snap s) l0 -> valid_store hash (r_snap s') (l0 ++ l1) -> spaces_clear hash (l0 ++ l1) rs ->
  Forall (fun e => 0 < fst e) l1 -> w_nthn w + lenN l1 < 2 ^ 32 -> w_nthq w + lenN l1 < 2 ^ 32 ->
  exists ms xs, exactly l1 (matches hash rs) (recv_before true) ms /\ picks (new_position rs (w_nthn w) (w_nthq w)) 0 (map answer ms) xs /\
    watch_after rs w l1 ms (snd (until_break handle (w_ctx w) xs)) (find_watch q (r_cbs s')) /\
    (z = (-1)%Z -> ms <> []) /\ (z = 0%Z -> ms = []).
Proof.
  intros RE E LA PC F AC R0 VS SC POS NN NQ.
  destruct (C72_processes _ _ _ _ _ E eq_refl) as (cs & SV & X). cbn [final] in X.
  assert (LA' : leave_alone handle stopped q (CProcess :: cs)).
  { destruct LA as (_ & L1 & L2). split; [|split; assumption]. constructor; [cbn; tauto|]. eapply Forall_impl; [|exact SV]. intros [ | | | | ]; cbn; tauto. }
  destruct (C38_removed_only_when_done C handle stopped qfuel stale hash HL q _ _ _ _ w rs l0 l1 RE X LA' PC F AC R0 VS SC POS NN NQ) as (ms & xs & EM & PK & WA).
  exists ms, xs. split; [exact EM|]. split; [exact PK|]. split; [exact WA|].
  assert (I' : by_id (r_cbs s')) by (apply reached_inv in RE; exact (proj1 (proj1 (exec_step C handle stopped qfuel stale _ _ _ _ _ X RE)))).
  destruct (C72_result _ _ _ _ _ _ _ RE E) as (w0 & W1 & W2 & R).
  pose proof (find_watch_in q (r_cbs s)) as FW. rewrite F in FW. destruct FW as [FW1 FW2].
  assert (w0 = w) by (apply reached_inv in RE; apply (by_id_unique (r_cbs s)); [exact (proj1 RE)|exact W1|exact FW1|congruence]). subst w0.
  assert (K : forall n, still s' q (w_id w) n -> n = w_nthq w + lenN ms).
  { intros n (w' & A & B & _ & D). pose proof (find_watch_in q (r_cbs s')) as G. revert G WA. destruct (find_watch q (r_cbs s')) as [w2|]; intros G WA; [|destruct (G w' A B)].
    destruct G as [G1 G2]. assert (w2 = w') by (apply (by_id_unique (r_cbs s')); [exact I'|exact G1|exact A|congruence]). subst w2. unfold watch_after in WA. destruct WA as (_ & _ & _ & _ & WA & _). rewrite <- D. exact WA. }
  split; intros ->.
  - destruct R as [[R _]|[[_ (n & S & N)]|[R _]]]; try discriminate. apply K in S. intros ->. apply N. rewrite S. apply N.add_0_r.
  - destruct R as [[R _]|[[R _]|[_ [S _]]]]; try discriminate. apply K in S. destruct ms; [reflexivity|]. rewrite lenN_cons in S. lia.
Qed.
(** If the callbacks save nothing and nobody else saves between its look at the log and its wait, then it waits with everything
    that is stored in view (and so delivered: C36). That this holds without these conditions is refuted below. *)
Theorem C72_no_backlog_partial last q ts s s' d dr : reach s -> never_save handle stopped -> quiet_mid ts ->
  run last q ts s = Some (Ok (Asleep s' d dr)) -> r_snap s' = r_db s' /\ r_upto s' = log_head (r_db s').
Proof.
  intros RE NS QM E. apply reached_inv in RE. unfold run_while in E. destruct q as [id|].
  - destruct (watch_status C s id) as [st|]; [|discriminate]. assert (L : run_loop C handle stopped qfuel stale depth (r_now s) last (Some (id, st)) ts s [] = Ok (Asleep s' d dr)) by congruence.
    eapply loop_view; eauto.
  - assert (L : run_loop C handle stopped qfuel stale depth (r_now s) last None ts s [] = Ok (Asleep s' d dr)) by congruence. eapply loop_view; eauto.
Qed.
(** With commands pending and nothing new it goes round and round without waiting (F25 says when this happens). *)
Theorem F86_spins ts s : quiet_mid ts -> r_pend s <> [] -> log_head (r_db s) <= r_upto s ->
  exists s', run None None ts s = Some (Ok (Going s' [])).
Proof.
  unfold run_while. generalize (r_now s) as t0. revert s. induction ts as [|t ts IH]; intros s t0 Q P L; cbn [run_loop]; unfold process at 1;
    (destruct (N.leb_spec (log_head (r_db s)) (r_upto s)); [|lia]); cbn [obind check_watch].
  - eauto.
  - inversion Q as [|? ? Q1 Q2]; subst. set (s2 := others (set_snap s (r_db s)) (t_mid t)).
    destruct (others_cbs C (t_mid t) (set_snap s (r_db s))) as (_ & O2 & _). fold s2 in O2.
    assert (D : r_db s2 = r_db s) by (exact (quiet_others C (t_mid t) (set_snap s (r_db s)) Q1)).
    assert (U : forall l (x : rt C), r_upto (others x l) = r_upto x).
    { induction l as [|o l IHl]; intros x; [reflexivity|]. change (others x (o :: l)) with (others (outside1 x o) l). rewrite IHl. destruct o as [f nw ps|nw]; cbn [outside1]; [destruct (save f nw (r_db x) ps) as [[dd xx] yy]|]; reflexivity. }
    unfold next_work. assert (P2 : r_pend s2 <> []) by (rewrite O2; exact P). destruct (r_pend s2) as [|y r] eqn:E; [contradiction|].
    cbn [app]. apply IH; [exact Q2|rewrite E; discriminate|]. rewrite D. unfold s2. rewrite U. exact L.
Qed.
End Runs.
Print Assumptions C72_refuses.
Print Assumptions C72_result.
Print Assumptions C72_waits.
Print Assumptions C72_processes.
Print Assumptions C72_matched.
Print Assumptions C72_no_backlog_partial.
Print Assumptions F86_spins.

(** ** Examples *)
Definition osave (now : N) (ps : list point) : outside := OSave no_faults now (map (fun p => (net_pkt p, Pending)) ps).
Definition watching : rt N := run_ex 0 ex_old [w_all id1 [is_group]; w_all id2 recv_upto].
Lemma watching_reached : reached (count 0) silent 100 None watching.
Proof. apply (ex_reached 0 _ [w_all id1 [is_group]; w_all id2 recv_upto] _ _ ex_old_represents 0 50); [reflexivity|vm_compute; reflexivity]. Qed.
Definition brief (r : option (outcome TestErr (ran N))) : option (Z * N * list bytes * list N) :=
  match r with
  | Some (Ok (Returned s z dr)) => Some (z, 0, map (fun w => w_qid w) (r_cbs s), map fst (calls id1 (r_trace s)))
  | Some (Ok (Asleep s d dr)) => Some (7%Z, d, map (fun w => w_qid w) (r_cbs s), map fst (calls id1 (r_trace s)))
  | Some (Ok (Going s dr)) => Some (8%Z, 0, map (fun w => w_qid w) (r_cbs s), map fst (calls id1 (r_trace s)))
  | _ => None
  end.
Notation ex_run := (run_while N (count 0) silent 100 None 8).
(** Matched after a packet that does not match; over time; still waiting, until the other watch ends; no such watch. *)
Example C72_ex :
  brief (ex_run None (Some id1) [mkTurn [] (Woken [osave 101 [PData [9]]]); mkTurn [] (Woken [osave 104 ex_rest])] watching) = Some ((-1)%Z, 0, [id1], [102; 100; 104; 105; 106; 107]) /\
  brief (ex_run (Some 60) (Some id1) [mkTurn [] (TimedOut []); mkTurn [OTick 61] Sleeps] watching) = Some (0%Z, 0, [id1; id2], [102; 100]) /\
  brief (ex_run None (Some id1) [mkTurn [] Sleeps] watching) = Some (7%Z, 104, [id1; id2], [102; 100]) /\
  ex_run None (Some [1]) [] watching = None /\
  brief (run_while N (count 3) silent 100 None 8 None (Some id1) [mkTurn [] (Woken [osave 103 ex_rest])] (run_ex 3 ex_old [w_all id1 [is_group]])) = Some (1%Z, 0, [], [102; 100; 103]).
Proof. vm_compute. repeat split; try reflexivity. Qed.
Example C72_reached_ex : reached (count 0) silent 100 None watching /\ never_save (count 0) silent /\ pending_clear id1 watching /\ leave_alone (count 0) silent id1 [].
Proof. split; [exact watching_reached|]. split; [split; intros; constructor|]. split; [vm_compute; constructor|]. apply silent_alone. constructor. Qed.

Example C72_matched_ex : let s := run_ex 0 ex_old [w_all id1 [is_group]] in exists s' w,
  reached (count 0) silent 100 None s /\ ex_run None (Some id1) [mkTurn [] (Woken [osave 103 ex_rest])] s = Some (Ok (Returned s' (-1) [])) /\
  find_watch id1 (r_cbs s) = Some w /\ accepted [is_group] (w_pred w) /\ represents (r_snap s) ex_old_list /\ valid_store toy_hash (r_snap s') (ex_old_list ++ ex_new_list) /\
  spaces_clear toy_hash (ex_old_list ++ ex_new_list) [is_group] /\ Forall (fun e => 0 < fst e) ex_new_list /\ w_nthn w = 0 /\ w_nthq w = 2.
Proof.
  cbv zeta. eexists. eexists. split; [apply (ex_reached 0 _ [w_all id1 [is_group]] _ _ ex_old_represents 0 50); [reflexivity|vm_compute; reflexivity]|].
  split; [vm_compute; reflexivity|]. split; [vm_compute; reflexivity|]. split. { match goal with |- accepted _ ?p => replace p with (compiled [is_group]) by (vm_compute; reflexivity) end. exact is_group_accepted. }
  split; [exact ex_old_represents|]. rewrite ex_split.
  split. { match goal with |- valid_store _ ?p _ => replace p with ex_db by (vm_compute; reflexivity) end. apply ex_honest. }
  split; [apply depth_clear; exists ex_db; exact ex_honest|]. split; [repeat (constructor; [reflexivity|]); constructor|]. split; vm_compute; reflexivity.
Qed.

(** The runtime sleeps although a packet for a watch is stored: it was saved after the log was looked at and before the wait began. *)
Theorem C72_lost_wakeup_refuted : exists s ts s' d e, reached (count 0) silent 100 None s /\ ex_run None (Some id1) ts s = Some (Ok (Asleep s' d [])) /\
  In e ex_new_list /\ matches toy_hash [is_group] e /\ represents (r_db s') ex_list /\ find_watch id1 (r_cbs s') <> None /\ ~ In (answer e) (calls id1 (r_trace s')) /\ d = 50 + (2 ^ 64 - 1).
Proof.
  exists (run_ex 0 ex_old [w_all id1 [is_group]]), [mkTurn [osave 103 ex_rest] Sleeps]. eexists. eexists. exists (103, net_pkt p_ax).
  split; [apply (ex_reached 0 _ [w_all id1 [is_group]] _ _ ex_old_represents 0 50); [reflexivity|vm_compute; reflexivity]|].
  split; [vm_compute; reflexivity|]. split; [left; vm_compute; reflexivity|]. split.
  { exists ex_nh, p_ax. split; [apply at_point; [apply ex_well; cbn; tauto|reflexivity]|]. constructor; [exists (be_decode ex_group); split; reflexivity|constructor]. }
  split; [|split; [vm_compute; discriminate|split; [vm_compute; intuition discriminate|reflexivity]]].
  match goal with |- represents ?d _ => replace d with ex_db by (vm_compute; reflexivity) end. apply ex_honest.
Qed.
Print Assumptions C72_lost_wakeup_refuted.
(** Also without anyone else: the packets saved by a callback are not noticed. *)
Definition saving (c : N) (r : N * bytes) : N * bool * list (cmd N) := (c + 1, false, if c =? 2 then [save_points 104 [p_bx']] else []).
Theorem C72_own_save_refuted : exists s s' e, reached saving silent 100 None s /\ run_while N saving silent 100 None 8 None None [mkTurn [] Sleeps] s = Some (Ok (Asleep s' (50 + (2 ^ 64 - 1)) [])) /\
  matches toy_hash [is_group] e /\ In (answer e) (log_t (r_db s')) /\ find_watch id1 (r_cbs s') <> None /\ ~ In (answer e) (calls id1 (r_trace s')).
Proof.
  exists (match exec saving silent 100 None 9 Free ex_old [w_all id1 [is_group]; save_points 103 [p_ax]] with Ok s => s | _ => ex_old end). eexists. exists (104, net_pkt p_bx').
  split. { exists (store_all 100 ex_first), ex_old_list, 0, 50, 9%nat, [w_all id1 [is_group]; save_points 103 [p_ax]]. split; [exact ex_old_represents|vm_compute; reflexivity]. }
  split; [vm_compute; reflexivity|]. split.
  { exists ex_nh, p_bx'. split; [apply at_point; [apply ex_well; cbn; tauto|reflexivity]|]. constructor; [exists (be_decode ex_group); split; reflexivity|constructor]. }
  split; [vm_compute; tauto|]. split; [vm_compute; discriminate|vm_compute; intuition discriminate].
Qed.
Print Assumptions C72_own_save_refuted.
(** It goes on waiting after its watch was dropped because no later receive stamp is allowed, as long as there is another watch;
    and the dropped watch is not told. *)
Theorem C72_dropped_refuted : exists s ts s' d dr, reached (count 0) silent 100 None s /\ ex_run None (Some id2) ts s = Some (Ok (Asleep s' d dr)) /\ find_watch id2 (r_cbs s) <> None /\
  (forall w, In w (r_cbs s') -> w_qid w <> id2) /\ map (fun w => w_qid w) dr = [id2] /\ d = 50 + (2 ^ 64 - 1) /\ r_trace s' = r_trace s.
Proof.
  exists watching, [mkTurn [] (TimedOut []); mkTurn [] Sleeps]. eexists. eexists. eexists.
  split; [exact watching_reached|]. split; [vm_compute; reflexivity|]. split; [vm_compute; discriminate|].
  split; [intros w [<-|[]]; discriminate|]. split; [reflexivity|]. split; [reflexivity|vm_compute; reflexivity].
Qed.
Print Assumptions C72_dropped_refuted.
(** F87: a packet stored in time is never given to a watch that is dropped before the log is looked at again. *)
Theorem F87_dropped_before_delivery : exists s ts s' d dr e, reached (count 0) silent 100 None s /\ ex_run None None ts s = Some (Ok (Asleep s' d dr)) /\
  find_watch id2 (r_cbs s) <> None /\ In (answer e) (log_t (r_snap s')) /\ fst e < 105 /\ matches toy_hash recv_upto e /\ ~ In (answer e) (calls id2 (r_trace s')).
Proof.
  exists watching, [mkTurn [osave 103 [p_ax]; OTick 104] (Woken []); mkTurn [] Sleeps]. eexists. eexists. eexists. exists (103, net_pkt p_ax).
  split; [exact watching_reached|]. split; [vm_compute; reflexivity|]. split; [vm_compute; discriminate|]. split; [vm_compute; tauto|]. split; [reflexivity|]. split.
  - exists ex_nh, p_ax. split; [apply at_point; [apply ex_well; cbn; tauto|reflexivity]|]. constructor; [exists (be_decode ex_group); split; reflexivity|]. constructor; [cbn; lia|constructor].
  - vm_compute. intuition discriminate.
Qed.
Print Assumptions F87_dropped_before_delivery.
Example F86_ex : exists s, reached (count 0) then_watch 100 None s /\ r_pend s <> [] /\ log_head (r_db s) <= r_upto s.
Proof. destruct F25_ex as (s & R & P & L). exists s. split; [exact R|]. split; [|exact L]. intros E. rewrite E in P. discriminate. Qed.
Print Assumptions C72_timeout.
(** Called at 50 with a timeout of 10: at 61 it returns 0, before that it would wait until 60. *)
Example C72_timeout_ex : r_now watching = 50 /\ (exists s', lk_process_while N (count 0) silent 100 None 8 (Some id1) 10 [mkTurn [] (TimedOut []); mkTurn [OTick 61] Sleeps] watching = Some (Ok (Returned s' 0%Z [])) /\ r_now s' = 61) /\
  (exists s', lk_process_while N (count 0) silent 100 None 8 (Some id1) 10 [mkTurn [] Sleeps] watching = Some (Ok (Asleep s' 60 []))).
Proof. split; [vm_compute; reflexivity|]. split; eexists; [split|]; vm_compute; reflexivity. Qed.
