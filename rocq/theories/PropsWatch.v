(** Properties of watches and of lk_get_all: C36-C40, C61. *)
From Coq Require Import Sorting.Sorted.
From Verif Require Import Bytes ModelPkt SpecPkt ModelTestSet SpecTestSet ProofTestSet ModelStore SpecStore ProofStore PropsPkt PropsStore ModelPred SpecPred ProofPred ProofPred2 PropsPred.
From Verif Require Import ModelQuery SpecQuery ProofQuery ProofQuery2 ProofQuery3 ProofQuery4 ExStore PropsQuery ModelWatch SpecWatch ProofWatch ProofWatch2 ProofWatch3 ProofWatch4 ProofWatch5 ProofWatch6 ProofWatch7.

(** ** Examples: callbacks that count their calls *)
(** The callback breaks at the [k]-th call (never, for 0) and gives no commands. *)
Definition count (k : N) (c : N) (r : N * bytes) : N * bool * list (cmd N) := (c + 1, c + 1 =? k, []).
Definition silent (c : N) (x : StopReason) : list (cmd N) := [].
Definition run_ex (k : N) (s : rt N) (cs : list (cmd N)) : rt N := match exec (count k) silent 100 None 9 Free s cs with Ok s' => s' | _ => new_rt empty_db 0 0 end.
Definition exec_okb (k : N) (s : rt N) (cs : list (cmd N)) : bool := match exec (count k) silent 100 None 9 Free s cs with Ok _ => true | _ => false end.
Lemma run_ok k s cs : exec_okb k s cs = true -> exec (count k) silent 100 None 9 Free s cs = Ok (run_ex k s cs).
Proof. unfold exec_okb, run_ex. now destruct (exec _ _ _ _ _ _ s cs). Qed.
Definition save_points (now : N) (ps : list point) : cmd N := CSave no_faults now (map (fun p => (net_pkt p, Pending)) ps).
Definition id1 : bytes := [113; 49].
Definition id2 : bytes := [113; 50].
Definition w_all (q : bytes) (rs : list Predicate) : cmd N := CWatch q THash true (compiled rs) 0.
Definition s_empty : rt N := new_rt empty_db 0 50.

(** ** C36: a watch sees every new matching packet once, in order *)
Section Runs.
Variable C : Type.
Variable handle : C -> N * bytes -> C * bool * list (cmd C).
Variable stopped : C -> StopReason -> list (cmd C).
Variable qfuel : nat.
Variable stale : option entry.
Variable hash : bytes -> bytes.
Hypothesis HL : hash32 hash.
Notation runs fuel s cs s' := (exec handle stopped qfuel stale fuel Free s cs = Ok s').
Notation reach := (reached handle stopped qfuel stale).

Lemma until_all xs : never_breaks handle -> forall c, fst (until_break handle c xs) = xs /\ exists c', snd (until_break handle c xs) = Some c'.
Proof.
  intros NB. induction xs as [|x xs IH]; intros c; cbn [until_break]; [cbn; eauto|]. pose proof (NB c x) as B. destruct (handle c x) as [[c1 b] cs]. cbn [fst snd] in B. subst b.
  destruct (IH c1) as [A (c' & B)]. destruct (until_break handle c1 xs) as [l o]. cbn [fst snd] in *. subst. eauto.
Qed.

(** Whatever commands are given (saves, lk_process, other watches and stops, also from the
    callbacks), as long as none is about the watch [q]: it is called with exactly the matching
    packets that came into view, in the order they were stored, at the positions its limits
    allow, until its callback breaks. *)
Theorem C36_delivery q fuel s cs s' w rs l0 l1 : reach s -> runs fuel s cs s' -> leave_alone handle stopped q cs -> pending_clear q s ->
  find_watch q (r_cbs s) = Some w -> accepted rs (w_pred w) ->
  represents (r_snap s) l0 -> valid_store hash (r_snap s') (l0 ++ l1) -> spaces_clear hash (l0 ++ l1) rs ->
  Forall (fun e => 0 < fst e) l1 -> w_nthn w + lenN l1 < 2 ^ 32 -> w_nthq w + lenN l1 < 2 ^ 32 ->
  exists t ms xs, r_trace s' = r_trace s ++ t /\ exactly l1 (matches hash rs) (recv_before true) ms /\
    picks (new_position rs (w_nthn w) (w_nthq w)) 0 (map answer ms) xs /\ calls q t = fst (until_break handle (w_ctx w) xs).
Proof.
  intros RE E LA PC F AC R0 VS SC POS NN NQ. apply reached_inv in RE.
  destruct (delivers C handle stopped qfuel stale hash q fuel s cs s' w rs l0 l1 HL RE E LA PC AC R0 VS SC POS NN NQ) as (t & ms & T & _ & _ & EM & _ & KP & _ & D).
  exists t, ms, (kept (w_pred w) (w_nthn w) (w_nthq w) (map answer ms)). destruct (D F) as [D1 _]. auto.
Qed.
(** Without limits and with a callback that never breaks: with all of them. *)
Theorem C36_every_packet_once q fuel s cs s' w rs l0 l1 : reach s -> runs fuel s cs s' -> leave_alone handle stopped q cs -> pending_clear q s ->
  find_watch q (r_cbs s) = Some w -> accepted rs (w_pred w) ->
  represents (r_snap s) l0 -> valid_store hash (r_snap s') (l0 ++ l1) -> spaces_clear hash (l0 ++ l1) rs ->
  Forall (fun e => 0 < fst e) l1 -> w_nthn w + lenN l1 < 2 ^ 32 -> w_nthq w + lenN l1 < 2 ^ 32 ->
  no_limit rs QNew -> no_limit rs QQuery -> never_breaks handle ->
  exists t ms, r_trace s' = r_trace s ++ t /\ exactly l1 (matches hash rs) (recv_before true) ms /\ calls q t = map answer ms.
Proof.
  intros RE E LA PC F AC R0 VS SC POS NN NQ L1 L2 NB.
  destruct (C36_delivery q fuel s cs s' w rs l0 l1 RE E LA PC F AC R0 VS SC POS NN NQ) as (t & ms & xs & T & EM & PK & K). exists t, ms. split; [exact T|]. split; [exact EM|].
  rewrite K, (proj1 (until_all xs NB (w_ctx w))). eapply picks_all; [|exact PK]. intros j _ _. split; [apply L1|apply L2].
Qed.
(** The packets in view are a prefix of those stored, nothing leaves the view, and lk_process
    brings everything stored so far into view. *)
Theorem C36_view_grows fuel s cs s' : reach s -> runs fuel s cs s' ->
  exists l0 l1 l2, represents (r_snap s) l0 /\ represents (r_snap s') (l0 ++ l1) /\ represents (r_db s') (l0 ++ l1 ++ l2).
Proof.
  intros RE E. apply reached_inv in RE. destruct (exec_step C handle stopped qfuel stale fuel _ _ _ _ E RE) as (_ & _ & EX). destruct RE as (_ & _ & m0 & m1 & M0 & M1).
  destruct (EX _ _ M0 M1) as (x & y & X & Y). exists m0, x, y. rewrite <- app_assoc in Y. auto.
Qed.
Theorem C36_process_shows_all fuel s s' : reach s -> runs fuel s [CProcess] s' -> r_snap s' = r_db s.
Proof.
  intros RE E. apply reached_inv in RE. destruct fuel as [|n]; [discriminate|]. cbn [exec run_cmds exec1] in E. destruct (process _ _ _ _ s) as [s1| | |] eqn:P; try discriminate. cbn [obind] in E. injection E as <-.
  eapply process_grows; eauto. intros m a x b X. eapply exec_step; eauto.
Qed.

(** ** C37: history and future without gap or overlap *)
Lemma query_parts d tb asc P nth_ xs : query qfuel d tb asc P stale nth_ = Ok xs -> exists hist, query_all qfuel d tb asc P stale = Ok hist /\ xs = zip_members 32 (p_limits P QQuery) nth_ hist.
Proof. unfold query. destruct (query_all qfuel d tb asc P stale) as [hist| | |]; try discriminate. cbn [obind]. intros E. injection E as <-. eauto. Qed.
(** lk_watch calls the callback with what the query returns on the packets in view, later
    processing with the matching packets that come into view; none is missed or repeated. *)
Theorem C37_history_then_new q fuel fuel' s tb asc P c xs s1 cs s' rs l0 l1 : reach s -> runs fuel s [CWatch q tb asc P c] s1 -> runs fuel' s1 cs s' ->
  leave_alone handle stopped q cs -> never_process handle stopped -> pending_clear q s -> accepted rs P ->
  query qfuel (r_snap s) tb asc P stale 0 = Ok xs -> no_limit rs QQuery -> open_at rs QBranch 0 -> open_at rs QIndex 0 ->
  represents (r_snap s) l0 -> valid_store hash (r_snap s') (l0 ++ l1) -> spaces_clear hash (l0 ++ l1) rs ->
  Forall (fun e => 0 < fst e) l1 -> lenN xs + lenN l1 < 2 ^ 32 -> (exists u, r_now s1 < u /\ u < 2 ^ 64 /\ recv_allowed rs u) ->
  exists t ms ys, r_trace s' = r_trace s ++ t /\ exactly l1 (matches hash rs) (recv_before true) ms /\
    picks (position_ok rs QNew) 0 (map answer ms) ys /\ calls q t = fst (until_break handle c (xs ++ ys)).
Proof.
  intros RE E1 E2 LA NP PC AC Q NL OB OI R0 VS SC POS LN U. apply reached_inv in RE. apply query_parts in Q as (hist & Q & X).
  assert (CK : check_db P = true) by (unfold check_db; now rewrite (open_any rs P QBranch AC OB), (open_any rs P QIndex AC OI)).
  assert (xs = hist) as XH.
  { subst xs. apply zip_all; [apply (limits_ok rs P AC)| |reflexivity]. intros n B. apply (limit_iff rs P AC QQuery n B), NL. }
  subst hist. destruct (history_new C handle stopped qfuel stale hash q fuel fuel' s tb asc P c xs s1 cs s' rs l0 l1 HL RE E1 E2 LA NP PC AC ltac:(auto) ltac:(rewrite CK; discriminate) R0 VS SC POS LN U) as (t & ms & xs' & ys & T & EM & _ & X' & PK & K).
  rewrite <- X in X'. subst xs'. exists t, ms, ys. split; [exact T|]. split; [exact EM|]. split; [|exact K]. eapply picks_ext; [|exact PK]. intros j _ _. unfold new_position. rewrite N.add_0_l. split; [tauto|]. intros A. split; [exact A|apply NL].
Qed.

Lemma view_valid s0 s1 l0 l1 : represents s0 l0 -> valid_store hash s1 (l0 ++ l1) -> valid_store hash s0 l0.
Proof.
  intros R (_ & L & F). split; [exact R|]. split; [rewrite lenN_app in L; unfold stored in *; lia|]. apply Forall_app in F. apply F.
Qed.
Lemma clear_part l0 l1 rs : spaces_clear hash (l0 ++ l1) rs -> spaces_clear hash l0 rs.
Proof. intros [H|H]; [now left|right]. apply Forall_app in H. apply H. Qed.
(** With a hash query, whose result is exact (C30), and all limits. *)
Theorem C37_hash_history q fuel fuel' s P c s1 cs s' rs l0 l1 : reach s -> runs fuel s [CWatch q THash true P c] s1 -> runs fuel' s1 cs s' ->
  leave_alone handle stopped q cs -> never_process handle stopped -> pending_clear q s -> accepted rs P ->
  open_at rs QBranch 0 -> open_at rs QIndex 0 ->
  represents (r_snap s) l0 -> valid_store hash (r_snap s') (l0 ++ l1) -> spaces_clear hash (l0 ++ l1) rs ->
  Forall (fun e => 0 < fst e) l1 -> (exists u, r_now s1 < u /\ u < 2 ^ 64 /\ recv_allowed rs u) ->
  exists t hs ms mid xs ys, r_trace s' = r_trace s ++ t /\
    exactly l0 (matches hash rs) hash_before hs /\ exactly l1 (matches hash rs) (recv_before true) ms /\
    picks (position_ok rs QIndex) 0 (map answer hs) mid /\ picks (position_ok rs QQuery) 0 mid xs /\ picks (new_position rs 0 (lenN mid)) 0 (map answer ms) ys /\
    calls q t = fst (until_break handle c (xs ++ ys)).
Proof.
  intros RE E1 E2 LA NP PC AC OB OI R0 VS SC POS U. apply reached_inv in RE. pose proof (view_valid _ _ _ _ R0 VS) as V0. pose proof AC as [OK AD].
  destruct (hash_all hash HL (r_snap s) l0 V0 rs OK (clear_part _ _ _ SC) P AD) as (hs & EH & LH & Q). set (mid := zip_members 32 (p_limits P QIndex) 0 (map answer hs)) in *.
  pose proof VS as (_ & LV & _). pose proof (lenN_app l0 l1) as LE.
  assert (lenN (map answer hs) = lenN hs) as LM by (unfold lenN; now rewrite map_length).
  assert (picks (position_ok rs QIndex) 0 (map answer hs) mid) as PM.
  { eapply picks_ext; [|apply zip_members_picks; [reflexivity|reflexivity|apply (limits_ok rs P AC)|unfold stored in *; lia]]. intros j _ J. cbv beta. assert (j < 2 ^ 32) as J' by (unfold stored in *; lia). rewrite <- (test_member 32) by (reflexivity || apply (limits_ok rs P AC) || exact J'). apply (limit_iff rs P AC). exact J'. }
  pose proof (picks_len _ _ _ _ PM) as LP.
  assert (CK : check_db P = true) by (unfold check_db; now rewrite (open_any rs P QBranch AC OB), (open_any rs P QIndex AC OI)).
  destruct (history_new C handle stopped qfuel stale hash q fuel fuel' s THash true P c mid s1 cs s' rs l0 l1 HL RE E1 E2 LA NP PC AC ltac:(auto) ltac:(rewrite CK; discriminate) R0 VS SC POS ltac:(unfold stored in *; lia) U) as (t & ms & xs & ys & T & EM & PX & _ & PY & K).
  exists t, hs, ms, mid, xs, ys. auto 9.
Qed.
(** Without limits and breaks the callback is called with every matching packet, whether
    stored before or after lk_watch, exactly once. *)
Theorem C37_exactly_once q fuel fuel' s P c s1 cs s' rs l0 l1 : reach s -> runs fuel s [CWatch q THash true P c] s1 -> runs fuel' s1 cs s' ->
  leave_alone handle stopped q cs -> never_process handle stopped -> never_breaks handle -> pending_clear q s -> accepted rs P ->
  (forall sc, no_limit rs sc) ->
  represents (r_snap s) l0 -> valid_store hash (r_snap s') (l0 ++ l1) -> spaces_clear hash (l0 ++ l1) rs ->
  Forall (fun e => 0 < fst e) l1 -> (exists u, r_now s1 < u /\ u < 2 ^ 64 /\ recv_allowed rs u) ->
  exists t ms, r_trace s' = r_trace s ++ t /\ calls q t = map answer ms /\ NoDup ms /\ forall e, In e ms <-> In e (l0 ++ l1) /\ matches hash rs e.
Proof.
  intros RE E1 E2 LA NP NB PC AC NL R0 VS SC POS U.
  assert (forall sc, open_at rs sc 0) as OP by (intros sc; exists 0; split; [lia|]; split; [reflexivity|apply NL]).
  destruct (C37_hash_history q fuel fuel' s P c s1 cs s' rs l0 l1 RE E1 E2 LA NP PC AC (OP _) (OP _) R0 VS SC POS U) as (t & hs & ms & mid & xs & ys & T & [H1 H2] & [M1 M2] & P1 & P2 & P3 & K).
  apply picks_all in P1; [|intros; apply NL]. apply picks_all in P2; [|intros; apply NL]. apply picks_all in P3; [|intros; split; apply NL]. subst.
  exists t, (hs ++ ms). split; [exact T|]. split; [rewrite K, (proj1 (until_all _ NB c)), map_app; reflexivity|].
  assert (forall e, In e (hs ++ ms) <-> In e (l0 ++ l1) /\ matches hash rs e) as IFF by (intros e; rewrite !in_app_iff, H2, M2; tauto).
  split; [|exact IFF]. apply NoDup_app_intro.
  - eapply sorted_nodup; [|exact H1]. intros a A. unfold hash_before in A. rewrite lex_refl in A. discriminate.
  - eapply sorted_nodup; [|exact M1]. intros a A. cbn in A. lia.
  - intros e A B. apply H2 in A as [A _]. apply M2 in B as [B _]. destruct VS as ((S & _) & _). pose proof (increasing_app_lt _ _ _ _ S A B). lia.
Qed.
(** With [i_db:<:0] only packets that come into view later are given. *)
Theorem C37_new_only q fuel fuel' s tb asc P c s1 cs s' rs l0 l1 : reach s -> runs fuel s [CWatch q tb asc P c] s1 -> runs fuel' s1 cs s' ->
  leave_alone handle stopped q cs -> never_process handle stopped -> pending_clear q s -> accepted rs P ->
  In (mkPred (RLimit QIndex) Less (PNum 0)) rs -> limit_ops rs QIndex ->
  represents (r_snap s) l0 -> valid_store hash (r_snap s') (l0 ++ l1) -> spaces_clear hash (l0 ++ l1) rs ->
  Forall (fun e => 0 < fst e) l1 -> (exists u, r_now s1 < u /\ u < 2 ^ 64 /\ recv_allowed rs u) ->
  exists t ms ys, r_trace s' = r_trace s ++ t /\ exactly l1 (matches hash rs) (recv_before true) ms /\
    picks (new_position rs 0 0) 0 (map answer ms) ys /\ calls q t = fst (until_break handle c ys).
Proof.
  intros RE E1 E2 LA NP PC AC IN LO R0 VS SC POS U. apply reached_inv in RE.
  assert (CK : check_db P = false).
  { unfold check_db. destruct (has_any 32 (p_limits P QIndex)) eqn:HA; [|apply andb_false_r]. exfalso. pose proof (high_allowed rs P QIndex AC LO HA) as PO. unfold position_ok in PO. rewrite Forall_forall in PO. specialize (PO _ IN). cbn in PO. specialize (PO eq_refl). lia. }
  pose proof VS as (_ & LV & _). pose proof (lenN_app l0 l1) as LE.
  destruct (history_new C handle stopped qfuel stale hash q fuel fuel' s tb asc P c [] s1 cs s' rs l0 l1 HL RE E1 E2 LA NP PC AC ltac:(rewrite CK; discriminate) ltac:(auto) R0 VS SC POS ltac:(change (lenN (@nil (N * bytes))) with 0; unfold stored in *; lia) U) as (t & ms & xs & ys & T & EM & _ & X & PY & K).
  subst xs. cbn [zip_members app] in K. exists t, ms, ys. auto.
Qed.

(** ** C38: when watches end *)
(** A watch ends only when its callback broke, when the receive stamps have passed those its
    query allows, or when no position its limits allow can follow. *)
Theorem C38_removed_only_when_done q fuel s cs s' w rs l0 l1 : reach s -> runs fuel s cs s' -> leave_alone handle stopped q cs -> pending_clear q s ->
  find_watch q (r_cbs s) = Some w -> accepted rs (w_pred w) ->
  represents (r_snap s) l0 -> valid_store hash (r_snap s') (l0 ++ l1) -> spaces_clear hash (l0 ++ l1) rs ->
  Forall (fun e => 0 < fst e) l1 -> w_nthn w + lenN l1 < 2 ^ 32 -> w_nthq w + lenN l1 < 2 ^ 32 ->
  exists ms xs, exactly l1 (matches hash rs) (recv_before true) ms /\ picks (new_position rs (w_nthn w) (w_nthq w)) 0 (map answer ms) xs /\
    watch_after rs w l1 ms (snd (until_break handle (w_ctx w) xs)) (find_watch q (r_cbs s')).
Proof.
  intros RE E LA PC F AC R0 VS SC POS NN NQ. apply reached_inv in RE.
  destruct (delivers C handle stopped qfuel stale hash q fuel s cs s' w rs l0 l1 HL RE E LA PC AC R0 VS SC POS NN NQ) as (t & ms & T & _ & _ & EM & _ & KP & _ & D).
  exists ms, (kept (w_pred w) (w_nthn w) (w_nthq w) (map answer ms)). destruct (D F) as [_ D2]. auto.
Qed.
(** lk_watch registers the watch exactly when a later packet can still be given to it. *)
Theorem C38_registered_when_open q fuel s tb asc P c s1 rs xs : reach s -> runs fuel s [CWatch q tb asc P c] s1 ->
  leave_alone handle stopped q [] -> never_process handle stopped -> pending_clear q s -> accepted rs P ->
  query qfuel (r_snap s) tb asc P stale 0 = Ok xs -> no_limit rs QQuery -> open_at rs QBranch 0 -> open_at rs QIndex 0 -> (exists n, n < 2 ^ 32 /\ position_ok rs QNew n) -> lenN xs < 2 ^ 32 ->
  match snd (until_break handle c xs) with
  | None => find_watch q (r_cbs s1) = None
  | Some c' => (exists w, find_watch q (r_cbs s1) = Some w /\ w_pred w = P /\ w_ctx w = c' /\ w_nthn w = 0 /\ w_nthq w = lenN xs) \/
               find_watch q (r_cbs s1) = None /\ forall u, r_now s1 < u -> u < 2 ^ 64 -> ~ recv_allowed rs u
  end.
Proof.
  intros RE E (_ & HA & HS) NP PC AC Q NL OB OI ON LN. apply reached_inv in RE. apply query_parts in Q as (hist & Q & X).
  assert (CK : check_db P = true) by (unfold check_db; now rewrite (open_any rs P QBranch AC OB), (open_any rs P QIndex AC OI)).
  assert (xs = hist) as XH. { subst xs. apply zip_all; [apply (limits_ok rs P AC)| |reflexivity]. intros n B. apply (limit_iff rs P AC QQuery n B), NL. }
  subst hist. apply exec_watch in E as (n & z & E).
  destruct (watch_calls C handle stopped qfuel stale q HA HS NP n s tb asc P c xs s1 z (limits_ok rs P AC QQuery) ltac:(auto) ltac:(rewrite CK; discriminate) E RE PC LN) as (t1 & T1 & C1 & ST & I1 & P1 & M).
  rewrite <- X in M. destruct (snd (until_break handle c xs)) as [c'|]; [|exact M]. destruct M as (m & M1 & M2).
  assert (2 ^ 32 - 1 <= high (bound (p_limits P QQuery))) as HB. { destruct (N.le_gt_cases (2 ^ 32 - 1) (high (bound (p_limits P QQuery)))) as [H|H]; [exact H|]. exfalso. apply (limit_passed rs P AC QQuery (2 ^ 32 - 1) H ltac:(reflexivity)), NL. }
  assert (m = lenN xs) as -> by (destruct M1 as [M1|M1]; [exact M1|lia]).
  destruct M2 as [(w & F & W1 & W2 & W3 & W4 & _)|[F M2]]; [left; exists w; auto|]. right. split; [exact F|]. destruct M2 as [M2|[M2|M2]].
  - destruct ON as (k & K1 & K2). destruct (has_next_no rs P AC QNew 0 ltac:(reflexivity) M2 k (N.le_0_l k) K1 K2).
  - destruct (has_next_no rs P AC QQuery (lenN xs) LN M2 (2 ^ 32 - 1) ltac:(lia) ltac:(reflexivity) (NL _)).
  - intros u U1 U2. apply (recv_passed rs P AC); [lia|exact U2].
Qed.

(** ** C39: one watch per id *)
Theorem C39_one_watch_per_id s : reach s -> by_id (r_cbs s) /\ forall w w', In w (r_cbs s) -> In w' (r_cbs s) -> w_qid w = w_qid w' -> w = w'.
Proof.
  intros RE. apply reached_inv in RE as (S & _). split; [exact S|]. induction S as [|a l S IH F]; intros w w' A B Q; [destruct A|]. rewrite Forall_forall in F.
  destruct A as [->|A], B as [->|B]; [reflexivity| | |now apply IH].
  - specialize (F _ B). rewrite Q, lex_refl in F. discriminate.
  - specialize (F _ A). rewrite <- Q, lex_refl in F. discriminate.
Qed.
(** lk_stop of an id removes the watch with this id and no other, and tells it. *)
Theorem C39_stop_one fuel s q s' : reach s -> runs fuel s [CStop q false] s' ->
  (forall w, In w (r_cbs s') <-> In w (r_cbs s) /\ w_qid w <> q) /\
  forall w, In w (r_cbs s) -> w_qid w = q -> exists t, r_trace s' = r_trace s ++ Stopped q SClosed (w_nthq w) (w_nthn w) :: t.
Proof.
  intros RE E. pose proof (C39_one_watch_per_id s RE) as [_ UN]. apply reached_inv in RE as (S & _). destruct fuel as [|n]; [discriminate|]. cbn [exec run_cmds exec1] in E. destruct (close _ _ Free s q false) as [s1| | |] eqn:D; try discriminate. cbn [obind] in E. injection E as <-. cbn [close] in D.
  pose proof (deregister_one C q (r_cbs s) S) as [D1 D2]. split.
  - intros w. apply close_now_step in D; [|intros m a x b X; eapply exec_step; eauto|discriminate]. destruct D as (D & _). cbn [r_cbs set_cbs] in D. rewrite D, D2, filter_In, negb_true_iff. split; intros [A B]; (split; [exact A|]).
    + intros H. rewrite H, (proj2 (beqb_eq q q) eq_refl) in B. discriminate.
    + destruct (beqb (w_qid w) q) eqn:Q; [|reflexivity]. apply beqb_eq in Q. congruence.
  - intros w IN W. assert (find_watch q (r_cbs s) = Some w) as FW.
    { destruct (find_watch q (r_cbs s)) as [z|] eqn:Z.
      - apply find_some in Z as [Z1 Z2]. apply beqb_eq in Z2. f_equal. apply UN; congruence.
      - apply (List.find_none _ _ Z) in IN. cbv beta in IN. rewrite W, (proj2 (beqb_eq q q) eq_refl) in IN. discriminate. }
    rewrite FW in D1. unfold close_now in D. destruct (deregister q false (r_cbs s)) as [k dr]. cbn [snd] in D1. subst dr. cbn [drop_all] in D.
    destruct (drop_watch _ _ _ _ w SClosed) as [s2| | |] eqn:X; try discriminate. cbn [obind] in D. injection D as <-. unfold drop_watch in X. apply exec_longer in X as [t T]. exists t. rewrite T. cbn. rewrite <- app_assoc, W. reflexivity.
Qed.
(** A watch replaces the one with its id: afterwards the id has the new query, or no watch. *)
Theorem C39_watch_replaces fuel s q tb asc P c s' rs w : reach s -> runs fuel s [CWatch q tb asc P c] s' ->
  leave_alone handle stopped q [] -> never_process handle stopped -> pending_clear q s -> accepted rs P ->
  find_watch q (r_cbs s) = Some w -> 
  (exists t, r_trace s' = r_trace s ++ Stopped q SClosed (w_nthq w) (w_nthn w) :: t) /\
  ((exists hist, query_all qfuel (r_snap s) tb asc P stale = Ok hist /\ lenN hist < 2 ^ 32) -> forall w', find_watch q (r_cbs s') = Some w' -> w_pred w' = P /\ w_nthn w' = 0).
Proof.
  intros RE E (_ & HA & HS) NP PC AC F. apply reached_inv in RE. apply exec_watch in E as (n & z & E). split.
  - unfold watch in E. destruct (close _ _ Free s q false) as [s1| | |] eqn:D in E; try discriminate. cbn [obind] in E. cbn [close] in D. pose proof (deregister_one C q (r_cbs s) (proj1 RE)) as [D1 _]. rewrite F in D1. unfold close_now in D. destruct (deregister q false (r_cbs s)) as [k dr]. cbn [snd] in D1. subst dr. cbn [drop_all] in D.
    destruct (drop_watch _ _ _ _ w SClosed) as [s2| | |] eqn:X in D; try discriminate. cbn [obind] in D. injection D as <-. unfold drop_watch in X. apply exec_longer in X as [t T].
    assert (longer C s2 s') as [t2 T2].
    { set (Y := if check_db P then _ else _) in E. destruct Y as [[[[s3 c'] m] b]| | |] eqn:EY; try discriminate. cbn [obind] in E.
      assert (longer C s2 s3) as L. { subst Y. destruct (check_db P); [|injection EY as <- _ _ _; apply longer_refl]. destruct (query_all _ _ _ _ _ _); try discriminate. cbn [obind] in EY. eapply scan_longer; [|exact EY]. intros; eapply exec_longer; eauto. }
      destruct b; [injection E as <- _; exact L|]. destruct (watch_new _ _ _ _ _) as [o| | |]; try discriminate. cbn [obind] in E. destruct (match o with Some _ => _ | None => _ end) as [s4| | |] eqn:E4; try discriminate. cbn [obind] in E. injection E as <- _.
      eapply longer_trans; [exact L|]. destruct o; [eapply insert_longer in E4; [exact E4|intros; eapply exec_longer; eauto]|injection E4 as <-; now apply longer_same]. }
    exists (t ++ t2). rewrite T2, T. cbn. apply find_some in F as [_ F]. apply beqb_eq in F. rewrite F, <- !app_assoc. reflexivity.
  - intros (hist & Q & LN) w' F'. destruct (check_db P) eqn:CK.
    + destruct (watch_calls C handle stopped qfuel stale q HA HS NP n s tb asc P c hist s' z (limits_ok rs P AC QQuery) ltac:(auto) ltac:(congruence) E RE PC LN) as (t1 & T1 & C1 & ST & I1 & P1 & M).
      rewrite F' in M. destruct (snd _); [|discriminate]. destruct M as (m & _ & [(w1 & W0 & W1 & W2 & _)|[M _]]); [|discriminate]. injection W0 as <-. auto.
    + destruct (watch_calls C handle stopped qfuel stale q HA HS NP n s tb asc P c [] s' z (limits_ok rs P AC QQuery) ltac:(congruence) ltac:(auto) E RE PC ltac:(reflexivity)) as (t1 & T1 & C1 & ST & I1 & P1 & M).
      rewrite F' in M. destruct (snd _); [|discriminate]. destruct M as (m & _ & [(w1 & W0 & W1 & W2 & _)|[M _]]); [|discriminate]. injection W0 as <-. auto.
Qed.

(** ** C40: stopping a range of ids *)
(** All watches whose id starts with [q] are removed, if there is one with just this id. *)
Theorem C40_range_stop_partial fuel s q s' : reach s -> runs fuel s [CStop q true] s' -> (exists w, In w (r_cbs s) /\ w_qid w = q) ->
  forall w, In w (r_cbs s') <-> In w (r_cbs s) /\ starts_with (w_qid w) q = false.
Proof.
  intros RE E (w0 & IN & W) w. apply reached_inv in RE as (S & _). destruct fuel as [|n]; [discriminate|]. cbn [exec run_cmds exec1] in E. destruct (close _ _ Free s q true) as [s1| | |] eqn:D; try discriminate. cbn [obind] in E. injection E as <-. cbn [close] in D.
  apply close_now_step in D; [|intros m a x b X; eapply exec_step; eauto|discriminate]. destruct D as (D & _). cbn [r_cbs set_cbs] in D. rewrite D, deregister_range by exact S.
  destruct (find_watch q (r_cbs s)) as [z|] eqn:Z.
  - cbn [fst]. rewrite filter_In, negb_true_iff. tauto.
  - apply (List.find_none _ _ Z) in IN. cbv beta in IN. rewrite W, (proj2 (beqb_eq q q) eq_refl) in IN. discriminate.
Qed.
(** Otherwise none is. *)
Theorem C40_no_such_id_partial fuel s q s' : reach s -> runs fuel s [CStop q true] s' -> (forall w, In w (r_cbs s) -> w_qid w <> q) -> r_cbs s' = r_cbs s.
Proof.
  intros RE E NO. apply reached_inv in RE as (S & _). destruct fuel as [|n]; [discriminate|]. cbn [exec run_cmds exec1] in E. destruct (close _ _ Free s q true) as [s1| | |] eqn:D; try discriminate. cbn [obind] in E. injection E as <-. cbn [close] in D.
  apply close_now_step in D; [|intros m a x b X; eapply exec_step; eauto|discriminate]. destruct D as (D & _). cbn [r_cbs set_cbs] in D. rewrite D, deregister_range by exact S.
  destruct (find_watch q (r_cbs s)) as [z|] eqn:Z; [|reflexivity]. apply find_some in Z as [Z1 Z2]. apply beqb_eq in Z2. destruct (NO z Z1 Z2).
Qed.
End Runs.

(** ** Instances *)
Lemma watch_in {C} q (l : list (Watch C)) w : find_watch q l = Some w -> In w l /\ w_qid w = q.
Proof. intros F. apply find_some in F as [A B]. apply beqb_eq in B. auto. Qed.
Definition ex_watching : rt N := run_ex 0 s_empty [w_all id1 [is_group]].
Definition ex_save_all : list (cmd N) := [save_points 100 ex_points; CProcess].
Lemma ex_reached k s cs d l : represents d l -> forall ids now, s = run_ex k (new_rt d ids now) cs -> exec_okb k (new_rt d ids now) cs = true -> reached (count k) silent 100 None s.
Proof. intros R ids now -> E. exists d, l, ids, now, 9%nat, cs. split; [exact R|]. now apply run_ok. Qed.
Lemma silent_alone k q cs : Forall (fun c => ~ touches q c) cs -> leave_alone (count k) silent q cs.
Proof. intros F. split; [exact F|]. split; intros; constructor. Qed.
Lemma is_group_accepted : accepted [is_group] (compiled [is_group]).
Proof. apply accepted_by; [constructor; [split; [exact I|vm_compute; reflexivity]|constructor]|vm_compute; reflexivity]. Qed.
Example C36_ex : let s' := run_ex 0 ex_watching ex_save_all in
  reached (count 0) silent 100 None ex_watching /\ exec (count 0) silent 100 None 9 Free ex_watching ex_save_all = Ok s' /\
  leave_alone (count 0) silent id1 ex_save_all /\ pending_clear id1 ex_watching /\ (exists w, find_watch id1 (r_cbs ex_watching) = Some w /\ accepted [is_group] (w_pred w) /\ w_nthn w = 0) /\
  represents (r_snap ex_watching) [] /\ valid_store toy_hash (r_snap s') ([] ++ ex_list) /\ spaces_clear toy_hash ex_list [is_group] /\ Forall (fun e => 0 < fst e) ex_list /\
  map fst (calls id1 (r_trace s')) = [100; 102; 103; 104; 105; 106].
Proof.
  cbv zeta. split; [apply (ex_reached 0 _ [w_all id1 [is_group]] empty_db [] empty_represents 0 50); [reflexivity|vm_compute; reflexivity]|].
  split; [apply run_ok; vm_compute; reflexivity|]. split; [apply silent_alone; repeat (constructor; [cbn; tauto|]); constructor|]. split; [vm_compute; constructor|].
  split. { eexists. split; [vm_compute; reflexivity|]. split; [|reflexivity]. exact is_group_accepted. }
  split; [exact empty_represents|]. split. { replace (r_snap _) with ex_db by (vm_compute; reflexivity). apply ex_honest. }
  split; [apply depth_clear; exists ex_db; exact ex_honest|]. split; [repeat (constructor; [reflexivity|]); constructor|]. vm_compute. reflexivity.
Qed.

Definition ex_first : list point := [p_bx; PData [1;2;3]; p_root].
Definition ex_rest : list point := [p_ax; p_bx'; p_a; p_bk].
Definition ex_old : rt N := new_rt (store_all 100 ex_first) 0 50.
Definition ex_later : list (cmd N) := [save_points 103 ex_rest; CProcess].
Definition ex_old_list : list stored := stored_list 100 ex_first.
Definition ex_new_list : list stored := skipn 3 ex_list.
Lemma ex_old_represents : represents (store_all 100 ex_first) ex_old_list.
Proof. apply store_all_represents. vm_compute. reflexivity. Qed.
Lemma ex_split : ex_old_list ++ ex_new_list = ex_list.
Proof. vm_compute. reflexivity. Qed.
Lemma ex_limits rs sc : Forall (fun r => exists f, p_kind r = RField f /\ f <> PktHashF) rs -> no_limit rs sc.
Proof. intros F n. eapply Forall_impl; [|exact F]. intros r (f & K & NF). rewrite K. destruct f; try exact I. congruence. Qed.
Example C37_ex : let s1 := run_ex 0 ex_old [w_all id1 [is_group]] in let s' := run_ex 0 s1 ex_later in
  reached (count 0) silent 100 None ex_old /\ exec (count 0) silent 100 None 9 Free ex_old [w_all id1 [is_group]] = Ok s1 /\ exec (count 0) silent 100 None 9 Free s1 ex_later = Ok s' /\
  leave_alone (count 0) silent id1 ex_later /\ never_process (count 0) silent /\ never_breaks (count 0) /\ pending_clear id1 ex_old /\ accepted [is_group] (compiled [is_group]) /\
  (forall sc, no_limit [is_group] sc) /\ represents (r_snap ex_old) ex_old_list /\ valid_store toy_hash (r_snap s') (ex_old_list ++ ex_new_list) /\ spaces_clear toy_hash (ex_old_list ++ ex_new_list) [is_group] /\
  Forall (fun e => 0 < fst e) ex_new_list /\ (exists u, r_now s1 < u /\ u < 2 ^ 64 /\ recv_allowed [is_group] u) /\
  map fst (calls id1 (r_trace s')) = [102; 100; 103; 104; 105; 106].
Proof.
  cbv zeta. split; [apply (ex_reached 0 _ [] _ _ ex_old_represents 0 50); [reflexivity|vm_compute; reflexivity]|].
  split; [apply run_ok; vm_compute; reflexivity|]. split; [apply run_ok; vm_compute; reflexivity|]. split; [apply silent_alone; repeat (constructor; [cbn; tauto|]); constructor|].
  split; [split; intros; constructor|]. split; [intros c r; cbn; apply N.eqb_neq; lia|]. split; [constructor|]. split; [exact is_group_accepted|].
  split; [intros sc; apply ex_limits; constructor; [exists GroupIDF; split; [reflexivity|discriminate]|constructor]|]. split; [exact ex_old_represents|]. rewrite ex_split.
  split. { replace (r_snap _) with ex_db by (vm_compute; reflexivity). apply ex_honest. }
  split; [apply depth_clear; exists ex_db; exact ex_honest|]. split; [repeat (constructor; [reflexivity|]); constructor|]. split; [exists 1000; split; [vm_compute; reflexivity|]; split; [reflexivity|]; constructor; [exact I|constructor]|].
  vm_compute. reflexivity.
Qed.
(** With limits: the second packet in view and the first three new ones. *)
Definition ex_limited : list Predicate := [is_group; mkPred (RLimit QQuery) Greater (PNum 0); mkPred (RLimit QNew) Less (PNum 3)].
Definition ex_new_only : list Predicate := [is_group; mkPred (RLimit QIndex) Less (PNum 0)].
Example C37_limits_ex : map fst (calls id1 (r_trace (run_ex 0 ex_old (w_all id1 ex_limited :: ex_later)))) = [100; 103; 104; 105] /\
  map fst (calls id1 (r_trace (run_ex 0 ex_old (w_all id1 ex_new_only :: ex_later)))) = [103; 104; 105; 106] /\
  map fst (calls id1 (r_trace (run_ex 4 ex_old (w_all id1 [is_group] :: ex_later)))) = [102; 100; 103; 104].
Proof. vm_compute. auto. Qed.

(** Watches that end: by their limits, by a break and by the receive stamp; and one that stays. *)
Definition ids_left (s : rt N) : list bytes := map (fun w => w_qid w) (r_cbs s).
Definition recv_upto : list Predicate := [is_group; mkPred RRecv Less (PNum 105)].
Example C38_ex : ids_left (run_ex 0 ex_old (w_all id1 ex_limited :: w_all id2 [is_group] :: ex_later)) = [id2] /\
  ids_left (run_ex 4 ex_old (w_all id1 [is_group] :: ex_later)) = [] /\ ids_left (run_ex 0 ex_old (w_all id1 recv_upto :: ex_later)) = [] /\
  map fst (calls id1 (r_trace (run_ex 0 ex_old (w_all id1 recv_upto :: ex_later)))) = [102; 100; 103; 104].
Proof. vm_compute. auto. Qed.
(** With mask operators a watch can stay although no position is left for it: [i_new] below 4
    and even. *)
Definition new_even : list Predicate := [is_group; mkPred (RLimit QNew) Less (PNum 4); mkPred (RLimit QNew) Mask0 (PNum 2)].
(** The cleaning at [now] keeps, in their order, exactly the watches that allow some later receive stamp, and tells the first
    time at which another one would be removed. *)
Theorem C38_gc C (l : list (Watch C)) rs_of now k nx : (forall w, In w l -> accepted (rs_of w) (w_pred w)) -> gc now l = (k, nx) ->
  (forall w, In w k <-> In w l /\ exists u, now < u /\ u < 2 ^ 64 /\ recv_allowed (rs_of w) u) /\ (exists f, k = filter f l) /\
  match nx with
  | None => k = []
  | Some t => (forall t', t' < t -> fst (gc t' k) = k) /\ fst (gc t k) <> k
  end.
Proof.
  intros AC E. unfold gc in E. set (f := fun w : Watch C => now <? high (p_recv (w_pred w))) in E. injection E as EK EN. split; [|split; [exists f; now symmetry|]].
  - intros w. rewrite <- EK, filter_In. split; intros [I H]; (split; [exact I|]); destruct (AC w I) as [OK AD]; destruct (the_recv (rs_of w) OK (w_pred w) AD) as (LH & HB & _ & RA).
    + exists (high (p_recv (w_pred w))). split; [now apply N.ltb_lt|]. split; [exact HB|]. apply (RA _ HB). unfold bound_test. rewrite N.leb_refl. now apply N.leb_le.
    + destruct H as (u & U1 & U2 & U3). apply N.ltb_lt. apply (recv_ahead (rs_of w) (w_pred w) (conj OK AD) now u U1 U2 U3).
  - assert (HB : forall w, In w k -> high (p_recv (w_pred w)) < 2 ^ 64).
    { intros w I. rewrite <- EK in I. apply filter_In in I as [I _]. destruct (AC w I) as [OK AD]. apply (the_recv (rs_of w) OK (w_pred w) AD). }
    rewrite EK in EN. clear EK AC. subst nx. destruct k as [|w0 k]; [reflexivity|].
    assert (FM : forall (k : list (Watch C)) m, let t := fold_left (fun m w => N.min (high (p_recv (w_pred w))) m) k m in t <= m /\ (forall w, In w k -> t <= high (p_recv (w_pred w))) /\ (t = m \/ exists w, In w k /\ high (p_recv (w_pred w)) = t)).
    { clear. induction k as [|w k IH]; intros m t; [subst t; cbn; split; [lia|]; split; [intros w []|auto]|]. subst t. cbn [fold_left]. destruct (IH (N.min (high (p_recv (w_pred w))) m)) as (A & B & D). split; [lia|]. split.
      - intros x [->|I]; [lia|now apply B].
      - destruct D as [D|(x & I & D)]; [|right; exists x; split; [now right|exact D]]. destruct (N.min_spec (high (p_recv (w_pred w))) m) as [[M1 M2]|[M1 M2]]; [|left; congruence]. right. exists w. split; [now left|congruence]. }
    specialize (FM (w0 :: k) (2 ^ 64 - 1)). cbv zeta in FM. set (t := fold_left _ (w0 :: k) (2 ^ 64 - 1)) in *. destruct FM as (FA & FB & FC). split.
    + intros t' LT. unfold gc. cbn [fst]. clear FC. set (k0 := w0 :: k) in *. clearbody k0 t. induction k0 as [|x r IH]; [reflexivity|]. cbn [filter]. assert (t <= high (p_recv (w_pred x))) by (apply FB; now left). destruct (N.ltb_spec t' (high (p_recv (w_pred x)))); [|lia]. f_equal. apply IH; [intros w I; apply HB; now right|intros w I; apply FB; now right].
    + assert (EX : exists w, In w (w0 :: k) /\ high (p_recv (w_pred w)) <= t).
      { destruct FC as [FC|(w & I & FC)]; [exists w0; split; [now left|]; specialize (HB w0 (or_introl eq_refl)); lia|]. exists w. split; [exact I|lia]. }
      unfold gc. cbn [fst]. destruct EX as (w & I & LE). intros EQ. rewrite <- EQ in I. apply filter_In in I as [_ I]. apply N.ltb_lt in I. lia.
Qed.
Example C38_gc_ex : match gc 102 (r_cbs (run_ex 0 ex_old [w_all id1 recv_upto; w_all id2 [is_group]])) with (k, nx) => (map (fun w => w_qid w) k, nx) end = ([id1; id2], Some 104) /\
  map (fun w => w_qid w) (fst (gc 104 (r_cbs (run_ex 0 ex_old [w_all id1 recv_upto; w_all id2 [is_group]])))) = [id2].
Proof. vm_compute. auto. Qed.
Theorem C38_masks_refuted : accepted new_even (compiled new_even) /\ exists s cs w, reached (count 0) silent 100 None s /\ s = run_ex 0 s_empty cs /\
  find_watch id1 (r_cbs s) = Some w /\ w_pred w = compiled new_even /\ open_at new_even QNew 0 /\ ~ open_at new_even QNew (w_nthn w).
Proof.
  split. { apply accepted_by; [|vm_compute; reflexivity]. constructor; [split; [exact I|vm_compute; reflexivity]|]. repeat (constructor; [vm_compute; reflexivity|]). constructor. }
  exists (run_ex 0 s_empty [w_all id1 new_even; save_points 100 [p_bx; p_root; p_ax]; CProcess]), [w_all id1 new_even; save_points 100 [p_bx; p_root; p_ax]; CProcess]. eexists.
  split; [apply (ex_reached 0 _ _ empty_db [] empty_represents 0 50 eq_refl); vm_compute; reflexivity|]. split; [reflexivity|]. split; [vm_compute; reflexivity|]. split; [vm_compute; reflexivity|]. split.
  - exists 0. split; [lia|]. split; [reflexivity|]. constructor; [exact I|]. constructor; [intros _; cbn; lia|]. constructor; [intros _ i B; exfalso; unfold bit in B; rewrite N.div_0_l in B by (apply N.pow_nonzero; discriminate); discriminate|constructor].
  - cbn [w_nthn]. intros (k & K1 & K2 & F). inversion F as [|? ? _ F1]; subst. inversion F1 as [|? ? A F2]; subst. inversion F2 as [|? ? B _]; subst. cbn in A, B. specialize (A eq_refl). specialize (B eq_refl).
    assert (k = 3) by lia. subst k. specialize (B 0 eq_refl). vm_compute in B. discriminate.
Qed.

Definition ex_two : rt N := run_ex 0 ex_old [w_all id2 [is_group]; w_all id1 [is_group]].
Example C39_ex : reached (count 0) silent 100 None ex_two /\ ids_left ex_two = [id1; id2] /\ ids_left (run_ex 0 ex_two [CStop id1 false]) = [id2] /\
  ids_left (run_ex 0 ex_two [w_all id1 recv_upto]) = [id1; id2] /\
  In (Stopped id1 SClosed 2 0) (r_trace (run_ex 0 ex_two [w_all id1 recv_upto])).
Proof.
  split; [apply (ex_reached 0 _ [w_all id2 [is_group]; w_all id1 [is_group]] _ _ ex_old_represents 0 50 eq_refl); vm_compute; reflexivity|]. vm_compute. tauto.
Qed.
Definition id_q : bytes := [113].
Example C40_ex : reached (count 0) silent 100 None (run_ex 0 ex_old [w_all id2 [is_group]; w_all id1 [is_group]; w_all id_q [is_group]; w_all [114] [is_group]]) /\
  ids_left (run_ex 0 ex_old [w_all id2 [is_group]; w_all id1 [is_group]; w_all id_q [is_group]; w_all [114] [is_group]; CStop id_q true]) = [[114]].
Proof. split; [apply (ex_reached 0 _ _ _ _ ex_old_represents 0 50 eq_refl); vm_compute; reflexivity|]. vm_compute. reflexivity. Qed.
(** Witness: the watches "q1" and "q2" survive stopping the range "q". *)
Theorem C40_range_stop_refuted : exists s w, reached (count 0) silent 100 None s /\ exec (count 0) silent 100 None 9 Free s [CStop id_q true] = Ok s /\ In w (r_cbs s) /\ starts_with (w_qid w) id_q = true.
Proof.
  assert (exists w, find_watch id1 (r_cbs ex_two) = Some w) as [w F] by (eexists; vm_compute; reflexivity). apply watch_in in F as [F1 F2].
  exists ex_two, w. split; [exact (proj1 C39_ex)|]. split; [vm_compute; reflexivity|]. split; [exact F1|]. rewrite F2. reflexivity.
Qed.
Print Assumptions C36_delivery.
Print Assumptions C36_every_packet_once.
Print Assumptions C36_view_grows.
Print Assumptions C36_process_shows_all.
Print Assumptions C37_history_then_new.
Print Assumptions C37_hash_history.
Print Assumptions C37_exactly_once.
Print Assumptions C37_new_only.
Print Assumptions C38_removed_only_when_done.
Print Assumptions C38_registered_when_open.
Print Assumptions C38_gc.
Print Assumptions C38_masks_refuted.
Print Assumptions C39_one_watch_per_id.
Print Assumptions C39_stop_one.
Print Assumptions C39_watch_replaces.
Print Assumptions C40_range_stop_partial.
Print Assumptions C40_no_such_id_partial.
Print Assumptions C40_range_stop_refuted.

(** ** C61: lk_get_all *)
(** Without limits on the results: the callback is called with the results of the query in
    order until it breaks, and the number returned is the number of calls, negative if it
    broke. *)
Theorem C61_get_all_partial C qfuel stale (s : rt C) tb asc P rs c cb xs : accepted rs P -> no_limit rs QQuery -> query qfuel (r_snap s) tb asc P stale 0 = Ok xs -> lenN xs < 2 ^ 31 ->
  exists l c' z, lk_get_all qfuel stale s tb asc P c cb = Ok (l, c', z) /\ l = fst (until_break (plain cb) c xs) /\
  match snd (until_break (plain cb) c xs) with
  | None => l <> [] /\ z = (- Z.of_N (lenN l))%Z
  | Some c2 => c' = c2 /\ l = xs /\ z = Z.of_N (lenN l)
  end.
Proof.
  intros AC NL Q LN. apply query_parts in Q as (hist & Q & X).
  assert (TT : forall n, n < 2 ^ 32 -> test 32 (p_limits P QQuery) n = true) by (intros n B; apply (limit_iff rs P AC QQuery n B), NL).
  assert (xs = hist) as XH. { subst xs. apply zip_all; [apply (limits_ok rs P AC)|exact TT|reflexivity]. }
  unfold lk_get_all. rewrite Q. cbn [obind]. pose proof (get_loop_until cb (p_limits P QQuery) hist 0 c) as U. pose proof (get_loop_count cb (p_limits P QQuery) hist (limits_ok rs P AC QQuery) TT 0 c ltac:(rewrite <- XH, N.add_0_l; eapply N.lt_trans; [exact LN|reflexivity])) as K.
  destruct (get_loop (p_limits P QQuery) hist 0 c cb) as [[[l c'] n] b]. destruct K as [-> NE]. rewrite <- X in U. rewrite N.add_0_l. rewrite U. cbn [fst snd].
  assert (lenN l <= lenN xs /\ (b = false -> l = xs)) as [LE ALL].
  { clear - U. revert c l U. induction xs as [|x xs IH]; intros c l U; cbn [until_break] in U; [injection U as <- _; split; [lia|reflexivity]|]. destruct (plain cb c x) as [[c1 b1] cs]. destruct b1.
    - injection U as <- B. split; [rewrite !lenN_cons; change (lenN (@nil (N * bytes))) with 0; lia|]. intros ->. discriminate.
    - destruct (until_break (plain cb) c1 xs) as [l2 o] eqn:U2. injection U as <- ->. destruct (IH c1 l2 U2) as [A B]. rewrite !lenN_cons. split; [lia|]. intros H. now rewrite (B H). }
  exists l, c', (if b then saturating_neg_cast (lenN l) else saturating_cast (lenN l)). split; [reflexivity|]. split; [reflexivity|]. destruct b.
  - split; [auto|]. unfold saturating_neg_cast. destruct (N.ltb_spec (2 ^ 31) (lenN l)); [lia|reflexivity].
  - split; [reflexivity|]. split; [auto|]. unfold saturating_cast. rewrite N.min_l; [reflexivity|]. lia.
Qed.
(** With a limit the results it skips are counted: one call, but 2 is returned. *)
Definition second_only : list Predicate := [is_group; mkPred (RLimit QQuery) Equal (PNum 1)].
Theorem C61_count_refuted : accepted second_only (compiled second_only) /\ exists l c', lk_get_all 100 None ex_old THash true (compiled second_only) 0 (fun c _ => (c + 1, false)) = Ok (l, c', 2%Z) /\ lenN l = 1.
Proof.
  split. { apply accepted_by; [|vm_compute; reflexivity]. constructor; [split; [exact I|vm_compute; reflexivity]|]. constructor; [vm_compute; reflexivity|constructor]. }
  eexists. eexists. split; vm_compute; reflexivity.
Qed.
Example C61_ex : exists l, query 100 (r_snap ex_old) THash true (compiled [is_group]) None 0 = Ok l /\ lenN l = 2 /\
  lk_get_all 100 None ex_old THash true (compiled [is_group]) 0 (fun c _ => (c + 1, false)) = Ok (l, 2, 2%Z) /\
  lk_get_all 100 None ex_old THash true (compiled [is_group]) 0 (fun c _ => (c + 1, true)) = Ok (firstn 1 l, 1, (-1)%Z).
Proof. eexists. split; [vm_compute; reflexivity|]. vm_compute. auto. Qed.
(** [lk_get] gives the first of the exact answers, [None] if there is none: by hash, *)
Theorem C61_get_first C hash d l rs P qfuel stale (s : rt C) : hash32 hash -> valid_store hash d l -> r_snap s = d -> accepted rs P -> spaces_clear hash l rs -> lenN l <= 2 ^ 32 ->
  exists ms out, exactly l (matches hash rs) hash_before ms /\ answers rs 0 ms out /\ lk_get qfuel stale s THash true P = Ok (hd_error out).
Proof.
  intros HL VS <- AC SC LE. destruct (C30_hash_query_exact hash (r_snap s) l rs P 0 HL VS AC SC) as (ms & out & EX & AN & Q); [lia|]. exists ms, out. split; [exact EX|]. split; [exact AN|]. unfold lk_get. now rewrite Q.
Qed.
(** and in tree order, for the queries whose answers are exact. *)
Theorem C61_get_first_tree_partial C hash d l rs P asc stale (s : rt C) : hash32 hash -> honest_store hash d l -> r_snap s = d -> accepted rs P -> possible rs ->
  no_pred (RLimit QBranch) rs -> asc = true \/ create_wide rs -> unskipped rs -> lenN l <= 2 ^ 32 ->
  exists ms out n0, exactly l (tree_matches hash rs) (tree_before hash asc) ms /\ answers rs 0 ms out /\
  forall qfuel, (n0 <= qfuel)%nat -> lk_get qfuel stale s TTree asc P = Ok (hd_error out).
Proof.
  intros HL VS <- AC PS NB DIR UN LE. destruct (C33_tree_query_exact_partial hash (r_snap s) l rs P asc stale 0 HL VS AC PS NB DIR UN) as (ms & out & n0 & EX & AN & Q); [lia|]. exists ms, out, n0. split; [exact EX|]. split; [exact AN|]. intros qfuel F. unfold lk_get. now rewrite Q.
Qed.
Example C61_get_ex : exists e l, query 100 (r_snap ex_old) THash true (compiled [is_group]) None 0 = Ok (e :: l) /\ lk_get 100 None ex_old THash true (compiled [is_group]) = Ok (Some e).
Proof. do 2 eexists. split; vm_compute; reflexivity. Qed.
Print Assumptions C61_get_first.
Print Assumptions C61_get_first_tree_partial.
Print Assumptions C61_get_all_partial.
Print Assumptions C61_count_refuted.

(** ** Findings *)
(** The [stopped] callback of a watch that was stopped from a callback may not add or stop
    watches: the process aborts (a second mutable borrow). *)
Definition stop_self (c : N) (r : N * bytes) : N * bool * list (cmd N) := (c + 1, false, [CStop id1 false]).
Definition then_watch (c : N) (x : StopReason) : list (cmd N) := [w_all id2 [is_group]].
Theorem F24_stopped_callback_aborts : exists s cs, reached stop_self then_watch 100 None s /\ exec stop_self then_watch 100 None 9 Free s cs = Panic /\
  match exec stop_self silent 100 None 9 Free s cs with Ok _ => True | _ => False end.
Proof.
  exists s_empty, [w_all id1 [is_group]; save_points 100 [p_bx]; CProcess]. split; [|split; vm_compute; auto].
  exists empty_db, [], 0, 50, 9%nat, []. split; [exact empty_represents|reflexivity].
Qed.
(** lk_process leaves pending commands alone when no packet is new. *)
Theorem F25_pending_kept C handle stopped qfuel stale fuel m (s : rt C) : log_head (r_db s) <= r_upto s ->
  exists s', exec handle stopped qfuel stale (S fuel) m s [CProcess] = Ok s' /\ r_pend s' = r_pend s /\ r_cbs s' = r_cbs s.
Proof.
  intros L. cbn [exec run_cmds exec1]. unfold process. replace (log_head (r_db s) <=? r_upto s) with true by (symmetry; apply N.leb_le, L). cbn [obind]. eexists. split; [reflexivity|auto].
Qed.
Example F25_ex : exists s, reached (count 0) then_watch 100 None s /\ lenN (r_pend s) = 2 /\ log_head (r_db s) <= r_upto s.
Proof.
  exists (match exec (count 0) then_watch 100 None 9 Free ex_old [w_all id1 [is_group]; CStop id1 false] with Ok s => s | _ => ex_old end). split; [|split; vm_compute; (reflexivity || discriminate)].
  exists (store_all 100 ex_first), ex_old_list, 0, 50, 9%nat, [w_all id1 [is_group]; CStop id1 false]. split; [exact ex_old_represents|vm_compute; reflexivity].
Qed.
(** lk_process called from a callback of a watch aborts the process. *)
Definition processing (c : N) (r : N * bytes) : N * bool * list (cmd N) := (c + 1, false, [CProcess]).
Theorem F55_process_in_callback_aborts : exists s cs, reached processing silent 100 None s /\ exec processing silent 100 None 9 Free s cs = Panic.
Proof.
  exists s_empty, [w_all id1 [is_group]; save_points 100 [p_bx]; CProcess]. split; [|vm_compute; reflexivity]. exists empty_db, [], 0, 50, 9%nat, []. split; [exact empty_represents|reflexivity].
Qed.
(** lk_process called while lk_watch goes through the packets in view: the watch misses the
    packets it brings into view. *)
Theorem F56_process_in_scan_misses : exists s s1 s' w e, reached processing silent 100 None s /\ exec processing silent 100 None 9 Free s [save_points 103 ex_rest] = Ok s1 /\
  exec processing silent 100 None 9 Free s1 [w_all id1 [is_group]; CProcess] = Ok s' /\ find_watch id1 (r_cbs s') = Some w /\
  In e ex_new_list /\ matches toy_hash [is_group] e /\ r_snap s' = ex_db /\ ~ In (answer e) (calls id1 (r_trace s')).
Proof.
  pose (s1 := match exec processing silent 100 None 9 Free ex_old [save_points 103 ex_rest] with Ok s => s | _ => ex_old end).
  exists ex_old, s1. eexists. eexists. exists (103, net_pkt p_ax). split; [exists (store_all 100 ex_first), ex_old_list, 0, 50, 9%nat, []; split; [exact ex_old_represents|reflexivity]|].
  split; [vm_compute; reflexivity|]. split; [vm_compute; reflexivity|]. split; [vm_compute; reflexivity|]. split; [left; vm_compute; reflexivity|]. split.
  - exists ex_nh, p_ax. split; [apply at_point; [apply ex_well; cbn; tauto|reflexivity]|]. constructor; [exists (be_decode ex_group); split; reflexivity|constructor].
  - split; [vm_compute; reflexivity|]. vm_compute. intuition discriminate.
Qed.
Print Assumptions F24_stopped_callback_aborts.
Print Assumptions F25_pending_kept.
Print Assumptions F55_process_in_callback_aborts.
Print Assumptions F56_process_in_scan_misses.
