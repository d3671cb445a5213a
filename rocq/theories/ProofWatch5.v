(** Watches and the predicates they have; adding a watch. *)
From Coq Require Import Sorting.Sorted.
From Verif Require Import Bytes ModelPkt ModelTestSet SpecTestSet ProofTestSet ModelStore SpecStore ProofStore PropsStore ModelPred SpecPred ProofPred ProofPred2 PropsPred.
From Verif Require Import ModelQuery SpecQuery ProofQuery ProofQuery2 ProofQuery3 ProofQuery4 PropsQuery ModelWatch SpecWatch ProofWatch ProofWatch2 ProofWatch3 ProofWatch4.

Lemma until_app {C} (handle : C -> N * bytes -> C * bool * list (cmd C)) xs : forall c ys,
  until_break handle c (xs ++ ys) = match until_break handle c xs with
    | (l, Some c') => let '(l', o) := until_break handle c' ys in (l ++ l', o)
    | (l, None) => (l, None)
    end.
Proof.
  induction xs as [|x xs IH]; intros c ys; cbn [app until_break]; [now destruct (until_break handle c ys)|].
  destruct (handle c x) as [[c' b] cs]. destruct b; [reflexivity|]. rewrite IH. destruct (until_break handle c' xs) as [l [o|]]; [|reflexivity]. now destruct (until_break handle o ys).
Qed.

(** ** The predicates *)
Section Preds.
Variable hash : bytes -> bytes.
Hypothesis HL : hash32 hash.
Variable rs : list Predicate.
Variable P : PktPredicates.
Hypothesis AC : accepted rs P.
Lemma limits_ok q : set_ok 32 (p_limits P q).
Proof. destruct AC as [OK E]. destruct (added_inv (fun _ => repeat 0 32) rs P (fun _ => eq_refl) OK E) as (cs & _ & _ & _ & _ & _ & LO & _). apply LO. Qed.
Lemma limit_iff q n : n < 2 ^ 32 -> (test 32 (p_limits P q) n = true <-> position_ok rs q n).
Proof. destruct AC as [OK E]. now apply C60_limits. Qed.
Lemma accept_matches d l e : valid_store hash d l -> spaces_clear hash l rs -> In e l -> (accept P (answer e) = true <-> matches hash rs e).
Proof.
  intros VS SC IN. destruct AC as [OK AD]. destruct (the_inv hash HL rs OK P AD) as [cs IV]. destruct (the_recv rs OK P AD) as (_ & _ & _ & RA).
  destruct (store_packet hash d l VS e IN) as (nh & p & PA). assert (fst e < 2 ^ 64) as LT by apply PA. unfold accept. rewrite andb_true_iff. cbn [answer fst]. rewrite (RA _ LT), (log_accept hash HL d l VS rs OK SC P AD cs e IV IN).
  split.
  - intros [A (nh' & p' & PA' & F)]. exists nh', p'. split; [exact PA'|]. unfold recv_allowed in A. rewrite Forall_forall in *. intros r I. specialize (A r I). specialize (F r I). specialize (OK r I).
    destruct (p_kind r) as [f| | |q] eqn:K; try (apply F; congruence). unfold satisfies, pred_ok in *. rewrite K in *. destruct (p_val r); [exact A|destruct OK].
  - intros (nh' & p' & PA' & F). split; [|exists nh', p'; split; [exact PA'|]; rewrite Forall_forall in *; auto].
    unfold recv_allowed. rewrite Forall_forall in *. intros r I. specialize (F r I). unfold satisfies in F. destruct (p_kind r) as [f| | |q]; try exact Logic.I. destruct (p_val r); [exact F|exact Logic.I].
Qed.
Lemma accept_exactly d l l1 : valid_store hash d l -> spaces_clear hash l rs -> incl l1 l -> increasing (map fst l1) ->
  exists ms, exactly l1 (matches hash rs) (recv_before true) ms /\ map answer ms = filter (accept P) (map answer l1) /\ lenN ms <= lenN l1.
Proof.
  intros VS SC IN S. exists (filter (fun e => accept P (answer e)) l1). split; [split|split].
  - clear IN. induction l1 as [|e m IH]; [constructor|]. cbn [map] in S. inversion S as [|? ? S1 F]; subst. specialize (IH S1). cbn [filter]. destruct (accept P (answer e)); [|exact IH]. constructor; [exact IH|].
    apply Forall_forall. intros x X. apply filter_In in X as [X _]. rewrite Forall_forall in F. exact (F _ (in_map fst _ _ X)).
  - intros e. rewrite filter_In. split; intros [A B]; (split; [exact A|]); apply (accept_matches d l e VS SC (IN e A)); exact B.
  - symmetry. apply filter_map.
  - apply filter_len.
Qed.
Lemma kept_picks n k ms : forall j, n + j + lenN ms <= 2 ^ 32 -> k + j + lenN ms <= 2 ^ 32 -> picks (new_position rs n k) j ms (kept P (n + j) (k + j) ms).
Proof.
  induction ms as [|x ms IH]; intros j A B; [constructor|]. rewrite lenN_cons in A, B. cbn [kept]. rewrite <- !N.add_assoc. specialize (IH (j + 1) ltac:(lia) ltac:(lia)).
  pose proof (limit_iff QNew (n + j) ltac:(lia)) as L1. pose proof (limit_iff QQuery (k + j) ltac:(lia)) as L2.
  destruct (test 32 (p_limits P QNew) (n + j) && test 32 (p_limits P QQuery) (k + j)) eqn:T.
  - apply andb_prop in T as [T1 T2]. apply picks_in; [|exact IH]. split; [now apply L1|now apply L2].
  - apply picks_out; [|exact IH]. intros [Q1 Q2]. apply L1 in Q1. apply L2 in Q2. rewrite Q1, Q2 in T. discriminate.
Qed.
Lemma recv_ahead now u : now < u -> u < 2 ^ 64 -> recv_allowed rs u -> now < high (p_recv P).
Proof.
  intros A B R. destruct AC as [OK AD]. destruct (the_recv rs OK P AD) as (_ & _ & _ & RA). apply (RA u B) in R. apply andb_prop in R as [R _]. apply N.leb_le in R. lia.
Qed.
(** The receive stamps above the bound are not allowed. *)
Lemma recv_passed u : high (p_recv P) < u -> u < 2 ^ 64 -> ~ recv_allowed rs u.
Proof.
  intros A B R. destruct AC as [OK AD]. destruct (the_recv rs OK P AD) as (_ & _ & _ & RA). apply (RA u B) in R. apply andb_prop in R as [R _]. apply N.leb_le in R. lia.
Qed.
Lemma limit_passed q u : high (bound (p_limits P q)) < u -> u < 2 ^ 32 -> ~ position_ok rs q u.
Proof. intros A B R. apply (limit_iff q u B) in R. rewrite (test_above P limits_ok q u B A) in R. discriminate. Qed.
Lemma has_next_no q n : n < 2 ^ 32 -> has_next (p_limits P q) n = Ok false -> forall k, n <= k -> k < 2 ^ 32 -> ~ position_ok rs q k.
Proof.
  intros Hn E k L K R. apply (limit_iff q k K) in R. rewrite test_member in R by (reflexivity || apply limits_ok || exact K).
  destruct (info_exact 32 (p_limits P q) k n ltac:(reflexivity) ltac:(reflexivity) (limits_ok q) K R Hn) as (i & I1 & _ & I3).
  unfold has_next in E. destruct (has_any_member 32 (p_limits P q) k ltac:(reflexivity) ltac:(reflexivity) (limits_ok q) K R) as (x & X & _).
  unfold has_any in E. rewrite X, I1 in E. cbn [obind] in E. destruct (sval i) as [y|]; [discriminate|]. cbn in I3. exact (I3 k L K R).
Qed.
Lemma has_next_yes q n : n < 2 ^ 32 -> has_next (p_limits P q) n = Ok true -> (exists k, k < 2 ^ 32 /\ position_ok rs q k) -> exists k, n <= k /\ k < 2 ^ 32 /\ position_ok rs q k.
Proof.
  intros Hn E (u & U & M). apply (limit_iff q u U) in M. rewrite test_member in M by (reflexivity || apply limits_ok || exact U).
  destruct (info_exact 32 (p_limits P q) u n ltac:(reflexivity) ltac:(reflexivity) (limits_ok q) U M Hn) as (i & I1 & _ & I3).
  unfold has_next in E. destruct (has_any 32 (p_limits P q)); [|discriminate]. rewrite I1 in E. cbn [obind] in E. destruct (sval i) as [y|]; [|discriminate]. cbn in I3. exists y. destruct I3 as (I3 & I4 & I5 & _).
  split; [exact I3|]. split; [exact I4|]. apply limit_iff; [exact I4|]. rewrite test_member; (reflexivity || apply limits_ok || assumption).
Qed.
End Preds.

Ltac chain := repeat (split; [solve [reflexivity | assumption | split; reflexivity]|]).
Section Run.
Variable C : Type.
Variable handle : C -> N * bytes -> C * bool * list (cmd C).
Variable stopped : C -> StopReason -> list (cmd C).
Variable qfuel : nat.
Variable stale : option entry.
Variable q : bytes.
Hypothesis HA : forall c r, Forall (fun c => ~ touches q c) (snd (handle c r)).
Hypothesis HS : forall c x, Forall (fun c => ~ touches q c) (stopped c x).
Hypothesis NP : never_process handle stopped.
Variable fuel : nat.
Notation ex := (exec handle stopped qfuel stale fuel).

Lemma scan_calls lim rs : set_ok 32 lim -> forall at_ c s s' c' n b, scan handle ex Free q lim rs at_ c s = Ok (s', c', n, b) ->
  Inv C s -> pending_clear q s -> at_ + lenN rs < 2 ^ 32 ->
  exists t, r_trace s' = r_trace s ++ t /\ calls q t = fst (until_break handle c (zip_members 32 lim at_ rs)) /\
  still C s s' /\ Inv C s' /\ pending_clear q s' /\ find_watch q (r_cbs s') = find_watch q (r_cbs s) /\
  snd (until_break handle c (zip_members 32 lim at_ rs)) = (if b then None else Some c') /\
  (b = false -> n = at_ + lenN rs \/ high (bound lim) < n /\ n <= at_ + lenN rs).
Proof.
  intros SO. induction rs as [|x rs IH]; cbn [ModelWatch.scan zip_members]; intros at_ c s s' c' n b E I P L.
  - injection E as <- <- <- <-. exists []. rewrite app_nil_r. cbn [until_break fst snd]. chain. intros _. left. change (lenN (@nil (N * bytes))) with 0. lia.
  - rewrite lenN_cons in L. unfold member_next in *. destruct (N.ltb_spec (high (bound lim)) at_) as [H|H].
    { injection E as <- <- <- <-. exists []. rewrite app_nil_r. cbn [until_break fst snd]. chain. intros _. right. split; [exact H|lia]. }
    assert (inc 32 at_ = Some (at_ + 1)) as NI. { unfold inc. destruct (N.ltb_spec (at_ + 1) (2 ^ 32)); [reflexivity|lia]. }
    rewrite NI in *. destruct (test 32 lim at_).
    + pose proof (HA c x) as HA1. pose proof (proj1 NP c x) as NP1. cbn [until_break]. destruct (handle c x) as [[c1 b1] cs]. cbn [snd] in HA1, NP1.
      destruct (ex Free (add_event s (Called q x)) cs) as [s1| | |] eqn:X; try discriminate. cbn [obind] in E.
      destruct (exec_apart C handle stopped qfuel stale q HA HS fuel _ _ _ _ HA1 X) as [ST OU]. pose proof (exec_still C handle stopped qfuel stale fuel NP _ _ _ _ NP1 X) as SL.
      assert (Inv C (add_event s (Called q x))) as I0 by exact I. destruct (ST I0) as (I1 & _). destruct (OU I0 P) as (P1 & _ & t & T & K). destruct SL as [SN UP]. rewrite UP, between_none in K by (cbn; lia). cbn [deliver] in K. injection K as K1 K2. cbn [r_cbs add_event] in K1.
      assert (calls q (Called q x :: t) = [x]) as CX. { cbn [calls flat_map]. fold (calls q t). rewrite K2, (proj2 (beqb_eq q q) eq_refl). reflexivity. }
      destruct b1.
      * injection E as <- <- <- <-. exists (Called q x :: t). cbn [fst snd]. split; [rewrite T; cbn; now rewrite <- app_assoc|]. split; [exact CX|]. split; [split; [exact SN|exact UP]|]. chain. discriminate.
      * apply IH in E as (t2 & T2 & C2 & S2 & I2 & P2 & F2 & U2 & N2); [|exact I1|exact P1|lia]. exists ((Called q x :: t) ++ t2). split; [rewrite T2, T; cbn; now rewrite <- !app_assoc|].
        rewrite calls_app, CX, C2. destruct (until_break handle c1 (zip_members 32 lim (at_ + 1) rs)) as [l o]. cbn [fst snd] in *. split; [reflexivity|]. split; [eapply still_trans; [|exact S2]; split; [exact SN|exact UP]|].
        split; [exact I2|]. split; [exact P2|]. split; [congruence|]. split; [exact U2|]. intros B. rewrite lenN_cons. destruct (N2 B) as [N2'|N2']; [left|right]; lia.
    + apply IH in E as (t2 & T2 & C2 & S2 & I2 & P2 & F2 & U2 & N2); [|exact I|exact P|lia]. exists t2. repeat (split; [assumption|]). intros B. rewrite lenN_cons. destruct (N2 B) as [N2'|N2']; [left|right]; lia.
Qed.
(** What lk_watch does outside of callbacks. *)
Lemma watch_calls s tb asc p c hist s' z : set_ok 32 (p_limits p QQuery) -> (check_db p = true -> query_all qfuel (r_snap s) tb asc p stale = Ok hist) -> (check_db p = false -> hist = []) ->
  watch handle stopped qfuel stale ex Free s q tb asc p c = Ok (s', z) -> Inv C s -> pending_clear q s -> lenN hist < 2 ^ 32 ->
  let ub := until_break handle c (zip_members 32 (p_limits p QQuery) 0 hist) in
  exists t, r_trace s' = r_trace s ++ t /\ calls q t = fst ub /\ still C s s' /\ Inv C s' /\ pending_clear q s' /\
  match snd ub with
  | None => find_watch q (r_cbs s') = None
  | Some c' => exists n, (n = lenN hist \/ high (bound (p_limits p QQuery)) < n /\ n <= lenN hist) /\
      ((exists w, find_watch q (r_cbs s') = Some w /\ w_pred w = p /\ w_nthn w = 0 /\ w_nthq w = n /\ w_ctx w = c' /\ w_qid w = q /\ has_next (p_limits p QNew) 0 = Ok true /\ has_next (p_limits p QQuery) n = Ok true) \/
       find_watch q (r_cbs s') = None /\ (has_next (p_limits p QNew) 0 = Ok false \/ has_next (p_limits p QQuery) n = Ok false \/ high (p_recv p) <= r_now s'))
  end.
Proof.
  intros SO Q1 Q2 E I P L. unfold watch in E. destruct (close stopped ex Free s q false) as [s1| | |] eqn:D; try discriminate. cbn [obind] in E.
  assert (EX0 : forall m a cs b, ex m a cs = Ok b -> step C m a b) by (intros; eapply exec_step; eauto).
  assert (EX : forall m a cs b, Forall (fun c => ~ touches q c) cs -> ex m a cs = Ok b -> apart C handle q m a b) by (intros; eapply exec_apart; eauto).
  assert (EXS : forall m a cs b, Forall no_process cs -> ex m a cs = Ok b -> still C a b) by (intros; eapply exec_still; eauto).
  assert (exists t0, r_trace s1 = r_trace s ++ t0 /\ calls q t0 = [] /\ still C s s1 /\ Inv C s1 /\ pending_clear q s1 /\ find_watch q (r_cbs s1) = None) as (t0 & T0 & C0 & S0 & I0 & P0 & F0).
  { pose proof (close_still C handle stopped NP ex EXS _ _ _ _ _ D) as A1. pose proof (close_step C stopped ex EX0 _ _ _ _ _ D) as A2. cbn [close] in D. 
    pose proof (close_now_aside C handle stopped q HS ex EX Locked _ _ _ _ ltac:(discriminate) D P) as (P0 & t0 & T0 & C0). apply (close_now_step C stopped ex EX0) in D; [|discriminate]. destruct D as (D & _). cbn [r_cbs set_cbs] in D.
    exists t0. split; [exact T0|]. split; [exact C0|]. split; [exact A1|]. split; [apply (A2 I)|]. split; [exact P0|]. rewrite D, (proj2 (deregister_one C q (r_cbs s) (proj1 I))). apply find_filter_none. intros w _ <-. rewrite (proj2 (beqb_eq _ _) eq_refl). reflexivity. }
  set (X := if check_db p then _ else _) in E. destruct X as [[[[s2 c'] n] b]| | |] eqn:EX1; try discriminate. cbn [obind] in E.
  assert (exists t, r_trace s2 = r_trace s1 ++ t /\ calls q t = fst (until_break handle c (zip_members 32 (p_limits p QQuery) 0 hist)) /\
    still C s1 s2 /\ Inv C s2 /\ pending_clear q s2 /\ find_watch q (r_cbs s2) = None /\
    snd (until_break handle c (zip_members 32 (p_limits p QQuery) 0 hist)) = (if b then None else Some c') /\
    (b = false -> n = lenN hist \/ high (bound (p_limits p QQuery)) < n /\ n <= lenN hist)) as (t1 & T1 & C1 & S1 & I1 & P1 & F1 & U1 & N1).
  { subst X. destruct (check_db p).
    - rewrite (proj1 S0), (Q1 eq_refl) in EX1. cbn [obind] in EX1. destruct (scan_calls _ _ SO _ _ _ _ _ _ _ EX1 I0 P0) as (t & A); [lia|]. exists t. rewrite F0 in A. exact A.
    - rewrite (Q2 eq_refl). injection EX1 as <- <- <- <-. exists []. rewrite app_nil_r. cbn [until_break zip_members fst snd]. chain. intros _. now left. }
  clear EX1. clearbody X. cbv zeta.
  destruct b.
  - injection E as <- <-. exists (t0 ++ t1). rewrite calls_app, C0, C1, U1. split; [rewrite T1, T0; now rewrite <- app_assoc|]. split; [reflexivity|]. split; [eapply still_trans; eauto|]. auto.
  - rewrite U1. unfold watch_new in E. destruct (has_next (p_limits p QNew) 0) as [a| | |] eqn:H1 in E; try discriminate. cbn [obind] in E.
    assert (forall s3, r_trace s3 = r_trace s2 -> still C s2 s3 -> Inv C s3 -> pending_clear q s3 -> find_watch q (r_cbs s3) = None -> (has_next (p_limits p QNew) 0 = Ok false \/ has_next (p_limits p QQuery) n = Ok false \/ high (p_recv p) <= r_now s3) ->
      exists t, r_trace s3 = r_trace s ++ t /\ calls q t = fst (until_break handle c (zip_members 32 (p_limits p QQuery) 0 hist)) /\ still C s s3 /\ Inv C s3 /\ pending_clear q s3 /\
      exists n, (n = lenN hist \/ high (bound (p_limits p QQuery)) < n /\ n <= lenN hist) /\
      ((exists w, find_watch q (r_cbs s3) = Some w /\ w_pred w = p /\ w_nthn w = 0 /\ w_nthq w = n /\ w_ctx w = c' /\ w_qid w = q /\ has_next (p_limits p QNew) 0 = Ok true /\ has_next (p_limits p QQuery) n = Ok true) \/
       find_watch q (r_cbs s3) = None /\ (has_next (p_limits p QNew) 0 = Ok false \/ has_next (p_limits p QQuery) n = Ok false \/ high (p_recv p) <= r_now s3))) as DONE.
    { intros s3 T3 S3 I3 P3 F3 H. exists (t0 ++ t1). rewrite calls_app, C0, C1. split; [rewrite T3, T1, T0; now rewrite <- app_assoc|]. split; [reflexivity|]. split; [eapply still_trans; [eapply still_trans; eauto|exact S3]|]. split; [exact I3|]. split; [exact P3|].
      exists n. split; [exact (N1 eq_refl)|]. right. auto. }
    destruct a; cbn [negb obind] in E; [|injection E as <- <-; apply DONE; auto; split; reflexivity].
    destruct (has_next (p_limits p QQuery) n) as [a2| | |] eqn:H2 in E; try discriminate. cbn [obind] in E.
    destruct a2; cbn [negb obind] in E; [|injection E as <- <-; apply DONE; auto; split; reflexivity].
    unfold insert_watch, register_now in E. set (w := mkWatch _ q p n 0 c') in E. cbn [r_now r_cbs set_ids] in E. unfold register in E.
    destruct (register_find C (r_now s2 <? high (p_recv (w_pred w))) w (r_cbs s2) q (proj1 I1)) as [R1 R2]. pose proof (register_sorted C (r_now s2 <? high (p_recv (w_pred w))) w (r_cbs s2) (proj1 I1)) as R3.
    destruct (register_at (r_now s2 <? high (p_recv (w_pred w))) w (r_cbs s2)) as [l o]. cbn [fst snd] in R1, R2, R3. change (w_qid w) with q in R1, R2. rewrite F1 in R2. subst o. cbn [obind] in E. injection E as <- <-.
    rewrite (proj2 (beqb_eq q q) eq_refl) in R1. change (w_pred w) with p in R1.
    assert (Inv C (set_cbs (set_ids s2 (N.min (r_ids s2 + 1) (2 ^ 64 - 1))) l)) as I3. { destruct I1 as (A & B). split; [exact R3|exact B]. }
    destruct (N.ltb_spec (r_now s2) (high (p_recv p))) as [LT|LT].
    + exists (t0 ++ t1). rewrite calls_app, C0, C1. cbn [r_trace set_cbs set_ids]. split; [rewrite T1, T0; now rewrite <- app_assoc|]. split; [reflexivity|]. split; [eapply still_trans; [eapply still_trans; eauto|]; split; reflexivity|]. split; [exact I3|]. split; [exact P1|].
      exists n. split; [exact (N1 eq_refl)|]. left. exists w. repeat split; auto.
    + apply DONE; auto. split; reflexivity.
Qed.
End Run.
