(** What a watch is called with, in terms of the packets in the store. *)
From Coq Require Import Sorting.Sorted.
From Verif Require Import Bytes ModelPkt ModelTestSet SpecTestSet ProofTestSet ModelStore SpecStore ProofStore PropsStore ModelPred SpecPred ProofPred ProofPred2 PropsPred.
From Verif Require Import ModelQuery SpecQuery ProofQuery ProofQuery2 ProofQuery3 ProofQuery4 PropsQuery ModelWatch SpecWatch ProofWatch ProofWatch2 ProofWatch3 ProofWatch4 ProofWatch5.

Lemma filter_full {A} (f : A -> bool) l : (forall x, In x l -> f x = true) -> filter f l = l.
Proof. induction l as [|x l IH]; intros H; [reflexivity|]. cbn [filter]. rewrite (H x (or_introl eq_refl)), IH; [reflexivity|]. intros y Y. apply H. now right. Qed.

Lemma zip_all {A} s (l : list A) : set_ok 32 s -> (forall n, n < 2 ^ 32 -> test 32 s n = true) -> forall at_, at_ < 2 ^ 32 -> zip_members 32 s at_ l = l.
Proof.
  intros SO T. induction l as [|a l IH]; intros at_ L; [reflexivity|]. cbn [zip_members]. unfold member_next. pose proof (T at_ L) as TA. rewrite TA.
  destruct (N.ltb_spec (high (bound s)) at_) as [H|H].
  { exfalso. rewrite test_member in TA by (reflexivity || assumption). unfold member, bound_test in TA. apply andb_prop in TA as [TA _]. rewrite andb_true_iff, !N.leb_le in TA. lia. }
  unfold inc. destruct (N.ltb_spec (at_ + 1) (2 ^ 32)); rewrite IH; (reflexivity || lia).
Qed.

Lemma NoDup_app_intro {A} (l m : list A) : NoDup l -> NoDup m -> (forall e, In e l -> In e m -> False) -> NoDup (l ++ m).
Proof.
  induction 1 as [|a l NI ND IH]; intros M D; [exact M|]. cbn [app]. constructor; [|apply IH; [exact M|intros e A1 A2; apply (D e); [now right|exact A2]]].
  intros I. apply in_app_or in I as [I|I]; [contradiction|]. apply (D a); [now left|exact I].
Qed.
Lemma sorted_nodup {A} (R : A -> A -> Prop) l : (forall a, ~ R a a) -> StronglySorted R l -> NoDup l.
Proof. intros NR. induction 1 as [|a l S IH F]; constructor; [|exact IH]. intros I. rewrite Forall_forall in F. exact (NR a (F a I)). Qed.

(** ** Limits without masks *)
Lemma add_set_limits p f op v p' : add_set p f op v = Ok p' -> p_limits p' = p_limits p.
Proof. unfold add_set. destruct (incompat _); cbn [obind]; intros E; try discriminate. now injection E as <-. Qed.
Lemma check_space_limits p p' : check_space p = Ok p' -> p_limits p' = p_limits p.
Proof.
  unfold check_space. destruct (if _ =? 0 then _ else _) as [q| | |] eqn:E; cbn [obind]; try discriminate. intros H.
  destruct (incompat _) as [i| | |]; cbn [obind] in H; try discriminate. destruct (sval i); [|discriminate]. injection H as <-.
  destruct (ModelSpace.rs_depth (p_prefix p) =? 0); [now injection E as <-|now apply add_set_limits in E].
Qed.
Lemma interval_mask m op v : interval_op op -> mask_add m op v = m.
Proof. destruct op; intros H; (reflexivity || destruct H). Qed.
Lemma and_mask q p r p' : and_ p r = Ok p' -> (p_kind r = RLimit q -> interval_op (p_op r)) -> mask (p_limits p' q) = mask (p_limits p q).
Proof.
  destruct r as [k op v]. unfold and_. cbn [p_kind p_op p_val]. intros H NR. destruct k as [f| | |q'].
  - destruct (add_set p PktTypeF Mask1 (field_pkts f)) as [p1| | |] eqn:E1; cbn [obind] in H; try discriminate. apply add_set_limits in E1. rewrite <- E1.
    destruct f, v as [n|sp]; try discriminate; try (apply add_set_limits in H; now rewrite H).
    + destruct (add_set p1 PktHashF op n) as [p2| | |] eqn:E2; cbn [obind] in H; try discriminate. apply add_set_limits in E2. rewrite <- E2.
      destruct op; try (injection H as <-; reflexivity). unfold try_add in H. destruct (has_any _ _); cbn [incompat obind] in H; try discriminate. injection H as <-. cbn [with_limit p_limits]. destruct (qscope_eqb q QQuery) eqn:Q; [|reflexivity]. apply qscope_eqb_eq in Q. now subst q.
    + destruct (add_set p1 DepthF op n) as [p2| | |] eqn:E2; cbn [obind] in H; try discriminate. apply add_set_limits in E2. rewrite <- E2. apply check_space_limits in H. now rewrite H.
    + destruct op; try discriminate. destruct (in_space (ModelSpace.try_into_rooted sp)) as [rs| | |]; cbn [obind] in H; try discriminate.
      destruct (add_set p1 DepthF Equal (ModelSpace.rs_depth rs)) as [p2| | |] eqn:E2; cbn [obind] in H; try discriminate. apply add_set_limits in E2. rewrite <- E2.
      destruct (in_space (ModelSpace.rs_space (p_prefix p2))); cbn [obind] in H; try discriminate. destruct (in_space (ModelSpace.rs_space rs)); cbn [obind] in H; try discriminate.
      destruct (ModelSpace.space_starts_with _ _); [|discriminate]. apply check_space_limits in H. rewrite H. reflexivity.
  - destruct v as [n|]; [|discriminate]. destruct (incompat _); cbn [obind] in H; try discriminate. now injection H as <-.
  - destruct op; try discriminate. destruct v as [n|sp]; try discriminate. unfold prefix in H. destruct (in_space _); cbn [obind] in H; try discriminate.
    destruct (ModelSpace.space_starts_with _ sp); [now injection H as <-|]. destruct (ModelSpace.space_starts_with sp _); [|discriminate].
    destruct (in_space _); cbn [obind] in H; try discriminate. apply check_space_limits in H. rewrite H. reflexivity.
  - destruct v as [n|sp]; try discriminate. destruct (is_valid _); [|discriminate]. injection H as <-. cbn [with_limit p_limits]. destruct (qscope_eqb q q') eqn:Q; [|reflexivity]. apply qscope_eqb_eq in Q. subst q'.
    cbn [add mask]. apply interval_mask. auto.
Qed.
Lemma add_all_mask q rs : Forall (fun r => p_kind r = RLimit q -> interval_op (p_op r)) rs -> forall p p', add_all p rs = Ok p' -> mask (p_limits p' q) = mask (p_limits p q).
Proof.
  induction 1 as [|r rs R F IH]; intros p p' E; cbn [add_all] in E; [now injection E as <-|]. destruct (and_ p r) as [p1| | |] eqn:E1; cbn [obind] in E; try discriminate.
  rewrite (IH _ _ E). eapply and_mask; eauto.
Qed.
(** The highest position of the bound is allowed. *)
Lemma high_allowed rs P q : accepted rs P -> Forall (fun r => p_kind r = RLimit q -> interval_op (p_op r)) rs -> has_any 32 (p_limits P q) = true -> position_ok rs q (high (bound (p_limits P q))).
Proof.
  intros AC IO HA. pose proof (limits_ok rs P AC q) as SO. destruct SO as [[B1 B2] MO]. apply (limit_iff rs P AC q); [exact B2|]. pose proof (limits_ok rs P AC q) as SO. rewrite test_member; [|reflexivity|reflexivity|exact SO|exact B2].
  pose proof (add_all_mask q rs IO _ _ (proj2 AC)) as MK. unfold has_any in HA. destruct (min_value 32 (p_limits P q)) as [x|] eqn:MV; [|discriminate].
  destruct (min_value_some 32 (p_limits P q) x ltac:(reflexivity) ltac:(reflexivity) SO ltac:(rewrite MK; reflexivity) MV) as (_ & M & _).
  unfold member in *. rewrite MK in *. apply andb_prop in M as [M _]. unfold bound_test in *. apply andb_prop in M as [M1 M2]. apply N.leb_le in M1, M2.
  replace (high (bound (p_limits P q)) <=? high (bound (p_limits P q))) with true by (symmetry; apply N.leb_le; lia).
  replace (low (bound (p_limits P q)) <=? high (bound (p_limits P q))) with true by (symmetry; apply N.leb_le; lia).
  cbn [andb]. assert (member (set_default 32) (high (bound (p_limits P q))) = true) as D by (apply member_default; exact B2). apply andb_prop in D as [_ D]. exact D.
Qed.

Section Run.
Variable C : Type.
Variable handle : C -> N * bytes -> C * bool * list (cmd C).
Variable stopped : C -> StopReason -> list (cmd C).
Variable qfuel : nat.
Variable stale : option entry.

Lemma new_logged (s s' : rt C) l0 l1 : Inv C s -> Inv C s' -> represents (r_snap s) l0 -> represents (r_snap s') (l0 ++ l1) -> Forall (fun e => 0 < fst e) l1 ->
  between (r_db s') (r_upto s) (r_upto s') = map answer l1.
Proof.
  intros (_ & U & _) (_ & U' & m0 & m1 & M0 & M1) R0 R1 POS. rewrite U', (between_snap _ _ _ _ _ M0 M1), U. pose proof R1 as (_ & _ & L & _). rewrite L. change (fun e : N * NetPktParts => (fst e, np_bytes (snd e))) with answer.
  rewrite map_app, filter_app, filter_none; cbn [app].
  - apply filter_full. intros x X. apply in_map_iff in X as (e & <- & I). cbn [answer fst]. apply N.ltb_lt. destruct (logged_later _ _ _ _ _ R0 R1 I) as [->|LT]; [|exact LT].
    destruct (head_spec _ _ R0) as [[[_ H]|[p []]] _]. rewrite H. rewrite Forall_forall in POS. auto.
  - intros x X. apply in_map_iff in X as (e & <- & I). cbn [answer fst]. apply N.ltb_ge. now apply (head_spec _ _ R0).
Qed.

(** A watch that is kept. *)
Lemma deliver_stays P l : forall w w', w_pred w = P -> fst (deliver C handle (Some w) l) = Some w' ->
  (forall e, In e l -> fst e <= high (p_recv P)) /\
  (w_nthn w' = w_nthn w /\ w_nthq w' = w_nthq w \/ w_nthn w' <= high (bound (p_limits P QNew)) /\ w_nthq w' <= high (bound (p_limits P QQuery))).
Proof.
  induction l as [|e l IH]; intros w w' WP E; cbn [deliver] in E; [injection E as <-; split; [intros ? []|auto]|].
  destruct (feed C handle w e) as [o c1] eqn:FD. destruct o as [w1|]; [|rewrite deliver_none in E; discriminate].
  destruct (deliver C handle (Some w1) l) as [o2 c2] eqn:DL. cbn [fst] in E. subst o2.
  assert (fst e <= high (p_recv P) /\ w_pred w1 = P /\ (w_nthn w1 = w_nthn w /\ w_nthq w1 = w_nthq w \/ w_nthn w1 <= high (bound (p_limits P QNew)) /\ w_nthq w1 <= high (bound (p_limits P QQuery)))) as (H & W1 & K).
  { unfold feed, watch_test in FD. rewrite WP in FD. destruct (N.ltb_spec (high (p_recv P)) (fst e)) as [L|L]; [discriminate|]. split; [exact L|].
    destruct (fst e <? low (p_recv P)); [injection FD as <- _; auto|]. destruct (negb (pkt_test (compile_predicates P) e)); [injection FD as <- _; auto|].
    set (n1 := (w_nthn w + 1) mod 2 ^ 32) in FD. set (q1 := (w_nthq w + 1) mod 2 ^ 32) in FD.
    destruct ((high (bound (p_limits P QNew)) <? n1) || (high (bound (p_limits P QQuery)) <? q1)) eqn:BR.
    - destruct (test 32 (p_limits P QNew) (w_nthn w) && test 32 (p_limits P QQuery) (w_nthq w)); [|discriminate]. destruct (handle _ e) as [[c' b] cs]. rewrite orb_true_r in FD. discriminate.
    - apply orb_false_elim in BR as [B1 B2]. apply N.ltb_ge in B1, B2.
      destruct (test 32 (p_limits P QNew) (w_nthn w) && test 32 (p_limits P QQuery) (w_nthq w)); [destruct (handle _ e) as [[c' b] cs]; destruct b; [discriminate|]|]; cbn [orb] in FD; injection FD as <- _; cbn [w_pred w_nthn w_nthq set_ctx]; auto. }
  destruct (IH w1 w' W1 ltac:(rewrite DL; reflexivity)) as [A B]. split.
  - intros x [<-|X]; [exact H|now apply A].
  - destruct B as [[-> ->]|B]; [exact K|right; exact B].
Qed.
Lemma delivers hash q fuel (s : rt C) cs s' w rs l0 l1 : hash32 hash -> Inv C s -> exec handle stopped qfuel stale fuel Free s cs = Ok s' ->
  leave_alone handle stopped q cs -> pending_clear q s -> accepted rs (w_pred w) ->
  represents (r_snap s) l0 -> valid_store hash (r_snap s') (l0 ++ l1) -> spaces_clear hash (l0 ++ l1) rs ->
  Forall (fun e => 0 < fst e) l1 -> w_nthn w + lenN l1 < 2 ^ 32 -> w_nthq w + lenN l1 < 2 ^ 32 ->
  exists t ms, r_trace s' = r_trace s ++ t /\ Inv C s' /\ pending_clear q s' /\ exactly l1 (matches hash rs) (recv_before true) ms /\ lenN ms <= lenN l1 /\
    picks (new_position rs (w_nthn w) (w_nthq w)) 0 (map answer ms) (kept (w_pred w) (w_nthn w) (w_nthq w) (map answer ms)) /\
    (find_watch q (r_cbs s) = None -> find_watch q (r_cbs s') = None /\ calls q t = []) /\
    (find_watch q (r_cbs s) = Some w ->
      calls q t = fst (until_break handle (w_ctx w) (kept (w_pred w) (w_nthn w) (w_nthq w) (map answer ms))) /\
      watch_after rs w l1 ms (snd (until_break handle (w_ctx w) (kept (w_pred w) (w_nthn w) (w_nthq w) (map answer ms)))) (find_watch q (r_cbs s'))).
Proof.
  intros HL I E (LA & HA & HS) P AC R0 VS SC POS NN NQ. destruct (exec_apart C handle stopped qfuel stale q HA HS fuel _ _ _ _ LA E) as [ST OU].
  destruct (ST I) as (I' & _). destruct (OU I P) as (P' & _ & t & T & K). pose proof VS as (R1 & _ & VF). rewrite (new_logged s s' l0 l1 I I' R0 R1 POS) in K.
  assert (increasing (map fst l1)) as S1. { pose proof R1 as (S & _). clear - S. induction l0 as [|x l0 IH]; [exact S|]. cbn [app map] in S. inversion S; subst. auto. }
  destruct (accept_exactly hash HL rs (w_pred w) AC _ _ l1 VS SC ltac:(intros x X; apply in_or_app; now right) S1) as (ms & EM & FM & LM).
  exists t, ms. assert (lenN (map answer ms) = lenN ms) as LA1 by (unfold lenN; now rewrite map_length). assert (lenN (map answer l1) = lenN l1) as LA2 by (unfold lenN; now rewrite map_length).
  split; [exact T|]. split; [exact I'|]. split; [exact P'|]. split; [exact EM|]. split; [exact LM|]. split; [|split].
  - assert (w_nthn w + 0 + lenN (map answer ms) <= 2 ^ 32) as B1 by (rewrite LA1; clear - LM NN; unfold stored in *; lia). assert (w_nthq w + 0 + lenN (map answer ms) <= 2 ^ 32) as B2 by (rewrite LA1; clear - LM NQ; unfold stored in *; lia).
    pose proof (kept_picks rs (w_pred w) AC (w_nthn w) (w_nthq w) (map answer ms) 0 B1 B2) as KP. now rewrite !N.add_0_r in KP.
  - intros F. rewrite F, deliver_none in K. injection K as K1 K2. auto.
  - intros F. rewrite F in K.
    destruct (deliver_kept C handle stopped (w_pred w) (limits_ok rs (w_pred w) AC) (map answer l1) ltac:(rewrite map_map; exact S1) w eq_refl ltac:(rewrite LA2; exact NN) ltac:(rewrite LA2; exact NQ)) as [D1 D2].
    rewrite <- FM in D1, D2. rewrite <- K in D1, D2. cbn [fst snd] in D1, D2. split; [exact D1|]. unfold watch_after. destruct (find_watch q (r_cbs s')) as [w'|].
    + rewrite LA1 in D2. destruct D2 as (E1 & E2 & E3 & E4 & E5). destruct (deliver_stays (w_pred w) (map answer l1) w w' eq_refl ltac:(rewrite <- K; reflexivity)) as [G1 G2].
      repeat (split; [assumption|]). split.
      * intros e Ie. exists (high (p_recv (w_pred w))). destruct AC as [OK AD]. destruct (the_recv rs OK (w_pred w) AD) as (R2 & R3 & _ & R4). split; [exact (G1 (answer e) (in_map answer _ _ Ie))|]. split; [exact R3|].
        apply R4; [exact R3|]. unfold bound_test. apply andb_true_intro. split; apply N.leb_le; [lia|exact R2].
      * intros sc n SC1 IO (k & K1 & K2 & K3). destruct (N.eq_dec (lenN ms) 0) as [Z|Z]; [rewrite Z, N.add_0_r; now exists k|].
        exists (high (bound (p_limits (w_pred w) sc))). pose proof (limits_ok rs (w_pred w) AC sc) as [[_ B2] _]. split; [|split; [exact B2|]].
        -- rewrite E4, E5 in G2. destruct SC1 as [[-> ->]|[-> ->]]; destruct G2 as [G2|G2]; lia.
        -- apply high_allowed; try assumption. apply (limit_iff rs (w_pred w) AC sc k K2) in K3. rewrite test_member in K3 by (reflexivity || apply (limits_ok rs (w_pred w) AC) || exact K2).
           destruct (has_any_member 32 _ k ltac:(reflexivity) ltac:(reflexivity) (limits_ok rs (w_pred w) AC sc) K2 K3) as (x & X & _). unfold has_any. now rewrite X.
    + destruct D2 as [D2|[(x & X & Y)|D2]]; [now left|right; left|right; right].
      * apply in_map_iff in X as (e & <- & X). exists e. split; [exact X|]. intros u U1 U2. apply (recv_passed rs (w_pred w) AC); [cbn [answer fst] in Y; lia|exact U2].
      * rewrite LA1 in D2. intros k K1 K2 K3 [Q1 Q2]. destruct D2 as [D2|D2]; [apply (limit_passed rs (w_pred w) AC QNew (w_nthn w + k)) in Q1|apply (limit_passed rs (w_pred w) AC QQuery (w_nthq w + k)) in Q2]; (assumption || lia).
Qed.

Lemma exec_watch fuel (s s' : rt C) q tb asc p c : exec handle stopped qfuel stale fuel Free s [CWatch q tb asc p c] = Ok s' ->
  exists n z, watch handle stopped qfuel stale (exec handle stopped qfuel stale n) Free s q tb asc p c = Ok (s', z).
Proof.
  destruct fuel as [|n]; [discriminate|]. cbn [exec run_cmds exec1]. intros E. exists n. destruct (watch _ _ _ _ _ _ _ _ _ _ _ _) as [[s1 z]| | |]; try discriminate. cbn [obind] in E. injection E as ->. now exists z.
Qed.
Lemma open_any rs P q : accepted rs P -> open_at rs q 0 -> has_any 32 (p_limits P q) = true.
Proof.
  intros AC (k & _ & K & M). apply (limit_iff rs P AC q k K) in M. rewrite test_member in M by (reflexivity || apply (limits_ok rs P AC) || exact K).
  destruct (has_any_member 32 _ k ltac:(reflexivity) ltac:(reflexivity) (limits_ok rs P AC q) K M) as (x & X & _). unfold has_any. now rewrite X.
Qed.
Lemma picks_nil {A} Q i (l r : list A) : picks Q i l r -> (forall k, i <= k -> k < i + lenN l -> ~ Q k) -> r = [].
Proof.
  induction 1 as [|i x l r q H IH|i x l r q H IH]; intros N; [reflexivity| |].
  - destruct (N i); rewrite ?lenN_cons; (lia || exact q).
  - apply IH. intros k K1 K2. apply N; rewrite ?lenN_cons; lia.
Qed.

Lemma sorted_unique {A} (R : A -> A -> Prop) (AS : forall a b, R a b -> ~ R b a) l : StronglySorted R l -> forall m, StronglySorted R m -> (forall e, In e l <-> In e m) -> l = m.
Proof.
  induction 1 as [|a l S IH F]; intros m M E.
  - destruct m as [|b m]; [reflexivity|]. destruct (proj2 (E b) (or_introl eq_refl)).
  - destruct M as [|b m M G]; [destruct (proj1 (E a) (or_introl eq_refl))|]. rewrite Forall_forall in F, G. assert (NA : forall x, ~ R x x) by (intros x X; exact (AS x x X X)).
    assert (a = b) as <-. { destruct (proj1 (E a) (or_introl eq_refl)) as [->|IA]; [reflexivity|]. destruct (proj2 (E b) (or_introl eq_refl)) as [->|IB]; [reflexivity|]. exfalso. exact (AS _ _ (F _ IB) (G _ IA)). }
    f_equal. apply IH; [exact M|]. intros e. split; intros I.
    + destruct (proj1 (E e) (or_intror I)) as [<-|J]; [destruct (NA _ (F _ I))|exact J].
    + destruct (proj2 (E e) (or_intror I)) as [<-|J]; [destruct (NA _ (G _ I))|exact J].
Qed.
Lemma exactly_unique (l : list stored) Q ms ms' : exactly l Q (recv_before true) ms -> exactly l Q (recv_before true) ms' -> ms = ms'.
Proof.
  intros [A1 A2] [B1 B2]. eapply sorted_unique; [|exact A1|exact B1|intros e; rewrite A2, B2; reflexivity]. cbn. intros a b X Y. lia.
Qed.

(** Adding a watch and what follows. *)
Lemma history_new hash q fuel fuel' (s : rt C) tb asc p c hist s1 cs s' rs l0 l1 : hash32 hash -> Inv C s -> exec handle stopped qfuel stale fuel Free s [CWatch q tb asc p c] = Ok s1 ->
  exec handle stopped qfuel stale fuel' Free s1 cs = Ok s' ->
  leave_alone handle stopped q cs -> never_process handle stopped -> pending_clear q s -> accepted rs p ->
  (check_db p = true -> query_all qfuel (r_snap s) tb asc p stale = Ok hist) -> (check_db p = false -> hist = []) ->
  represents (r_snap s) l0 -> valid_store hash (r_snap s') (l0 ++ l1) -> spaces_clear hash (l0 ++ l1) rs ->
  Forall (fun e => 0 < fst e) l1 -> lenN hist + lenN l1 < 2 ^ 32 -> (exists u, r_now s1 < u /\ u < 2 ^ 64 /\ recv_allowed rs u) ->
  exists t ms xs ys, r_trace s' = r_trace s ++ t /\ exactly l1 (matches hash rs) (recv_before true) ms /\
    picks (position_ok rs QQuery) 0 hist xs /\ xs = zip_members 32 (p_limits p QQuery) 0 hist /\ picks (new_position rs 0 (lenN hist)) 0 (map answer ms) ys /\
    calls q t = fst (until_break handle c (xs ++ ys)).
Proof.
  intros HL I E1 E2 LA NP PC AC Q1 Q2 R0 VS SC POS LN (u & U1 & U2 & U3). apply exec_watch in E1 as (n & z & E1). pose proof LA as (_ & HA & HS).
  destruct (watch_calls C handle stopped qfuel stale q HA HS NP n s tb asc p c hist s1 z (limits_ok rs p AC QQuery) Q1 Q2 E1 I PC ltac:(lia)) as (t1 & T1 & C1 & ST & I1 & P1 & M).
  assert (represents (r_snap s1) l0) as R1 by (destruct ST as [-> _]; exact R0).
  pose proof (zip_members_picks 32 (p_limits p QQuery) hist 0 ltac:(reflexivity) ltac:(reflexivity) (limits_ok rs p AC QQuery)) as ZP.
  assert (picks (position_ok rs QQuery) 0 hist (zip_members 32 (p_limits p QQuery) 0 hist)) as ZQ.
  { eapply picks_ext; [|apply ZP; lia]. intros j _ J. cbv beta. rewrite <- (test_member 32) by (reflexivity || apply (limits_ok rs p AC) || lia). apply (limit_iff rs p AC); lia. }
  clear ZP. set (xs := zip_members 32 (p_limits p QQuery) 0 hist) in *. set (w0 := mkWatch 0 q p (lenN hist) 0 c).
  destruct (delivers hash q fuel' s1 cs s' w0 rs l0 l1 HL I1 E2 LA P1 AC R1 VS SC POS ltac:(cbn; lia) ltac:(cbn; lia)) as (t2 & ms & T2 & _ & _ & EM & LM & KP & FN & FS). cbn [w0 w_nthn w_nthq w_pred w_ctx] in KP, FS.
  exists (t1 ++ t2), ms, xs, (kept p 0 (lenN hist) (map answer ms)). split; [rewrite T2, T1; now rewrite <- app_assoc|]. split; [exact EM|]. split; [exact ZQ|]. split; [reflexivity|]. split; [exact KP|].
  rewrite calls_app, C1, until_app. fold xs in M. destruct (until_break handle c xs) as [l [c'|]]; cbn [fst snd] in *.
  2:{ destruct (FN M) as [_ ->]. apply app_nil_r. }
  assert (lenN (map answer ms) = lenN ms) as LA1 by (unfold lenN; now rewrite map_length).
  assert (forall k, k < lenN (map answer ms) -> lenN hist + k < 2 ^ 32) as KS by (intros k K; rewrite LA1 in K; unfold stored in *; lia).
  destruct M as (m & M1 & M2).
  assert ((forall k, k < lenN (map answer ms) -> ~ new_position rs 0 (lenN hist) k) -> calls q t2 = [] -> l ++ calls q t2 = fst (let '(l', o) := until_break handle c' (kept p 0 (lenN hist) (map answer ms)) in (l ++ l', o))) as NONE.
  { intros A B. rewrite B, (picks_nil _ _ _ _ KP) by (intros k _ K; apply A; lia). cbn [until_break fst]. reflexivity. }
  destruct M2 as [(w & F & W1 & W2 & W3 & W4 & W5 & _)|[F M2]].
  - destruct (delivers hash q fuel' s1 cs s' w rs l0 l1 HL I1 E2 LA P1 ltac:(rewrite W1; exact AC) R1 VS SC POS ltac:(rewrite W2; lia) ltac:(rewrite W3; lia)) as (t2' & ms' & T2' & _ & _ & EM' & LM' & KP' & _ & FS').
    assert (t2' = t2) as -> by (rewrite T2 in T2'; now apply app_inv_head in T2').
    assert (ms' = ms) as -> by (eapply exactly_unique; eauto).
    rewrite W1, W2, W3, W4 in *. destruct (FS' F) as [-> _]. destruct M1 as [->|[M1 M1']].
    + now destruct (until_break handle c' _).
    + assert (forall k, k < lenN (map answer ms) -> lenN hist + k < 2 ^ 32 -> ~ position_ok rs QQuery (m + k)) as A. { intros k K1 K2. apply (limit_passed rs p AC); lia. }
      rewrite (picks_nil _ _ _ _ KP') by (intros k _ K [_ B]; apply (A k ltac:(lia)); [apply KS; lia|exact B]).
      rewrite (picks_nil _ _ _ _ KP). { reflexivity. } intros k _ K [_ B]. apply (limit_passed rs p AC QQuery (lenN hist + k)); [lia|apply KS; lia|exact B].
  - apply NONE; [|apply (FN F)]. intros k K [B1 B2]. specialize (KS k K). destruct M2 as [M2|[M2|M2]].
    + apply (has_next_no rs p AC QNew 0 ltac:(lia) M2 (0 + k)); [lia|lia|exact B1].
    + apply (has_next_no rs p AC QQuery m ltac:(lia) M2 (lenN hist + k)); [lia|lia|exact B2].
    + pose proof (recv_ahead rs p AC (r_now s1) u U1 U2 U3). lia.
Qed.
End Run.
