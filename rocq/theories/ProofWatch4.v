(** What a watch is called with. *)
From Coq Require Import Sorting.Sorted.
From Verif Require Import Bytes ModelPkt ModelTestSet SpecTestSet ProofTestSet ModelStore SpecStore ProofStore PropsStore ModelPred SpecPred ProofPred ProofPred2 PropsPred.
From Verif Require Import ModelQuery SpecQuery ProofQuery ProofQuery2 ProofQuery4 ModelWatch SpecWatch ProofWatch ProofWatch2 ProofWatch3.

Section Run.
Variable C : Type.
Variable handle : C -> N * bytes -> C * bool * list (cmd C).
Variable stopped : C -> StopReason -> list (cmd C).
Variable qfuel : nat.
Variable stale : option entry.

(** ** Without lk_process the snapshot stays *)
Definition still (s s' : rt C) : Prop := r_snap s' = r_snap s /\ r_upto s' = r_upto s.
Lemma still_refl s : still s s. Proof. split; reflexivity. Qed.
Lemma still_trans a b c : still a b -> still b c -> still a c.
Proof. intros [A B] [D E]. split; congruence. Qed.
Section Still.
Hypothesis NP : never_process handle stopped.
Variable ex : lock -> rt C -> list (cmd C) -> outcome TestErr (rt C).
Hypothesis EX : forall m s cs s', Forall no_process cs -> ex m s cs = Ok s' -> still s s'.
Lemma drop_watch_still m s w x s' : drop_watch stopped ex m s w x = Ok s' -> still s s'.
Proof. unfold drop_watch. intros E. apply EX in E; [exact E|apply NP]. Qed.
Lemma drop_all_still m ws : forall s x s', drop_all stopped ex m s ws x = Ok s' -> still s s'.
Proof.
  induction ws as [|w ws IH]; cbn [ModelWatch.drop_all]; intros s x s' E; [injection E as <-; apply still_refl|].
  destruct (drop_watch stopped ex m s w x) as [s1| | |] eqn:D; try discriminate. cbn [obind] in E. eapply still_trans; [eapply drop_watch_still, D|eauto].
Qed.
Lemma insert_still m s w s' : insert_watch stopped ex m s w = Ok s' -> still s s'.
Proof.
  destruct m; cbn; [|intros E; injection E as <-; split; reflexivity|discriminate]. unfold register_now. destruct (register _ _ _) as [l [x|]]; intros E; [|injection E as <-; split; reflexivity].
  apply drop_watch_still in E. exact E.
Qed.
Lemma close_still m s q range s' : close stopped ex m s q range = Ok s' -> still s s'.
Proof.
  destruct m; cbn; [|intros E; injection E as <-; split; reflexivity|discriminate]. unfold close_now. destruct (deregister _ _ _) as [k dr]. intros E. apply drop_all_still in E. exact E.
Qed.
Lemma scan_still m q lim rs : forall at_ c s r, scan handle ex m q lim rs at_ c s = Ok r -> still s (fst (fst (fst r))).
Proof.
  induction rs as [|x rs IH]; cbn [ModelWatch.scan]; intros at_ c s r E; [injection E as <-; apply still_refl|].
  destruct (member_next 32 lim at_) as [[[|]|] nt]; [|eauto|injection E as <-; apply still_refl].
  pose proof (proj1 NP c x) as N1. destruct (handle c x) as [[c' b] cs]. destruct (ex m (add_event s (Called q x)) cs) as [s1| | |] eqn:X; try discriminate. cbn [obind] in E. apply EX in X; [|exact N1].
  destruct b; [injection E as <-; exact X|]. eapply still_trans; [exact X|eauto].
Qed.
Lemma exec1_still m s c s' : no_process c -> exec1 handle stopped qfuel stale ex m s c = Ok s' -> still s s'.
Proof.
  destruct c as [q tb asc p c|q range| |f now ps|now]; cbn [exec1]; intros NP1.
  - unfold watch. destruct (close stopped ex m s q false) as [s1| | |] eqn:D; try discriminate. cbn [obind]. apply close_still in D.
    assert (forall r, (if check_db p then obind (query_all qfuel (r_snap s1) tb asc p stale) (fun rs => scan handle ex m q (p_limits p QQuery) rs 0 c s1) else Ok (s1, c, 0, false)) = Ok r -> still s1 (fst (fst (fst r)))) as G.
    { intros r. destruct (check_db p); [|intros E; injection E as <-; apply still_refl]. destruct (query_all _ _ _ _ _ _) as [rs| | |]; try discriminate. cbn [obind]. apply scan_still. }
    destruct (if check_db p then _ else _) as [[[[s2 c'] n] b]| | |]; try discriminate. specialize (G _ eq_refl). cbn [fst] in G. cbn [obind].
    assert (still s s2) as S2 by (eapply still_trans; eauto). destruct b; [intros E; injection E as <-; exact S2|].
    destruct (watch_new _ q p n c') as [[w|]| | |]; try discriminate; cbn [obind].
    + destruct (insert_watch stopped ex m _ w) as [s3| | |] eqn:X; try discriminate. cbn [obind]. intros E. injection E as <-. apply insert_still in X. eapply still_trans; [exact S2|exact X].
    + intros E. injection E as <-. exact S2.
  - apply close_still.
  - destruct NP1.
  - destruct (save f now (r_db s) ps) as [[d x] y] eqn:E. intros Q. injection Q as <-. split; reflexivity.
  - intros Q. injection Q as <-. split; reflexivity.
Qed.
End Still.
Theorem exec_still fuel : never_process handle stopped -> forall m s cs s', Forall no_process cs -> exec handle stopped qfuel stale fuel m s cs = Ok s' -> still s s'.
Proof.
  intros NP. induction fuel as [|n IH]; cbn [exec]; intros m s cs s' F; [destruct cs; [|discriminate]; intros E; injection E as <-; apply still_refl|].
  revert s. induction F as [|c cs N1 F IH2]; cbn [run_cmds]; intros s E; [injection E as <-; apply still_refl|].
  destruct (exec1 _ _ _ _ _ m s c) as [s1| | |] eqn:X; try discriminate. cbn [obind] in E. eapply still_trans; [eapply (exec1_still NP _ IH); eauto|eauto].
Qed.

(** ** Packets delivered *)
Section Deliver.
Variable P : PktPredicates.
Hypothesis LO : forall q, set_ok 32 (p_limits P q).
Definition accept (r : N * bytes) : bool := bound_test (p_recv P) (fst r) && pkt_test (compile_predicates P) r.
(** What the limits leave of the results [ms] from the positions [n] and [k]. *)
Fixpoint kept (n k : N) (ms : list (N * bytes)) : list (N * bytes) :=
  match ms with
  | [] => []
  | x :: r => if test 32 (p_limits P QNew) n && test 32 (p_limits P QQuery) k then x :: kept (n + 1) (k + 1) r else kept (n + 1) (k + 1) r
  end.
Lemma test_above q n : n < 2 ^ 32 -> high (bound (p_limits P q)) < n -> test 32 (p_limits P q) n = false.
Proof.
  intros L H. rewrite test_member by (reflexivity || apply LO || exact L). unfold member. replace (bound_test (bound (p_limits P q)) n) with false; [reflexivity|]. symmetry. apply andb_false_intro1, N.leb_gt, H.
Qed.
Lemma kept_none ms : forall n k, n + lenN ms <= 2 ^ 32 -> k + lenN ms <= 2 ^ 32 ->
  high (bound (p_limits P QNew)) < n \/ high (bound (p_limits P QQuery)) < k -> kept n k ms = [].
Proof.
  induction ms as [|x ms IH]; intros n k A B H; [reflexivity|]. rewrite lenN_cons in A, B. cbn [kept].
  replace (test 32 (p_limits P QNew) n && test 32 (p_limits P QQuery) k) with false; [apply IH; [lia|lia|]; destruct H; [left|right]; lia|].
  symmetry. destruct H as [H|H]; [apply andb_false_intro1|apply andb_false_intro2]; apply test_above; (exact H || lia).
Qed.
Lemma deliver_kept l : increasing (map fst l) -> forall w, w_pred w = P -> w_nthn w + lenN l < 2 ^ 32 -> w_nthq w + lenN l < 2 ^ 32 ->
  let ms := filter accept l in let ub := until_break handle (w_ctx w) (kept (w_nthn w) (w_nthq w) ms) in
  snd (deliver C handle (Some w) l) = fst ub /\
  match fst (deliver C handle (Some w) l) with
  | Some w' => snd ub = Some (w_ctx w') /\ w_qid w' = w_qid w /\ w_pred w' = P /\ w_nthn w' = w_nthn w + lenN ms /\ w_nthq w' = w_nthq w + lenN ms
  | None => snd ub = None \/ (exists e, In e l /\ high (p_recv P) < fst e) \/
            (high (bound (p_limits P QNew)) < w_nthn w + lenN ms \/ high (bound (p_limits P QQuery)) < w_nthq w + lenN ms)
  end.
Proof.
  induction l as [|e l IH]; intros S w WP NN NQ; cbv zeta.
  - cbn [deliver fst snd until_break filter kept]. change (lenN (@nil (N * bytes))) with 0. rewrite !N.add_0_r. auto 8.
  - cbn [map] in S. inversion S as [|? ? S1 F]; subst. rewrite lenN_cons in NN, NQ. cbn [deliver]. unfold feed, watch_test. rewrite !WP. cbn [filter].
    assert (accept e = (fst e <=? high (p_recv P)) && (low (p_recv P) <=? fst e) && pkt_test (compile_predicates P) e) as AE by reflexivity. rewrite AE. clear AE.
    destruct (N.ltb_spec (high (p_recv P)) (fst e)) as [H|H].
    { replace (fst e <=? high (p_recv P)) with false by (symmetry; apply N.leb_gt, H). cbn [andb]. rewrite (filter_none accept l).
      - rewrite deliver_none. cbn. split; [reflexivity|]. right. left. exists e. auto.
      - intros x X. unfold accept, bound_test. rewrite Forall_forall in F. specialize (F _ (in_map fst _ _ X)). replace (fst x <=? high (p_recv P)) with false by (symmetry; apply N.leb_gt; lia). reflexivity. }
    replace (fst e <=? high (p_recv P)) with true by (symmetry; apply N.leb_le, H). cbn [andb].
    assert (forall w' : Watch C, w' = w -> let '(o2, c2) := deliver C handle (Some w') l in
       c2 = fst (until_break handle (w_ctx w) (kept (w_nthn w) (w_nthq w) (filter accept l))) /\ match o2 with
       | Some w' => snd (until_break handle (w_ctx w) (kept (w_nthn w) (w_nthq w) (filter accept l))) = Some (w_ctx w') /\ w_qid w' = w_qid w /\ w_pred w' = P /\ w_nthn w' = w_nthn w + lenN (filter accept l) /\ w_nthq w' = w_nthq w + lenN (filter accept l)
       | None => snd (until_break handle (w_ctx w) (kept (w_nthn w) (w_nthq w) (filter accept l))) = None \/ (exists e0, In e0 (e :: l) /\ high (p_recv P) < fst e0) \/
            (high (bound (p_limits P QNew)) < w_nthn w + lenN (filter accept l) \/ high (bound (p_limits P QQuery)) < w_nthq w + lenN (filter accept l))
       end) as SKIP.
    { intros w' ->. destruct (IH S1 w WP ltac:(lia) ltac:(lia)) as [A B]. destruct (deliver C handle (Some w) l) as [o2 c2]. cbn [fst snd] in A, B. split; [exact A|]. destruct o2; [exact B|]. destruct B as [B|[(x & X & Y)|B]]; [now left|right; left; exists x; split; [now right|exact Y]|now right; right]. }
    destruct (N.ltb_spec (fst e) (low (p_recv P))) as [L|L].
    { replace (low (p_recv P) <=? fst e) with false by (symmetry; apply N.leb_gt, L). cbn [andb]. specialize (SKIP w eq_refl). destruct (deliver C handle (Some w) l). exact SKIP. }
    replace (low (p_recv P) <=? fst e) with true by (symmetry; apply N.leb_le, L). cbn [andb].
    destruct (pkt_test (compile_predicates P) e) eqn:PT; cbn [negb].
    2:{ specialize (SKIP w eq_refl). destruct (deliver C handle (Some w) l). exact SKIP. }
    clear SKIP. cbn [kept]. rewrite !(N.mod_small (_ + 1)) by lia. rewrite lenN_cons. cbn [w_ctx].
    pose proof (IH S1) as IH'. clear IH.
    set (n1 := w_nthn w + 1). set (k1 := w_nthq w + 1). set (ms := filter accept l).
    assert (lenN ms <= lenN l) as LM. { subst ms. clear. induction l as [|x l IH]; [cbn; lia|]. cbn [filter]. destruct (accept x); rewrite ?lenN_cons; lia. }
    assert (lenN ms + n1 <= 2 ^ 32 /\ lenN ms + k1 <= 2 ^ 32) as [LN LK] by (subst n1 k1; lia).
    set (brk := (high (bound (p_limits P QNew)) <? n1) || (high (bound (p_limits P QQuery)) <? k1)).
    assert (brk = true -> high (bound (p_limits P QNew)) < n1 \/ high (bound (p_limits P QQuery)) < k1) as BR.
    { subst brk. intros B. apply orb_prop in B as [B|B]; apply N.ltb_lt in B; auto. }
    assert (brk = true -> kept n1 k1 ms = []) as KN.
    { intros B. apply kept_none; [lia|lia|]. now apply BR. }
    destruct (test 32 (p_limits P QNew) (w_nthn w) && test 32 (p_limits P QQuery) (w_nthq w)).
    + cbn [until_break]. destruct (handle (w_ctx w) e) as [[c' b] cs] eqn:HD. destruct b; cbn [orb].
      * rewrite deliver_none. cbn [fst snd app]. split; [reflexivity|now left].
      * destruct brk.
        -- rewrite deliver_none, (KN eq_refl). cbn. split; [reflexivity|]. right. right. destruct (BR eq_refl); [left|right]; lia.
        -- destruct (IH' (set_ctx (mkWatch (w_id w) (w_qid w) P k1 n1 (w_ctx w)) c') eq_refl) as [A B]; cbn [w_nthn w_nthq w_ctx w_qid set_ctx]; try (subst n1 k1; lia).
           cbn [w_nthn w_nthq w_ctx w_qid set_ctx] in A, B. fold ms in A, B. destruct (deliver C handle _ l) as [o2 c2]. cbn [fst snd] in A, B. rewrite A. cbn [fst snd]. destruct (until_break handle c' (kept n1 k1 ms)) as [u v]. cbn [fst snd] in *. split; [reflexivity|].
           destruct o2 as [w'|].
           ++ destruct B as (B1 & B2 & B3 & B4 & B5). repeat split; auto; subst n1 k1; lia.
           ++ destruct B as [B|[(x & X & Y)|B]]; [now left|right; left; exists x; split; [now right|exact Y]|right; right; subst n1 k1; destruct B; [left|right]; lia].
    + destruct brk.
      * rewrite deliver_none, (KN eq_refl). cbn. split; [reflexivity|]. right. right. destruct (BR eq_refl); [left|right]; lia.
      * destruct (IH' (mkWatch (w_id w) (w_qid w) P k1 n1 (w_ctx w)) eq_refl) as [A B]; cbn [w_nthn w_nthq]; try (subst n1 k1; lia).
        cbn [w_nthn w_nthq w_ctx w_qid] in A, B. fold ms in A, B. destruct (deliver C handle _ l) as [o2 c2]. cbn [fst snd app] in *. split; [exact A|].
        destruct o2 as [w'|].
        ++ destruct B as (B1 & B2 & B3 & B4 & B5). repeat split; auto; subst n1 k1; lia.
        ++ destruct B as [B|[(x & X & Y)|B]]; [now left|right; left; exists x; split; [now right|exact Y]|right; right; subst n1 k1; destruct B; [left|right]; lia].
Qed.
End Deliver.
End Run.
