(** Without saves the store stays as it is; sleeping with everything in view. *)
From Coq Require Import Lia.
From Verif Require Import Bytes ModelPkt SpecPkt ModelTestSet SpecTestSet ModelStore SpecStore ProofStore ModelPred SpecPred ModelQuery SpecQuery ModelWatch SpecWatch ProofWatch ProofWatch2 ModelRun SpecRun ProofRun.

Section Db.
Variable C : Type.
Variable handle : C -> N * bytes -> C * bool * list (cmd C).
Variable stopped : C -> StopReason -> list (cmd C).
Variable qfuel : nat.
Variable stale : option entry.
Hypothesis NS : never_save handle stopped.

Section Step.
Variable ex : lock -> rt C -> list (cmd C) -> outcome TestErr (rt C).
Hypothesis EX : forall m s cs s', Forall no_save cs -> ex m s cs = Ok s' -> r_db s' = r_db s.
Lemma drop_db m s w x s' : drop_watch stopped ex m s w x = Ok s' -> r_db s' = r_db s.
Proof. unfold drop_watch. intros E. apply EX in E; [exact E|apply NS]. Qed.
Lemma drop_all_db m ws : forall s x s', drop_all stopped ex m s ws x = Ok s' -> r_db s' = r_db s.
Proof.
  induction ws as [|w ws IH]; cbn [ModelWatch.drop_all]; intros s x s' E; [now injection E as <-|].
  destruct (drop_watch stopped ex m s w x) as [s1| | |] eqn:D; try discriminate. cbn [obind] in E. apply IH in E. apply drop_db in D. congruence.
Qed.
Lemma register_now_db m s w s' : register_now stopped ex m s w = Ok s' -> r_db s' = r_db s.
Proof.
  unfold register_now. destruct (register (r_now s) w (r_cbs s)) as [l [x|]]; intros E; [apply drop_db in E; exact E|now injection E as <-].
Qed.
Lemma close_now_db m s q range s' : close_now stopped ex m s q range = Ok s' -> r_db s' = r_db s.
Proof. unfold close_now. destruct (deregister q range (r_cbs s)) as [k dr]. intros E. apply drop_all_db in E. exact E. Qed.
Lemma insert_db m s w s' : insert_watch stopped ex m s w = Ok s' -> r_db s' = r_db s.
Proof. destruct m; cbn; intros E; [eapply register_now_db, E|now injection E as <-|discriminate]. Qed.
Lemma close_db m s q range s' : close stopped ex m s q range = Ok s' -> r_db s' = r_db s.
Proof. destruct m; cbn; intros E; [eapply close_now_db, E|now injection E as <-|discriminate]. Qed.
Lemma drain_list_db ps : forall s s', drain_list stopped ex s ps = Ok s' -> r_db s' = r_db s.
Proof.
  induction ps as [|[w|q range] ps IH]; cbn [ModelWatch.drain_list]; intros s s' E; [now injection E as <-| |].
  - destruct (register_now stopped ex Draining s w) as [s1| | |] eqn:R; try discriminate. cbn [obind] in E. apply IH in E. apply register_now_db in R. congruence.
  - destruct (close_now stopped ex Draining s q range) as [s1| | |] eqn:R; try discriminate. cbn [obind] in E. apply IH in E. apply close_now_db in R. congruence.
Qed.
Lemma trigger_db r ws : forall s k s', trigger handle stopped ex r ws s = Ok (k, s') -> r_db s' = r_db s.
Proof.
  induction ws as [|w ws IH]; cbn [ModelWatch.trigger]; intros s k s' E; [now injection E as <- <-|].
  destruct (watch_test w r) as [[w1 ok] brk].
  assert (G : forall w2 b s1, (if ok then let '(c', b, cs) := handle (w_ctx w1) r in obind (ex Locked (add_event s (Called (w_qid w1) r)) cs) (fun s' => Ok (set_ctx w1 c', b, s')) else Ok (w1, false, s)) = Ok (w2, b, s1) -> r_db s1 = r_db s).
  { intros w2 b s1. destruct ok; [|intros Q; now injection Q as <- <- <-].
    pose proof (proj1 NS (w_ctx w1) r) as N. destruct (handle (w_ctx w1) r) as [[c' b'] cs]. cbn [snd] in N. destruct (ex Locked (add_event s (Called (w_qid w1) r)) cs) as [s2| | |] eqn:X; try discriminate. cbn [obind]. intros Q. injection Q as <- <- <-.
    apply EX in X; [exact X|exact N]. }
  destruct (if ok then _ else _) as [[[w2 b] s1]| | |] eqn:X; try discriminate. cbn [obind] in E. specialize (G _ _ _ eq_refl). clear X.
  destruct (b || brk).
  - destruct (drop_watch stopped ex Locked s1 w2 (if brk then SBreak else SFinish)) as [s2| | |] eqn:D; try discriminate. cbn [obind] in E. apply IH in E. apply drop_db in D. congruence.
  - destruct (trigger handle stopped ex r ws s1) as [[k2 s2]| | |] eqn:D; try discriminate. cbn [obind] in E. injection E as <- <-. apply IH in D. congruence.
Qed.
Lemma trigger_all_db rs : forall s s', trigger_all handle stopped ex rs s = Ok s' -> r_db s' = r_db s.
Proof.
  induction rs as [|r rs IH]; cbn [ModelWatch.trigger_all]; intros s s' E; [now injection E as <-|].
  destruct (trigger handle stopped ex r (r_cbs s) s) as [[k s1]| | |] eqn:T; try discriminate. cbn [obind] in E. apply IH in E. apply trigger_db in T. cbn in E. congruence.
Qed.
Lemma process_db m s s' : process handle stopped ex m s = Ok s' -> r_db s' = r_db s.
Proof.
  unfold process. destruct (_ <=? _); [intros E; now injection E as <-|]. destruct m; try discriminate. unfold drain_pending. intros E.
  match type of E with obind ?a _ = _ => destruct a as [s2| | |] eqn:D1; try discriminate end. cbn [obind] in E.
  match type of E with obind ?a _ = _ => destruct a as [s3| | |] eqn:D2; try discriminate end. cbn [obind] in E.
  match type of E with obind ?a _ = _ => destruct a as [s4| | |] eqn:D3; try discriminate end. cbn [obind] in E.
  apply drain_list_db in D1, D3. apply trigger_all_db in D2. injection E as <-. cbn in *. congruence.
Qed.
Lemma scan_db m q lim rs : forall at_ c s r, scan handle ex m q lim rs at_ c s = Ok r -> r_db (fst (fst (fst r))) = r_db s.
Proof.
  induction rs as [|x rs IH]; cbn [ModelWatch.scan]; intros at_ c s r E; [now injection E as <-|].
  destruct (member_next 32 lim at_) as [[[|]|] nt]; [|eauto|now injection E as <-].
  pose proof (proj1 NS c x) as N. destruct (handle c x) as [[c' b] cs]. cbn [snd] in N. destruct (ex m (add_event s (Called q x)) cs) as [s1| | |] eqn:X; try discriminate. cbn [obind] in E.
  apply EX in X; [|exact N]. cbn in X. destruct b; [injection E as <-; exact X|]. apply IH in E. congruence.
Qed.
Lemma watch_db m s q tb asc p c s' z : watch handle stopped qfuel stale ex m s q tb asc p c = Ok (s', z) -> r_db s' = r_db s.
Proof.
  unfold watch. destruct (close stopped ex m s q false) as [s1| | |] eqn:D; try discriminate. cbn [obind]. apply close_db in D.
  assert (forall r, (if check_db p then obind (query_all qfuel (r_snap s1) tb asc p stale) (fun rs => scan handle ex m q (p_limits p QQuery) rs 0 c s1) else Ok (s1, c, 0, false)) = Ok r -> r_db (fst (fst (fst r))) = r_db s1) as G.
  { intros r. destruct (check_db p); [|intros E; now injection E as <-]. destruct (query_all _ _ _ _ _ _) as [rs| | |]; try discriminate. cbn [obind]. apply scan_db. }
  destruct (if check_db p then _ else _) as [[[[s2 c'] n] b]| | |]; try discriminate. specialize (G _ eq_refl). cbn [fst] in G. cbn [obind].
  destruct b; [intros E; injection E as <- _; congruence|].
  destruct (watch_new _ q p n c') as [[w|]| | |]; try discriminate; cbn [obind].
  - destruct (insert_watch stopped ex m _ w) as [s3| | |] eqn:X; try discriminate. cbn [obind]. intros E. injection E as <- _. apply insert_db in X. cbn in X. congruence.
  - intros E. injection E as <- _. cbn. congruence.
Qed.
Lemma run_db m cs : forall s s', Forall no_save cs -> run_cmds (exec1 handle stopped qfuel stale ex m) s cs = Ok s' -> r_db s' = r_db s.
Proof.
  induction cs as [|c cs IH]; cbn [run_cmds]; intros s s' F E; [now injection E as <-|]. inversion F as [|? ? F1 F2]; subst.
  destruct (exec1 _ _ _ _ ex m s c) as [s1| | |] eqn:X; try discriminate. cbn [obind] in E. apply IH in E; [|exact F2]. rewrite E.
  destruct c as [q tb asc p c|q range| |f now ps|now]; cbn [exec1] in X.
  - destruct (watch _ _ _ _ _ _ _ _ _ _ _ _) as [[s2 z]| | |] eqn:W; try discriminate. cbn [obind] in X. injection X as <-. eapply watch_db, W.
  - eapply close_db, X.
  - eapply process_db, X.
  - destruct F1.
  - now injection X as <-.
Qed.
End Step.
Theorem exec_db fuel : forall m s cs s', Forall no_save cs -> exec handle stopped qfuel stale fuel m s cs = Ok s' -> r_db s' = r_db s.
Proof.
  induction fuel as [|n IH]; cbn [exec]; intros m s cs s' F; [destruct cs; [|discriminate]; intros E; now injection E as <-|]. now apply run_db.
Qed.

Variable depth : nat.
Lemma quiet_others l : forall s : rt C, Forall (fun o => match o with OSave _ _ _ => False | OTick _ => True end) l -> r_db (others s l) = r_db s.
Proof.
  induction l as [|o l IH]; intros s F; [reflexivity|]. inversion F as [|? ? F1 F2]; subst.
  change (others s (o :: l)) with (others (outside1 s o) l). rewrite IH by exact F2. destruct o; [destruct F1|reflexivity].
Qed.
Lemma loop_view t0 last u ts : forall s dr s' d dr', Inv C s -> quiet_mid ts ->
  run_loop C handle stopped qfuel stale depth t0 last u ts s dr = Ok (Asleep s' d dr') -> r_snap s' = r_db s' /\ r_upto s' = log_head (r_db s').
Proof.
  induction ts as [|t ts IH]; intros s dr s' d dr' I Q E; cbn [run_loop] in E;
    destruct (process handle stopped (exec handle stopped qfuel stale depth) Free s) as [s1| | |] eqn:P; try discriminate; cbn [obind] in E.
  - destruct (check_watch C s1 u); discriminate.
  - assert (EXS : forall m a x b, exec handle stopped qfuel stale depth m a x = Ok b -> step C m a b) by (intros m a x b X; eapply exec_step; eauto).
    assert (I1 : Inv C s1) by (exact (proj1 (process_step C handle stopped _ EXS Free s s1 P I))).
    destruct (process_grows C handle stopped _ EXS Free s s1 P I eq_refl) as (_ & V & _).
    assert (D1 : r_db s1 = r_db s) by (eapply (process_db _ (exec_db depth)); eauto).
    inversion Q as [|? ? Q1 Q2]; subst.
    destruct (check_watch C s1 u); [discriminate|].
    set (s2 := others s1 (t_mid t)) in *. assert (D2 : r_db s2 = r_db s1) by (apply quiet_others, Q1).
    destruct (others_cbs C (t_mid t) s1) as (_ & _ & _ & O4). fold s2 in O4.
    assert (I2 : Inv C s2) by (apply (others_inv C handle stopped qfuel stale), I1).
    destruct (match last with Some l => l <? r_now s2 | None => false end); [discriminate|].
    pose proof (next_work_inv C s2 I2) as I3. pose proof (next_work_cases C s2) as W. destruct (next_work C s2) as [[s3 gn] work]. cbn [fst] in I3. destruct W as [W _].
    destruct work as [[oob|]|]; [| |discriminate].
    + destruct W as (_ & _ & W & _). destruct (_ && _) in E; [eapply IH; [exact I3|exact Q2|exact E]|].
      destruct (t_wait t) as [|l|l].
      * injection E as <- _ _. assert (X : r_snap s3 = r_db s3) by (rewrite W; cbn; congruence). split; [exact X|].
        destruct I3 as (_ & U & _). congruence.
      * eapply IH; [|exact Q2|exact E]. apply (others_inv C handle stopped qfuel stale). exact I3.
      * eapply IH; [|exact Q2|exact E]. apply (tick_inv C handle stopped qfuel stale), (others_inv C handle stopped qfuel stale). exact I3.
    + destruct W as (-> & _). eapply IH; [exact I2|exact Q2|exact E].
Qed.
End Db.
