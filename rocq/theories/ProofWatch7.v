(** Events are only added; lk_get_all. *)
From Verif Require Import Bytes ModelPkt ModelTestSet SpecTestSet ProofTestSet ModelStore SpecStore ModelPred SpecPred ModelQuery SpecQuery ModelWatch SpecWatch ProofWatch ProofWatch2.

Section Run.
Variable C : Type.
Variable handle : C -> N * bytes -> C * bool * list (cmd C).
Variable stopped : C -> StopReason -> list (cmd C).
Variable qfuel : nat.
Variable stale : option entry.
Definition longer (s s' : rt C) : Prop := exists t, r_trace s' = r_trace s ++ t.
Lemma longer_refl s : longer s s. Proof. exists []. now rewrite app_nil_r. Qed.
Lemma longer_same s s' : r_trace s' = r_trace s -> longer s s'. Proof. intros E. exists []. now rewrite app_nil_r. Qed.
Lemma longer_trans a b c : longer a b -> longer b c -> longer a c.
Proof. intros [t T] [u U]. exists (t ++ u). rewrite U, T. now rewrite <- app_assoc. Qed.
Lemma longer_event s e s' : longer (add_event s e) s' -> longer s s'.
Proof. intros [t T]. exists (e :: t). rewrite T. cbn. now rewrite <- app_assoc. Qed.

Section Step.
Variable ex : lock -> rt C -> list (cmd C) -> outcome TestErr (rt C).
Hypothesis EX : forall m s cs s', ex m s cs = Ok s' -> longer s s'.
Ltac inv E := match type of E with obind ?X _ = Ok _ => let H := fresh "H" in destruct X eqn:H; try discriminate; cbn [obind] in E end.
Lemma drop_watch_longer m s w x s' : drop_watch stopped ex m s w x = Ok s' -> longer s s'.
Proof. intros E. apply EX in E. now apply longer_event in E. Qed.
Lemma drop_all_longer m ws x : forall s s', drop_all stopped ex m s ws x = Ok s' -> longer s s'.
Proof.
  induction ws as [|w ws IH]; intros s s' E; cbn in E; [injection E as <-; apply longer_refl|]. inv E. apply drop_watch_longer in H. eapply longer_trans; eauto.
Qed.
Lemma register_now_longer m s w s' : register_now stopped ex m s w = Ok s' -> longer s s'.
Proof.
  unfold register_now. destruct (register (r_now s) w (r_cbs s)) as [l [o|]]; intros E.
  - apply drop_watch_longer in E. exact E.
  - injection E as <-. now apply longer_same.
Qed.
Lemma close_now_longer m s q range s' : close_now stopped ex m s q range = Ok s' -> longer s s'.
Proof. unfold close_now. destruct (deregister q range (r_cbs s)) as [k dr]. intros E. apply drop_all_longer in E. exact E. Qed.
Lemma insert_longer m s w s' : insert_watch stopped ex m s w = Ok s' -> longer s s'.
Proof. destruct m; cbn; intros E; [eapply register_now_longer; eauto|injection E as <-; now apply longer_same|discriminate]. Qed.
Lemma close_longer m s q range s' : close stopped ex m s q range = Ok s' -> longer s s'.
Proof. destruct m; cbn; intros E; [eapply close_now_longer; eauto|injection E as <-; now apply longer_same|discriminate]. Qed.
Lemma drain_list_longer ps : forall s s', drain_list stopped ex s ps = Ok s' -> longer s s'.
Proof.
  induction ps as [|p ps IH]; intros s s' E; cbn in E; [injection E as <-; apply longer_refl|]. destruct p; inv E.
  - apply register_now_longer in H. eapply longer_trans; eauto.
  - apply close_now_longer in H. eapply longer_trans; eauto.
Qed.
Lemma drain_longer s s' : drain_pending stopped ex s = Ok s' -> longer s s'.
Proof. intros E. apply drain_list_longer in E. exact E. Qed.
Lemma trigger_longer r ws : forall s k s', trigger handle stopped ex r ws s = Ok (k, s') -> longer s s'.
Proof.
  induction ws as [|w ws IH]; intros s k s' E; cbn [trigger] in E; [injection E as _ <-; apply longer_refl|]. destruct (watch_test w r) as [[w1 ok] brk]. inv E. destruct a as [[w2 b] s1].
  assert (longer s s1) as L. { destruct ok; [|injection H as _ _ <-; apply longer_refl]. destruct (handle (w_ctx w1) r) as [[c' b'] cs]. inv H. injection H as _ _ <-. apply EX in H0. now apply longer_event in H0. }
  destruct (b || brk).
  - inv E. apply drop_watch_longer in H0. eapply longer_trans; [exact L|]. eapply longer_trans; eauto.
  - inv E. destruct a as [k2 s2]. injection E as _ <-. eapply longer_trans; eauto.
Qed.
Lemma trigger_all_longer rs : forall s s', trigger_all handle stopped ex rs s = Ok s' -> longer s s'.
Proof.
  induction rs as [|r rs IH]; intros s s' E; cbn [trigger_all] in E; [injection E as <-; apply longer_refl|]. inv E. destruct a as [k s1]. apply trigger_longer in H. apply IH in E. eapply longer_trans; [exact H|exact E].
Qed.
Lemma process_longer m s s' : process handle stopped ex m s = Ok s' -> longer s s'.
Proof.
  unfold process. destruct (_ <=? _); intros E; [injection E as <-; now apply longer_same|]. destruct m; try discriminate. inv E. inv E. inv E. injection E as <-. apply drain_longer in H, H1. apply trigger_all_longer in H0.
  eapply longer_trans; [exact H|]. eapply longer_trans; [exact H0|exact H1].
Qed.
Lemma scan_longer m q lim rs : forall at_ c s s' c' n b, scan handle ex m q lim rs at_ c s = Ok (s', c', n, b) -> longer s s'.
Proof.
  induction rs as [|r rs IH]; intros at_ c s s' c' n b E; cbn [scan] in E; [injection E as <- _ _ _; apply longer_refl|].
  destruct (member_next 32 lim at_) as [[[]|] nt]; [|eapply IH; eauto|injection E as <- _ _ _; apply longer_refl].
  destruct (handle c r) as [[c1 b1] cs]. inv E. apply EX, longer_event in H. destruct b1; [injection E as <- _ _ _; exact H|]. eapply longer_trans; [exact H|]. eapply IH; eauto.
Qed.
Lemma watch_longer m s q tb asc p c s' z : watch handle stopped qfuel stale ex m s q tb asc p c = Ok (s', z) -> longer s s'.
Proof.
  unfold watch. intros E. inv E. apply close_longer in H. inv E. destruct a0 as [[[s2 c'] n] b].
  assert (longer a s2) as L. { destruct (check_db p); [|injection H0 as <- _ _ _; apply longer_refl]. inv H0. eapply scan_longer; eauto. }
  destruct b; [injection E as <- _; eapply longer_trans; eauto|]. inv E. inv E. injection E as <- _. eapply longer_trans; [exact H|]. eapply longer_trans; [exact L|].
  destruct a0; [apply insert_longer in H2; exact H2|injection H2 as <-; now apply longer_same].
Qed.
Lemma exec1_longer m s c s' : exec1 handle stopped qfuel stale ex m s c = Ok s' -> longer s s'.
Proof.
  destruct c; cbn [exec1]; intros E.
  - inv E. destruct a as [s1 z]. injection E as <-. eapply watch_longer; eauto.
  - eapply close_longer; eauto.
  - eapply process_longer; eauto.
  - destruct (save f now (r_db s) ps) as [[d x] y]. injection E as <-. now apply longer_same.
  - injection E as <-. now apply longer_same.
Qed.
End Step.
Lemma exec_longer fuel : forall m s cs s', exec handle stopped qfuel stale fuel m s cs = Ok s' -> longer s s'.
Proof.
  induction fuel as [|n IH]; intros m s cs s' E; cbn [exec] in E.
  - destruct cs; [injection E as <-; apply longer_refl|discriminate].
  - revert s E. induction cs as [|c cs IHc]; intros s E; cbn [run_cmds] in E; [injection E as <-; apply longer_refl|].
    destruct (exec1 _ _ _ _ _ m s c) as [s1| | |] eqn:H; try discriminate. cbn [obind] in E. apply exec1_longer in H; [|exact IH]. eapply longer_trans; eauto.
Qed.
End Run.

Definition plain {C} (cb : C -> N * bytes -> C * bool) (c : C) (r : N * bytes) : C * bool * list (cmd C) := (cb c r, []).
Lemma get_loop_until {C} (cb : C -> N * bytes -> C * bool) lim rs : forall at_ c, let '(l, c', n, b) := get_loop lim rs at_ c cb in
  until_break (plain cb) c (zip_members 32 lim at_ rs) = (l, if b then None else Some c').
Proof.
  induction rs as [|r rs IH]; intros at_ c; cbn [get_loop zip_members until_break]; [reflexivity|]. destruct (member_next 32 lim at_) as [[[]|] nt]; [|apply IH|reflexivity].
  cbn [until_break]. unfold plain at 1. destruct (cb c r) as [c1 b1]. destruct b1; [reflexivity|]. specialize (IH nt c1). destruct (get_loop lim rs nt c1 cb) as [[[l c2] n] b2]. now rewrite IH.
Qed.
Lemma get_loop_count {C} (cb : C -> N * bytes -> C * bool) lim rs : set_ok 32 lim -> (forall n, n < 2 ^ 32 -> test 32 lim n = true) -> forall at_ c, at_ + lenN rs < 2 ^ 32 ->
  let '(l, c', n, b) := get_loop lim rs at_ c cb in n = at_ + lenN l /\ (b = true -> l <> []).
Proof.
  intros SO T. induction rs as [|r rs IH]; intros at_ c L; cbn [get_loop]; [change (lenN (@nil (N * bytes))) with 0; split; [lia|discriminate]|]. rewrite lenN_cons in L.
  unfold member_next. rewrite (T at_ ltac:(lia)). destruct (N.ltb_spec (high (bound lim)) at_) as [H|H].
  { exfalso. assert (at_ < 2 ^ 32) as A by lia. pose proof (T at_ A) as TA. rewrite test_member in TA by (reflexivity || assumption). unfold member, bound_test in TA. apply andb_prop in TA as [TA _]. rewrite andb_true_iff, !N.leb_le in TA. lia. }
  unfold inc. destruct (N.ltb_spec (at_ + 1) (2 ^ 32)); [|lia]. destruct (cb c r) as [c1 []]; [split; [reflexivity|discriminate]|].
  specialize (IH (at_ + 1) c1 ltac:(lia)). destruct (get_loop lim rs (at_ + 1) c1 cb) as [[[l c2] n] b2]. destruct IH as [-> _]. rewrite lenN_cons. split; [lia|discriminate].
Qed.
