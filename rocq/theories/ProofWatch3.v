(** What happens to a watch that nobody touches. *)
From Coq Require Import Sorting.Sorted.
From Verif Require Import Bytes ModelPkt ModelTestSet SpecTestSet ModelStore SpecStore ProofStore PropsStore ModelPred SpecPred SpecQuery ModelQuery ModelWatch SpecWatch ProofWatch ProofWatch2.

Definition between (d : db) (a b : N) : list (N * bytes) := filter (fun e => (a <? fst e) && (fst e <=? b)) (log_t d).
Lemma filter_none {A} (f : A -> bool) l : (forall x, In x l -> f x = false) -> filter f l = [].
Proof. induction l as [|x l IH]; intros H; [reflexivity|]. cbn. rewrite (H x (or_introl eq_refl)). apply IH. intros y I. apply H. now right. Qed.
Lemma split_between (l : list (N * bytes)) a b c : increasing (map fst l) -> a <= b -> b <= c ->
  filter (fun e => (a <? fst e) && (fst e <=? c)) l = filter (fun e => (a <? fst e) && (fst e <=? b)) l ++ filter (fun e => (b <? fst e) && (fst e <=? c)) l.
Proof.
  induction l as [|x l IH]; intros S AB BC; [reflexivity|]. cbn [map] in S. inversion S as [|? ? S1 F]; subst. specialize (IH S1 AB BC). cbn [filter].
  destruct (N.leb_spec (fst x) b) as [L|L].
  - replace (b <? fst x) with false by (symmetry; apply N.ltb_ge; exact L). replace (fst x <=? c) with true by (symmetry; apply N.leb_le; lia). rewrite !andb_true_r. cbn [andb].
    destruct (a <? fst x); cbn [app]; [now f_equal|exact IH].
  - rewrite (filter_none (fun e => (a <? fst e) && (fst e <=? b)) l) in *.
    + rewrite andb_false_r. cbn [app]. replace (a <? fst x) with true by (symmetry; apply N.ltb_lt; lia). replace (b <? fst x) with true by (symmetry; now apply N.ltb_lt). cbn [andb].
      destruct (fst x <=? c); [now f_equal|exact IH].
    + intros y I. rewrite Forall_forall in F. specialize (F (fst y) (in_map fst _ _ I)). apply andb_false_intro2, N.leb_gt. lia.
    + intros y I. rewrite Forall_forall in F. specialize (F (fst y) (in_map fst _ _ I)). apply andb_false_intro2, N.leb_gt. lia.
Qed.
Lemma between_split d l a b c : represents d l -> a <= b -> b <= c -> between d a c = between d a b ++ between d b c.
Proof. intros R. apply split_between. eapply log_sorted, R. Qed.
Lemma between_none d a b : b <= a -> between d a b = [].
Proof. intros L. apply filter_none. intros x _. destruct (N.ltb_spec a (fst x)), (N.leb_spec (fst x) b); try reflexivity. lia. Qed.
Lemma logged_later d d' l l' e : represents d l -> represents d' (l ++ l') -> In e l' -> l = [] \/ log_head d < fst e.
Proof. intros R R' I. destruct l as [|x l]; [now left|right]. eapply head_later; eauto. discriminate. Qed.
Lemma between_snap sn d l0 l1 a : represents sn l0 -> represents d (l0 ++ l1) -> between d a (log_head sn) = filter (fun e => a <? fst e) (log_t sn).
Proof.
  intros R0 R1. unfold between. pose proof R0 as (_ & _ & L0 & _). pose proof R1 as (_ & _ & L1 & _). rewrite L0, L1, map_app, filter_app.
  rewrite (filter_none _ (map _ l1)).
  - rewrite app_nil_r. apply filter_ext_in. intros x I. apply in_map_iff in I as (e & <- & I). cbn [fst]. destruct (head_spec _ _ R0) as [_ M]. apply M in I. replace (fst e <=? log_head sn) with true by (symmetry; now apply N.leb_le). apply andb_true_r.
  - intros x I. apply in_map_iff in I as (e & <- & I). cbn [fst]. destruct (logged_later _ _ _ _ _ R0 R1 I) as [->|L].
    + destruct (head_spec _ _ R0) as [[[_ H]|[p []]] _]. rewrite H. destruct (N.ltb_spec a (fst e)), (N.leb_spec (fst e) 0); try reflexivity. lia.
    + apply andb_false_intro2, N.leb_gt, L.
Qed.

Section Run.
Variable C : Type.
Variable handle : C -> N * bytes -> C * bool * list (cmd C).
Variable stopped : C -> StopReason -> list (cmd C).
Variable qfuel : nat.
Variable stale : option entry.
Variable q : bytes.
Hypothesis HA : forall c r, Forall (fun c => ~ touches q c) (snd (handle c r)).
Hypothesis HS : forall c x, Forall (fun c => ~ touches q c) (stopped c x).
Implicit Types (s : rt C) (w : Watch C).

(** A packet offered to a watch: what becomes of the watch and whether it is called. *)
Definition feed w (r : N * bytes) : option (Watch C) * list (N * bytes) :=
  let '(w1, ok, brk) := watch_test w r in
  if ok then let '(c, b, _) := handle (w_ctx w1) r in (if b || brk then None else Some (set_ctx w1 c), [r])
  else (if brk then None else Some w1, []).
Fixpoint deliver (o : option (Watch C)) (rs : list (N * bytes)) : option (Watch C) * list (N * bytes) :=
  match rs with
  | [] => (o, [])
  | r :: rs' =>
      match o with
      | None => (None, [])
      | Some w => let '(o1, c1) := feed w r in let '(o2, c2) := deliver o1 rs' in (o2, c1 ++ c2)
      end
  end.
Lemma deliver_none rs : deliver None rs = (None, []).
Proof. now destruct rs. Qed.
Lemma deliver_app rs : forall o rs', deliver o (rs ++ rs') = let '(o1, c1) := deliver o rs in let '(o2, c2) := deliver o1 rs' in (o2, c1 ++ c2).
Proof.
  induction rs as [|r rs IH]; intros o rs'; [cbn; destruct (deliver o rs'); reflexivity|]. cbn [app deliver]. destruct o as [w|]; [|rewrite deliver_none; reflexivity].
  destruct (feed w r) as [o1 c1]. rewrite IH. destruct (deliver o1 rs) as [o2 c2]. destruct (deliver o2 rs') as [o3 c3]. now rewrite app_assoc.
Qed.
Lemma calls_app t t' : calls q (t ++ t') = calls q t ++ calls q t'.
Proof. apply flat_map_app. Qed.

Notation pend_free := (pending_clear q).
Definition aside s s' : Prop := pend_free s -> pend_free s' /\ exists t, r_trace s' = r_trace s ++ t /\ calls q t = [].
Definition outside s s' : Prop := Inv C s -> pend_free s -> pend_free s' /\ r_upto s <= r_upto s' /\ exists t, r_trace s' = r_trace s ++ t /\
  (find_watch q (r_cbs s'), calls q t) = deliver (find_watch q (r_cbs s)) (between (r_db s') (r_upto s) (r_upto s')).
Definition apart (m : lock) s s' : Prop := step C m s s' /\ match m with Free => outside s s' | _ => aside s s' end.
Lemma aside_refl s : aside s s.
Proof. intros P. split; [exact P|]. exists []. now rewrite app_nil_r. Qed.
Lemma aside_trans a b c : aside a b -> aside b c -> aside a c.
Proof.
  intros A B P. destruct (A P) as (P1 & t1 & T1 & C1). destruct (B P1) as (P2 & t2 & T2 & C2). split; [exact P2|]. exists (t1 ++ t2). rewrite T2, T1, app_assoc. split; [reflexivity|]. now rewrite calls_app, C1, C2.
Qed.
(** Seen from outside when neither the watch nor the position changes. *)
Lemma aside_outside s s' : aside s s' -> (by_id (r_cbs s) -> find_watch q (r_cbs s') = find_watch q (r_cbs s)) -> r_upto s' = r_upto s -> outside s s'.
Proof.
  intros A F U I P. destruct (A P) as (P1 & t & T & K). split; [exact P1|]. rewrite U. split; [lia|]. exists t. split; [exact T|]. rewrite between_none by lia. cbn [deliver]. rewrite K, F; [reflexivity|apply I].
Qed.
Lemma outside_trans a b c : step C Free a b -> step C Free b c -> outside a b -> outside b c -> outside a c.
Proof.
  intros SA SB A B I P. destruct (A I P) as (P1 & U1 & t1 & T1 & K1). destruct (SA I) as (I1 & G1 & _). destruct (B I1 P1) as (P2 & U2 & t2 & T2 & K2). destruct (SB I1) as (I2 & G2 & _).
  split; [exact P2|]. split; [lia|]. exists (t1 ++ t2). rewrite T2, T1, app_assoc. split; [reflexivity|].
  destruct I1 as (_ & E1 & l0 & l1 & R0 & R1). destruct (G2 _ R1) as [l2 R2]. rewrite (between_split _ _ _ (r_upto b) _ R2) by lia.
  replace (between (r_db c) (r_upto a) (r_upto b)) with (between (r_db b) (r_upto a) (r_upto b)).
  2:{ rewrite E1. rewrite (between_snap _ _ _ _ _ R0 R1). rewrite <- app_assoc in R2. now rewrite (between_snap _ _ _ _ _ R0 R2). }
  rewrite deliver_app, <- K1, <- K2, calls_app. reflexivity.
Qed.
Lemma apart_trans m a b c : apart m a b -> apart m b c -> apart m a c.
Proof.
  intros [A1 A2] [B1 B2]. split; [eapply step_trans; eauto|]. destruct m; [eapply outside_trans; eauto|eapply aside_trans; eauto|eapply aside_trans; eauto].
Qed.
Lemma apart_quiet m s s' : quiet C s s' -> r_cbs s' = r_cbs s -> aside s s' -> apart m s s'.
Proof.
  intros Q E A. split; [now apply step_quiet|]. destruct m; [|exact A|exact A]. apply aside_outside; [exact A|now rewrite E|apply Q].
Qed.
Lemma apart_refl m s : apart m s s.
Proof. apply apart_quiet; [repeat split|reflexivity|apply aside_refl]. Qed.
Lemma aside_event s e : calls q [e] = [] -> aside s (add_event s e).
Proof. intros K P. split; [exact P|]. exists [e]. auto. Qed.
Lemma aside_same s s' : r_pend s' = r_pend s -> r_trace s' = r_trace s -> aside s s'.
Proof. intros E T P. split; [unfold pending_clear; now rewrite E|]. exists []. rewrite T, app_nil_r. auto. Qed.

Section Step.
Variable ex : lock -> rt C -> list (cmd C) -> outcome TestErr (rt C).
Hypothesis EX : forall m s cs s', Forall (fun c => ~ touches q c) cs -> ex m s cs = Ok s' -> apart m s s'.
Hypothesis EX0 : forall m s cs s', ex m s cs = Ok s' -> step C m s s'.
Lemma drop_watch_aside m s w x s' : m <> Free -> drop_watch stopped ex m s w x = Ok s' -> aside s s'.
Proof.
  unfold drop_watch. intros M E. eapply aside_trans; [apply (aside_event s (Stopped (w_qid w) x (w_nthq w) (w_nthn w))); reflexivity|]. apply EX in E as [_ E]; [|apply HS]. destruct m; [congruence|exact E|exact E].
Qed.
Lemma drop_all_aside m ws : m <> Free -> forall s x s', drop_all stopped ex m s ws x = Ok s' -> aside s s'.
Proof.
  intros M. induction ws as [|w ws IH]; cbn [ModelWatch.drop_all]; intros s x s' E; [injection E as <-; apply aside_refl|].
  destruct (drop_watch stopped ex m s w x) as [s1| | |] eqn:D; try discriminate. cbn [obind] in E. eapply aside_trans; [eapply drop_watch_aside; eauto|eauto].
Qed.
Lemma register_now_aside m s w s' : m <> Free -> register_now stopped ex m s w = Ok s' -> aside s s'.
Proof.
  unfold register_now. intros M. destruct (register (r_now s) w (r_cbs s)) as [l [x|]].
  - intros E. apply drop_watch_aside in E; [|exact M]. eapply aside_trans; [|exact E]. now apply aside_same.
  - intros E. injection E as <-. now apply aside_same.
Qed.
Lemma close_now_aside m s q' range s' : m <> Free -> close_now stopped ex m s q' range = Ok s' -> aside s s'.
Proof.
  unfold close_now. intros M. destruct (deregister q' range (r_cbs s)) as [k dr]. intros E. apply drop_all_aside in E; [|exact M]. eapply aside_trans; [|exact E]. now apply aside_same.
Qed.
Lemma register_now_find m s w s' : m <> Free -> w_qid w <> q -> by_id (r_cbs s) -> register_now stopped ex m s w = Ok s' -> find_watch q (r_cbs s') = find_watch q (r_cbs s).
Proof.
  intros M W S E. apply (register_now_step C stopped ex EX0) in E; [|exact M]. destruct E as (-> & _). cbn [r_cbs set_cbs]. unfold register. rewrite (proj1 (register_find C _ w (r_cbs s) q S)).
  destruct (beqb (w_qid w) q) eqn:B; [apply beqb_eq in B; contradiction|reflexivity].
Qed.
Lemma close_now_find m s q' range s' : m <> Free -> ~ touches q (@CStop C q' range) -> by_id (r_cbs s) -> close_now stopped ex m s q' range = Ok s' -> find_watch q (r_cbs s') = find_watch q (r_cbs s).
Proof.
  intros M W S E. apply (close_now_step C stopped ex EX0) in E; [|exact M]. destruct E as (-> & _). cbn [r_cbs set_cbs]. now apply deregister_other.
Qed.
Lemma insert_apart m s w s' : w_qid w <> q -> insert_watch stopped ex m s w = Ok s' -> apart m s s'.
Proof.
  intros W E. split; [eapply insert_step; eauto|]. destruct m; cbn in E; [|injection E as <-|discriminate].
  - apply aside_outside; [eapply register_now_aside; [|exact E]; discriminate| |].
    + intros S. eapply register_now_find; [|exact W|exact S|exact E]. discriminate.
    + apply (register_now_step C stopped ex EX0) in E; [|discriminate]. apply E.
  - intros P. split; [apply Forall_app; split; [exact P|]; now constructor|]. exists []. rewrite app_nil_r. auto.
Qed.
Lemma close_apart m s q' range s' : ~ touches q (@CStop C q' range) -> close stopped ex m s q' range = Ok s' -> apart m s s'.
Proof.
  intros W E. split; [eapply close_step; eauto|]. destruct m; cbn in E; [|injection E as <-|discriminate].
  - apply aside_outside; [eapply close_now_aside; [|exact E]; discriminate| |].
    + intros S. eapply close_now_find; [|exact W|exact S|exact E]. discriminate.
    + apply (close_now_step C stopped ex EX0) in E; [|discriminate]. apply E.
  - intros P. split; [apply Forall_app; split; [exact P|]; now constructor|]. exists []. rewrite app_nil_r. auto.
Qed.
Lemma drain_list_apart d from ps : forall s s', busy C d from s -> pend_free (set_pend s ps) -> drain_list stopped ex s ps = Ok s' -> aside s s' /\ find_watch q (r_cbs s') = find_watch q (r_cbs s).
Proof.
  induction ps as [|x ps IH]; cbn [ModelWatch.drain_list]; intros s s' B P E; [injection E as <-; split; [apply aside_refl|reflexivity]|].
  inversion P as [|? ? P1 P2]; subst. destruct x as [w|q' range].
  - destruct (register_now stopped ex Draining s w) as [s1| | |] eqn:R; try discriminate. cbn [obind] in E.
    assert (busy C d from s1) as B1. { pose proof R as R'. apply (register_now_step C stopped ex EX0) in R'; [|discriminate]. eapply busy_held; [|exact R']. apply busy_cbs; [exact B|]. apply register_sorted_, B. }
    apply IH in E as [E1 E2]; [|exact B1|exact P2]. split; [eapply aside_trans; [eapply register_now_aside; [|exact R]; discriminate|exact E1]|].
    rewrite E2. eapply register_now_find; [|exact P1|apply B|exact R]. discriminate.
  - destruct (close_now stopped ex Draining s q' range) as [s1| | |] eqn:R; try discriminate. cbn [obind] in E.
    assert (busy C d from s1) as B1. { pose proof R as R'. apply (close_now_step C stopped ex EX0) in R'; [|discriminate]. eapply busy_held; [|exact R']. apply busy_cbs; [exact B|]. apply deregister_sorted, B. }
    apply IH in E as [E1 E2]; [|exact B1|exact P2]. split; [eapply aside_trans; [eapply close_now_aside; [|exact R]; discriminate|exact E1]|].
    rewrite E2. eapply close_now_find; [|exact P1|apply B|exact R]. discriminate.
Qed.
Lemma drain_apart d from s s' : busy C d from s -> pend_free s -> drain_pending stopped ex s = Ok s' -> pend_free s' /\ (exists t, r_trace s' = r_trace s ++ t /\ calls q t = []) /\ find_watch q (r_cbs s') = find_watch q (r_cbs s).
Proof.
  unfold drain_pending. intros B P E. eapply drain_list_apart in E as [A F]; [|exact B|exact P]. destruct (A ltac:(constructor)) as (P1 & T). auto.
Qed.
Lemma feed_qid w r o c : feed w r = (Some o, c) -> w_qid o = w_qid w.
Proof.
  unfold feed. pose proof (watch_test_qid C w r) as W. destruct (watch_test w r) as [[w1 ok] brk]. cbn [fst] in W. destruct ok.
  - destruct (handle (w_ctx w1) r) as [[c' b] cs]. destruct (b || brk); [discriminate|]. intros E. injection E as <- _. exact W.
  - destruct brk; [discriminate|]. intros E. injection E as <- _. exact W.
Qed.
Lemma trigger_apart r ws : by_id ws -> forall s k s', trigger handle stopped ex r ws s = Ok (k, s') -> pend_free s ->
  pend_free s' /\ exists t, r_trace s' = r_trace s ++ t /\ (find_watch q k, calls q t) = deliver (find_watch q ws) [r].
Proof.
  induction ws as [|w ws IH]; intros BI; cbn [ModelWatch.trigger]; intros s k s' E P; [injection E as <- <-; split; [exact P|]; exists []; rewrite app_nil_r; auto|].
  pose proof (watch_test_qid C w r) as WQ. pose proof (eq_refl (feed w r)) as FD. unfold feed at 1 in FD. destruct (watch_test w r) as [[w1 ok] brk]. cbn [fst] in WQ.
  set (X := if ok then _ else _) in E.
  assert (forall w2 b s1, X = Ok (w2, b, s1) -> w_qid w2 = w_qid w /\ feed w r = (if b || brk then None else Some w2, if ok then [r] else []) /\ pend_free s1 /\ exists t, r_trace s1 = r_trace s ++ t /\ calls q t = if ok then if beqb (w_qid w) q then [r] else [] else []) as G.
  { subst X. intros w2 b s1. rewrite <- FD. destruct ok.
    - pose proof (HA (w_ctx w1) r) as HA1. destruct (handle (w_ctx w1) r) as [[c' b'] cs]. cbn [snd] in HA1. destruct (ex Locked (add_event s (Called (w_qid w1) r)) cs) as [s2| | |] eqn:Y; try discriminate. cbn [obind]. intros Q. injection Q as <- <- <-.
      split; [exact WQ|]. split; [reflexivity|]. apply EX in Y as [_ Y]; [|exact HA1]. destruct (Y P) as (P1 & t & T & K). split; [exact P1|]. exists (Called (w_qid w1) r :: t). split; [rewrite T; cbn [r_trace add_event]; now rewrite <- app_assoc|].
      cbn [calls flat_map]. fold (calls q t). rewrite K, WQ, app_nil_r. reflexivity.
    - intros Q. injection Q as <- <- <-. split; [exact WQ|]. split; [now cbn|]. split; [exact P|]. exists []. rewrite app_nil_r. auto. }
  clearbody X. clear FD. destruct X as [[[w2 b] s1]| | |]; try discriminate. cbn [obind] in E. destruct (G _ _ _ eq_refl) as (W & F & P1 & t1 & T1 & K1). clear G.
  apply by_id_head in BI as [BI H]. specialize (IH BI). rewrite find_cons.
  assert (beqb (w_qid w) q = true -> find_watch q ws = None) as NO.
  { intros B. apply beqb_eq in B. apply find_none. intros x I. rewrite Forall_forall in H. rewrite <- B. auto. }
  destruct (b || brk) eqn:BB.
  - destruct (drop_watch stopped ex Locked s1 w2 (if brk then SBreak else SFinish)) as [s2| | |] eqn:D; try discriminate. cbn [obind] in E.
    apply drop_watch_aside in D; [|discriminate]. destruct (D P1) as (P2 & t2 & T2 & K2). destruct (IH _ _ _ E P2) as (P3 & t3 & T3 & K3). split; [exact P3|]. exists (t1 ++ t2 ++ t3). split; [rewrite T3, T2, T1; now rewrite <- !app_assoc|].
    rewrite !calls_app, K1, K2. cbn [app]. destruct (beqb (w_qid w) q).
    + rewrite (NO eq_refl) in K3. cbn [deliver] in K3. injection K3 as -> ->. cbn [deliver]. rewrite F. cbn [deliver]. now destruct ok.
    + rewrite <- K3. now destruct ok.
  - destruct (trigger handle stopped ex r ws s1) as [[k2 s2]| | |] eqn:D; try discriminate. cbn [obind] in E. injection E as <- <-. destruct (IH _ _ _ D P1) as (P3 & t3 & T3 & K3). split; [exact P3|]. exists (t1 ++ t3). split; [rewrite T3, T1; now rewrite <- !app_assoc|].
    rewrite !calls_app, K1. rewrite find_cons, W. destruct (beqb (w_qid w) q).
    + rewrite (NO eq_refl) in K3. cbn [deliver] in K3. injection K3 as K3 ->. cbn [deliver]. rewrite F. cbn [deliver]. now rewrite !app_nil_r.
    + rewrite <- K3. now destruct ok.
Qed.
Lemma trigger_all_apart d from rs : forall s s', busy C d from s -> pend_free s -> trigger_all handle stopped ex rs s = Ok s' ->
  pend_free s' /\ exists t, r_trace s' = r_trace s ++ t /\ (find_watch q (r_cbs s'), calls q t) = deliver (find_watch q (r_cbs s)) rs.
Proof.
  induction rs as [|r rs IH]; cbn [ModelWatch.trigger_all]; intros s s' B P E; [injection E as <-; split; [exact P|]; exists []; rewrite app_nil_r; auto|].
  destruct (trigger handle stopped ex r (r_cbs s) s) as [[k s1]| | |] eqn:T; try discriminate. cbn [obind] in E. pose proof T as T'. apply (trigger_apart r (r_cbs s) (proj1 B)) in T' as (P1 & t1 & T1 & K1); [|exact P].
  apply (trigger_step C handle stopped ex EX0) in T as [T H]. apply IH in E as (P2 & t2 & T2 & K2); [|apply busy_cbs; [eapply busy_held; eauto|]; eapply thinned_sorted; [exact T|apply B]|exact P1].
  split; [exact P2|]. exists (t1 ++ t2). split; [rewrite T2; cbn [r_trace set_cbs]; now rewrite T1, app_assoc|]. rewrite calls_app. cbn [r_cbs set_cbs] in K2.
  change (r :: rs) with ([r] ++ rs). rewrite deliver_app, <- K1, <- K2. reflexivity.
Qed.
Lemma process_apart m s s' : process handle stopped ex m s = Ok s' -> apart m s s'.
Proof.
  intros E. split; [eapply process_step; eauto|]. unfold process in E. destruct (N.leb_spec (log_head (r_db s)) (r_upto s)) as [L|L].
  - injection E as <-. assert (aside s (set_snap s (r_db s))) as A by now apply aside_same. destruct m; [|exact A|exact A]. now apply aside_outside.
  - destruct m; [|discriminate|discriminate]. intros I P. pose proof I as (S & U & l0 & l1 & R0 & R1).
    assert (busy C (r_db s) (r_upto s) (set_snap s (r_db s))) as B.
    { split; [exact S|]. split; [reflexivity|]. split; [reflexivity|]. split; [apply grows_refl|]. eauto. }
    destruct (drain_pending stopped ex (set_snap s (r_db s))) as [s2| | |] eqn:D1; try discriminate. cbn [obind] in E. pose proof (drain_step C stopped ex EX0 _ _ _ _ B D1) as B1. apply (drain_apart _ _ _ _ B P) in D1 as (P1 & (t1 & T1 & K1) & F1).
    destruct (trigger_all handle stopped ex (pkts_after (r_db s) (r_upto s)) s2) as [s3| | |] eqn:D2; try discriminate. cbn [obind] in E. pose proof (trigger_all_step C handle stopped ex EX0 _ _ _ _ _ B1 D2) as B2. apply (trigger_all_apart _ _ _ _ _ B1 P1) in D2 as (P2 & t2 & T2 & K2).
    destruct (drain_pending stopped ex s3) as [s4| | |] eqn:D3; try discriminate. cbn [obind] in E. pose proof (drain_step C stopped ex EX0 _ _ _ _ B2 D3) as B3. apply (drain_apart _ _ _ _ B2 P2) in D3 as (P3 & (t3 & T3 & K3) & F3).
    injection E as <-. cbn [r_upto r_cbs r_trace r_db set_upto]. split; [exact P3|]. rewrite (process_upto _ _ _ R1) by exact L. split; [lia|]. exists (t1 ++ t2 ++ t3). split; [rewrite T3, T2, T1; cbn [r_trace set_snap]; now rewrite <- !app_assoc|].
    rewrite !calls_app, K1, K3, app_nil_r, F3. cbn [app]. rewrite K2, F1. cbn [r_cbs set_snap]. f_equal.
    destruct B3 as (_ & _ & _ & G & _). destruct (G _ R1) as [l2 R2]. rewrite (between_snap _ _ _ _ _ R1 R2). unfold pkts_after, local_pkt_log. apply filter_ext. intros e. destruct (N.leb_spec (r_upto s + 1) (fst e)), (N.ltb_spec (r_upto s) (fst e)); try reflexivity; lia.
Qed.
Lemma scan_apart m q' lim rs : q' <> q -> forall at_ c s r, scan handle ex m q' lim rs at_ c s = Ok r -> apart m s (fst (fst (fst r))).
Proof.
  intros NQ. induction rs as [|x rs IH]; cbn [ModelWatch.scan]; intros at_ c s r E; [injection E as <-; apply apart_refl|].
  destruct (member_next 32 lim at_) as [[[|]|] nt]; [|eauto|injection E as <-; apply apart_refl].
  pose proof (HA c x) as HA1. destruct (handle c x) as [[c' b] cs]. cbn [snd] in HA1. destruct (ex m (add_event s (Called q' x)) cs) as [s1| | |] eqn:X; try discriminate. cbn [obind] in E. apply EX in X; [|exact HA1].
  eapply apart_trans; [apply (apart_quiet _ _ (add_event s (Called q' x))); [repeat split|reflexivity|]|].
  - apply aside_event. cbn. destruct (beqb q' q) eqn:B; [apply beqb_eq in B; contradiction|reflexivity].
  - destruct b; [injection E as <-; exact X|]. eapply apart_trans; [exact X|eauto].
Qed.
Lemma watch_apart m s q' tb asc p c s' z : q' <> q -> watch handle stopped qfuel stale ex m s q' tb asc p c = Ok (s', z) -> apart m s s'.
Proof.
  intros NQ. unfold watch. destruct (close stopped ex m s q' false) as [s1| | |] eqn:D; try discriminate. cbn [obind]. apply close_apart in D; [|exact NQ].
  assert (forall r, (if check_db p then obind (query_all qfuel (r_snap s1) tb asc p stale) (fun rs => scan handle ex m q' (p_limits p QQuery) rs 0 c s1) else Ok (s1, c, 0, false)) = Ok r -> apart m s1 (fst (fst (fst r)))) as G.
  { intros r. destruct (check_db p); [|intros E; injection E as <-; apply apart_refl]. destruct (query_all _ _ _ _ _ _) as [rs| | |]; try discriminate. cbn [obind]. now apply scan_apart. }
  destruct (if check_db p then _ else _) as [[[[s2 c'] n] b]| | |]; try discriminate. specialize (G _ eq_refl). cbn [fst] in G. cbn [obind].
  assert (apart m s s2) as S2 by (eapply apart_trans; eauto). destruct b; [intros E; injection E as <- _; exact S2|].
  assert (forall i, apart m s2 (set_ids s2 i)) as SI. { intros i. apply apart_quiet; [repeat split|reflexivity|]. now apply aside_same. }
  destruct (watch_new (N.min (r_ids s2 + 1) (2 ^ 64 - 1)) q' p n c') as [[w|]| | |] eqn:W; try discriminate; cbn [obind].
  - destruct (insert_watch stopped ex m _ w) as [s3| | |] eqn:X; try discriminate. cbn [obind]. intros E. injection E as <- _. apply insert_apart in X.
    + eapply apart_trans; [exact S2|]. eapply apart_trans; [apply SI|exact X].
    + unfold watch_new in W. destruct (has_next (p_limits p QNew) 0) as [[|]| | |]; try discriminate. cbn in W. destruct (has_next (p_limits p QQuery) n) as [[|]| | |]; try discriminate. cbn in W. injection W as <-. exact NQ.
  - intros E. injection E as <- _. eapply apart_trans; [exact S2|apply SI].
Qed.
Lemma exec1_apart m s c s' : ~ touches q c -> exec1 handle stopped qfuel stale ex m s c = Ok s' -> apart m s s'.
Proof.
  destruct c as [q' tb asc p c|q' range| |f now ps|now]; cbn [exec1]; intros NT.
  - destruct (watch _ _ _ _ _ _ _ _ _ _ _ _) as [[s1 z]| | |] eqn:E; try discriminate. cbn [obind]. intros Q. injection Q as <-. eapply watch_apart, E. exact NT.
  - now apply close_apart.
  - apply process_apart.
  - intros E. split; [eapply (exec1_step C handle stopped qfuel stale ex EX0 _ _ (CSave f now ps)); exact E|]. destruct (save f now (r_db s) ps) as [[d x] y]. injection E as <-.
    assert (aside s (set_db s d)) as A by now apply aside_same. destruct m; [|exact A|exact A]. now apply aside_outside.
  - intros Q. injection Q as <-. apply apart_quiet; [repeat split|reflexivity|]. now apply aside_same.
Qed.
Lemma run_apart m cs : Forall (fun c => ~ touches q c) cs -> forall s s', run_cmds (exec1 handle stopped qfuel stale ex m) s cs = Ok s' -> apart m s s'.
Proof.
  induction 1 as [|c cs NT F IH]; cbn [run_cmds]; intros s s' E; [injection E as <-; apply apart_refl|].
  destruct (exec1 _ _ _ _ ex m s c) as [s1| | |] eqn:X; try discriminate. cbn [obind] in E. eapply apart_trans; [eapply exec1_apart; eauto|eauto].
Qed.
End Step.
Theorem exec_apart fuel : forall m s cs s', Forall (fun c => ~ touches q c) cs -> exec handle stopped qfuel stale fuel m s cs = Ok s' -> apart m s s'.
Proof.
  induction fuel as [|n IH]; cbn [exec]; intros m s cs s' F; [destruct cs; [|discriminate]; intros E; injection E as <-; apply apart_refl|].
  apply run_apart; [exact IH|apply exec_step|exact F].
Qed.
End Run.
