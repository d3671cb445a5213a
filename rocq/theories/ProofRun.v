(** Proofs about lk_process_while. *)
From Coq Require Import Lia.
From Verif Require Import Bytes ModelPkt SpecPkt ModelTestSet SpecTestSet ModelStore SpecStore ProofStore ModelPred SpecPred ModelQuery SpecQuery ModelWatch SpecWatch ProofWatch ProofWatch2 ModelRun SpecRun.

Lemma find_watch_in {C} q (l : list (Watch C)) : match find_watch q l with
  | Some w => In w l /\ w_qid w = q
  | None => forall w, In w l -> w_qid w <> q end.
Proof.
  unfold find_watch. destruct (find _ l) as [w|] eqn:E.
  - apply find_some in E. destruct E as [I E]. apply beqb_eq in E. auto.
  - intros w I Q. pose proof (List.find_none _ _ E w I) as N. cbn in N. rewrite Q, beqb_refl in N. discriminate.
Qed.
Lemma by_id_unique {C} (l : list (Watch C)) a b : by_id l -> In a l -> In b l -> w_qid a = w_qid b -> a = b.
Proof.
  induction l as [|x l IH]; intros S A B Q; [destruct A|]. inversion S as [|? ? S' F]; subst. rewrite Forall_forall in F.
  destruct A as [->|A], B as [->|B]; auto.
  - specialize (F _ B). rewrite Q, lex_refl in F. discriminate.
  - specialize (F _ A). rewrite Q, lex_refl in F. discriminate.
Qed.

Section Run.
Variable C : Type.
Variable handle : C -> N * bytes -> C * bool * list (cmd C).
Variable stopped : C -> StopReason -> list (cmd C).
Variable qfuel : nat.
Variable stale : option entry.
Variable depth : nat.
Notation loop := (run_loop C handle stopped qfuel stale depth).
Notation go := (exec handle stopped qfuel stale).
Notation Inv := (ProofWatch2.Inv C).

Lemma outside_inv s o : Inv s -> Inv (outside1 s o).
Proof.
  intros I. destruct o as [f now ps|now]; cbn [outside1].
  - destruct (save f now (r_db s) ps) as [[d x] y] eqn:E.
    refine (proj1 (exec_step C handle stopped qfuel stale 1 Free s [CSave f now ps] _ _ I)). cbn. rewrite E. reflexivity.
  - refine (proj1 (exec_step C handle stopped qfuel stale 1 Free s [CTick now] _ _ I)). reflexivity.
Qed.
Lemma others_inv l : forall s, Inv s -> Inv (others s l).
Proof. induction l as [|o l IH]; intros s I; [exact I|]. cbn. apply IH, outside_inv, I. Qed.
Lemma gc_inv s k : Inv s -> (forall w, In w k -> In w (r_cbs s)) -> by_id k -> Inv (set_cbs s k).
Proof. intros (S & U & R) _ K. split; [exact K|]. split; [exact U|exact R]. Qed.
Lemma filter_sorted (f : Watch C -> bool) l : by_id l -> by_id (filter f l).
Proof.
  induction l as [|x l IH]; intros S; cbn; [constructor|]. inversion S as [|? ? S' F]; subst. specialize (IH S').
  destruct (f x); [|exact IH]. constructor; [exact IH|]. apply Forall_forall. intros w I. apply filter_In in I. rewrite Forall_forall in F. apply F, I.
Qed.
Lemma next_work_cases s : let '(s', gone, work) := next_work C s in
  match work with
  | Some None => s' = s /\ gone = [] /\ r_pend s <> []
  | None => r_pend s = [] /\ r_cbs s' = [] /\ s' = set_cbs s []
  | Some (Some t) => r_pend s = [] /\ r_cbs s' <> [] /\ s' = set_cbs s (filter (fun w => r_now s <? high (p_recv (w_pred w))) (r_cbs s)) /\
      (forall w, In w (r_cbs s') -> t <= high (p_recv (w_pred w))) /\ t <= 2 ^ 64 - 1
  end /\
  (work <> Some None -> r_cbs s' = filter (fun w => r_now s <? high (p_recv (w_pred w))) (r_cbs s) /\ gone = filter (fun w => negb (r_now s <? high (p_recv (w_pred w)))) (r_cbs s)).
Proof.
  unfold next_work. destruct (r_pend s) as [|x r] eqn:P; [|split; [split; [reflexivity|split; [reflexivity|discriminate]]|congruence]].
  unfold gc. remember (filter (fun w => r_now s <? high (p_recv (w_pred w))) (r_cbs s)) as k eqn:K. clear K.
  destruct k as [|w k].
  - split; [split; [reflexivity|split; reflexivity]|]. intros _. split; reflexivity.
  - split; [|intros _; split; reflexivity]. split; [reflexivity|]. split; [discriminate|]. split; [reflexivity|].
    assert (G : forall l m, fold_left (fun m (w : Watch C) => N.min (high (p_recv (w_pred w))) m) l m <= m /\
       forall w, In w l -> fold_left (fun m (w : Watch C) => N.min (high (p_recv (w_pred w))) m) l m <= high (p_recv (w_pred w))).
    { induction l as [|y l IH]; intros m; [split; [cbn; lia|intros ? []]|]. cbn [fold_left]. destruct (IH (N.min (high (p_recv (w_pred y))) m)) as [I1 I2].
      split; [lia|]. intros z [<-|I]; [lia|apply I2, I]. }
    destruct (G (w :: k) (2 ^ 64 - 1)) as [G1 G2]. split; [exact G2|exact G1].
Qed.
Lemma next_work_inv s : Inv s -> Inv (fst (fst (next_work C s))).
Proof.
  intros I. unfold next_work. destruct (r_pend s); [|exact I]. unfold gc. cbn [fst snd].
  apply gc_inv; [exact I| |apply filter_sorted, I]. intros w H. apply filter_In in H. apply H.
Qed.

(** ** How it ends *)
Lemma tick_inv s t : Inv s -> Inv (set_now s t).
Proof. intros I. exact (outside_inv s (OTick t) I). Qed.
Definition verdict (last : option N) (u : option (bytes * (N * N))) (r : ran C) : Prop :=
  match r with
  | Returned s z _ =>
      z = 1%Z /\ match u with None => r_cbs s = [] | Some (q, (id, _)) => ended s q id end \/
      z = (-1)%Z /\ (exists q id n n', u = Some (q, (id, n)) /\ still s q id n' /\ n' <> n) \/
      z = 0%Z /\ (exists l, last = Some l /\ l < r_now s) /\ (forall q id n, u = Some (q, (id, n)) -> still s q id n)
  | Asleep s d _ => r_pend s = [] /\ r_cbs s <> [] /\
      (forall l, last = Some l -> r_now s <= l /\ d <= l) /\ (forall w, In w (r_cbs s) -> r_now s < high (p_recv (w_pred w)) /\ (high (p_recv (w_pred w)) < 2 ^ 64 - 1 -> d <= high (p_recv (w_pred w))))
  | Going s _ => forall q id n, u = Some (q, (id, n)) -> still s q id n
  end.
Lemma others_cbs l : forall s : rt C, r_cbs (others s l) = r_cbs s /\ r_pend (others s l) = r_pend s /\ r_trace (others s l) = r_trace s /\ r_snap (others s l) = r_snap s.
Proof.
  induction l as [|o l IH]; intros s; [auto|]. change (others s (o :: l)) with (others (outside1 s o) l). destruct (IH (outside1 s o)) as (A & B & D & E). rewrite A, B, D, E.
  destruct o as [f now ps|now]; cbn [outside1]; [destruct (save f now (r_db s) ps) as [[d x] y]|]; auto.
Qed.
Lemma check_none s u : check_watch C s u = None -> forall q id n, u = Some (q, (id, n)) -> still s q id n.
Proof.
  intros E q id n ->. unfold check_watch, watch_status in E. pose proof (find_watch_in q (r_cbs s)) as F. destruct (find_watch q (r_cbs s)) as [w|]; [|discriminate].
  destruct F as [F1 F2]. destruct (N.eqb_spec (w_id w) id); [|discriminate]. destruct (N.eqb_spec (w_nthq w) n); [|discriminate]. exists w. auto.
Qed.
Lemma check_some s u z : by_id (r_cbs s) -> check_watch C s u = Some z ->
  (z = 1%Z /\ exists q id n, u = Some (q, (id, n)) /\ ended s q id) \/
  (z = (-1)%Z /\ exists q id n n', u = Some (q, (id, n)) /\ still s q id n' /\ n' <> n).
Proof.
  intros S E. destruct u as [[q [id n]]|]; [|discriminate]. unfold check_watch, watch_status in E.
  pose proof (find_watch_in q (r_cbs s)) as F. destruct (find_watch q (r_cbs s)) as [w|].
  - destruct F as [F1 F2]. destruct (N.eqb_spec (w_id w) id) as [E1|E1]; cbn [negb] in E.
    + destruct (N.eqb_spec (w_nthq w) n) as [E2|E2]; cbn [negb] in E; [discriminate|]. injection E as <-. right. split; [reflexivity|]. exists q, id, n, (w_nthq w).
      split; [reflexivity|]. split; [exists w; auto|exact E2].
    + injection E as <-. left. split; [reflexivity|]. exists q, id, n. split; [reflexivity|]. intros w' I Q.
      rewrite (by_id_unique _ w' w S I F1) by congruence. exact E1.
  - injection E as <-. left. split; [reflexivity|]. exists q, id, n. split; [reflexivity|]. intros w I Q. destruct (F w I Q).
Qed.
Lemma loop_verdict t0 last u ts : forall s dr r, Inv s -> loop t0 last u ts s dr = Ok r -> verdict last u r.
Proof.
  induction ts as [|t ts IH]; intros s dr r I E; cbn [run_loop] in E;
    destruct (process handle stopped (go depth) Free s) as [s1| | |] eqn:P; try discriminate; cbn [obind] in E;
    (assert (I1 : Inv s1) by (refine (proj1 (process_step C handle stopped _ _ Free s s1 P I)); intros m a x b X; eapply exec_step; eauto));
    destruct (check_watch C s1 u) as [z|] eqn:K.
  - injection E as <-. cbn. destruct (check_some s1 u z (proj1 I1) K) as [(-> & q & id & n & -> & H)|(-> & H)]; auto.
  - injection E as <-. cbn. apply check_none. exact K.
  - injection E as <-. cbn. destruct (check_some s1 u z (proj1 I1) K) as [(-> & q & id & n & -> & H)|(-> & H)]; auto.
  - set (s2 := others s1 (t_mid t)) in *. destruct (others_cbs (t_mid t) s1) as (O1 & O2 & _). fold s2 in O1, O2.
    assert (I2 : Inv s2) by (apply others_inv, I1).
    assert (S2 : forall q id n, u = Some (q, (id, n)) -> still s2 q id n).
    { intros q id n Hu. destruct (check_none s1 u K q id n Hu) as (w & W1 & W2). exists w. rewrite O1. auto. }
    set (passed := match last with Some l => l <? r_now s2 | None => false end) in *.
    destruct passed eqn:HP.
    { injection E as <-. cbn. right; right. split; [reflexivity|]. split; [|exact S2]. unfold passed in HP. destruct last as [l|]; [|discriminate]. exists l. split; [reflexivity|]. apply N.ltb_lt. exact HP. }
    set (nc := match last with Some l => N.min (t0 + (2 ^ 64 - 1)) l | None => t0 + (2 ^ 64 - 1) end) in *.
    assert (NC : forall l, last = Some l -> r_now s2 <= l /\ nc <= l).
    { intros l Hl. subst last. unfold passed, nc in *. apply N.ltb_ge in HP. lia. }
    clearbody nc passed.
    pose proof (next_work_inv s2 I2) as I3. pose proof (next_work_cases s2) as W. destruct (next_work C s2) as [[s3 gn] work]. cbn [fst] in I3.
    destruct W as [W W']. destruct work as [[oob|]|].
    + destruct W as (W1 & W2 & -> & W4 & W5).
      destruct (negb (oob =? 2 ^ 64 - 1) && (oob <? r_now _)) eqn:X; [eapply IH; [exact I3|exact E]|].
      destruct (t_wait t) as [|l|l].
      * injection E as <-. cbn [verdict]. split; [cbn; rewrite O2; cbn in W1; congruence|]. split; [exact W2|]. cbn [r_now set_cbs r_cbs] in *. split.
        -- intros l Hl. destruct (NC l Hl). split; [assumption|]. destruct (oob =? 2 ^ 64 - 1); lia.
        -- intros w Iw. split; [apply filter_In in Iw; destruct Iw as [_ Iw]; apply N.ltb_lt; exact Iw|].
           intros Hw. specialize (W4 w Iw). destruct (N.eqb_spec oob (2 ^ 64 - 1)) as [E0|E0]; lia.
      * eapply IH; [|exact E]. apply others_inv. exact I3.
      * eapply IH; [|exact E]. apply tick_inv, others_inv. exact I3.
    + destruct W as (-> & _). eapply IH; [exact I2|exact E].
    + injection E as <-. cbn. left. split; [reflexivity|]. destruct W as (_ & W & _). destruct u as [[q [id n]]|]; [|exact W]. intros w Iw. rewrite W in Iw. destruct Iw.
Qed.

(** ** It only processes *)
Lemma run_app f a b : forall s : rt C, run_cmds f s (a ++ b) = obind (run_cmds f s a) (fun s' => run_cmds f s' b).
Proof.
  induction a as [|c a IH]; intros s; [reflexivity|]. cbn [app run_cmds]. destruct (f s c); cbn [obind]; auto.
Qed.
Lemma go_app n s a b s1 s2 : go (S n) Free s a = Ok s1 -> go (S n) Free s1 b = Ok s2 -> go (S n) Free s (a ++ b) = Ok s2.
Proof. cbn [exec]. intros A B. rewrite run_app, A. exact B. Qed.
Definition cmd_of (o : outside) : cmd C := match o with OSave f now ps => CSave f now ps | OTick now => CTick now end.
Lemma others_cmds l : forall s, go (S depth) Free s (map cmd_of l) = Ok (others s l).
Proof.
  induction l as [|o l IH]; intros s; [reflexivity|]. cbn [map others fold_left exec run_cmds].
  assert (X : exec1 handle stopped qfuel stale (go depth) Free s (cmd_of o) = Ok (outside1 s o)).
  { destruct o as [f now ps|now]; cbn; [destruct (save f now (r_db s) ps) as [[d x] y]|]; reflexivity. }
  rewrite X. cbn [obind]. apply IH.
Qed.
Lemma cmds_serving l : Forall serving (map cmd_of l).
Proof. apply Forall_map, Forall_forall. intros [f now ps|now] _; exact Logic.I. Qed.
Lemma next_work_nothing s : let '(s', gone, _) := next_work C s in gone = [] -> s' = s.
Proof.
  unfold next_work. destruct (r_pend s) as [|x r]; [|auto]. unfold gc. intros G.
  assert (F : filter (fun w => r_now s <? high (p_recv (w_pred w))) (r_cbs s) = r_cbs s).
  { revert G. generalize (r_cbs s). induction l as [|w l IH]; [reflexivity|]. cbn [filter]. destruct (r_now s <? _); cbn [negb]; [|discriminate]. intros G. f_equal. auto. }
  rewrite F. destruct s; reflexivity.
Qed.
Lemma loop_cmds t0 last u ts : forall s dr r, loop t0 last u ts s dr = Ok r -> gone r = [] ->
  dr = [] /\ exists cs, Forall serving cs /\ go (S depth) Free s (CProcess :: cs) = Ok (final r).
Proof.
  induction ts as [|t ts IH]; intros s dr r E G; cbn [run_loop] in E;
    destruct (process handle stopped (go depth) Free s) as [s1| | |] eqn:P; try discriminate; cbn [obind] in E;
    (assert (P1 : go (S depth) Free s [CProcess] = Ok s1) by (cbn [exec run_cmds exec1]; rewrite P; reflexivity));
    destruct (check_watch C s1 u) as [z|] eqn:K.
  1-3: injection E as <-; split; [exact G|exists []; split; [constructor|exact P1]].
  set (s2 := others s1 (t_mid t)) in *.
  assert (P2 : go (S depth) Free s (CProcess :: map cmd_of (t_mid t)) = Ok s2) by (apply (go_app _ _ [CProcess] _ s1); [exact P1|apply others_cmds]).
  destruct (match last with Some l => l <? r_now s2 | None => false end).
  { injection E as <-. split; [exact G|]. exists (map cmd_of (t_mid t)). split; [apply cmds_serving|exact P2]. }
  pose proof (next_work_nothing s2) as W. destruct (next_work C s2) as [[s3 gn] work].
  assert (Z : forall s4 r', loop t0 last u ts s4 (dr ++ gn) = Ok r' -> gone r' = [] -> dr = [] /\ s3 = s2 /\ exists cs, Forall serving cs /\ go (S depth) Free s4 (CProcess :: cs) = Ok (final r')).
  { intros s4 r' E' G'. destruct (IH _ _ _ E' G') as (D & cs & F & X). apply app_eq_nil in D. destruct D as [-> ->]. split; [reflexivity|]. split; [apply W; reflexivity|]. eauto. }
  destruct work as [[oob|]|].
  - destruct (_ && _) in E.
    + destruct (Z _ _ E G) as (-> & -> & cs & F & X). split; [reflexivity|]. exists (map cmd_of (t_mid t) ++ CProcess :: cs).
      split; [apply Forall_app; split; [apply cmds_serving|constructor; [exact Logic.I|exact F]]|]. exact (go_app _ _ (CProcess :: map cmd_of (t_mid t)) _ s2 _ P2 X).
    + destruct (t_wait t) as [|l|l].
      * injection E as <-. cbn in G. apply app_eq_nil in G. destruct G as [-> ->]. rewrite (W eq_refl). split; [reflexivity|]. exists (map cmd_of (t_mid t)). split; [apply cmds_serving|exact P2].
      * destruct (Z _ _ E G) as (-> & -> & cs & F & X). split; [reflexivity|]. exists (map cmd_of (t_mid t) ++ map cmd_of l ++ CProcess :: cs).
        split; [rewrite !Forall_app; split; [apply cmds_serving|split; [apply cmds_serving|constructor; [exact Logic.I|exact F]]]|].
        refine (go_app _ _ (CProcess :: map cmd_of (t_mid t)) _ s2 _ P2 _). refine (go_app _ _ (map cmd_of l) _ _ _ (others_cmds l s2) X).
      * destruct (Z _ _ E G) as (-> & -> & cs & F & X).
        match type of X with go _ _ (set_now _ ?tm) _ = _ => set (tm0 := tm) in * end.
        split; [reflexivity|]. exists (map cmd_of (t_mid t) ++ map cmd_of l ++ CTick tm0 :: CProcess :: cs).
        split; [rewrite !Forall_app; split; [apply cmds_serving|split; [apply cmds_serving|constructor; [exact Logic.I|constructor; [exact Logic.I|exact F]]]]|].
        refine (go_app _ _ (CProcess :: map cmd_of (t_mid t)) _ s2 _ P2 _). refine (go_app _ _ (map cmd_of l) _ _ _ (others_cmds l s2) _).
        exact (go_app depth (others s2 l) [CTick tm0] (CProcess :: cs) (set_now (others s2 l) tm0) (final r) eq_refl X).
  - destruct (Z _ _ E G) as (-> & -> & cs & F & X). split; [reflexivity|]. exists (map cmd_of (t_mid t) ++ CProcess :: cs).
    split; [apply Forall_app; split; [apply cmds_serving|constructor; [exact Logic.I|exact F]]|]. exact (go_app _ _ (CProcess :: map cmd_of (t_mid t)) _ s2 _ P2 X).
  - injection E as <-. cbn in G. apply app_eq_nil in G. destruct G as [-> ->]. rewrite (W eq_refl). split; [reflexivity|]. exists (map cmd_of (t_mid t)). split; [apply cmds_serving|exact P2].
Qed.
End Run.
