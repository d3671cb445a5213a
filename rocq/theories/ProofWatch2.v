(** The runtime keeps its invariant. *)
From Coq Require Import Sorting.Sorted.
From Verif Require Import Bytes ModelPkt ModelTestSet SpecTestSet ModelStore SpecStore ProofStore PropsStore ModelPred SpecPred SpecQuery ModelQuery ModelWatch SpecWatch ProofWatch.

(** ** Growing stores *)
Lemma grows_refl d : grows d d.
Proof. intros l R. exists []. now rewrite app_nil_r. Qed.
Lemma grows_trans a b c : grows a b -> grows b c -> grows a c.
Proof. intros H1 H2 l R. destruct (H1 l R) as [l1 R1]. destruct (H2 _ R1) as [l2 R2]. exists (l1 ++ l2). now rewrite app_assoc. Qed.
Lemma save_grows f now d ps d' ps' o : save f now d ps = (d', ps', o) -> grows d d'.
Proof.
  intros E l R. pose proof (C27_atomic f now d ps d' ps' o l R E) as H. destruct o as [[a b]| | |]; [eauto| | |]; subst d'; now apply grows_refl.
Qed.

Lemma head_spec d l : represents d l -> (l = [] /\ log_head d = 0 \/ exists p, In (log_head d, p) l) /\ forall e, In e l -> fst e <= log_head d.
Proof.
  intros (R1 & _ & R3 & _). unfold log_head. destruct (log_last (log_t d)) as [x|] eqn:E.
  - apply log_last_max in E as [(b & I) M]; [|rewrite R3, map_map; exact R1]. rewrite R3 in I. apply in_map_iff in I as ([u p] & Q & I). apply (f_equal fst) in Q; cbn [fst] in Q; subst u. split; [right; eauto|].
    intros e J. rewrite R3, map_map in M. rewrite Forall_forall in M. apply M, in_map_iff. exists e. auto.
  - apply log_last_none in E. rewrite R3 in E. destruct l; [|discriminate]. split; [now left|]. intros e [].
Qed.
Lemma increasing_app_lt (l l' : list (N * NetPktParts)) a b : increasing (map fst (l ++ l')) -> In a l -> In b l' -> fst a < fst b.
Proof.
  induction l as [|x l IH]; intros S A B; [destruct A|]. cbn [app map] in S. inversion S as [|? ? S1 F]; subst. destruct A as [->|A]; [|now apply IH].
  rewrite Forall_forall in F. apply F, in_map_iff. exists b. split; [reflexivity|]. apply in_or_app. now right.
Qed.
Lemma head_mono d d' l l' : represents d l -> represents d' (l ++ l') -> log_head d <= log_head d'.
Proof.
  intros R R'. destruct (head_spec d l R) as [[[-> ->]|[p I]] _]; [lia|]. apply (proj2 (head_spec _ _ R') (log_head d, p)). apply in_or_app. now left.
Qed.
Lemma head_later d d' l l' e : represents d l -> represents d' (l ++ l') -> In e l' -> l <> [] -> log_head d < fst e.
Proof.
  intros R R' I NE. destruct (head_spec d l R) as [[[-> _]|[p J]] _]; [congruence|]. apply (increasing_app_lt l l' (log_head d, p) e); [apply R'|exact J|exact I].
Qed.
Lemma grows_head d d' l : represents d l -> grows d d' -> log_head d <= log_head d'.
Proof. intros R G. destruct (G l R) as [l' R']. eapply head_mono; eauto. Qed.
Lemma log_sorted d l : represents d l -> increasing (map fst (log_t d)).
Proof. intros (R1 & _ & R3 & _). now rewrite R3, map_map. Qed.
Lemma last_filter (m : list (N * bytes)) (f : N * bytes -> bool) y : m <> [] -> f (last m y) = true -> forall z, last (map fst (filter f m)) z = fst (last m y).
Proof.
  intros NE. destruct (exists_last NE) as (m' & e & ->). rewrite last_last. intros F z. rewrite filter_app. cbn [filter]. rewrite F, map_app. apply last_last.
Qed.
Lemma process_upto d l from : represents d l -> from < log_head d -> last (map fst (pkts_after d from)) (log_head d) = log_head d.
Proof.
  intros R L. unfold log_head in L. destruct (log_last (log_t d)) as [x|] eqn:E; [|lia].
  assert (log_t d <> []) as NE by (intros Q; rewrite Q in E; discriminate).
  assert (fst (last (log_t d) (0, [])) = x) as LX.
  { destruct (exists_last NE) as (m & e & Q). rewrite Q in *. rewrite log_last_app in E. rewrite last_last. congruence. }
  unfold pkts_after, local_pkt_log. rewrite (last_filter (log_t d) _ (0, []) NE); [|cbn beta; rewrite LX; apply N.leb_le; lia].
  unfold log_head. rewrite E. exact LX.
Qed.

Section Run.
Variable C : Type.
Variable handle : C -> N * bytes -> C * bool * list (cmd C).
Variable stopped : C -> StopReason -> list (cmd C).
Variable qfuel : nat.
Variable stale : option entry.
Implicit Types (s : rt C) (w : Watch C).

Definition Inv s : Prop := by_id (r_cbs s) /\ r_upto s = log_head (r_snap s) /\
  exists l0 l1, represents (r_snap s) l0 /\ represents (r_db s) (l0 ++ l1).
(** What commands do while the watches are borrowed. *)
Definition held s s' : Prop := r_cbs s' = r_cbs s /\ r_upto s' = r_upto s /\ grows (r_db s) (r_db s') /\
  (r_snap s' = r_snap s \/ grows (r_db s) (r_snap s') /\ grows (r_snap s') (r_db s') /\ log_head (r_snap s') <= r_upto s).
(** The snapshot grows as well. *)
Definition extends s s' : Prop := forall l0 l1, represents (r_snap s) l0 -> represents (r_db s) (l0 ++ l1) ->
  exists x y, represents (r_snap s') (l0 ++ x) /\ represents (r_db s') ((l0 ++ x) ++ y).
Lemma extends_trans a b c : extends a b -> extends b c -> extends a c.
Proof.
  intros A B l0 l1 R0 R1. destruct (A _ _ R0 R1) as (x & y & X & Y). destruct (B _ _ X Y) as (x' & y' & X' & Y'). exists (x ++ x'), y'. now rewrite app_assoc.
Qed.
Lemma extends_held s s' : held s s' -> extends s s'.
Proof.
  intros (_ & _ & G & D) l0 l1 R0 R1. destruct D as [D|(D1 & D2 & _)].
  - destruct (G _ R1) as [l2 R2]. exists [], (l1 ++ l2). rewrite !app_nil_r, D. split; [exact R0|]. now rewrite app_assoc.
  - destruct (D1 _ R1) as [l2 R2]. destruct (D2 _ R2) as [l3 R3]. exists (l1 ++ l2), l3. now rewrite app_assoc.
Qed.
Definition step (m : lock) s s' : Prop :=
  match m with Free => Inv s -> Inv s' /\ grows (r_db s) (r_db s') /\ extends s s' | _ => held s s' end.
Lemma held_refl s : held s s.
Proof. split; [reflexivity|]. split; [reflexivity|]. split; [apply grows_refl|now left]. Qed.
Lemma held_trans a b c : held a b -> held b c -> held a c.
Proof.
  intros (A1 & A2 & A3 & A4) (B1 & B2 & B3 & B4). split; [congruence|]. split; [congruence|]. split; [eapply grows_trans; eauto|].
  destruct B4 as [B4|(B4 & B5 & B6)].
  - destruct A4 as [A4|(A4 & A5 & A6)]; [left; congruence|right]. rewrite B4. split; [exact A4|]. split; [eapply grows_trans; eauto|exact A6].
  - right. split; [eapply grows_trans; eauto|]. split; [exact B5|]. now rewrite A2 in B6.
Qed.
Lemma step_refl m s : step m s s.
Proof. destruct m; [split; [auto|split; [apply grows_refl|apply extends_held, held_refl]]|apply held_refl|apply held_refl]. Qed.
Lemma step_trans m a b c : step m a b -> step m b c -> step m a c.
Proof.
  destruct m; [|apply held_trans|apply held_trans]. intros A B I. destruct (A I) as (I1 & G1 & X1). destruct (B I1) as (I2 & G2 & X2). split; [exact I2|]. split; [eapply grows_trans; eauto|eapply extends_trans; eauto].
Qed.
(** A step that keeps the stores. *)
Definition quiet s s' : Prop := r_db s' = r_db s /\ r_snap s' = r_snap s /\ r_upto s' = r_upto s.
Lemma quiet_inv s s' : quiet s s' -> by_id (r_cbs s') -> Inv s -> Inv s'.
Proof. intros (A & B & D) S (_ & U & l0 & l1 & R0 & R1). split; [exact S|]. split; [congruence|]. exists l0, l1. now rewrite A, B. Qed.
Lemma held_quiet s s' : quiet s s' -> r_cbs s' = r_cbs s -> held s s'.
Proof. intros (A & B & D) E. split; [exact E|]. split; [exact D|]. rewrite A, B. split; [apply grows_refl|now left]. Qed.
Lemma step_quiet m s s' : quiet s s' -> r_cbs s' = r_cbs s -> step m s s'.
Proof.
  intros Q E. destruct m; [|now apply held_quiet|now apply held_quiet]. intros I. split; [|split; [|apply extends_held, held_quiet; assumption]; destruct Q as (-> & _); apply grows_refl]. eapply quiet_inv; eauto. rewrite E. apply I.
Qed.
Lemma inv_held s s' : held s s' -> Inv s -> Inv s'.
Proof.
  intros (A & B & G & D) (S & U & l0 & l1 & R0 & R1). split; [now rewrite A|]. destruct D as [D|(D1 & D2 & D3)].
  - rewrite B, D. split; [exact U|]. destruct (G _ R1) as [l2 R2]. exists l0, (l1 ++ l2). split; [exact R0|]. now rewrite app_assoc.
  - destruct (D1 _ R1) as [l2 R2]. destruct (D2 _ R2) as [l3 R3]. split.
    + rewrite B. pose proof (head_mono (r_snap s) (r_snap s') l0 (l1 ++ l2) R0 ltac:(now rewrite app_assoc)). lia.
    + exists ((l0 ++ l1) ++ l2), l3. auto.
Qed.
Lemma held_step m s s' : held s s' -> step m s s'.
Proof. intros H. destruct m; auto. split; [now apply (inv_held s)|]. split; [apply H|now apply extends_held]. Qed.

Section Step.
Variable ex : lock -> rt C -> list (cmd C) -> outcome TestErr (rt C).
Hypothesis EX : forall m s cs s', ex m s cs = Ok s' -> step m s s'.
Notation drop_watch := (drop_watch stopped ex).
Notation drop_all := (drop_all stopped ex).
Lemma add_event_quiet m s e : step m s (add_event s e).
Proof. apply step_quiet; [repeat split|reflexivity]. Qed.
Lemma drop_watch_step m s w x s' : drop_watch m s w x = Ok s' -> step m s s'.
Proof. unfold drop_watch. intros E. eapply step_trans; [apply add_event_quiet|]. eapply EX, E. Qed.
Lemma drop_all_step m ws : forall s x s', drop_all m s ws x = Ok s' -> step m s s'.
Proof.
  induction ws as [|w ws IH]; cbn [ModelWatch.drop_all]; intros s x s' E; [injection E as <-; apply step_refl|].
  destruct (drop_watch m s w x) as [s1| | |] eqn:D; try discriminate. cbn [obind] in E. eapply step_trans; [eapply drop_watch_step, D|eauto].
Qed.
Lemma register_now_step m s w s' : m <> Free -> register_now stopped ex m s w = Ok s' -> held (set_cbs s (fst (register (r_now s) w (r_cbs s)))) s'.
Proof.
  unfold register_now. intros M. destruct (register (r_now s) w (r_cbs s)) as [l [x|]]; cbn [fst].
  - intros E. apply drop_watch_step in E. destruct m; [congruence|exact E|exact E].
  - intros E. injection E as <-. apply held_refl.
Qed.
Lemma close_now_step m s q range s' : m <> Free -> close_now stopped ex m s q range = Ok s' -> held (set_cbs s (fst (deregister q range (r_cbs s)))) s'.
Proof.
  unfold close_now. intros M. destruct (deregister q range (r_cbs s)) as [k dr]; cbn [fst]. intros E. apply drop_all_step in E. destruct m; [congruence|exact E|exact E].
Qed.
Lemma set_cbs_step s l s' : (by_id (r_cbs s) -> by_id l) -> held (set_cbs s l) s' -> step Free s s'.
Proof.
  intros S H I. split; [|split; [apply H|apply extends_held in H; exact H]]. eapply inv_held; [exact H|]. eapply quiet_inv; [|exact (S (proj1 I))|exact I]. repeat split.
Qed.
Lemma register_sorted_ now w l : by_id l -> by_id (fst (@register C now w l)).
Proof. apply register_sorted. Qed.
Lemma insert_step m s w s' : insert_watch stopped ex m s w = Ok s' -> step m s s'.
Proof.
  destruct m; cbn; intros E; [|injection E as <-; apply held_quiet; [repeat split|reflexivity]|discriminate].
  apply register_now_step in E; [|discriminate]. eapply set_cbs_step; [|exact E]. apply register_sorted_.
Qed.
Lemma close_step m s q range s' : close stopped ex m s q range = Ok s' -> step m s s'.
Proof.
  destruct m; cbn; intros E; [|injection E as <-; apply held_quiet; [repeat split|reflexivity]|discriminate].
  apply close_now_step in E; [|discriminate]. eapply set_cbs_step; [|exact E]. apply deregister_sorted.
Qed.

(** Inside [process], on the store [d]. *)
Definition busy (d : db) (from : N) s : Prop := by_id (r_cbs s) /\ r_upto s = from /\ r_snap s = d /\ grows d (r_db s) /\
  from < log_head d /\ exists l, represents d l.
Lemma busy_held d from s s' : busy d from s -> held s s' -> busy d from s'.
Proof.
  clear EX ex.
  intros (A & B & D & G & F & l & R) (H1 & H2 & H3 & H4). split; [now rewrite H1|]. split; [congruence|]. split.
  - destruct H4 as [H4|(H4 & _ & H6)]; [congruence|]. pose proof (grows_head d (r_snap s') l R (grows_trans _ _ _ G H4)). lia.
  - split; [eapply grows_trans; eauto|]. eauto.
Qed.
Lemma busy_cbs d from s l : busy d from s -> by_id l -> busy d from (set_cbs s l).
Proof. intros (A & B) S. split; [exact S|exact B]. Qed.
Lemma drain_list_step d from ps : forall s s', busy d from s -> drain_list stopped ex s ps = Ok s' -> busy d from s'.
Proof.
  induction ps as [|[w|q range] ps IH]; cbn [ModelWatch.drain_list]; intros s s' B E; [now injection E as <-| |].
  - destruct (register_now stopped ex Draining s w) as [s1| | |] eqn:R; try discriminate. cbn [obind] in E. apply IH in E; [exact E|].
    apply register_now_step in R; [|discriminate]. eapply busy_held; [|exact R]. apply busy_cbs; [exact B|]. apply register_sorted_, B.
  - destruct (close_now stopped ex Draining s q range) as [s1| | |] eqn:R; try discriminate. cbn [obind] in E. apply IH in E; [exact E|].
    apply close_now_step in R; [|discriminate]. eapply busy_held; [|exact R]. apply busy_cbs; [exact B|]. apply deregister_sorted, B.
Qed.
Lemma drain_step d from s s' : busy d from s -> drain_pending stopped ex s = Ok s' -> busy d from s'.
Proof. unfold drain_pending. intros B. apply drain_list_step. exact B. Qed.
(** What is kept of the watches: the same ids in the same order. *)
Inductive thinned : list (Watch C) -> list (Watch C) -> Prop :=
| thin_nil : thinned [] []
| thin_keep a b l k : w_qid b = w_qid a -> thinned l k -> thinned (a :: l) (b :: k)
| thin_drop a l k : thinned l k -> thinned (a :: l) k.
Lemma thinned_in l k b : thinned l k -> In b k -> exists a, In a l /\ w_qid a = w_qid b.
Proof. induction 1 as [|x y l k Q T IH|x l k T IH]; intros I; [destruct I| |]. - destruct I as [<-|I]; [exists x; split; [now left|auto]|]. destruct (IH I) as (a & A & B). exists a. split; [now right|auto]. - destruct (IH I) as (a & A & B). exists a. split; [now right|auto]. Qed.
Lemma thinned_sorted l k : thinned l k -> by_id l -> by_id k.
Proof.
  induction 1 as [|x y l k Q T IH|x l k T IH]; intros S; [constructor| |]; apply by_id_head in S as [S F].
  - constructor; [exact (IH S)|]. apply Forall_forall. intros b B. destruct (thinned_in _ _ _ T B) as (a & A & E). rewrite Forall_forall in F. rewrite Q, <- E. auto.
  - exact (IH S).
Qed.
Lemma watch_test_qid w r : w_qid (fst (fst (watch_test w r))) = w_qid w.
Proof. unfold watch_test. destruct (_ <? _); [reflexivity|]. destruct (_ <? _); [reflexivity|]. destruct (negb _); reflexivity. Qed.
Lemma trigger_step r ws : forall s k s', trigger handle stopped ex r ws s = Ok (k, s') -> thinned ws k /\ held s s'.
Proof.
  induction ws as [|w ws IH]; cbn [ModelWatch.trigger]; intros s k s' E; [injection E as <- <-; split; [constructor|apply held_refl]|].
  pose proof (watch_test_qid w r) as WQ. destruct (watch_test w r) as [[w1 ok] brk]. cbn [fst] in WQ.
  assert (forall w2 b s1, (if ok then let '(c', b, cs) := handle (w_ctx w1) r in obind (ex Locked (add_event s (Called (w_qid w1) r)) cs) (fun s' => Ok (set_ctx w1 c', b, s')) else Ok (w1, false, s)) = Ok (w2, b, s1) -> w_qid w2 = w_qid w /\ held s s1) as G.
  { intros w2 b s1. destruct ok; [|intros Q; injection Q as <- <- <-; split; [exact WQ|apply held_refl]].
    destruct (handle (w_ctx w1) r) as [[c' b'] cs]. destruct (ex Locked (add_event s (Called (w_qid w1) r)) cs) as [s2| | |] eqn:X; try discriminate. cbn [obind]. intros Q. injection Q as <- <- <-.
    split; [exact WQ|]. apply EX in X. eapply held_trans; [|exact X]. apply held_quiet; [repeat split|reflexivity]. }
  destruct (if ok then _ else _) as [[[w2 b] s1]| | |] eqn:X; try discriminate. cbn [obind] in E. destruct (G _ _ _ eq_refl) as [W H]. clear G X.
  destruct (b || brk).
  - destruct (drop_watch Locked s1 w2 (if brk then SBreak else SFinish)) as [s2| | |] eqn:D; try discriminate. cbn [obind] in E. apply IH in E as [T H2]. apply drop_watch_step in D.
    split; [now apply thin_drop|]. eapply held_trans; [exact H|]. eapply held_trans; [exact D|exact H2].
  - destruct (trigger handle stopped ex r ws s1) as [[k2 s2]| | |] eqn:D; try discriminate. cbn [obind] in E. injection E as <- <-. apply IH in D as [T H2].
    split; [now apply thin_keep|]. eapply held_trans; eauto.
Qed.
Lemma trigger_all_step d from rs : forall s s', busy d from s -> trigger_all handle stopped ex rs s = Ok s' -> busy d from s'.
Proof.
  induction rs as [|r rs IH]; cbn [ModelWatch.trigger_all]; intros s s' B E; [now injection E as <-|].
  destruct (trigger handle stopped ex r (r_cbs s) s) as [[k s1]| | |] eqn:T; try discriminate. cbn [obind] in E. apply trigger_step in T as [T H]. apply IH in E; [exact E|].
  apply busy_cbs; [eapply busy_held; eauto|]. eapply thinned_sorted; [exact T|]. apply B.
Qed.
Lemma process_grows m s s' : process handle stopped ex m s = Ok s' -> Inv s -> m = Free -> Inv s' /\ r_snap s' = r_db s /\ grows (r_db s) (r_db s').
Proof.
  unfold process. intros E I ->. pose proof I as (S & U & l0 & l1 & R0 & R1). destruct (N.leb_spec (log_head (r_db s)) (r_upto s)) as [L|L].
  - injection E as <-. split; [|split; [reflexivity|apply grows_refl]]. split; [exact S|]. cbn. pose proof (head_mono _ _ _ _ R0 R1). split; [lia|]. exists (l0 ++ l1), []. rewrite app_nil_r. auto.
  - assert (busy (r_db s) (r_upto s) (set_snap s (r_db s))) as B.
    { split; [exact S|]. split; [reflexivity|]. split; [reflexivity|]. split; [apply grows_refl|]. eauto. }
    destruct (drain_pending stopped ex (set_snap s (r_db s))) as [s2| | |] eqn:D1; try discriminate. cbn [obind] in E. apply (drain_step _ _ _ _ B) in D1.
    destruct (trigger_all handle stopped ex (pkts_after (r_db s) (r_upto s)) s2) as [s3| | |] eqn:D2; try discriminate. cbn [obind] in E. apply (trigger_all_step _ _ _ _ _ D1) in D2.
    destruct (drain_pending stopped ex s3) as [s4| | |] eqn:D3; try discriminate. cbn [obind] in E. apply (drain_step _ _ _ _ D2) in D3. injection E as <-.
    destruct D3 as (A & _ & A3 & A4 & _ & l & R). cbn [r_snap r_db set_upto]. split; [|auto]. split; [exact A|]. cbn [r_snap r_upto r_db set_upto]. rewrite A3. split; [now apply (process_upto _ l)|].
    destruct (A4 l R) as [l2 R2]. eauto.
Qed.
Lemma process_step m s s' : process handle stopped ex m s = Ok s' -> step m s s'.
Proof.
  intros E. assert (m = Free \/ m <> Free) as [->|M] by (destruct m; (now left) || (right; discriminate)).
  - intros I. destruct (process_grows _ _ _ E I eq_refl) as (A & Q & B). split; [exact A|]. split; [exact B|]. intros l0 l1 R0 R1. destruct (B _ R1) as [l2 R2]. exists l1, l2. now rewrite Q.
  - unfold process in E. destruct (N.leb_spec (log_head (r_db s)) (r_upto s)) as [L|L]; [|destruct m; [congruence|discriminate|discriminate]].
    injection E as <-. apply held_step. split; [reflexivity|]. split; [reflexivity|]. cbn. split; [apply grows_refl|]. right. split; [apply grows_refl|]. split; [apply grows_refl|exact L].
Qed.
Lemma scan_step m q lim rs : forall at_ c s r, scan handle ex m q lim rs at_ c s = Ok r -> step m s (fst (fst (fst r))).
Proof.
  induction rs as [|x rs IH]; cbn [ModelWatch.scan]; intros at_ c s r E; [injection E as <-; apply step_refl|].
  destruct (member_next 32 lim at_) as [[[|]|] nt]; [|eauto|injection E as <-; apply step_refl].
  destruct (handle c x) as [[c' b] cs]. destruct (ex m (add_event s (Called q x)) cs) as [s1| | |] eqn:X; try discriminate. cbn [obind] in E. apply EX in X.
  eapply step_trans; [apply add_event_quiet|]. destruct b; [injection E as <-; exact X|]. eapply step_trans; [exact X|eauto].
Qed.
Lemma watch_step m s q tb asc p c s' z : watch handle stopped qfuel stale ex m s q tb asc p c = Ok (s', z) -> step m s s'.
Proof.
  unfold watch. destruct (close stopped ex m s q false) as [s1| | |] eqn:D; try discriminate. cbn [obind]. apply close_step in D.
  assert (forall r, (if check_db p then obind (query_all qfuel (r_snap s1) tb asc p stale) (fun rs => scan handle ex m q (p_limits p QQuery) rs 0 c s1) else Ok (s1, c, 0, false)) = Ok r -> step m s1 (fst (fst (fst r)))) as G.
  { intros r. destruct (check_db p); [|intros E; injection E as <-; apply step_refl]. destruct (query_all _ _ _ _ _ _) as [rs| | |]; try discriminate. cbn [obind]. apply scan_step. }
  destruct (if check_db p then _ else _) as [[[[s2 c'] n] b]| | |]; try discriminate. specialize (G _ eq_refl). cbn [fst] in G. cbn [obind].
  assert (step m s s2) as S2 by (eapply step_trans; eauto). destruct b; [intros E; injection E as <- _; exact S2|].
  destruct (watch_new _ q p n c') as [[w|]| | |]; try discriminate; cbn [obind].
  - destruct (insert_watch stopped ex m _ w) as [s3| | |] eqn:X; try discriminate. cbn [obind]. intros E. injection E as <- _. apply insert_step in X.
    eapply step_trans; [exact S2|]. eapply step_trans; [|exact X]. apply step_quiet; [repeat split|reflexivity].
  - intros E. injection E as <- _. eapply step_trans; [exact S2|]. apply step_quiet; [repeat split|reflexivity].
Qed.
Lemma exec1_step m s c s' : exec1 handle stopped qfuel stale ex m s c = Ok s' -> step m s s'.
Proof.
  destruct c as [q tb asc p c|q range| |f now ps|now]; cbn [exec1].
  - destruct (watch _ _ _ _ _ _ _ _ _ _ _ _) as [[s1 z]| | |] eqn:E; try discriminate. cbn [obind]. intros Q. injection Q as <-. eapply watch_step, E.
  - apply close_step.
  - apply process_step.
  - destruct (save f now (r_db s) ps) as [[d x] y] eqn:E. intros Q. injection Q as <-. apply held_step. split; [reflexivity|]. split; [reflexivity|]. split; [eapply save_grows, E|now left].
  - intros Q. injection Q as <-. apply step_quiet; [repeat split|reflexivity].
Qed.
Lemma run_step m cs : forall s s', run_cmds (exec1 handle stopped qfuel stale ex m) s cs = Ok s' -> step m s s'.
Proof.
  induction cs as [|c cs IH]; cbn [run_cmds]; intros s s' E; [injection E as <-; apply step_refl|].
  destruct (exec1 _ _ _ _ ex m s c) as [s1| | |] eqn:X; try discriminate. cbn [obind] in E. eapply step_trans; [eapply exec1_step, X|eauto].
Qed.
End Step.
Theorem exec_step fuel : forall m s cs s', exec handle stopped qfuel stale fuel m s cs = Ok s' -> step m s s'.
Proof.
  induction fuel as [|n IH]; cbn [exec]; intros m s cs s'; [destruct cs; [|discriminate]; intros E; injection E as <-; apply step_refl|]. now apply run_step.
Qed.
Lemma new_inv d l ids now : represents d l -> Inv (new_rt d ids now).
Proof. intros R. split; [constructor|]. split; [reflexivity|]. exists l, []. rewrite app_nil_r. auto. Qed.
Theorem reached_inv s : reached handle stopped qfuel stale s -> Inv s.
Proof. intros (d & l & ids & now & fuel & cs & R & E). apply exec_step in E. apply E. eapply new_inv, R. Qed.
End Run.
