From Verif Require Import Bytes ModelSpace SpecSpace ProofSpace ProofRooted ProofTree SpecPkt ModelTestSet SpecTestSet ProofTestSet ModelPred SpecPred ProofPred PropsPred.
From Verif Require Import ModelQText SpecQText ProofQText ProofQText2 ProofQText3 ProofEval3.

(** ** The predicates that are printed *)
Definition num_preds (k : RuleType) (ts : list (TestOp * N)) : list Predicate := map (fun t => mkPred k (fst t) (PNum (snd t))) ts.
Definition set_preds (P : PktPredicates) (f : Field) : list Predicate := num_preds (RField f) (rules (field_width f) (p_sets P f)).
Definition prefix_preds (cs : list bytes) : list Predicate := match cs with [] => [] | _ => [mkPred RPrefix Equal (PSpace (wire_space cs))] end.
Definition limit_preds (P : PktPredicates) (q : QScope) : list Predicate := num_preds (RLimit q) (rules 32 (p_limits P q)).
Definition scopes : list QScope := [QQuery; QNew; QIndex; QBranch].
Definition iter_preds (P : PktPredicates) (cs : list bytes) : list Predicate :=
  flat_map (set_preds P) fields_before ++ prefix_preds cs ++ flat_map (set_preds P) fields_after ++
  num_preds RRecv (bound_iter 64 (p_recv P)) ++ set_preds P CreateF ++ flat_map (limit_preds P) scopes.
Definition printed_fields : list Field := fields_before ++ fields_after ++ [CreateF].
Lemma printed_num f : In f printed_fields <-> num_kind f.
Proof. split; [intros H; cbn in H; repeat (destruct H as [<-|H]; [exact I|]); contradiction|]. destruct f; cbn; tauto. Qed.
Lemma iter_forall (R : Predicate -> Prop) P cs : Forall R (iter_preds P cs) <->
  (forall f, num_kind f -> Forall R (set_preds P f)) /\ Forall R (prefix_preds cs) /\ Forall R (num_preds RRecv (bound_iter 64 (p_recv P))) /\
  forall q, Forall R (limit_preds P q).
Proof.
  unfold iter_preds. rewrite !Forall_app, !Forall_flat_map. split.
  - intros (A & B & C & D & E & F). split; [|split; [exact B|split; [exact D|]]].
    + intros f K. apply printed_num in K. unfold printed_fields in K. rewrite !in_app_iff in K. rewrite Forall_forall in A, C. destruct K as [K|[K|[<-|[]]]]; auto.
    + intros q. rewrite Forall_forall in F. apply F. destruct q; cbn; tauto.
  - intros (A & B & C & D). repeat split; try assumption; try (apply Forall_forall; intros f Hf; apply A, printed_num; unfold printed_fields; rewrite !in_app_iff; tauto).
    + apply A. exact I.
    + apply Forall_forall. intros q _. apply D.
Qed.
Lemma num_forall (R : Predicate -> Prop) k ts : Forall R (num_preds k ts) <-> Forall (fun t => R (mkPred k (fst t) (PNum (snd t)))) ts.
Proof. unfold num_preds. now rewrite Forall_map. Qed.
Lemma rules_hold w s x : 1 < w -> w < 2 ^ 32 -> set_ok w s -> x < 2 ^ w -> (Forall (fun t => holds (fst t) x (snd t)) (rules w s) <-> member s x = true).
Proof.
  intros W0 W1 S X. rewrite <- (test_member w s x W0 W1 S X). unfold test. rewrite forallb_forall, Forall_forall.
  split; intros H [op v] I; specialize (H _ I); cbn [fst snd] in *; now apply uint_func_holds.
Qed.
Lemma bound_hold x b : bound_ok 64 b -> x < 2 ^ 64 -> (Forall (fun t => holds (fst t) x (snd t)) (bound_iter 64 b) <-> bound_test b x = true).
Proof.
  intros B X. rewrite <- (bound_iter_test 64 b x B X). rewrite forallb_forall, Forall_forall.
  split; intros H [op v] I; specialize (H _ I); cbn [fst snd optest] in *; now apply uint_func_holds.
Qed.
Lemma rules_default f : num_kind f -> rules (field_width f) (set_default (field_width f)) = [].
Proof. destruct f; try contradiction; intros _; vm_compute; reflexivity. Qed.
Section Iter.
Variable hash : bytes -> bytes.
Hypothesis HL : hash32 hash.
Lemma set_sat P f r nh p : sets_ok P -> num_kind f -> valid hash r nh p ->
  (Forall (satisfies hash r nh p) (set_preds P f) <->
   (rules (field_width f) (p_sets P f) = [] \/ N.land (type_byte p) (field_pkts f) = field_pkts f) /\ member (p_sets P f) (V hash nh p f) = true).
Proof.
  intros [SO _] K VA. unfold set_preds. rewrite num_forall. rewrite <- (rules_hold _ _ _ (width_gt f) (width_lt f) (proj1 (SO f K)) (valid_V hash HL r nh p f VA)).
  assert (forall t, satisfies hash r nh p (mkPred (RField f) (fst t) (PNum (snd t))) <-> N.land (type_byte p) (field_pkts f) = field_pkts f /\ holds (fst t) (V hash nh p f) (snd t)) as S.
  { intros t. rewrite <- (N.eqb_eq (N.land _ _)). change (N.land (type_byte p) (field_pkts f) =? field_pkts f) with (uint_func Mask1 (V hash nh p PktTypeF) (field_pkts f)).
    rewrite uint_func_holds, <- (num_sat hash HL r nh p f (fst t) (snd t) VA K). unfold satisfies. cbn [p_kind p_val p_op]. destruct f; try contradiction; reflexivity. }
  rewrite !Forall_forall. destruct (rules (field_width f) (p_sets P f)) as [|t0 ts]; [split; [intros _; split; [now left|intros x []]|intros _ x []]|]. split.
  - intros H. split; [right; apply (S t0), H; now left|]. intros t I. now apply S, H.
  - intros [[H|H] A] t I; [discriminate|]. apply S. split; [exact H|now apply A].
Qed.
Lemma iter_sat P cs ps r nh p : Inv hash P cs ps -> typed P -> valid hash r nh p ->
  (Forall (satisfies hash r nh p) (iter_preds P cs) <-> acc hash P r nh p /\ under cs p).
Proof.
  intros (SO & PX & SK & L8 & DM & _) T VA. rewrite iter_forall. split.
  - intros (A & B & C & _). split; [split|].
    + intros f K. specialize (A f K). apply (set_sat P f r nh p SO K VA) in A. apply A.
    + rewrite num_forall in C. apply bound_hold; [apply SO|apply VA|]. exact C.
    + destruct cs as [|c cs]; [now left|]. right. inversion B as [|? ? S _]; subst. unfold satisfies in S. cbn [p_kind p_val] in S.
      destruct S as [S|(rs & cs' & more & E & H & W & _)]; [discriminate|]. exists rs, more. split; [exact E|].
      assert (c :: cs = cs') as ->; [|exact H]. destruct H as [H _]. apply space_ok_prefix in H. apply wire_space_inj; [apply SK|apply H|exact W].
  - intros [[A R] U]. split; [|split; [|split]].
    + intros f K. apply (set_sat P f r nh p SO K VA). split; [|now apply A].
      destruct (rules (field_width f) (p_sets P f)) as [|t ts] eqn:E; [now left|]. right.
      destruct (T f K) as [H|[-> H]].
      * intros D. rewrite D, rules_default in E by exact K. discriminate.
      * apply H. rewrite <- (V_type hash nh p). now apply A.
      * destruct U as [->|(rs & more & X & _)]; [now rewrite PX in H|].
        pose proof (proj2 (link_type hash nh p) (ex_intro _ rs X)) as Q. apply uint_func_holds in Q. now apply N.eqb_eq in Q.
    + destruct cs as [|c cs]; [constructor|]. destruct U as [U|(rs & more & X & H)]; [discriminate|]. constructor; [|constructor]. unfold satisfies. cbn [p_kind p_val]. right.
      exists rs, (c :: cs), more. split; [exact X|]. split; [exact H|]. split; [reflexivity|]. rewrite <- (V_depth hash nh p rs X). apply DM; [|apply A; exact I].
      exact (valid_V hash HL r nh p DepthF VA).
    + rewrite num_forall. apply bound_hold; [apply SO|apply VA|exact R].
    + intros q. unfold limit_preds. rewrite num_forall. apply Forall_forall. intros t _. exact I.
Qed.
End Iter.
Lemma equal_bound s v : In (Equal, v) (rules 256 s) -> bound s <> bound_default 256.
Proof.
  unfold rules. destruct (negb _); [intros [H|[]]; discriminate|]. rewrite !in_app_iff. intros [H|[H|H]].
  - intros E. rewrite E in H. vm_compute in H. exact H.
  - destruct (_ =? 0); cbn in H; [contradiction|]. destruct H as [H|[]]. discriminate.
  - destruct (_ =? umax _); cbn in H; [contradiction|]. destruct H as [H|[]]. discriminate.
Qed.
Lemma iter_position P cs ps q n : Inv h0 P cs ps -> n < 2 ^ 32 ->
  (hash_bound P = bound_default 256 \/ forall n, n < 2 ^ 32 -> member (p_limits P QQuery) n = true -> n = 0) ->
  (position_ok (iter_preds P cs) q n <-> member (p_limits P q) n = true).
Proof.
  intros (_ & _ & _ & _ & _ & LO & _) Hn HB. unfold position_ok. rewrite iter_forall. rewrite <- (rules_hold 32 (p_limits P q) n eq_refl eq_refl (LO q) Hn). split.
  - intros (_ & _ & _ & D). specialize (D q). unfold limit_preds in D. rewrite num_forall in D. eapply Forall_impl; [|exact D]. intros [op v] H. cbn in *. destruct op; now apply H.
  - intros H. split; [|split; [|split]].
    + intros f K. unfold set_preds. rewrite num_forall. apply Forall_forall. intros [op v] J. cbn [p_kind p_op p_val fst snd]. destruct f; try (destruct op; exact I). destruct op; try exact I.
      intros ->. apply rules_hold in H; [|reflexivity|reflexivity|apply LO|exact Hn]. destruct HB as [HB|HB]; [|now apply HB]. exfalso. exact (equal_bound _ _ J HB).
    + destruct cs; repeat constructor.
    + rewrite num_forall. apply Forall_forall. intros [op v] J. destruct op; exact I.
    + intros q'. unfold limit_preds. rewrite num_forall. apply Forall_forall. intros [op v] J. cbn [p_kind p_op p_val fst snd]. assert (q' = q -> holds op n v) as X.
      { intros ->. rewrite Forall_forall in H. exact (H _ J). }
      destruct op; exact X.
Qed.
Lemma bound_iter_ok w b : 1 < w -> bound_ok w b -> Forall (fun t => snd t < 2 ^ w /\ match fst t with Mask0 | Mask1 => False | _ => True end) (bound_iter w b).
Proof.
  intros W [L H]. unfold bound_iter, bound_as_eq, less, greater, inc, decr. destruct (high b =? low b); [repeat constructor; assumption|].
  apply Forall_app. split.
  - destruct (N.ltb_spec (high b + 1) (2 ^ w)); cbn; repeat constructor. assumption.
  - destruct (N.eqb_spec (low b) 0); cbn; repeat constructor. cbn. lia.
Qed.
Lemma rules_ok w s : 1 < w -> set_ok w s -> Forall (fun t => snd t < 2 ^ w) (rules w s).
Proof.
  intros W [B [O Z]]. unfold rules. assert (0 < 2 ^ w) by (apply N.neq_0_lt_0, N.pow_nonzero; lia). destruct (negb _); [repeat constructor; assumption|].
  rewrite !Forall_app. split; [eapply Forall_impl; [|apply bound_iter_ok; eassumption]; intros t T; apply T|].
  split; [destruct (_ =? 0)|destruct (_ =? umax w)]; repeat constructor; assumption.
Qed.
Lemma iter_ok P cs ps : Inv h0 P cs ps -> Forall pred_ok (iter_preds P cs).
Proof.
  intros ((SO & BO) & PX & SK & L8 & DM & LO & _). apply iter_forall. split; [|split; [|split]].
  - intros f K. unfold set_preds. rewrite num_forall. eapply Forall_impl; [|apply rules_ok; [apply width_gt|apply (SO f K)]]. intros t H. unfold pred_ok. cbn [p_kind p_val p_op].
    destruct f; try contradiction; split; (exact I || exact H).
  - destruct cs as [|c cs]; [constructor|]. constructor; [|constructor]. split; [reflexivity|]. exists (c :: cs). auto.
  - rewrite num_forall. eapply Forall_impl; [|apply (bound_iter_ok 64); [reflexivity|exact BO]]. intros t H. exact H.
  - intros q. unfold limit_preds. rewrite num_forall. eapply Forall_impl; [|apply (rules_ok 32); [reflexivity|apply LO]]. intros t H. exact H.
Qed.
Lemma iter_no_spacename P cs : no_spacename (iter_preds P cs).
Proof.
  apply iter_forall. split; [|split; [|split]].
  - intros f K. unfold set_preds. rewrite num_forall. apply Forall_forall. intros t _. cbn. intros E. injection E as ->. exact K.
  - destruct cs; repeat constructor. discriminate.
  - rewrite num_forall. apply Forall_forall. discriminate.
  - intros q. unfold limit_preds. rewrite num_forall. apply Forall_forall. discriminate.
Qed.
Lemma iter_results P cs ps : Inv h0 P cs ps ->
  (hash_bound P = bound_default 256 \/ forall n, n < 2 ^ 32 -> member (p_limits P QQuery) n = true -> n = 0) ->
  no_results (iter_preds P cs) -> no_results ps.
Proof.
  intros IV HB. assert (A : forall q, no_positions (iter_preds P cs) q -> no_positions ps q).
  { intros q NP n Hn PO. apply (NP n Hn). apply (iter_position P cs ps q n IV Hn HB). destruct IV as (_ & _ & _ & _ & _ & _ & LP & _). now apply LP. }
  intros [H|[H [K|K]]]; [left|right|right]; auto.
Qed.
