(** Properties of predicate sets: C20-C24 and C35. *)
From Coq Require Import Sorting.Sorted Sorting.Permutation.
From Verif Require Import Bytes ModelTestSet SpecTestSet ProofTestSet.

(** C20: a value is accepted exactly when it satisfies every test that was added. *)
Theorem C20_add_is_intersection w ts v : 1 < w -> w < 2 ^ 32 -> operands_ok w ts -> v < 2 ^ w ->
  (test w (built w ts) v = true <-> accepts ts v).
Proof. intros W0 W1 T V. rewrite test_member by (assumption || now apply built_ok). apply built_member; [lia|assumption|assumption]. Qed.
(** The same for [try_add], when it does not refuse. *)
Theorem C20_try_add_is_intersection w ts s v : 1 < w -> w < 2 ^ 32 -> operands_ok w ts -> v < 2 ^ w ->
  try_build w (set_default w) ts = Ok s -> (test w s v = true <-> accepts ts v).
Proof. intros W0 W1 T V E. apply try_build_ok in E. subst s. now apply C20_add_is_intersection. Qed.
(** Order does not matter. *)
Theorem C20_order w ts ts' v : 1 < w -> w < 2 ^ 32 -> operands_ok w ts -> v < 2 ^ w -> Permutation ts ts' ->
  test w (built w ts) v = test w (built w ts') v.
Proof.
  intros W0 W1 T V P. assert (operands_ok w ts') as T' by (eapply Permutation_Forall; eassumption).
  apply and_iff. rewrite !C20_add_is_intersection by assumption. unfold accepts.
  split; intros H; (eapply Permutation_Forall; [|exact H]); [assumption|now symmetry].
Qed.
(** Receive-stamp predicates are bounds without masks. *)
Definition bound_built (w : N) (ts : list (TestOp * N)) : Bound := fold_left (fun s t => bound_add w s (fst t) (snd t)) ts (bound_default w).
Definition order_ops (ts : list (TestOp * N)) : Prop := Forall (fun t => fst t <> Mask0 /\ fst t <> Mask1) ts.
Lemma bound_built_spec w ts s v : 0 < w -> operands_ok w ts -> order_ops ts -> v < 2 ^ w -> bound_ok w s ->
  let b := fold_left (fun s t => bound_add w s (fst t) (snd t)) ts s in
  bound_ok w b /\ (bound_test b v = true <-> bound_test s v = true /\ accepts ts v).
Proof.
  intros W. revert s. induction ts as [|[op x] ts IH]; cbn; intros s T O V B.
  - split; [assumption|]. split; [intros H; split; [assumption|constructor]|tauto].
  - inversion T; subst. inversion O as [|? ? [O0 O1] O2]; subst. cbn in *.
    assert (bound_ok w (bound_add w s op x)) as B' by exact (proj1 (add_ok w (mkSet s (mask_default w)) op x (conj B (proj2 (default_ok w))) H1)).
    destruct (IH _ H2 O2 V B') as [C D]. split; [assumption|]. rewrite D, bound_add_test by assumption. rewrite andb_true_iff.
    assert ((match op with Equal => v =? x | Less => v <? x | Greater => x <? v | _ => true end) = true <-> holds op v x) as E.
    { rewrite <- uint_func_holds. destruct op; try reflexivity; congruence. }
    rewrite E. split; [intros [[] ]; split; [assumption|now constructor]|]. intros [A F]. inversion F; subst. tauto.
Qed.
Theorem C20_bound_is_intersection w ts v : 0 < w -> operands_ok w ts -> order_ops ts -> v < 2 ^ w ->
  (bound_test (bound_built w ts) v = true <-> accepts ts v).
Proof.
  intros W T O V. destruct (bound_built_spec w ts (bound_default w) v W T O V (proj1 (default_ok w))) as [_ H]. unfold bound_built. rewrite H.
  pose proof (member_default w v V) as M. unfold member in M. apply andb_prop in M as [M _]. cbn in M. tauto.
Qed.
Example C20_ex : test 8 (built 8 [(Greater, 3); (Mask1, 1); (Less, 9)]) 7 = true /\
  test 8 (built 8 [(Greater, 3); (Mask1, 1); (Less, 9)]) 8 = false /\
  (exists s, try_build 8 (set_default 8) [(Greater, 3); (Mask1, 1); (Less, 9)] = Ok s) /\
  operands_ok 8 [(Greater, 3); (Mask1, 1); (Less, 9)].
Proof.
  split; [vm_compute; reflexivity|]. split; [vm_compute; reflexivity|]. split; [eexists; vm_compute; reflexivity|].
  repeat constructor.
Qed.
Print Assumptions C20_add_is_intersection.
Print Assumptions C20_try_add_is_intersection.
Print Assumptions C20_order.
Print Assumptions C20_bound_is_intersection.

(** C23: what is refused is empty, for every sequence. *)
Theorem C23_refused_is_empty w s op x v : 1 < w -> w < 2 ^ 32 -> set_ok w s -> x < 2 ^ w ->
  (try_add w s op x = Err EIncompatible -> v < 2 ^ w -> ~ (test w s v = true /\ holds op v x)) /\
  (try_add w s op x = Err EIncompatible \/ exists s', try_add w s op x = Ok s').
Proof.
  intros W0 W1 S X. unfold try_add. destruct (has_any w (add w s op x)) eqn:H; [split; [discriminate|eauto]|].
  split; [|auto]. intros _ V [T O]. unfold has_any in H. destruct (min_value _ _) eqn:E; [discriminate|].
  pose proof (min_value_none w _ v W0 W1 (add_ok w s op x S X) V E) as Q.
  rewrite member_add in Q by (assumption || lia). rewrite test_member in T by assumption. rewrite T in Q.
  apply uint_func_holds in O. rewrite O in Q. discriminate.
Qed.
(** A sequence that some value satisfies is never refused. *)
Theorem C23_satisfiable_accepted w ts v : 1 < w -> w < 2 ^ 32 -> operands_ok w ts -> v < 2 ^ w -> accepts ts v ->
  exists s, try_build w (set_default w) ts = Ok s.
Proof.
  intros W0 W1 T V A. assert (forall s, set_ok w s -> member s v = true -> exists s', try_build w s ts = Ok s') as G.
  { revert T A. induction ts as [|[op x] ts IH]; cbn; intros T A s S M; [eauto|].
    inversion T; subst. inversion A; subst. cbn in *. unfold try_add, has_any.
    assert (member (add w s op x) v = true) as M' by (rewrite member_add, M by (assumption || lia); now apply uint_func_holds).
    pose proof (add_ok w s op x S H1) as S'. destruct (has_any_member w _ v W0 W1 S' V M') as (z & -> & _). cbn. now apply IH. }
  apply G; [apply default_ok|now apply member_default].
Qed.
(** What is accepted is non-empty, as long as the bit masks alone do not contradict each other.
    The full claim (without that hypothesis) is refuted below. *)
Definition masks_of (ts : list (TestOp * N)) : list (TestOp * N) :=
  filter (fun t => match fst t with Mask0 | Mask1 => true | _ => false end) ts.
Lemma fold_mask_of w ts s v : (mask_test (mask (fold_left (fun s t => add w s (fst t) (snd t)) ts s)) v = true <->
  mask_test (mask s) v = true /\ accepts (masks_of ts) v).
Proof.
  revert s. induction ts as [|[op x] ts IH]; intros s; cbn [fold_left fst snd].
  - cbn. split; [intros; split; [assumption|constructor]|tauto].
  - rewrite IH. cbn [add mask]. rewrite mask_add_test, andb_true_iff. unfold masks_of. cbn [filter fst].
    destruct op; try tauto; rewrite uint_func_holds; (split; [intros [[] ]; split; [assumption|now constructor]|intros [? F]; inversion F; subst; tauto]).
Qed.
Theorem C23_accepted_nonempty_partial w ts s u : 1 < w -> w < 2 ^ 32 -> operands_ok w ts ->
  u < 2 ^ w -> accepts (masks_of ts) u -> ts <> [] ->
  try_build w (set_default w) ts = Ok s -> exists v, v < 2 ^ w /\ accepts ts v.
Proof.
  intros W0 W1 T U A NE E.
  assert (has_any w s = true) as H.
  { revert E NE. generalize (set_default w). clear. induction ts as [|[op x] ts IH]; intros d E NE; [congruence|].
    cbn in E. unfold try_add in E. destruct (has_any w (add w d op x)) eqn:Q; cbn in E; [|discriminate].
    destruct ts as [|t ts]; [cbn in E; congruence|]. apply (IH _ E). discriminate. }
  apply try_build_ok in E. subst s. change (fold_left _ ts (set_default w)) with (built w ts) in H.
  unfold has_any in H. destruct (min_value w (built w ts)) as [x|] eqn:Q; [|discriminate].
  apply min_value_some in Q as (X & M & _); try assumption; [|now apply built_ok|].
  - exists x. split; [assumption|]. apply built_member in M; try assumption. lia.
  - apply mask_has_any_iff. exists u. unfold built. apply fold_mask_of. split; [|assumption].
    pose proof (member_default w u U) as D. now apply andb_prop in D as [_ D].
Qed.
(** Bounds alone: exact. *)
Theorem C23_bound_exact w ts op x : 0 < w -> operands_ok w ((op, x) :: ts) -> order_ops ((op, x) :: ts) ->
  ((exists b, bound_try_add w (bound_built w ts) op x = Ok b) <-> exists v, v < 2 ^ w /\ accepts (ts ++ [(op, x)]) v).
Proof.
  intros W T O. inversion T; subst. inversion O; subst. cbn in *. unfold bound_try_add.
  set (b := bound_add w (bound_built w ts) op x).
  assert (bound_built w (ts ++ [(op, x)]) = b) as E by (unfold bound_built; rewrite fold_left_app; reflexivity).
  assert (operands_ok w (ts ++ [(op, x)])) as T' by (apply Forall_app; split; [assumption|repeat constructor; assumption]).
  assert (order_ops (ts ++ [(op, x)])) as O' by (apply Forall_app; split; [assumption|repeat constructor; tauto]).
  split.
  - intros (b' & Q). destruct (bound_has_any b) eqn:A; [|discriminate]. unfold bound_has_any in A. apply N.leb_le in A.
    assert (bound_ok w b) as B.
    { rewrite <- E. apply (bound_built_spec w _ (bound_default w) 0 W T' O' (pow2_pos w) (proj1 (default_ok w))). }
    exists (low b). split; [apply B|]. apply (proj1 (C20_bound_is_intersection w _ (low b) W T' O' (proj1 B))). rewrite E.
    unfold bound_test. apply andb_true_intro. split; apply N.leb_le; lia.
  - intros (v & V & A). apply (proj2 (C20_bound_is_intersection w _ v W T' O' V)) in A. rewrite E in A. unfold bound_test in A. apply andb_prop in A as [A1 A2].
    apply N.leb_le in A1, A2. unfold bound_has_any. destruct (N.leb_spec (low b) (high b)); [eauto|lia].
Qed.
(** Contradictory masks can be accepted (release builds; a debug build stops at a debug
    assertion in [Mask::add]): "all bits but bit 1 are zero" and "bit 0 is one". *)
Theorem C23_contradictory_masks_refuted : exists s,
  try_build 8 (set_default 8) [(Mask0, 2); (Mask1, 1)] = Ok s /\ forall v, v < 2 ^ 8 -> test 8 s v = false.
Proof.
  eexists. split; [vm_compute; reflexivity|]. intros v V.
  apply not_true_is_false. rewrite (C20_try_add_is_intersection 8 [(Mask0, 2); (Mask1, 1)]); try reflexivity; try assumption.
  2: repeat constructor.
  intros H. inversion H as [|? ? A B]; subst. inversion B as [|? ? C D]; subst. cbn [fst snd holds] in *.
  specialize (C 0 eq_refl). specialize (A 0 C). discriminate.
Qed.
(** [Bound::try_combine] also accepts disjoint bounds. *)
Theorem F14_combine_disjoint : exists b,
  bound_try_combine (mkBound 5 9) (mkBound 1 2) = Ok b /\ forall v, bound_test b v = false.
Proof.
  eexists. split; [vm_compute; reflexivity|]. intros v. unfold bound_test. cbn.
  destruct (N.leb_spec v 2), (N.leb_spec 5 v); try reflexivity; lia.
Qed.
Example C23_ex : (exists s, try_build 8 (set_default 8) [(Greater, 3); (Mask1, 6)] = Ok s) /\
  accepts (masks_of [(Greater, 3); (Mask1, 6)]) 6 /\ try_build 8 (set_default 8) [(Mask1, 4); (Less, 4)] = Err EIncompatible.
Proof.
  split; [eexists; vm_compute; reflexivity|]. split; [|vm_compute; reflexivity].
  apply forallb_accepts. vm_compute. reflexivity.
Qed.
Print Assumptions C23_refused_is_empty.
Print Assumptions C23_satisfiable_accepted.
Print Assumptions C23_accepted_nonempty_partial.
Print Assumptions C23_bound_exact.
Print Assumptions C23_contradictory_masks_refuted.
Print Assumptions F14_combine_disjoint.

(** C21: the rules listed for a set build a set that accepts the same values. *)
Theorem C21_rules_round_trip w s v : 1 < w -> w < 2 ^ 32 -> set_ok w s -> v < 2 ^ w ->
  test w (built w (rules w s)) v = test w s v.
Proof.
  intros W0 W1 S V. apply and_iff. rewrite C20_add_is_intersection by (assumption || now apply rules_operands).
  symmetry. apply forallb_accepts.
Qed.
(** ... and, for a set with a member, none of them is refused. *)
Theorem C21_rules_accepted w s u : 1 < w -> w < 2 ^ 32 -> set_ok w s -> u < 2 ^ w -> test w s u = true ->
  exists s', try_build w (set_default w) (rules w s) = Ok s' /\ forall v, v < 2 ^ w -> test w s' v = test w s v.
Proof.
  intros W0 W1 S U T. destruct (C23_satisfiable_accepted w (rules w s) u W0 W1 (rules_operands w s S) U) as (s' & E).
  { now apply forallb_accepts. }
  exists s'. split; [assumption|]. intros v V. pose proof E as E'. apply try_build_ok in E'. subst s'. now apply C21_rules_round_trip.
Qed.
(** Every set the API builds is covered. *)
Theorem C21_reachable w ts : operands_ok w ts -> set_ok w (built w ts).
Proof. apply built_ok. Qed.
Theorem C21_bound_round_trip w ts v : 0 < w -> operands_ok w ts -> order_ops ts -> v < 2 ^ w ->
  (accepts (bound_iter w (bound_built w ts)) v <-> accepts ts v).
Proof.
  intros W T O V. rewrite <- (C20_bound_is_intersection w ts v W T O V). rewrite <- forallb_accepts.
  change (fun '(op, rh) => uint_func op v rh) with (optest v). rewrite bound_iter_test; [reflexivity| |assumption].
  apply (bound_built_spec w ts (bound_default w) v W T O V (proj1 (default_ok w))).
Qed.
Example C21_ex : rules 8 (built 8 [(Greater, 3); (Mask1, 6); (Less, 200); (Nop, 4)]) = [(Less, 200); (Greater, 3); (Mask1, 6)] /\
  test 8 (built 8 [(Greater, 3); (Mask1, 6); (Less, 200); (Nop, 4)]) 7 = true.
Proof. split; vm_compute; reflexivity. Qed.
Print Assumptions C21_rules_round_trip.
Print Assumptions C21_rules_accepted.
Print Assumptions C21_reachable.
Print Assumptions C21_bound_round_trip.

(** C22: for a set with a member, [info] reports membership and the least member that is
    not below the value. *)
Theorem C22_info_exact w s u v : 1 < w -> w < 2 ^ 32 -> set_ok w s -> u < 2 ^ w -> test w s u = true -> v < 2 ^ w ->
  exists i, info w s v = Ok i /\ in_set i = test w s v /\ next_member w (fun x => test w s x = true) v (sval i).
Proof.
  intros W0 W1 S U T V. rewrite test_member in T by assumption.
  destruct (info_exact w s u v W0 W1 S U T V) as (i & E & M & X). exists i. split; [assumption|].
  rewrite test_member by assumption. split; [assumption|].
  destruct (sval i) as [x|]; cbn in *.
  - destruct X as (X1 & X2 & X3 & X4). rewrite test_member by assumption. split; [assumption|]. split; [assumption|]. split; [assumption|].
    intros y Y1 Y2 Y3. rewrite test_member in Y3 by assumption. auto.
  - intros y Y1 Y2. rewrite test_member by assumption. auto.
Qed.
(** [min_value]: the least member. *)
Theorem C22_min_value w s u : 1 < w -> w < 2 ^ 32 -> set_ok w s -> u < 2 ^ w -> test w s u = true ->
  next_member w (fun x => test w s x = true) 0 (min_value w s).
Proof.
  intros W0 W1 S U T. rewrite test_member in T by assumption. destruct (has_any_member w s u W0 W1 S U T) as (x & X & _).
  rewrite X. apply min_value_some in X as (A & B & C); try assumption; [|now apply member_mask with u].
  cbn. split; [lia|]. split; [assumption|]. split; [now rewrite test_member by assumption|].
  intros y _ Y Q. rewrite test_member in Q by assumption. auto.
Qed.
(** [enumerate]: the members from [start] on in increasing order, none skipped. *)
Theorem C22_enumerate w s u start n : 1 < w -> w < 2 ^ 32 -> set_ok w s -> u < 2 ^ w -> test w s u = true -> start < 2 ^ w ->
  let l := enumerate n w s start in
  StronglySorted N.lt l /\ Forall (fun x => start <= x /\ x < 2 ^ w /\ test w s x = true) l /\
  (forall y, start <= y -> y < 2 ^ w -> test w s y = true -> In y l \/ length l = n /\ Forall (fun x => x < y) l).
Proof.
  intros W0 W1 S U T V. rewrite test_member in T by assumption. destruct (info_exact w s u start W0 W1 S U T V) as (i & E & _ & X).
  destruct (enumerate_from_spec n w s u start (sval i) W0 W1 S U T X) as (A & B & C).
  unfold enumerate, info_val. rewrite E. split; [assumption|]. split.
  - eapply Forall_impl; [|exact B]. cbn. intros a (A1 & A2 & A3). rewrite test_member by assumption. auto.
  - intros y Y1 Y2 Y3. rewrite test_member in Y3 by assumption. auto.
Qed.
(** Depth sets. *)
Theorem C22_depths_exact t d : bit_contains (from_rules t) d = true <-> d <= 8 /\ test 8 t d = true.
Proof. rewrite from_rules_spec, andb_true_iff, N.leb_le. reflexivity. Qed.
Theorem C22_next_depth t d :
  match next_depth (from_rules t) d with
  | Some x => d < x /\ x <= 8 /\ test 8 t x = true /\ forall y, d < y -> y <= 8 -> test 8 t y = true -> x <= y
  | None => forall y, d < y -> y <= 8 -> test 8 t y = false
  end.
Proof.
  pose proof (next_depth_spec (from_rules t) d (from_rules_small t)) as H.
  assert (forall y, y < 32 -> N.testbit (from_rules t) y = (y <=? 8) && test 8 t y) as B.
  { intros y Y. rewrite <- from_rules_spec, bit_contains_spec. destruct (N.ltb_spec y 32); [reflexivity|lia]. }
  destruct (next_depth _ _) as [x|].
  - destruct H as (H1 & H2 & H3 & H4). rewrite B in H3 by assumption. apply andb_prop in H3 as [H3 H5]. apply N.leb_le in H3.
    split; [assumption|]. split; [assumption|]. split; [assumption|]. intros y Y1 Y2 Y3. apply H4; [assumption|].
    rewrite B, Y3 by lia. destruct (N.leb_spec y 8); [reflexivity|lia].
  - intros y Y1 Y2. specialize (H y Y1). rewrite B in H by lia. destruct (N.leb_spec y 8); [assumption|lia].
Qed.
Theorem C22_depth_info t d :
  in_set (bit_info (from_rules t) d) = ((d <=? 8) && test 8 t d) /\
  next_member 5 (fun x => x <= 8 /\ test 8 t x = true) d (sval (bit_info (from_rules t) d)).
Proof.
  unfold bit_info. cbn [in_set sval]. split; [apply from_rules_spec|]. rewrite from_rules_spec.
  destruct (N.leb_spec d 8) as [D|D]; cbn [andb]; [destruct (test 8 t d) eqn:T|].
  - cbn. split; [lia|]. split; [lia|]. split; [auto|]. intros; lia.
  - pose proof (C22_next_depth t d) as H. destruct (next_depth _ _) as [x|]; cbn.
    + destruct H as (H1 & H2 & H3 & H4). split; [lia|]. split; [lia|]. split; [auto|]. intros y Y1 Y2 [Y3 Y4].
      apply H4; try assumption. destruct (N.eq_dec d y) as [->|]; [congruence|lia].
    + intros y Y1 Y2 [Y3 Y4]. destruct (N.eq_dec d y) as [->|]; [congruence|]. rewrite H in Y4 by lia. discriminate.
  - pose proof (C22_next_depth t d) as H. destruct (next_depth _ _) as [x|]; cbn.
    + lia.
    + intros; lia.
Qed.
(** The constant named ALL leaves out depth 8, which a space can have. *)
Theorem F15_depth_all_excludes_8 : bit_contains BIT_ALL 8 = false /\ forall d, d < 8 -> bit_contains BIT_ALL d = true.
Proof.
  split; [vm_compute; reflexivity|]. intros d D.
  assert (d = 0 \/ d = 1 \/ d = 2 \/ d = 3 \/ d = 4 \/ d = 5 \/ d = 6 \/ d = 7) as H by lia.
  repeat (destruct H as [->|H]; [vm_compute; reflexivity|]). subst d. vm_compute. reflexivity.
Qed.
Example C22_ex : info 8 (built 8 [(Mask1, 17); (Mask0, 123); (Less, 60)]) 18 = Ok (mkInfo false (Some 19)) /\
  info 8 (built 8 [(Mask1, 17); (Mask0, 123); (Less, 60)]) 52 = Ok (mkInfo false (Some 57)) /\
  enumerate 9 8 (built 8 [(Mask1, 17); (Mask0, 123); (Less, 60)]) 20 = [25; 27; 49; 51; 57; 59] /\
  next_depth (from_rules (built 8 [(Greater, 2); (Mask1, 1)])) 3 = Some 5.
Proof. repeat split; vm_compute; reflexivity. Qed.
Print Assumptions C22_info_exact.
Print Assumptions C22_min_value.
Print Assumptions C22_enumerate.
Print Assumptions C22_depths_exact.
Print Assumptions C22_next_depth.
Print Assumptions C22_depth_info.
Print Assumptions F15_depth_all_excludes_8.

(** C24: a compiled set accepts what the set accepts, for every set that [try_add] lets through. *)
Theorem C24_compiled_exact w s v : 1 < w -> w < 2 ^ 32 -> set_ok w s -> has_any w s = true -> v < 2 ^ w ->
  compiled_test (compile_stest w s) v = test w s v.
Proof. intros W0 W1 S A V. rewrite test_member by assumption. now apply compile_exact. Qed.
Theorem C24_compiled_built w ts s v : 1 < w -> w < 2 ^ 32 -> operands_ok w ts -> v < 2 ^ w ->
  try_build w (set_default w) ts = Ok s -> (compiled_test (compile_stest w s) v = true <-> accepts ts v).
Proof.
  intros W0 W1 T V E. rewrite <- (C20_try_add_is_intersection w ts s) by assumption.
  pose proof (try_build_ok _ _ _ _ E) as Es. change (s = built w ts) in Es.
  destruct ts as [|t ts].
  - cbn in E. injection E as <-. rewrite C24_compiled_exact; try assumption; [reflexivity|apply default_ok|].
    unfold has_any. destruct (has_any_member w (set_default w) v W0 W1 (default_ok w) V (member_default w v V)) as (x & -> & _). reflexivity.
  - rewrite C24_compiled_exact; try assumption; [reflexivity|subst s; now apply built_ok|].
    clear Es T V. revert t E. generalize (set_default w). induction ts as [|t' ts IH]; intros d t E; cbn in E; unfold try_add in E.
    + destruct (has_any w _) eqn:H; cbn in E; [|discriminate]. congruence.
    + destruct (has_any w (add w d (fst t) (snd t))) eqn:H; cbn [obind] in E; [|discriminate]. apply (IH _ t' E).
Qed.
Theorem C24_trivial_iff w s : 1 < w -> w < 2 ^ 32 -> set_ok w s ->
  (compile_stest w s = None <-> forall v, v < 2 ^ w -> test w s v = true).
Proof.
  intros W0 W1 S. split.
  - intros E v V. apply compile_none in E. subst s. rewrite test_member by assumption. now apply member_default.
  - intros H. rewrite (all_members_default w s S).
    + unfold compile_stest, set_eqb, bound_eqb, mask_eqb. rewrite !N.eqb_refl. reflexivity.
    + intros v V. rewrite <- (test_member w) by assumption. auto.
Qed.
(** An empty set that [add] builds (but [try_add] refuses) would compile to a test that accepts a value. *)
Theorem F18_empty_set_compiles : let s := built 8 [(Equal, 5); (Mask1, 8)] in
  test 8 s 5 = false /\ compiled_test (compile_stest 8 s) 5 = true /\ try_build 8 (set_default 8) [(Equal, 5); (Mask1, 8)] = Err EIncompatible.
Proof. vm_compute. auto. Qed.
Example C24_ex : has_any 8 (built 8 [(Mask1, 17); (Mask0, 123); (Less, 60)]) = true /\
  compiled_test (compile_stest 8 (built 8 [(Mask1, 17); (Mask0, 123); (Less, 60)])) 57 = true.
Proof. vm_compute. auto. Qed.
Print Assumptions C24_compiled_exact.
Print Assumptions C24_compiled_built.
Print Assumptions C24_trivial_iff.
Print Assumptions F18_empty_set_compiles.

(** C35: zipping results with an index set keeps the results at the positions in the set. *)
Theorem C35_positions {A} w ts (l : list A) start : 1 < w -> w < 2 ^ 32 -> operands_ok w ts -> start + lenN l <= 2 ^ w ->
  picks (accepts ts) start l (zip_members w (built w ts) start l).
Proof.
  intros W0 W1 T L. pose proof (zip_members_picks w (built w ts) l start W0 W1 (built_ok w ts T) L) as P.
  remember (zip_members w (built w ts) start l) as r eqn:E. clear E. revert L.
  induction P as [i|i a l r H P IH|i a l r H P IH]; intros L.
  - constructor.
  - assert (lenN (a :: l) = 1 + lenN l) as E by (unfold lenN; cbn [length]; lia). rewrite E in L.
    apply picks_in; [|apply IH; lia]. apply built_member in H; (assumption || lia).
  - assert (lenN (a :: l) = 1 + lenN l) as E by (unfold lenN; cbn [length]; lia). rewrite E in L.
    apply picks_out; [|apply IH; lia]. intros Q. apply H. apply built_member; (assumption || lia).
Qed.
(** It stops asking as soon as the position is above the set's upper bound. *)
Theorem C35_stops {A} w s (l : list A) at_ : high (bound s) < at_ -> zip_members w s at_ l = [] /\ member_peek w s at_ = None.
Proof.
  intros H. unfold member_peek. destruct l; cbn; unfold member_next; destruct (N.ltb_spec (high (bound s)) at_); try lia; auto.
Qed.
Example C35_ex : zip_members 32 (built 32 [(Greater, 0); (Mask1, 1); (Less, 6)]) 0 [10;11;12;13;14;15;16;17] = [11; 13; 15].
Proof. vm_compute. reflexivity. Qed.
Print Assumptions C35_positions.
Print Assumptions C35_stops.
