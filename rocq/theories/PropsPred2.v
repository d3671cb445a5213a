(** More on accepted queries (C60). *)
From Verif Require Import Bytes ModelPkt ModelTestSet SpecTestSet ProofTestSet ModelPred SpecPred ProofPred ProofPred2 PropsPred ProofQuery4 PropsQuery SpecWatch ProofWatch5 ProofWatch6.

Lemma and_valid p r p' : and_ p r = Ok p' -> is_valid p = true -> is_valid p' = true.
Proof.
  destruct r as [k op v]. unfold and_. cbn [p_kind p_op p_val]. intros H V. 
  assert (KEEP : forall a b, p_limits a = p_limits b -> is_valid b = true -> is_valid a = true) by (intros a b E; unfold is_valid; now rewrite E).
  destruct k as [f| | |q'].
  - destruct (add_set p PktTypeF Mask1 (field_pkts f)) as [p1| | |] eqn:E1; cbn [obind] in H; try discriminate. apply add_set_limits in E1. apply (KEEP _ _ E1) in V.
    destruct f, v as [n|sp]; try discriminate; try (apply add_set_limits in H; now apply (KEEP _ _ H)).
    + destruct (add_set p1 PktHashF op n) as [p2| | |] eqn:E2; cbn [obind] in H; try discriminate. apply add_set_limits in E2. apply (KEEP _ _ E2) in V.
      destruct op; try (injection H as <-; exact V). unfold try_add in H. destruct (has_any 32 (add 32 (p_limits p2 QQuery) Equal 0)) eqn:HA; cbn [incompat obind] in H; try discriminate. injection H as <-.
      unfold is_valid in *. cbn [with_limit p_limits qscope_eqb]. rewrite HA. apply andb_prop in V as [_ V]. exact V.
    + destruct (add_set p1 DepthF op n) as [p2| | |] eqn:E2; cbn [obind] in H; try discriminate. apply add_set_limits in E2. apply check_space_limits in H. apply (KEEP _ _ H). now apply (KEEP _ _ E2).
    + destruct op; try discriminate. destruct (in_space (ModelSpace.try_into_rooted sp)) as [rs| | |]; cbn [obind] in H; try discriminate.
      destruct (add_set p1 DepthF Equal (ModelSpace.rs_depth rs)) as [p2| | |] eqn:E2; cbn [obind] in H; try discriminate. apply add_set_limits in E2. apply (KEEP _ _ E2) in V.
      destruct (in_space (ModelSpace.rs_space (p_prefix p2))); cbn [obind] in H; try discriminate. destruct (in_space (ModelSpace.rs_space rs)); cbn [obind] in H; try discriminate.
      destruct (ModelSpace.space_starts_with _ _); [|discriminate]. apply check_space_limits in H. now apply (KEEP _ _ H).
  - destruct v as [n|]; [|discriminate]. destruct (incompat _); cbn [obind] in H; try discriminate. now injection H as <-.
  - destruct op; try discriminate. destruct v as [n|sp]; try discriminate. unfold prefix in H. destruct (in_space _); cbn [obind] in H; try discriminate.
    destruct (ModelSpace.space_starts_with _ sp); [now injection H as <-|]. destruct (ModelSpace.space_starts_with sp _); [|discriminate].
    destruct (in_space _); cbn [obind] in H; try discriminate. apply check_space_limits in H. now apply (KEEP _ _ H).
  - destruct v as [n|sp]; try discriminate. destruct (is_valid _) eqn:X; [|discriminate]. now injection H as <-.
Qed.
Lemma add_all_valid rs : forall p p', add_all p rs = Ok p' -> is_valid p = true -> is_valid p' = true.
Proof.
  induction rs as [|r rs IH]; intros p p' E V; cbn [add_all] in E; [now injection E as <-|]. destruct (and_ p r) as [p1| | |] eqn:E1; cbn [obind] in E; try discriminate.
  eapply IH; [exact E|]. eapply and_valid; eauto.
Qed.
(** A query whose limits leave no result is refused, unless they use mask operators (C23). *)
Theorem C60_no_results_refused_partial rs : Forall pred_ok rs -> (forall sc, limit_ops rs sc) -> no_results rs -> exists e, add_all preds_default rs = Err e.
Proof.
  intros OK LO NR. destruct (C60_total rs OK) as (o & E & T). destruct o as [P|e| |]; try contradiction; [exfalso|eauto].
  assert (accepted rs P) as AC by (split; assumption). assert (is_valid P = true) as V by (eapply add_all_valid; [exact E|reflexivity]).
  assert (forall sc, no_positions rs sc -> has_any 32 (p_limits P sc) = false) as NP.
  { intros sc N. destruct (has_any 32 (p_limits P sc)) eqn:HA; [|reflexivity]. destruct (N (high (bound (p_limits P sc)))); [apply (limits_ok rs P AC)|]. apply high_allowed; [exact AC|apply LO|exact HA]. }
  unfold is_valid in V. destruct NR as [N|[N1 N2]].
  - rewrite (NP _ N) in V. discriminate.
  - rewrite (NP _ N1) in V. apply andb_prop in V as [_ V]. destruct N2 as [N2|N2]; rewrite (NP _ N2) in V; cbn [negb andb orb] in V; [discriminate|]. rewrite orb_true_r in V. discriminate.
Qed.
Definition nothing : list Predicate := [mkPred (RLimit QNew) Less (PNum 0); mkPred (RLimit QBranch) Less (PNum 0)].
Example C60_no_results_ex : Forall pred_ok nothing /\ (forall sc, limit_ops nothing sc) /\ no_results nothing /\ is_err (add_all preds_default nothing) = true /\
  acceptedb [mkPred (RLimit QBranch) Less (PNum 0)] = true.
Proof.
  split; [repeat constructor|]. split; [intros sc; repeat (constructor; [intros _; exact I|]); constructor|]. split; [|split; vm_compute; reflexivity].
  right. split; [|right]; intros n _ F; inversion F as [|? ? A F1]; subst; inversion F1 as [|? ? B _]; subst; cbn in A, B; [specialize (A eq_refl)|specialize (B eq_refl)]; lia.
Qed.
Print Assumptions C60_no_results_refused_partial.
