From Verif Require Import ProofSpace ProofRooted ProofTree ProofTestSet.
From Verif Require Import Bytes ModelSpace SpecSpace ModelPkt SpecPkt ModelTestSet SpecTestSet ModelPred SpecPred ProofPred.

(** What a predicate does to the set of a field. *)
Definition allows (r : Predicate) (f : Field) (u : N) : Prop :=
  match p_kind r, p_val r with
  | RField SpaceNameF, PSpace sp => f = DepthF -> exists c, space_ok c /\ sp = wire_space c /\ u = lenN c
  | RField g, PNum v => f = g -> holds (p_op r) u v
  | RPrefix, PSpace sp => f = DepthF -> exists c, space_ok c /\ sp = wire_space c /\ lenN c <= u
  | _, _ => True
  end.
Definition typed (r : Predicate) (f : Field) (u : N) : Prop :=
  match p_kind r with RField g => f = PktTypeF -> holds Mask1 u (field_pkts g) | _ => True end.
Definition eff (P P' : PktPredicates) (C : Field -> N -> Prop) : Prop :=
  forall f u, num_kind f -> u < 2 ^ field_width f -> (member (p_sets P' f) u = true <-> member (p_sets P f) u = true /\ C f u).
Definition same_lims (P P' : PktPredicates) : Prop := p_limits P' = p_limits P /\ p_prefix P' = p_prefix P /\ p_recv P' = p_recv P.
Lemma same_lims_trans P Q R : same_lims P Q -> same_lims Q R -> same_lims P R.
Proof. intros (A & B & C) (D & E & F). repeat split; congruence. Qed.
Lemma eff_trans P Q R (C D : Field -> N -> Prop) : eff P Q C -> eff Q R D -> eff P R (fun f u => C f u /\ D f u).
Proof. intros A B f u K U. rewrite (B f u K U), (A f u K U). tauto. Qed.
Lemma eff_weaken P Q (C D : Field -> N -> Prop) : eff P Q C ->
  (forall f u, num_kind f -> u < 2 ^ field_width f -> member (p_sets P f) u = true -> (C f u <-> D f u)) -> eff P Q D.
Proof. intros A B f u K U. rewrite (A f u K U). split; intros [X Y]; split; auto; now apply (B f u K U X). Qed.
Lemma eff_refl P P' : p_sets P' = p_sets P -> eff P P' (fun _ _ => True).
Proof. intros E f u _ _. rewrite E. tauto. Qed.

Lemma add_set_eff P f op v P' : sets_ok P -> num_kind f -> v < 2 ^ field_width f -> add_set P f op v = Ok P' ->
  sets_ok P' /\ same_lims P P' /\ eff P P' (fun g u => g = f -> holds op u v).
Proof.
  intros [SO BO] K Hv. unfold add_set.
  pose proof (try_add_spec (field_width f) (p_sets P f) op v (width_gt f) (width_lt f) (proj1 (SO f K)) Hv) as T.
  destruct (try_add _ _ op v) as [s'|e| |]; cbn [incompat obind]; try discriminate. intros E. injection E as <-.
  destruct T as (_ & S' & A' & M). split; [|split; [repeat split|]].
  - split; [|exact BO]. intros g Kg. destruct (field_eqb g f) eqn:E.
    + apply field_eqb_eq in E. subst g. rewrite with_set_same. auto.
    + rewrite with_set_other by (intros ->; rewrite field_eqb_refl in E; discriminate). now apply SO.
  - intros g u Kg U. destruct (field_eqb g f) eqn:E.
    + apply field_eqb_eq in E. subst g. rewrite with_set_same, M, andb_true_iff, uint_func_holds by exact U. tauto.
    + assert (g <> f) as NE by (intros ->; rewrite field_eqb_refl in E; discriminate). rewrite with_set_other by exact NE. tauto.
Qed.
Lemma check_space_eff P P' : sets_ok P -> rs_depth (p_prefix P) < 2 ^ 8 -> check_space P = Ok P' ->
  sets_ok P' /\ same_lims P P' /\ eff P P' (fun g u => g = DepthF -> rs_depth (p_prefix P) <= u).
Proof.
  intros SO DB. unfold check_space. set (d := rs_depth (p_prefix P)) in *. intros E.
  destruct (if d =? 0 then Ok P else add_set P DepthF Greater (d - 1)) as [P1|e| |] eqn:E1; cbn [obind] in E; try discriminate.
  destruct (incompat (info 8 (p_sets P1 DepthF) d)) as [i|e| |]; cbn [obind] in E; try discriminate. destruct (sval i); [|discriminate]. injection E as <-.
  destruct (N.eqb_spec d 0) as [Z|Z].
  - injection E1 as <-. split; [exact SO|]. split; [repeat split|]. eapply eff_weaken; [now apply eff_refl|]. intros f u _ _ _. split; [intros _ _; lia|tauto].
  - destruct (add_set_eff P DepthF Greater (d - 1) P1 SO I ltac:(cbn [field_width]; lia) E1) as (A & B & C). split; [exact A|]. split; [exact B|].
    eapply eff_weaken; [exact C|]. intros f u _ _ _. cbn [holds]. split; intros H E; specialize (H E); lia.
Qed.

Section Hash.
Variable hash : bytes -> bytes.
Hypothesis HL : forall x, lenN (hash x) = 32.

Definition space_pred (r : Predicate) : Prop := p_kind r = RPrefix \/ p_kind r = RField SpaceNameF.
Definition grown (r : Predicate) (cs cs' : list bytes) : Prop :=
  (exists more, cs' = cs ++ more) /\ (~ space_pred r -> cs' = cs) /\
  (forall c, p_kind r = RField SpaceNameF -> p_val r = PSpace (wire_space c) -> space_ok c -> cs' = c).
Lemma grown_refl r cs : ~ space_pred r -> grown r cs cs.
Proof. intros H. split; [exists []; now rewrite app_nil_r|]. split; [auto|]. intros c E. exfalso. apply H. now right. Qed.
Lemma wire_rooted_inj a b : space_ok a -> space_ok b -> wire_rooted a = wire_rooted b -> a = b.
Proof.
  intros SA SB E. assert (rs_space (wire_rooted a) = rs_space (wire_rooted b)) as F by now rewrite E.
  rewrite (proj1 (rs_space_wire a)), (proj1 (rs_space_wire b)) in F. injection F as F. apply wire_space_inj in F; [exact F|apply SA|apply SB].
Qed.

Definition effect (P : PktPredicates) (cs : list bytes) (r : Predicate) (P' : PktPredicates) : Prop :=
  sets_ok P' /\ eff P P' (fun f u => allows r f u /\ typed r f u) /\
  exists cs', p_prefix P' = wire_rooted cs' /\ space_ok cs' /\ grown r cs cs'.

Lemma num_effect P cs ps f op v P2 P' : Inv hash P cs ps -> num_kind f -> v < 2 ^ field_width f ->
  obind (add_set P PktTypeF Mask1 (field_pkts f)) (fun p => add_set p f op v) = Ok P2 ->
  sets_ok P' -> eff P2 P' (fun _ _ => True) -> p_prefix P' = p_prefix P2 ->
  effect P cs (mkPred (RField f) op (PNum v)) P'.
Proof.
  intros (SO & PX & SK & _) K Hv E SO' EF PP.
  destruct (add_set P PktTypeF Mask1 (field_pkts f)) as [P1|e| |] eqn:E1; cbn [obind] in E; try discriminate.
  destruct (add_set_eff P PktTypeF Mask1 _ P1 SO I (pkts_small f) E1) as (SO1 & (_ & X1 & _) & F1).
  destruct (add_set_eff _ _ _ _ _ SO1 K Hv E) as (SO2 & (_ & X2 & _) & F2).
  split; [exact SO'|]. split.
  - eapply eff_weaken; [exact (eff_trans _ _ _ _ _ (eff_trans _ _ _ _ _ F1 F2) EF)|]. intros g u Kg U _. unfold allows, typed. cbn [p_kind p_val p_op].
    destruct f; try contradiction; tauto.
  - exists cs. split; [congruence|]. split; [exact SK|]. apply grown_refl. intros [H|H]; cbn [p_kind] in H; [discriminate|]. injection H as ->. contradiction.
Qed.

Lemma and_effect P cs ps r P' : Inv hash P cs ps -> pred_ok r -> and_ P r = Ok P' -> effect P cs r P'.
Proof.
  intros IV OK E. pose proof (and_inv hash HL P cs ps r IV OK) as AI. rewrite E in AI. destruct AI as (cs1 & SO' & PX' & SK' & L8' & _).
  pose proof IV as (SO & PX & SK & L8 & DM & _). destruct (depth8 cs L8) as [D8 DB].
  destruct r as [k op v]. destruct k as [f| | |q]; unfold pred_ok in OK; cbn [p_kind p_val p_op] in OK.
  - destruct v as [n|sp].
    + assert (num_kind f /\ n < 2 ^ field_width f) as [K Hv] by (destruct f; tauto).
      unfold and_ in E. cbn [p_kind p_val p_op] in E.
      destruct (add_set P PktTypeF Mask1 (field_pkts f)) as [P1|e| |] eqn:E1; cbn [obind] in E; try discriminate.
      destruct (add_set_eff P PktTypeF Mask1 _ P1 SO I (pkts_small f) E1) as (SO1 & (_ & X1 & _) & F1).
      assert (forall P2, add_set P1 f op n = Ok P2 -> obind (add_set P PktTypeF Mask1 (field_pkts f)) (fun p => add_set p f op n) = Ok P2) as G by (intros P2 H; now rewrite E1).
      destruct f; try contradiction;
        try (apply (num_effect P cs ps _ op n P' P' IV K Hv (G _ E) SO'); [now apply eff_refl|reflexivity]).
      * destruct (add_set P1 PktHashF op n) as [P2|e| |] eqn:E2; cbn [obind] in E; try discriminate.
        apply (num_effect P cs ps _ op n P2 P' IV K Hv (G _ eq_refl) SO').
        -- apply eff_refl. destruct op; try (now injection E as <-). destruct (incompat (try_add 32 (p_limits P2 QQuery) Equal 0)) as [s| | |]; try discriminate. cbn [obind] in E. now injection E as <-.
        -- destruct op; try (now injection E as <-). destruct (incompat (try_add 32 (p_limits P2 QQuery) Equal 0)) as [s| | |]; try discriminate. cbn [obind] in E. now injection E as <-.
      * destruct (add_set P1 DepthF op n) as [P2|e| |] eqn:E2; cbn [obind] in E; try discriminate.
        destruct (add_set_eff _ _ _ _ _ SO1 K Hv E2) as (SO2 & (_ & X2 & _) & F2).
        assert (rs_depth (p_prefix P2) = lenN cs) as QD by (rewrite X2, X1, PX; exact D8).
        destruct (check_space_eff P2 P' SO2 ltac:(rewrite QD; exact DB) E) as (_ & (_ & X3 & _) & F3). rewrite QD in F3.
        apply (num_effect P cs ps _ op n P2 P' IV K Hv (G _ eq_refl) SO'); [|exact X3].
        eapply eff_weaken; [exact F3|]. intros g u Kg U M. split; [auto|]. intros _ ->. apply DM; [exact U|].
        apply (F2 DepthF u I U) in M as [M _]. apply (F1 DepthF u I U) in M as [M _]. exact M.
    + assert (f = SpaceNameF) as -> by (destruct f; tauto). destruct OK as (-> & c & SC & LC & ->).
      destruct (depth8 c LC) as [D8c DBc]. destruct (rs_space_wire c) as [RS RD].
      unfold and_ in E. cbn [p_kind p_val p_op] in E.
      destruct (add_set P PktTypeF Mask1 (field_pkts SpaceNameF)) as [P1|e| |] eqn:E1; cbn [obind] in E; try discriminate.
      destruct (add_set_eff P PktTypeF Mask1 _ P1 SO I (pkts_small SpaceNameF) E1) as (SO1 & (_ & X1 & _) & F1).
      rewrite try_into_rooted_wire, firstn_le in E by assumption. cbn [in_space obind] in E. rewrite D8c in E.
      destruct (add_set P1 DepthF Equal (lenN c)) as [P2|e| |] eqn:E2; cbn [obind] in E; try discriminate.
      destruct (add_set_eff P1 DepthF Equal (lenN c) P2 SO1 I DBc E2) as (SO2 & (_ & X2 & _) & F2).
      rewrite X2, X1, PX, (proj1 (rs_space_wire cs)), RS in E. cbn [in_space obind] in E.
      destruct (space_starts_with (wire_space c) (wire_space cs)) eqn:SW; [|discriminate]. apply starts_cs in SW; try assumption.
      set (P3 := with_prefix P2 (wire_rooted c)) in *. assert (sets_ok P3) as SO3 by exact SO2.
      assert (rs_depth (p_prefix P3) = lenN c) as QD by exact D8c.
      destruct (check_space_eff P3 P' SO3 ltac:(rewrite QD; exact DBc) E) as (_ & (_ & X3 & _) & F3). rewrite QD in F3.
      split; [exact SO'|]. split.
      * eapply eff_weaken; [exact (eff_trans P P3 P' _ _ (eff_trans _ _ P3 _ _ F1 F2) F3)|]. intros g u Kg U _. unfold allows, typed. cbn [p_kind p_val p_op holds]. split.
        -- intros [[A B] C]. split; [|exact A]. intros G. exists c. auto.
        -- intros [A B]. assert (g = DepthF -> u = lenN c) as Q.
           { intros G. destruct (A G) as (c' & SC' & W & ->). apply wire_space_inj in W; [now subst c'|apply SC|apply SC']. }
           split; [split; [exact B|exact Q]|]. intros G. rewrite (Q G). lia.
      * exists c. split; [rewrite X3; reflexivity|]. split; [exact SC|]. split; [exact SW|]. split; [intros H; exfalso; apply H; now right|].
        intros c' _ W SC'. cbn [p_val] in W. injection W as W. apply wire_space_inj in W; [exact W|apply SC|apply SC'].
  - destruct v as [n|sp]; [|contradiction]. unfold and_ in E. cbn [p_kind p_val p_op] in E.
    destruct (incompat (bound_try_add 64 (p_recv P) op n)) as [b| | |]; cbn [obind] in E; try discriminate. injection E as <-.
    split; [exact SO'|]. split; [eapply eff_weaken; [now apply eff_refl|]; intros; unfold allows, typed; cbn; tauto|].
    exists cs. split; [exact PX|]. split; [exact SK|]. apply grown_refl. intros [H|H]; discriminate.
  - destruct v as [n|sp]; [contradiction|]. destruct OK as (-> & c & SC & LC & ->). destruct (depth8 c LC) as [D8c DBc].
    unfold and_, prefix in E. cbn [p_kind p_val p_op] in E. rewrite PX, (proj1 (rs_space_wire cs)) in E. cbn [in_space obind] in E.
    destruct (space_starts_with (wire_space cs) (wire_space c)) eqn:S1.
    + injection E as <-. apply starts_cs in S1 as [more M]; try assumption. split; [exact SO|]. split.
      * eapply eff_weaken; [now apply eff_refl|]. intros g u Kg U Mm. unfold allows, typed. cbn [p_kind p_val]. split; [|tauto]. intros _. split; [|exact I]. intros ->.
        exists c. split; [exact SC|]. split; [reflexivity|]. apply DM in Mm; [|exact U]. rewrite M, lenN_app in Mm. lia.
      * exists cs. split; [exact PX|]. split; [exact SK|]. split; [exists []; now rewrite app_nil_r|]. split; [intros H; exfalso; apply H; now left|]. intros c' H. discriminate.
    + destruct (space_starts_with (wire_space c) (wire_space cs)) eqn:S2; [|discriminate]. apply starts_cs in S2; try assumption.
      rewrite try_into_rooted_wire, firstn_le in E by assumption. cbn [in_space obind] in E.
      set (P3 := with_prefix P (wire_rooted c)) in *. assert (sets_ok P3) as SO3 by exact SO.
      assert (rs_depth (p_prefix P3) = lenN c) as QD by exact D8c.
      destruct (check_space_eff P3 P' SO3 ltac:(rewrite QD; exact DBc) E) as (_ & (_ & X3 & _) & F3). rewrite QD in F3.
      split; [exact SO'|]. split.
      * eapply eff_weaken; [exact (eff_trans P P3 P' _ _ (eff_refl P P3 eq_refl) F3)|]. intros g u Kg U _. unfold allows, typed. cbn [p_kind p_val p_op holds]. split.
        -- intros [_ C]. split; [|exact I]. intros G. exists c. auto.
        -- intros [A _]. split; [exact I|]. intros G. destruct (A G) as (c' & SC' & W & L). apply wire_space_inj in W; [now subst c'|apply SC|apply SC'].
      * exists c. split; [rewrite X3; reflexivity|]. split; [exact SC|]. split; [exact S2|]. split; [intros H; exfalso; apply H; now left|]. intros c' H. discriminate.
  - destruct v as [n|sp]; [|contradiction]. unfold and_ in E. cbn [p_kind p_val p_op] in E.
    set (P2 := with_limit P q (add 32 (p_limits P q) op n)) in *. destruct (is_valid P2); [|discriminate]. injection E as <-.
    split; [exact SO'|]. split; [eapply eff_weaken; [now apply eff_refl|]; intros; unfold allows, typed; cbn; tauto|].
    exists cs. split; [exact PX|]. split; [exact SK|]. apply grown_refl. intros [H|H]; discriminate.
Qed.

(** A list of predicates. *)
Lemma all_effect rs : forall P cs ps P', Inv hash P cs ps -> Forall pred_ok rs -> add_all P rs = Ok P' ->
  exists cs', Inv hash P' cs' (ps ++ rs) /\ eff P P' (fun f u => Forall (fun r => allows r f u /\ typed r f u) rs) /\
  (exists more, cs' = cs ++ more) /\ (Forall (fun r => ~ space_pred r) rs -> cs' = cs) /\
  (forall c op, In (mkPred (RField SpaceNameF) op (PSpace (wire_space c))) rs -> space_ok c -> exists more, cs' = c ++ more).
Proof.
  induction rs as [|r rs IH]; intros P cs ps P' IV OK E; cbn [add_all] in E.
  - injection E as <-. exists cs. rewrite app_nil_r. split; [exact IV|]. split; [intros f u _ _; split; [intros M; split; [exact M|constructor]|tauto]|].
    split; [exists []; now rewrite app_nil_r|]. split; [auto|]. intros c op [].
  - inversion OK as [|? ? O1 O2]; subst. destruct (and_ P r) as [P1|e| |] eqn:E1; cbn [obind] in E; try discriminate.
    destruct (and_effect P cs ps r P1 IV O1 E1) as (SO1 & F1 & cs1 & X1 & SK1 & G1).
    pose proof (and_inv hash HL P cs ps r IV O1) as AI. rewrite E1 in AI. destruct AI as (cs1' & IV1).
    assert (cs1' = cs1) as ->. { destruct IV1 as (_ & X2 & SK2 & _). apply wire_rooted_inj; try assumption. congruence. }
    destruct (IH P1 cs1 (ps ++ [r]) P' IV1 O2 E) as (cs' & IV' & F' & (m' & M') & N' & S'). exists cs'. rewrite <- app_assoc in IV'. split; [exact IV'|].
    split; [|split; [|split]].
    + eapply eff_weaken; [exact (eff_trans _ _ _ _ _ F1 F')|]. intros f u _ _ _. split; [intros [A B]; now constructor|]. intros H. inversion H; subst. tauto.
    + destruct G1 as ((m1 & M1) & _). exists (m1 ++ m'). now rewrite app_assoc, <- M1.
    + intros H. inversion H; subst. rewrite N' by assumption. apply (proj1 (proj2 G1)); assumption.
    + intros c op [R|I] SC; [|now apply (S' c op)]. subst r. destruct G1 as (_ & _ & G1). rewrite <- (G1 c eq_refl eq_refl SC). eauto.
Qed.
Lemma preds_effect rs P : Forall pred_ok rs -> add_all preds_default rs = Ok P ->
  exists cs, Inv hash P cs rs /\
  (forall f u, num_kind f -> u < 2 ^ field_width f -> (member (p_sets P f) u = true <-> Forall (fun r => allows r f u /\ typed r f u) rs)) /\
  (Forall (fun r => ~ space_pred r) rs -> cs = []) /\
  (forall c op u, In (mkPred (RField SpaceNameF) op (PSpace (wire_space c))) rs -> space_ok c ->
   u < 2 ^ 8 -> member (p_sets P DepthF) u = true -> cs = c).
Proof.
  intros OK E. destruct (all_effect rs preds_default [] [] P (Inv_default hash HL) OK E) as (cs & IV & F & _ & N & S). cbn [app] in IV.
  assert (M : forall f u, num_kind f -> u < 2 ^ field_width f -> (member (p_sets P f) u = true <-> Forall (fun r => allows r f u /\ typed r f u) rs)).
  { intros f u K U. rewrite (F f u K U). split; [tauto|]. intros H. split; [|exact H]. now apply member_default. }
  exists cs. split; [exact IV|]. split; [exact M|]. split; [exact N|].
  intros c op u I SC U MU. destruct (S c op I SC) as [more ->]. destruct more as [|x more]; [now rewrite app_nil_r|]. exfalso.
  destruct IV as (_ & _ & _ & _ & DM & _).
  pose proof (DM u U MU) as L. apply (M DepthF u Logic.I U) in MU. rewrite Forall_forall in MU. specialize (MU _ I). destruct MU as [MU _].
  unfold allows in MU. cbn [p_kind p_val] in MU. destruct (MU eq_refl) as (c' & SC' & W & ->). apply wire_space_inj in W; [subst c'|apply SC|apply SC'].
  rewrite lenN_app, lenN_cons in L. lia.
Qed.
End Hash.
