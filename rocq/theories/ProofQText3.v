From Verif Require Import Bytes ModelSpace SpecSpace ProofSpace ProofRooted ProofTree SpecPkt ModelTestSet SpecTestSet ProofTestSet ModelPred SpecPred ProofPred PropsPred.
From Verif Require Import ModelQText SpecQText ProofQText ProofQText2 ProofEval3.

(** ** What a set of predicates says about the point types *)
Definition h0 : bytes -> bytes := fun _ => repeat 0 32.
Lemma h0_ok : forall x, lenN (h0 x) = 32. Proof. reflexivity. Qed.
Lemma bind_ok {E A B} (o : outcome E A) (f : A -> outcome E B) x : obind o f = Ok x -> exists y, o = Ok y /\ f y = Ok x.
Proof. destruct o; try discriminate. eauto. Qed.
(** Every accepted point has the field. *)
Definition has_field (f : Field) (P : PktPredicates) : Prop :=
  forall p : point, member (p_sets P PktTypeF) (type_byte p) = true -> N.land (type_byte p) (field_pkts f) = field_pkts f.
Definition typed (P : PktPredicates) : Prop :=
  forall f, num_kind f -> p_sets P f <> set_default (field_width f) -> has_field f P \/ f = DepthF /\ p_prefix P <> [].
Definition good (P : PktPredicates) : Prop :=
  typed P /\ is_valid P = true /\ exists cs, p_prefix P = wire_rooted cs /\ bytes_ok (wire_space cs).
Lemma type_small p : type_byte p < 2 ^ field_width PktTypeF. Proof. destruct p; reflexivity. Qed.
Lemma data_flag f p : N.land (type_byte p) (field_pkts f) = field_pkts f -> N.land (type_byte p) 1 = 1.
Proof. destruct p, f; cbn; intros H; try reflexivity; discriminate. Qed.
Lemma add_set_inv P f op v P' : add_set P f op v = Ok P' -> P' = with_set P f (add (field_width f) (p_sets P f) op v).
Proof. unfold add_set, try_add. destruct (has_any _ _); cbn [incompat obind]; [|discriminate]. intros E. now injection E as <-. Qed.
Lemma add_set_sets P f op v P' : sets_ok P -> num_kind f -> v < 2 ^ field_width f -> add_set P f op v = Ok P' -> sets_ok P'.
Proof. intros SO K Hv E. pose proof (add_set_step h0 h0_ok P f op v SO K Hv) as S. rewrite E in S. apply S. Qed.
(** The types only shrink. *)
Lemma add_set_types P f op v P' p : sets_ok P -> v < 2 ^ field_width f -> add_set P f op v = Ok P' ->
  member (p_sets P' PktTypeF) (type_byte p) = true -> member (p_sets P PktTypeF) (type_byte p) = true.
Proof.
  intros SO Hv E. apply add_set_inv in E. subst. destruct (field_eqb PktTypeF f) eqn:Q.
  - apply field_eqb_eq in Q. subst f. rewrite with_set_same, member_add; [|reflexivity|apply SO; exact I|exact Hv|apply type_small]. intros H. now apply andb_prop in H.
  - rewrite with_set_other; [auto|]. intros <-. now rewrite field_eqb_refl in Q.
Qed.
Lemma add_set_has P f op v P' g : sets_ok P -> v < 2 ^ field_width f -> add_set P f op v = Ok P' -> has_field g P -> has_field g P'.
Proof. intros SO Hv E H p M. apply H. eapply add_set_types; eassumption. Qed.
Lemma field_dec (f g : Field) : f = g \/ f <> g.
Proof. destruct (field_eqb f g) eqn:E; [left; now apply field_eqb_eq|right; intros ->; now rewrite field_eqb_refl in E]. Qed.
Lemma add_set_typed P f op v P' : sets_ok P -> num_kind f -> v < 2 ^ field_width f -> add_set P f op v = Ok P' -> typed P ->
  (has_field f P \/ f = DepthF /\ p_prefix P <> []) -> typed P'.
Proof.
  intros SO K Hv E T HF g Kg ND. assert (PX : p_prefix P' = p_prefix P) by (apply add_set_inv in E; now subst). rewrite PX.
  assert (has_field g P \/ g = DepthF /\ p_prefix P <> []) as [H|H]; [|left; eapply add_set_has; eassumption|now right].
  destruct (field_dec g f) as [->|NE]; [exact HF|]. apply T; [exact Kg|]. apply add_set_inv in E. subst. now rewrite with_set_other in ND.
Qed.
Lemma add_flag_typed P f P' : sets_ok P -> add_set P PktTypeF Mask1 (field_pkts f) = Ok P' -> typed P -> typed P' /\ has_field f P' /\ sets_ok P'.
Proof.
  intros SO E T. assert (SM : field_pkts f < 2 ^ field_width PktTypeF) by apply pkts_small.
  assert (H : has_field f P').
  { intros p M. apply add_set_inv in E. subst. rewrite with_set_same, member_add in M; [|reflexivity|apply SO; exact I|exact SM|apply type_small].
    apply andb_prop in M as [_ M]. cbn [uint_func] in M. now apply N.eqb_eq. }
  split; [|split; [exact H|exact (add_set_sets P PktTypeF _ _ P' SO I SM E)]].
  intros g Kg ND. destruct (field_dec g PktTypeF) as [->|NE].
  - left. intros p M. apply (data_flag f). now apply H.
  - assert (PX : p_prefix P' = p_prefix P) by (apply add_set_inv in E; now subst). rewrite PX. destruct (T g Kg) as [X|X]; [|left; eapply add_set_has; eassumption|now right].
    apply add_set_inv in E. subst. now rewrite with_set_other in ND.
Qed.
Lemma check_space_inv P P' : check_space P = Ok P' -> P' = P \/ rs_depth (p_prefix P) <> 0 /\ add_set P DepthF Greater (rs_depth (p_prefix P) - 1) = Ok P'.
Proof.
  unfold check_space. intros E. apply bind_ok in E as (P1 & E1 & E). apply bind_ok in E as (i & _ & E). destruct (sval i); [|discriminate]. injection E as <-.
  destruct (N.eqb_spec (rs_depth (p_prefix P)) 0); [injection E1 as <-; now left|right]. auto.
Qed.
Lemma check_space_typed P P' : sets_ok P -> rs_depth (p_prefix P) < 256 -> check_space P = Ok P' -> typed P -> (has_field DepthF P \/ p_prefix P <> []) -> typed P'.
Proof.
  intros SO D E T H. apply check_space_inv in E as [->|[_ E]]; [exact T|]. apply (add_set_typed P DepthF Greater (rs_depth (p_prefix P) - 1) P' SO I); [change (2 ^ field_width DepthF) with 256; lia|exact E|exact T|tauto].
Qed.
Lemma check_space_rest P P' : check_space P = Ok P' -> p_prefix P' = p_prefix P /\ p_limits P' = p_limits P.
Proof. intros E. apply check_space_inv in E as [->|[_ E]]; [auto|]. apply add_set_inv in E. now subst. Qed.
Lemma valid_same P P' : p_limits P' = p_limits P -> is_valid P' = is_valid P.
Proof. intros E. unfold is_valid. now rewrite E. Qed.
Lemma and_good P cs ps r P' : Inv h0 P cs ps -> pred_ok r -> pred_bytes r -> and_ P r = Ok P' -> good P -> good P'.
Proof.
  intros (SO & PX & SK & L8 & _) OK PB E (T & VA & cs0 & PX0 & B0). destruct (depth8 cs L8) as [D8 DB]. change (2 ^ 8) with 256 in DB.
  destruct r as [k op v]. unfold and_ in E. cbn [p_kind p_val p_op] in E. destruct k as [f| | |q]; unfold pred_ok in OK; cbn [p_kind p_val p_op] in OK.
  - apply bind_ok in E as (P1 & E1 & E). destruct (add_flag_typed P f P1 SO E1 T) as (T1 & HF & SO1).
    assert (p_prefix P1 = p_prefix P /\ p_limits P1 = p_limits P) as [PX1 LM1] by (apply add_set_inv in E1; now subst).
    destruct v as [n|sp].
    + assert (NUM : num_kind f /\ n < 2 ^ field_width f) by (destruct f; try contradiction; exact OK). destruct NUM as [K Hn].
      assert (G : forall P2, add_set P1 f op n = Ok P2 -> typed P2 /\ p_prefix P2 = p_prefix P /\ p_limits P2 = p_limits P /\ sets_ok P2 /\ has_field f P2).
      { intros P2 E2. split; [eapply add_set_typed; try eassumption; now left|]. split; [apply add_set_inv in E2; now subst|]. split; [apply add_set_inv in E2; now subst|].
        split; [eapply add_set_sets; eassumption|eapply add_set_has; eassumption]. }
      assert (GEN : add_set P1 f op n = Ok P' -> good P').
      { intros E2. destruct (G P' E2) as (T2 & X2 & L2 & _). split; [exact T2|]. split; [now rewrite (valid_same P P' L2)|]. exists cs0. now rewrite X2. }
      destruct f; try contradiction; try exact (GEN E).
      * apply bind_ok in E as (P2 & E2 & E). destruct (G P2 E2) as (T2 & X2 & L2 & _). destruct op; try (injection E as <-; exact (GEN E2)).
        unfold try_add in E. destruct (has_any 32 _) eqn:HA in E; cbn [incompat obind] in E; [|discriminate]. injection E as <-.
        split; [exact T2|]. split; [|exists cs0; cbn [with_limit p_prefix]; now rewrite X2].
        unfold is_valid in *. cbn [with_limit p_limits qscope_eqb]. rewrite HA, L2. destruct (has_any 32 (p_limits P QQuery)); [exact VA|discriminate].
      * apply bind_ok in E as (P2 & E2 & E). destruct (G P2 E2) as (T2 & X2 & L2 & SO2 & H2). destruct (check_space_rest P2 P' E) as [X3 L3].
        split; [eapply check_space_typed; try eassumption; [rewrite X2, PX, D8; exact DB|now left]|]. split; [rewrite (valid_same P P'); [exact VA|congruence]|]. exists cs0. split; [congruence|exact B0].
    + destruct f; try contradiction. destruct OK as (-> & cs' & SK' & L8' & ->). rewrite try_into_rooted_wire, firstn_le in E by assumption. cbn [in_space obind] in E.
      apply bind_ok in E as (P2 & E2 & E). apply bind_ok in E as (cur & _ & E). apply bind_ok in E as (new & _ & E). destruct (space_starts_with new cur); [|discriminate].
      destruct (depth8 cs' L8') as [D8' DB']. change (2 ^ 8) with 256 in DB'.
      assert (SO2 : sets_ok P2) by (apply (add_set_sets P1 DepthF Equal (rs_depth (wire_rooted cs')) P2 SO1 I); [rewrite D8'; exact DB'|exact E2]).
      assert (T2 : typed P2) by (apply (add_set_typed P1 DepthF Equal (rs_depth (wire_rooted cs')) P2 SO1 I); [rewrite D8'; exact DB'|exact E2|exact T1|left; exact HF]).
      assert (H2 : has_field DepthF P2) by (apply (add_set_has P1 DepthF Equal (rs_depth (wire_rooted cs')) P2 DepthF SO1); [rewrite D8'; exact DB'|exact E2|exact HF]).
      destruct (check_space_rest _ P' E) as [X3 L3]. cbn [with_prefix p_prefix p_limits] in X3, L3.
      assert (T2' : typed (with_prefix P2 (wire_rooted cs'))).
      { intros g Kg ND. destruct (T2 g Kg ND) as [X|[-> X]]; [left; exact X|left; exact H2]. }
      split; [eapply (check_space_typed (with_prefix P2 (wire_rooted cs'))); try eassumption; [cbn [with_prefix p_prefix]; rewrite D8'; exact DB'|left; exact H2]|].
      split; [rewrite (valid_same P P'); [exact VA|]; rewrite L3; apply add_set_inv in E2; subst; exact LM1|]. exists cs'. split; [exact X3|]. exact PB.
  - destruct v; [|discriminate]. apply bind_ok in E as (b & _ & E). injection E as <-. split; [exact T|]. split; [exact VA|]. exists cs0. auto.
  - destruct v as [n|sp]; [contradiction|]. destruct OK as (-> & cs' & SK' & L8' & ->). unfold prefix in E. apply bind_ok in E as (cur & EC & E).
    destruct (space_starts_with cur (wire_space cs')) eqn:S1; [injection E as <-; split; [exact T|]; split; [exact VA|]; exists cs0; auto|].
    destruct (space_starts_with (wire_space cs') cur); [|discriminate]. rewrite try_into_rooted_wire, firstn_le in E by assumption. cbn [in_space obind] in E.
    destruct (depth8 cs' L8') as [D8' DB']. change (2 ^ 8) with 256 in DB'. destruct (check_space_rest _ P' E) as [X3 L3]. cbn [with_prefix p_prefix p_limits] in X3, L3.
    assert (NE : wire_rooted cs' <> []).
    { destruct cs' as [|c cs']; [|discriminate]. exfalso. rewrite PX in EC. destruct (rs_space_wire cs) as [RS _]. rewrite RS in EC. cbn [in_space] in EC. injection EC as <-.
      assert (space_starts_with (wire_space cs) (wire_space []) = true); [|congruence]. apply starts_cs; try assumption. exists cs. reflexivity. }
    assert (T2' : typed (with_prefix P (wire_rooted cs'))).
    { intros g Kg ND. destruct (T g Kg ND) as [X|[-> X]]; [left; exact X|right; split; [reflexivity|exact NE]]. }
    split; [eapply (check_space_typed (with_prefix P (wire_rooted cs'))); try eassumption; [cbn [with_prefix p_prefix]; rewrite D8'; exact DB'|right; exact NE]|].
    split; [rewrite (valid_same P P'); [exact VA|exact L3]|]. exists cs'. split; [exact X3|]. exact PB.
  - destruct v as [n|]; [|discriminate]. destruct (is_valid _) eqn:EV in E; [|discriminate]. injection E as <-. split; [exact T|]. split; [exact EV|]. exists cs0. auto.
Qed.
Lemma default_good : good preds_default.
Proof. split; [intros f K ND; destruct ND; reflexivity|]. split; [vm_compute; reflexivity|]. exists []. split; [reflexivity|constructor]. Qed.
Lemma add_all_good rs P : Forall pred_ok rs -> Forall pred_bytes rs -> add_all preds_default rs = Ok P -> good P.
Proof.
  intros OK PB E. assert (A : forall rs P0 cs ps, Inv h0 P0 cs ps -> good P0 -> Forall pred_ok rs -> Forall pred_bytes rs -> add_all P0 rs = Ok P -> good P).
  { clear. induction rs as [|r rs IH]; intros P0 cs ps IV G OK PB E; cbn [add_all] in E; [now injection E as <-|].
    apply bind_ok in E as (P1 & E1 & E). apply Forall_cons_iff in OK as [O OK]. apply Forall_cons_iff in PB as [B PB].
    pose proof (and_inv h0 h0_ok P0 cs ps r IV O) as IV1. rewrite E1 in IV1. destruct IV1 as [cs1 IV1]. apply (IH P1 cs1 (ps ++ [r]) IV1); try assumption.
    exact (and_good P0 cs ps r P1 IV O B E1 G). }
  exact (A rs preds_default [] [] (Inv_default h0 h0_ok) default_good OK PB E).
Qed.
(** ** The bounds of the hash *)
Definition hash_bound (P : PktPredicates) : Bound := bound (p_sets P PktHashF).
Definition unbounded (r : Predicate) : Prop := p_kind r = RField PktHashF -> match p_op r with Equal | Less | Greater => False | _ => True end.
Lemma add_set_bound P f op v P' : add_set P f op v = Ok P' -> f <> PktHashF -> hash_bound P' = hash_bound P.
Proof. intros E NE. apply add_set_inv in E. subst. unfold hash_bound. rewrite with_set_other; [reflexivity|]. congruence. Qed.
Lemma check_space_bound P P' : check_space P = Ok P' -> hash_bound P' = hash_bound P.
Proof. intros E. apply check_space_inv in E as [->|[_ E]]; [reflexivity|]. eapply add_set_bound; [exact E|discriminate]. Qed.
Lemma and_bound P r P' : and_ P r = Ok P' -> unbounded r -> hash_bound P' = hash_bound P.
Proof.
  intros E U. destruct r as [k op v]. unfold and_ in E. unfold unbounded in U. cbn [p_kind p_val p_op] in *. destruct k as [f| | |q].
  - apply bind_ok in E as (P1 & E1 & E). apply add_set_bound in E1; [|discriminate]. rewrite <- E1.
    destruct f, v; try discriminate; try (eapply add_set_bound; [exact E|discriminate]).
    + specialize (U eq_refl). apply bind_ok in E as (P2 & E2 & E). apply add_set_inv in E2. subst P2.
      destruct op; try contradiction; injection E as <-; unfold hash_bound; rewrite with_set_same; reflexivity.
    + apply bind_ok in E as (P2 & E2 & E). apply add_set_bound in E2; [|discriminate]. apply check_space_bound in E. congruence.
    + destruct op; try discriminate. apply bind_ok in E as (a & _ & E). apply bind_ok in E as (P2 & E2 & E). apply add_set_bound in E2; [|discriminate].
      apply bind_ok in E as (cur & _ & E). apply bind_ok in E as (new & _ & E). destruct (space_starts_with _ _); [|discriminate]. apply check_space_bound in E. rewrite E. exact E2.
  - destruct v; [|discriminate]. apply bind_ok in E as (b & _ & E). now injection E as <-.
  - destruct op; try discriminate. destruct v; [discriminate|]. unfold prefix in E. apply bind_ok in E as (cur & _ & E). destruct (space_starts_with cur sp); [now injection E as <-|].
    destruct (space_starts_with sp cur); [|discriminate]. apply bind_ok in E as (a & _ & E). apply check_space_bound in E. exact E.
  - destruct v; [|discriminate]. destruct (is_valid _); [|discriminate]. now injection E as <-.
Qed.
Lemma add_all_bound rs : forall P P', add_all P rs = Ok P' -> Forall unbounded rs -> hash_bound P' = hash_bound P.
Proof.
  induction rs as [|r rs IH]; intros P P' E F; cbn [add_all] in E; [now injection E as <-|]. apply bind_ok in E as (P1 & E1 & E). apply Forall_cons_iff in F as [U F].
  rewrite (IH P1 P' E F). now apply (and_bound P r).
Qed.
Lemma hash_limited rs P : Forall pred_ok rs -> hash_unordered rs -> add_all preds_default rs = Ok P ->
  hash_bound P = bound_default 256 \/ forall n, n < 2 ^ 32 -> member (p_limits P QQuery) n = true -> n = 0.
Proof.
  intros OK HU E. assert (Forall unbounded rs \/ exists v, In (mkPred (RField PktHashF) Equal v) rs) as [U|[v I]].
  { clear -HU. induction HU as [|r rs H F [IH|[v IH]]]; [left; constructor| |right; exists v; now right].
    destruct r as [k op v]. destruct k as [f| | |q]; try (left; constructor; [discriminate|exact IH]). destruct f; try (left; constructor; [discriminate|exact IH]).
    cbn in H. specialize (H eq_refl). destruct op; try tauto; try (left; constructor; [intros _; exact I|exact IH]). right. exists v. now left. }
  - left. exact (add_all_bound rs preds_default P E U).
  - right. intros n Hn M. destruct (added_inv h0 rs P h0_ok OK E) as (cs & _ & _ & _ & _ & _ & LO & LP & _). apply LP in M; [|exact Hn].
    unfold position_ok in M. rewrite Forall_forall in M. now apply (M _ I).
Qed.
