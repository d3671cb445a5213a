From Verif Require Import Bytes ModelAbe SpecAbe ProofAbe ModelFmt ModelEval ModelFn SpecEval ProofEval ProofEval3.
From Verif Require Import ModelSpace SpecSpace ProofSpace ProofRooted ProofTree SpecPkt ModelTestSet SpecTestSet ProofTestSet ModelPred SpecPred ProofPred PropsPred.
From Verif Require Import ModelQText SpecQText ProofQText ProofQText2 ProofQText3 ProofQText4 ProofQText5 ProofQText6.

(** ** The domains and the prefix of a query *)
Definition one_plain (s : TestSet) : Prop :=
  mask s = mask_default 128 /\ (bound s = bound_default 128 \/ exists n, padded_plain (be_encode 16 n) /\ bound s = mkBound n n).
Definition plain_prefix (r : ModelSpace.rspace) : Prop := exists cs, space_ok cs /\ r = wire_rooted cs /\ Forall (fun c => lenN c = 16 -> padded_plain c) cs.
Definition plain_set (P : PktPredicates) : Prop := one_plain (p_sets P DomainF) /\ plain_prefix (p_prefix P).
Lemma any_bound s : set_ok 128 s -> mask s = mask_default 128 -> has_any 128 s = true -> low (bound s) <= high (bound s).
Proof.
  intros SO M A. unfold has_any in A. destruct (min_value 128 s) as [x|] eqn:E; [|discriminate].
  apply (min_value_some 128 s x eq_refl eq_refl SO) in E as (_ & H & _); [|rewrite M; reflexivity]. unfold member in H. apply andb_prop in H as [H _].
  unfold bound_test in H. apply andb_prop in H as [H1 H2]. apply N.leb_le in H1, H2. lia.
Qed.
Lemma one_plain_rules s : one_plain s -> Forall (fun t => padded_plain (be_encode 16 (snd t))) (rules 128 s).
Proof.
  intros [M B]. unfold rules. destruct (has_any 128 s); cbn [negb].
  - rewrite M. cbn [ones zeros mask_default N.eqb]. change (umax 128 =? umax 128) with true. cbv iota. rewrite !app_nil_r.
    destruct B as [-> |(n & P & ->)]; [vm_compute; constructor|]. unfold bound_iter, bound_as_eq. cbn [high low]. rewrite N.eqb_refl. constructor; [exact P|constructor].
  - constructor; [|constructor]. exists 0, 16%nat, []. split; [now left|]. split; [reflexivity|constructor].
Qed.
Lemma one_plain_add s n : set_ok 128 s -> one_plain s -> n < 2 ^ 128 -> padded_plain (be_encode 16 n) -> has_any 128 (add 128 s Equal n) = true -> one_plain (add 128 s Equal n).
Proof.
  intros SO [M B] L P A. assert (SO' : set_ok 128 (add 128 s Equal n)) by (now apply add_ok).
  assert (M' : mask (add 128 s Equal n) = mask_default 128) by exact M. pose proof (any_bound _ SO' M' A) as LE. split; [exact M'|]. right. exists n. split; [exact P|].
  cbn [add bound bound_add low high] in *. destruct SO as [[B1 B2] _]. destruct B as [E|(m & _ & E)]; rewrite E in *; cbn [low high bound_default] in *; f_equal.
  - apply N.max_r. lia.
  - apply N.min_r. assert (umax 128 = N.pred (2 ^ 128)) as -> by reflexivity. apply N.lt_le_pred. exact L.
  - lia.
  - lia.
Qed.
Lemma plain_prefix_of sp cs : space_ok cs -> sp = wire_space cs -> (forall cs, space_ok cs -> sp = wire_space cs -> Forall (fun c => lenN c = 16 -> padded_plain c) cs) -> plain_prefix (wire_rooted cs).
Proof. intros SK E H. exists cs. split; [exact SK|]. split; [reflexivity|]. now apply H. Qed.
Lemma add_set_other P f op v P' : add_set P f op v = Ok P' -> f <> DomainF -> plain_set P -> plain_set P'.
Proof. intros E NE PS. apply add_set_inv in E. subst. unfold plain_set in *. rewrite with_set_other by congruence. exact PS. Qed.
Lemma check_space_plain P P' : check_space P = Ok P' -> plain_set P -> plain_set P'.
Proof. intros E PS. apply check_space_inv in E as [->|[_ E]]; [exact PS|]. eapply add_set_other; [exact E|discriminate|exact PS]. Qed.
Lemma and_plain P cs ps r P' : Inv h0 P cs ps -> pred_ok r -> plain_pred r -> and_ P r = Ok P' -> plain_set P -> plain_set P'.
Proof.
  intros (SO & PX & SK & L8 & _) OK PL E PS. destruct r as [k op v]. unfold and_ in E. unfold plain_pred in PL. unfold pred_ok in OK. cbn [p_kind p_val p_op] in *. destruct k as [f| | |q].
  - apply bind_ok in E as (P1 & E1 & E). pose proof (add_set_other _ _ _ _ _ E1 ltac:(discriminate) PS) as PS1.
    destruct f, v as [n|sp]; try discriminate; try (eapply add_set_other; [exact E|discriminate|exact PS1]).
    + apply bind_ok in E as (P2 & E2 & E). pose proof (add_set_other _ _ _ _ _ E2 ltac:(discriminate) PS1) as PS2. destruct op; try (injection E as <-; exact PS2).
      apply bind_ok in E as (s & _ & E). injection E as <-. exact PS2.
    + destruct PL as [-> PP]. apply add_set_inv in E1 as X1. assert (p_sets P1 DomainF = p_sets P DomainF) as D1 by (subst P1; now rewrite with_set_other).
      pose proof E as E0. unfold add_set, try_add in E0. destruct (has_any (field_width DomainF) _) eqn:HA in E0; cbn [incompat obind] in E0; [|discriminate].
      injection E0 as <-. destruct PS1 as [OP PP1]. split; [|exact PP1]. rewrite with_set_same. destruct SO as [SO _]. apply one_plain_add; [rewrite D1; apply (SO DomainF I)|exact OP|apply OK|exact PP|exact HA].
    + apply bind_ok in E as (P2 & E2 & E). pose proof (add_set_other _ _ _ _ _ E2 ltac:(discriminate) PS1) as PS2. exact (check_space_plain _ _ E PS2).
    + destruct OK as (-> & cs' & SK' & L8' & ->). rewrite try_into_rooted_wire, firstn_le in E by assumption. cbn [in_space obind] in E.
      apply bind_ok in E as (P2 & E2 & E). pose proof (add_set_other _ _ _ _ _ E2 ltac:(discriminate) PS1) as PS2.
      apply bind_ok in E as (cur & _ & E). apply bind_ok in E as (new & _ & E). destruct (space_starts_with new cur); [|discriminate]. apply (check_space_plain _ _ E).
      split; [exact (proj1 PS2)|]. cbn [with_prefix p_prefix]. now apply (plain_prefix_of (wire_space cs')).
  - destruct v; [|discriminate]. apply bind_ok in E as (b & _ & E). now injection E as <-.
  - destruct v as [n|sp]; [contradiction|]. destruct OK as (-> & cs' & SK' & L8' & ->). unfold prefix in E. apply bind_ok in E as (cur & _ & E). destruct (space_starts_with cur _); [now injection E as <-|].
    destruct (space_starts_with _ cur); [|discriminate]. rewrite try_into_rooted_wire, firstn_le in E by assumption. cbn [in_space obind] in E. apply (check_space_plain _ _ E).
    split; [exact (proj1 PS)|]. cbn [with_prefix p_prefix]. now apply (plain_prefix_of (wire_space cs')).
  - destruct v; [|discriminate]. destruct (is_valid _); [|discriminate]. now injection E as <-.
Qed.
Lemma add_all_plain rs P : Forall pred_ok rs -> Forall plain_pred rs -> add_all preds_default rs = Ok P -> plain_set P.
Proof.
  intros OK PL E. assert (A : forall rs P0 cs ps, Inv h0 P0 cs ps -> plain_set P0 -> Forall pred_ok rs -> Forall plain_pred rs -> add_all P0 rs = Ok P -> plain_set P).
  { clear. induction rs as [|r rs IH]; intros P0 cs ps IV G OK PB E; cbn [add_all] in E; [now injection E as <-|].
    apply bind_ok in E as (P1 & E1 & E). apply Forall_cons_iff in OK as [O OK]. apply Forall_cons_iff in PB as [B PB].
    pose proof (and_inv h0 h0_ok P0 cs ps r IV O) as IV1. rewrite E1 in IV1. destruct IV1 as [cs1 IV1]. apply (IH P1 cs1 (ps ++ [r]) IV1); try assumption.
    exact (and_plain P0 cs ps r P1 IV O B E1 G). }
  apply (A rs preds_default [] [] (Inv_default h0 h0_ok)); try assumption. split; [split; [reflexivity|now left]|]. exists []. split; [split; [constructor|vm_compute; discriminate]|]. split; [reflexivity|constructor].
Qed.
(** ** Printing as expressions and reading *)
Lemma rules_expressed o s k rl : extends (core_scope o) s -> numeric k -> (k = RField DomainF -> Forall (fun t => padded_plain (be_encode 16 (snd t))) rl) -> Forall (expressed s) (text_rules k (size_of k) rl).
Proof.
  intros X K D. unfold text_rules. apply Forall_map, Forall_forall. intros [op v] IN. apply (num_expressed o); [exact X|exact K|apply be_encode_ok|apply be_encode_length|].
  intros ->. specialize (D eq_refl). rewrite Forall_forall in D. exact (D _ IN).
Qed.
Lemma set_expressed o s P f : extends (core_scope o) s -> num_kind f -> plain_set P -> Forall (expressed s) (text_set P f).
Proof.
  intros X K PS. unfold text_set. replace (N.to_nat (field_width f / 8)) with (size_of (RField f)) by (destruct f; try contradiction; reflexivity).
  apply (rules_expressed o); [exact X|exact K|]. intros [= ->]. apply one_plain_rules, PS.
Qed.
Lemma ok_inj {E A} (a b : A) : @Ok E A a = Ok b -> a = b.
Proof. now intros [= ->]. Qed.
Lemma iter_expressed o s P cs ps : extends (core_scope o) s -> Inv h0 P cs ps -> Forall bytes_ok cs -> plain_set P -> forall ts, preds_iter P = Ok ts -> Forall (expressed s) ts.
Proof.
  intros X (SO & PX & SK & L8 & _) B PS ts E. unfold preds_iter in E. apply bind_ok in E as (pre & EP & E). apply ok_inj in E as <-.
  assert (SETS : forall fs, Forall num_kind fs -> Forall (expressed s) (flat_map (text_set P) fs)).
  { intros fs F. apply Forall_flat_map. eapply Forall_impl; [|exact F]. intros f K. now apply (set_expressed o). }
  assert (A : forall (a b : list TextPredicate), Forall (expressed s) a -> Forall (expressed s) b -> Forall (expressed s) (a ++ b)) by (intros; now apply Forall_app).
  apply A; [apply SETS; repeat constructor|]. apply A; [|apply A; [apply SETS; repeat constructor|apply A; [|apply A; [now apply (set_expressed o)|]]]].
  - unfold text_prefix in EP. destruct PS as (_ & cs' & SK' & PX' & PL). rewrite PX in *.
    assert (cs' = cs) as ->.
    { apply wire_space_inj; [apply SK'|apply SK|]. pose proof (proj1 (rs_space_wire cs)) as W0. rewrite PX', (proj1 (rs_space_wire cs')) in W0. congruence. }
    destruct cs as [|c cs]; [injection EP as <-; constructor|]. assert (prefix_abl (wire_rooted (c :: cs)) = Ok (slash_abl (c :: cs))) as AP.
    { unfold prefix_abl. rewrite (proj1 (rs_space_wire (c :: cs))). cbn [obind]. rewrite components_wire by apply SK. reflexivity. }
    destruct (wire_rooted (c :: cs)) eqn:W; [discriminate|]. rewrite AP in EP. cbn [obind] in EP. apply ok_inj in EP as <-. constructor; [|constructor]. apply (prefix_expressed o s Equal (c :: cs)); try assumption. discriminate.
  - apply (rules_expressed o s RRecv); [exact X|exact I|discriminate].
  - unfold text_limits. apply Forall_flat_map, Forall_forall. intros q _. apply (rules_expressed o s (RLimit q)); [exact X|exact I|discriminate].
Qed.
Lemma print_read_expr o s P cs ps conf : extends (core_scope o) s -> Inv h0 P cs ps -> Forall bytes_ok cs -> plain_set P -> Forall option_ok conf ->
  exists t n, lk_query_print (mkQ P conf) true = Ok t /\ forall fuel, (n <= fuel)%nat ->
    lk_query_parse fuel s q_default [t] = with_preds (mkQ preds_default (rev conf)) (lift (add_all preds_default (iter_preds P cs))).
Proof.
  intros X IV B PS OC. destruct (shows_iter P cs ps IV B) as (ts & E & F). unfold lk_query_print. cbn [q_preds q_conf]. rewrite E. cbn [obind].
  pose proof (shows_wf ts _ F) as W. destruct (parse_expressed s ts (iter_expressed o s P cs ps X IV B PS ts E)) as (n & PE).
  eexists. exists (S n). split; [reflexivity|]. intros [|fuel] FU; [lia|]. cbn [lk_query_parse].
  change (conf_display conf) with (lines (rev conf)). assert (OC' : Forall option_ok (rev conf)) by now apply Forall_rev.
  rewrite parse_lines_wf by (eapply Forall_impl; [|exact OC']; apply option_wf). rewrite add_options by exact OC'. cbn [obind q_default q_preds q_conf app].
  set (q1 := mkQ preds_default (rev conf)). set (L := flat_map (fun t => text_print true t ++ [10]) ts) in *.
  assert (query_parse (S fuel) s q1 (10 :: L) = query_parse (S fuel) s q1 L) as ->.
  { unfold query_parse. pose proof (split_line [] L (fun x => x)) as Y. cbn [app] in Y. rewrite Y. reflexivity. }
  rewrite PE by lia. rewrite add_stmts_text by exact W. rewrite (shows_texts ts _ F). destruct (with_preds q1 _); reflexivity.
Qed.
