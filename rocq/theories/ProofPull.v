(** Proofs about pull requests. *)
From Verif Require Import Bytes ModelAbe SpecAbe ProofAbe ModelFmt ModelEval SpecEval ModelFn ProofEval ModelSpace SpecSpace ProofSpace ProofRooted SpecPkt ModelPkt ProofPkt2 PropsPkt ModelTestSet SpecTestSet ProofTestSet ModelPred SpecPred ProofPred PropsPred.
From Verif Require Import ModelQText SpecQText ProofQText ProofQText2 ProofQText3 ProofQText4 ProofQText5 ProofQText6 ProofQText7 ModelLns ModelStore ProofWatch ModelPull SpecPull.

(** ** A value that is required stays the only one *)
Lemma add_set_keeps (Q : TestSet -> Prop) f P f' op v P' : (forall s op v, Q s -> Q (add (field_width f) s op v)) -> add_set P f' op v = Ok P' -> Q (p_sets P f) -> Q (p_sets P' f).
Proof. intros K E H. apply add_set_inv in E. subst. destruct (field_eqb f' f) eqn:F; [apply field_eqb_eq in F; subst; rewrite with_set_same; now apply K|]. rewrite with_set_other; [exact H|]. intros ->. now rewrite field_eqb_refl in F. Qed.
Lemma check_space_keeps (Q : TestSet -> Prop) f P P' : (forall s op v, Q s -> Q (add (field_width f) s op v)) -> check_space P = Ok P' -> Q (p_sets P f) -> Q (p_sets P' f).
Proof. intros K E H. apply check_space_inv in E as [->|[_ E]]; [exact H|]. eapply add_set_keeps; eassumption. Qed.
Lemma and_keeps (Q : TestSet -> Prop) f P r P' : (forall s op v, Q s -> Q (add (field_width f) s op v)) -> and_ P r = Ok P' -> Q (p_sets P f) -> Q (p_sets P' f).
Proof.
  intros K E H. pose proof (fun P f' op v P' => add_set_keeps Q f P f' op v P' K) as AS. pose proof (fun P P' => check_space_keeps Q f P P' K) as CS.
  destruct r as [k op v]. unfold and_ in E. cbn [p_kind p_val p_op] in *. destruct k as [f'| | |q].
  - apply bind_ok in E as (P1 & E1 & E). apply AS in E1; [|exact H].
    destruct f', v; try discriminate; try (eapply AS; [exact E|exact E1]).
    + apply bind_ok in E as (P2 & E2 & E). apply AS in E2; [|exact E1]. destruct op; try (injection E as <-; exact E2). apply bind_ok in E as (s & _ & E). now injection E as <-.
    + apply bind_ok in E as (P2 & E2 & E). apply AS in E2; [|exact E1]. now apply CS in E.
    + destruct op; try discriminate. apply bind_ok in E as (a & _ & E). apply bind_ok in E as (P2 & E2 & E). apply AS in E2; [|exact E1].
      apply bind_ok in E as (cur & _ & E). apply bind_ok in E as (new & _ & E). destruct (space_starts_with _ _); [|discriminate]. now apply CS in E.
  - destruct v; [|discriminate]. apply bind_ok in E as (b & _ & E). now injection E as <-.
  - destruct op; try discriminate. destruct v; [discriminate|]. unfold ModelPred.prefix in E. apply bind_ok in E as (cur & _ & E). destruct (space_starts_with cur sp); [now injection E as <-|].
    destruct (space_starts_with sp cur); [|discriminate]. apply bind_ok in E as (a & _ & E). now apply CS in E.
  - destruct v; [|discriminate]. destruct (is_valid _); [|discriminate]. now injection E as <-.
Qed.
Lemma add_all_keeps (Q : TestSet -> Prop) f rs : (forall s op v, Q s -> Q (add (field_width f) s op v)) -> forall P P', add_all P rs = Ok P' -> Q (p_sets P f) -> Q (p_sets P' f).
Proof.
  intros K. induction rs as [|r rs IH]; intros P P' E H; cbn [add_all] in E; [now injection E as <-|]. apply bind_ok in E as (P1 & E1 & E). apply (IH P1 P' E). now apply (and_keeps Q f P r).
Qed.
Definition pinned (v : N) (s : TestSet) : Prop := v <= low (bound s) /\ high (bound s) <= v.
Lemma pinned_add w v s op x : v <= umax w -> pinned v s -> pinned v (add w s op x).
Proof.
  intros U [H1 H2]. unfold pinned, add. cbn [bound]. destruct op; cbn [bound_add]; try destruct (inc w x); try destruct (decr w x); cbn [bound_empty low high]; split; lia.
Qed.
Lemma low_high w s : 1 < w -> w < 2 ^ 32 -> set_ok w s -> has_any w s = true -> low (bound s) <= high (bound s).
Proof.
  intros W0 W1 [[B1 B2] M] A. unfold has_any, min_value in A. destruct (mask_in_set w (mask s) (low (bound s))) as [v|] eqn:E; [|discriminate].
  assert (low (bound s) <= v).
  { destruct (mask_test (mask s) (low (bound s))) eqn:T; [rewrite mask_in_set_member in E by assumption; injection E as <-; lia|].
    destruct (mask_in_set_gt w (mask s) _ v W0 W1 M B1 T E). lia. }
  destruct (N.ltb_spec (high (bound s)) v); [discriminate|lia].
Qed.
Definition plain_field (f : Field) : Prop := f = GroupIDF \/ f = DomainF.
Lemma and_pins P f v P' : plain_field f -> and_ P (mkPred (RField f) Equal (PNum v)) = Ok P' -> pinned v (p_sets P' f).
Proof.
  intros F E. unfold and_ in E. cbn [p_kind p_val p_op] in E. apply bind_ok in E as (P1 & _ & E).
  destruct F as [-> | ->]; apply add_set_inv in E; subst; rewrite with_set_same; unfold pinned; cbn [add bound bound_add low high]; split; lia.
Qed.
Lemma required_pinned rs f v : plain_field f -> v <= umax (field_width f) -> forall P P', add_all P rs = Ok P' -> In (mkPred (RField f) Equal (PNum v)) rs -> pinned v (p_sets P' f).
Proof.
  intros F U. induction rs as [|r rs IH]; intros P P' E I; [contradiction|]. cbn [add_all] in E. apply bind_ok in E as (P1 & E1 & E). destruct I as [->|I]; [|now apply (IH P1)].
  apply (add_all_keeps (pinned v) f rs (fun s op x => pinned_add _ v s op x U) P1 P' E). now apply (and_pins P).
Qed.
Lemma field_num f : plain_field f -> num_kind f.
Proof. intros [-> | ->]; exact Logic.I. Qed.
Lemma required_as_eq rs P f v : Forall pred_ok rs -> add_all preds_default rs = Ok P -> plain_field f -> requires rs f v -> set_as_eq (p_sets P f) = Some (be_decode v).
Proof.
  intros OK E F R. destruct (added_inv h0 rs P h0_ok OK E) as [cs ((SO & _) & _)]. destruct (SO f (field_num f F)) as [S1 A].
  assert (B : be_decode v < 2 ^ field_width f).
  { rewrite Forall_forall in OK. specialize (OK _ R). unfold pred_ok in OK. cbn [p_kind p_val] in OK. destruct F as [-> | ->]; apply OK. }
  assert (U : be_decode v <= umax (field_width f)) by (unfold umax; rewrite N.ones_equiv; apply N.lt_le_pred; exact B).
  pose proof (required_pinned rs f _ F U preds_default P E R) as [L H].
  assert (W : 1 < field_width f /\ field_width f < 2 ^ 32) by (destruct F as [-> | ->]; split; reflexivity).
  pose proof (low_high (field_width f) _ (proj1 W) (proj2 W) S1 A) as LE.
  unfold set_as_eq, bound_as_eq. replace (high (bound (p_sets P f))) with (be_decode v) by lia. replace (low (bound (p_sets P f))) with (be_decode v) by lia. now rewrite N.eqb_refl.
Qed.
(** Only the value of the field can pass. *)
Lemma as_eq_only hash rs P f x b nh p recv : hash32 hash -> Forall pred_ok rs -> add_all preds_default rs = Ok P -> plain_field f -> set_as_eq (p_sets P f) = Some x ->
  packet_of hash b nh p -> recv < 2 ^ 64 -> passes P b recv -> forall y, num_field hash f nh p = Some y -> y = x.
Proof.
  intros HL OK E F A PK R PS y Y. destruct (added_inv hash rs P HL OK E) as [cs IV]. apply (passes_acc hash P cs rs b nh p recv HL IV PK R) in PS as [[M _] _].
  specialize (M f (field_num f F)).
  assert (V hash nh p f = y) as VE by (destruct F as [-> | ->]; destruct p; cbn in Y; try discriminate; injection Y as <-; reflexivity). rewrite VE in M. unfold member in M. apply andb_prop in M as [M _]. unfold bound_test in M. apply andb_prop in M as [M1 M2]. apply N.leb_le in M1, M2.
  unfold set_as_eq, bound_as_eq in A. destruct (N.eqb_spec (high (bound (p_sets P f))) (low (bound (p_sets P f)))) as [Q|]; [|discriminate]. injection A as <-. lia.
Qed.
(** ** Options *)
Lemma filter_rev {A} (f : A -> bool) l : filter f (rev l) = rev (filter f l).
Proof. induction l as [|x l IH]; [reflexivity|]. cbn [rev filter]. rewrite filter_app, IH. cbn [filter]. destruct (f x); cbn [rev]; now rewrite ?app_nil_r. Qed.
Lemma get_inner_named conf name : Forall option_ok conf -> get_inner conf [[]; name] = rev (named conf name).
Proof.
  intros F. unfold get_inner, named. rewrite filter_rev. f_equal. apply filter_ext_in. intros l I. rewrite Forall_forall in F. destruct (F l I) as [NE W].
  destruct l as [|[[x|] n] l]; [contradiction| |apply Forall_cons_iff in W as [[W _] _]; now cbn in W]. destruct l as [|y l]; [reflexivity|].
  cbn [iter_bytes zip_all map snd beqb andb]. rewrite (beqb_sym_ name), andb_true_r. match goal with |- negb ?z && _ = _ => assert (z = false) as -> by (apply N.ltb_ge; unfold lenN; cbn [List.length]; lia) end. reflexivity.
Qed.
Lemma option_asked P conf id : Forall option_ok conf -> asked_id conf id -> get_option (mkQ P conf) (str "qid") = Ok (Some (Some id)).
Proof. intros F [N _]. unfold get_option. cbn [q_conf]. rewrite get_inner_named, N by exact F. reflexivity. Qed.
Lemma named_rev conf name : named (rev conf) name = rev (named conf name).
Proof. apply filter_rev. Qed.
(** ** The text *)
Lemma display_read o s P cs ps conf : extends (core_scope o) s -> Inv h0 P cs ps -> Forall bytes_ok cs -> plain_set P -> Forall option_ok conf ->
  exists t n, query_display (mkQ P conf) = Ok t /\ forall fuel, (n <= fuel)%nat ->
    lk_query_parse fuel s q_default [t] = with_preds (mkQ preds_default (rev conf)) (lift (add_all preds_default (iter_preds P cs))).
Proof.
  intros X IV B PS OC. destruct (shows_iter P cs ps IV B) as (ts & E & F). unfold query_display. cbn [q_preds q_conf]. rewrite E. cbn [obind].
  pose proof (shows_wf ts _ F) as W. destruct (parse_expressed s ts (iter_expressed o s P cs ps X IV B PS ts E)) as (n & PE).
  eexists. exists (S n). split; [reflexivity|]. intros [|fuel] FU; [lia|]. cbn [lk_query_parse].
  change (conf_display conf) with (lines (rev conf)). assert (OC' : Forall option_ok (rev conf)) by now apply Forall_rev.
  rewrite parse_lines_wf by (eapply Forall_impl; [|exact OC']; apply option_wf). rewrite add_options by exact OC'. cbn [obind q_default q_preds q_conf app].
  rewrite PE by lia. rewrite add_stmts_text by exact W. rewrite (shows_texts ts _ F). destruct (with_preds _ _); reflexivity.
Qed.
(** ** The space *)
Lemma pull_size g d id : lenN g = 32 -> lenN d = 16 -> N.of_nat (List.length (wire_space [str "pull"; g; d; id])) = 56 + N.of_nat (List.length id).
Proof. unfold lenN. intros G D. unfold wire_space. cbn [flat_map]. repeat (rewrite app_length || cbn [List.length]). change (List.length (str "pull")) with 4%nat. lia. Qed.
Lemma pull_space_ok g d id : lenN g = 32 -> lenN d = 16 -> (rs_try_from_iter (pull_space g d id) = Ok (wire_rooted (pull_space g d id)) <-> 0 < lenN id <= 186).
Proof.
  intros G D. rewrite rs_try_from_iter_iff. unfold pull_space. split.
  - intros ([F L] & _). rewrite !Forall_cons_iff in F. destruct F as (_ & _ & _ & F & _). unfold component_ok in F. rewrite pull_size in L by assumption. unfold lenN. lia.
  - intros H. split; [|split; [cbn; lia|reflexivity]]. unfold lenN in *. split.
    + repeat (apply Forall_cons); try apply Forall_nil; unfold component_ok; cbn [str List.length]; try lia. vm_compute. split; discriminate.
    + rewrite pull_size by assumption. lia.
Qed.
