(** Queries that are changed by statements that fail. *)
From Verif Require Import Bytes ModelAbe SpecAbe ProofAbe ModelFmt ModelEval SpecEval ModelFn ProofEval ModelSpace SpecSpace ProofSpace ProofTree SpecPkt ModelPkt PropsPkt ModelTestSet SpecTestSet ProofTestSet ModelPred SpecPred ProofPred PropsPred.
From Verif Require Import ModelQText SpecQText ProofQText ProofQText2 ProofQText3 ProofQText4 ProofQText5 ProofQText6 ProofQText7 ProofEval2 ProofEval3 PropsEval PropsQText ModelMulti.

Definition erase {E} (a : St E) : outcome E PktPredicates :=
  match snd a with Ok _ => Ok (fst a) | Err e => Err e | Panic => Panic | OutOfFuel => OutOfFuel end.
Lemma erase_bind {E} (a : St E) k : erase (st_bind a k) = obind (erase a) (fun p => erase (k p)).
Proof. destruct a as [p [u|e| |]]; reflexivity. Qed.
Lemma erase_err {E A} p (o : outcome E A) k : erase (st_err p o k) = obind o (fun a => erase (k a)).
Proof. destruct o; reflexivity. Qed.
Lemma erase_set p f op v : erase (add_set_st p f op v) = add_set p f op v.
Proof. unfold add_set_st, add_set, try_add, erase. cbn [fst snd]. now destruct (has_any _ _). Qed.
Lemma obind_ext {E A B} (o : outcome E A) (f g : A -> outcome E B) : (forall a, f a = g a) -> obind o f = obind o g.
Proof. intros H. destruct o; cbn [obind]; auto. Qed.
Lemma erase_check p : erase (check_space_st p) = check_space p.
Proof.
  unfold check_space_st, check_space. rewrite erase_bind. replace (erase (if rs_depth (p_prefix p) =? 0 then (p, Ok tt) else add_set_st p DepthF Greater (rs_depth (p_prefix p) - 1)))
    with (if rs_depth (p_prefix p) =? 0 then Ok p else add_set p DepthF Greater (rs_depth (p_prefix p) - 1)) by (destruct (_ =? 0); [reflexivity|now rewrite erase_set]).
  apply obind_ext. intros p'. rewrite erase_err. apply obind_ext. intros i. unfold erase. cbn [fst snd]. now destruct (sval i).
Qed.
Lemma erase_prefix p sp : erase (prefix_st p sp) = ModelPred.prefix p sp.
Proof.
  unfold prefix_st, ModelPred.prefix. rewrite erase_err. apply obind_ext. intros cur. destruct (space_starts_with cur sp); [reflexivity|]. destruct (space_starts_with sp cur); [|reflexivity].
  rewrite erase_err. apply obind_ext. intros r. apply erase_check.
Qed.
(** When nothing fails the result is that of [and_]. *)
Lemma erase_and p r : erase (and_st p r) = and_ p r.
Proof.
  unfold and_st, and_. destruct r as [kind op val]. cbn [p_kind p_op p_val]. destruct kind as [f| | |q].
  - rewrite erase_bind, erase_set. apply obind_ext. clear p. intros p.
    destruct (field_eqb f DepthF) eqn:FD; [apply field_eqb_eq in FD; subst f; destruct val; [|reflexivity]; rewrite erase_bind, erase_set; apply obind_ext, erase_check|].
    destruct (field_eqb f PktHashF) eqn:FH; [apply field_eqb_eq in FH; subst f; destruct val; [|reflexivity]; rewrite erase_bind, erase_set; apply obind_ext; clear p; intros p; destruct op; try reflexivity;
      unfold erase, try_add; cbn [fst snd]; now destruct (has_any _ _)|].
    destruct (field_eqb f SpaceNameF) eqn:FS; [apply field_eqb_eq in FS; subst f|destruct f, val as [v|sp]; try discriminate; try reflexivity; apply erase_set].
    destruct val as [v|sp]; [reflexivity|]. destruct op; try reflexivity. rewrite erase_err. apply obind_ext. intros rs. rewrite erase_bind, erase_set. apply obind_ext. clear p. intros p.
    rewrite erase_err. apply obind_ext. intros cur. rewrite erase_err. apply obind_ext. intros new. destruct (space_starts_with _ _); [apply erase_check|reflexivity].
  - destruct val; [|reflexivity]. unfold erase, bound_try_add. cbn [fst snd]. now destruct (bound_has_any _).
  - destruct op, val; try reflexivity. apply erase_prefix.
  - destruct val; [|reflexivity]. unfold erase. cbn [fst snd]. now destruct (is_valid _).
Qed.

(** ** Lists of statements *)
Fixpoint add_all_st (p : PktPredicates) (rs : list Predicate) : St PredErr :=
  match rs with [] => (p, Ok tt) | r :: rs => st_bind (and_st p r) (fun p' => add_all_st p' rs) end.
Lemma erase_all rs : forall p, erase (add_all_st p rs) = add_all p rs.
Proof. induction rs as [|r rs IH]; intros p; [reflexivity|]. cbn [add_all_st add_all]. rewrite erase_bind, erase_and. apply obind_ext. exact IH. Qed.
Lemma add_all_st_app a b : forall p, add_all_st p (a ++ b) = st_bind (add_all_st p a) (fun p' => add_all_st p' b).
Proof. induction a as [|r a IH]; intros p; [reflexivity|]. cbn [app add_all_st]. destruct (and_st p r) as [p' [u|e| |]]; cbn [st_bind fst snd]; [apply IH|reflexivity..]. Qed.
Definition up (a : St PredErr) : St QErr :=
  (fst a, match snd a with Ok u => Ok u | Err e => Err (QPred e) | Panic => Panic | OutOfFuel => OutOfFuel end).
Definition reads_as (t : TextPredicate) (r : Predicate) : Prop :=
  fst (fst t) = p_kind r /\ snd (fst t) = p_op r /\ operand (p_kind r) (snd t) = Ok (p_val r).
Lemma texts_st ts rs : Forall2 reads_as ts rs -> forall p, and_texts_st p ts = up (add_all_st p rs).
Proof.
  induction 1 as [|[[k o] v] r ts rs (K & O & V) F IH]; intros p; [reflexivity|]. cbn [fst snd] in K, O, V. subst. cbn [and_texts_st add_all_st and_text_st]. rewrite V.
  replace (mkPred (p_kind r) (p_op r) (p_val r)) with r by (now destruct r). destruct (and_st p r) as [p' [u|e| |]]; cbn [st_bind fst snd up]; [apply IH|reflexivity..].
Qed.
Lemma stmt_texts k o b : stmt_ok (k, o, b) -> exists ts, try_iter (k, o, [(None, b)]) = Ok ts /\ Forall2 reads_as ts (expand (k, o, b)).
Proof.
  intros OK. pose proof (stmt_numeric _ _ _ OK) as K. destruct OK as (O & F & _). cbn [try_iter expand].
  assert (SZ : size_of k <> 0%nat) by (destruct k as [f| | |q]; try contradiction; try discriminate; destruct f; try contradiction; discriminate).
  assert (ONE : forall op c, bytes_ok c -> (List.length c = size_of k \/ k = RField DomainF /\ (List.length c <= 16)%nat) -> reads_as (k, op, [(None, c)]) (mkPred k op (PNum (be_decode c)))).
  { intros op c B L. split; [reflexivity|]. split; [reflexivity|]. now apply operand_num. }
  destruct o as [| | | |op]; cbn [operand_fits] in F.
  - assert (b <> []) as NE by (intros ->; cbn in F; lia).
    pose proof (dec_be_spec b O) as D. unfold sub_one. destruct b as [|y b]; [contradiction|]. destruct (dec_be (y :: b)) as [r c]. destruct D as (L & R & D & _). cbn [obind snd].
    destruct c; eexists; (split; [reflexivity|]); [constructor|]. constructor; [|constructor]. replace (be_decode (y :: b) - 1) with (be_decode r) by lia. apply ONE; [exact R|]. apply length_eq in L. rewrite L. tauto.
  - assert (b <> []) as NE by (intros ->; cbn in F; lia).
    pose proof (inc_be_spec b O) as D. unfold add_one. destruct b as [|y b]; [contradiction|]. destruct (inc_be (y :: b)) as [r c]. destruct D as (L & R & D & _). cbn [obind snd].
    destruct c; eexists; (split; [reflexivity|]); [constructor|]. constructor; [|constructor]. replace (be_decode (y :: b) + 1) with (be_decode r) by lia. apply ONE; [exact R|]. apply length_eq in L. rewrite L. tauto.
  - rewrite fixed_num by assumption. cbn [as_exact_bytes]. destruct (N.ltb_spec (N.of_nat (size_of k)) (lenN b)) as [X|X]; [unfold lenN in X; lia|].
    replace (N.to_nat (N.of_nat (size_of k) - lenN b)) with (size_of k - List.length b)%nat by (unfold lenN; lia). eexists. split; [reflexivity|].
    constructor; [|constructor; [|constructor]]; (apply ONE; [apply Forall_app; split; [assumption|now apply repeat_ok]|left; rewrite app_length, repeat_length; lia]).
  - rewrite fixed_num by assumption. cbn [as_exact_bytes]. destruct (N.ltb_spec (N.of_nat (size_of k)) (lenN b)) as [X|X]; [unfold lenN in X; lia|].
    replace (N.to_nat (N.of_nat (size_of k) - lenN b)) with (size_of k - List.length b)%nat by (unfold lenN; lia). eexists. split; [reflexivity|].
    constructor; [|constructor; [|constructor]]; (apply ONE; [apply Forall_app; split; [now apply repeat_ok|assumption]|left; rewrite app_length, repeat_length; lia]).
  - eexists. split; [reflexivity|]. constructor; [|constructor]. apply ONE; [exact O|tauto].
Qed.
Lemma stmt_st q k o b : stmt_ok (k, o, b) ->
  add_stmt_st q (stmt_abl (k, o, b)) = (mkQ (fst (up (add_all_st (q_preds q) (expand (k, o, b))))) (q_conf q), snd (up (add_all_st (q_preds q) (expand (k, o, b))))).
Proof.
  intros OK. pose proof (stmt_numeric _ _ _ OK) as K. destruct (stmt_texts k o b OK) as (ts & T & F). cbn [stmt_abl add_stmt_st ext_of_stmt].
  rewrite predicate_type_name, op_text_ext by now left. cbn [st_err]. rewrite T. cbn [st_err]. rewrite (texts_st _ _ F). now destruct (up _).
Qed.
Lemma parse_st fuel s l : Forall stmt_ok l -> forall q,
  query_parse_st (S fuel) s q (flat_map stmt_line l) =
  (mkQ (fst (up (add_all_st (q_preds q) (flat_map expand l)))) (q_conf q), snd (up (add_all_st (q_preds q) (flat_map expand l)))).
Proof.
  unfold query_parse_st. induction 1 as [|[[k o] b] l OK F IH]; intros q; [destruct q; reflexivity|]. cbn [flat_map].
  pose proof (stmt_numeric _ _ _ OK) as K. assert (W : abl_wf (stmt_abl (k, o, b))) by (apply stmt_wf; [exact K|apply OK]).
  rewrite stmt_display by exact K. rewrite <- app_assoc. cbn [app]. rewrite split_line by (apply display_newline, W).
  cbn [parse_lines_st]. pose proof (display_nonempty _ W) as NE. destruct (abl_display (stmt_abl (k, o, b))) as [|x d] eqn:E; [contradiction|]. rewrite <- E, eval_line_wf by assumption.
  rewrite stmt_st by exact OK. rewrite add_all_st_app. destruct (add_all_st (q_preds q) (expand (k, o, b))) as [p [u|e| |]]; cbn [up st_bind fst snd]; [|reflexivity..].
  rewrite IH. reflexivity.
Qed.

(** ** What a successful statement ensures, whatever failed before *)
Definition wok (P : PktPredicates) : Prop :=
  (forall f, num_kind f -> set_ok (field_width f) (p_sets P f)) /\ bound_ok 64 (p_recv P) /\ p_prefix P = [].
Definition keeps (P P' : PktPredicates) : Prop :=
  (forall f, num_kind f -> (has_any (field_width f) (p_sets P f) = true -> has_any (field_width f) (p_sets P' f) = true) /\
     forall u, u < 2 ^ field_width f -> member (p_sets P' f) u = true -> member (p_sets P f) u = true) /\
  (forall u, u < 2 ^ 64 -> bound_test (p_recv P') u = true -> bound_test (p_recv P) u = true).
Lemma keeps_refl P P' : p_sets P' = p_sets P -> p_recv P' = p_recv P -> keeps P P'.
Proof. intros E E'. split; [|now rewrite E']. intros f K. rewrite E. auto. Qed.
Lemma keeps_trans P Q R : keeps P Q -> keeps Q R -> keeps P R.
Proof.
  intros [A B] [C D]. split; [|auto]. intros f K. destruct (A f K), (C f K). split; auto.
Qed.
Lemma wok_default : wok preds_default.
Proof. split; [intros f K; apply default_ok|]. split; [split; [apply zero_small|apply umax_small]|reflexivity]. Qed.
Lemma wok_set P f op v : wok P -> v < 2 ^ field_width f -> num_kind f -> wok (with_set P f (add (field_width f) (p_sets P f) op v)).
Proof.
  intros (A & B & C) Hv K. split; [|split; [exact B|exact C]]. intros g Kg. destruct (field_eqb g f) eqn:E.
  - apply field_eqb_eq in E. subst g. rewrite with_set_same. apply add_ok; auto.
  - rewrite with_set_other by (intros ->; rewrite field_eqb_refl in E; discriminate). auto.
Qed.
Lemma add_set_good P f op v P' : wok P -> num_kind f -> v < 2 ^ field_width f -> add_set P f op v = Ok P' ->
  wok P' /\ keeps P P' /\ has_any (field_width f) (p_sets P' f) = true /\ (forall u, u < 2 ^ field_width f -> member (p_sets P' f) u = true -> holds op u v).
Proof.
  intros W K Hv E. assert (P' = with_set P f (add (field_width f) (p_sets P f) op v) /\ has_any (field_width f) (add (field_width f) (p_sets P f) op v) = true) as [-> HA].
  { unfold add_set, try_add in E. destruct (has_any _ _); cbn [incompat obind] in E; [now injection E as <-|discriminate]. }
  assert (M : forall u, u < 2 ^ field_width f -> member (add (field_width f) (p_sets P f) op v) u = member (p_sets P f) u && uint_func op u v).
  { intros u U. apply member_add; try assumption; [pose proof (width_gt f); lia|now apply W]. }
  split; [now apply wok_set|]. split; [|rewrite with_set_same; split; [exact HA|]].
  - split; [|auto]. intros g Kg. destruct (field_eqb g f) eqn:E'.
    + apply field_eqb_eq in E'. subst g. rewrite with_set_same. split; [auto|]. intros u U H. rewrite M in H by exact U. now apply andb_prop in H as [H _].
    + rewrite with_set_other by (intros ->; rewrite field_eqb_refl in E'; discriminate). auto.
  - intros u U H. rewrite M in H by exact U. apply andb_prop in H as [_ H]. now apply uint_func_holds.
Qed.
Lemma check_same P P' : p_prefix P = [] -> check_space P = Ok P' -> P' = P.
Proof.
  intros E. unfold check_space. rewrite E. change (rs_depth []) with 0. change (0 =? 0) with true. cbv beta iota zeta. cbn [obind]. destruct (incompat (info 8 (p_sets P DepthF) 0)) as [i|e| |]; cbn [obind]; try discriminate.
  destruct (sval i); [|discriminate]. intros H. injection H as <-. reflexivity.
Qed.
Lemma check_same_st P : p_prefix P = [] -> fst (check_space_st P) = P.
Proof. intros E. unfold check_space_st. rewrite E. change (rs_depth []) with 0. change (0 =? 0) with true. cbv beta iota zeta. cbn [st_bind fst snd]. now destruct (incompat (info 8 (p_sets P DepthF) 0)) as [i|e| |]. Qed.
Definition numeric_pred (r : Predicate) : Prop := numeric (p_kind r) /\ pred_ok r.
Lemma bound_add_small b op v : bound_ok 64 b -> v < 2 ^ 64 -> bound_ok 64 (bound_add 64 b op v).
Proof.
  intros B Hv. assert (SO : set_ok 64 (mkSet b (mask (set_default 64)))) by (split; [exact B|apply default_ok]). exact (proj1 (add_ok 64 _ op v SO Hv)).
Qed.
Lemma and_st_wok P r : wok P -> numeric_pred r -> wok (fst (and_st P r)).
Proof.
  intros W [K OK]. destruct r as [k op val]. unfold and_st, pred_ok in *. cbn [p_kind p_op p_val] in *. destruct k as [f| | |q]; cbn [numeric] in K; [|destruct val as [v|sp]; [|exact W]|contradiction|].
  - assert (W1 : wok (fst (add_set_st P PktTypeF Mask1 (field_pkts f)))) by (apply wok_set; [exact W|apply pkts_small|exact Logic.I]).
    destruct (add_set_st P PktTypeF Mask1 (field_pkts f)) as [P1 [u|e| |]]; cbn [fst snd st_bind] in *; try exact W1.
    destruct val as [v|sp]; [|destruct f; try contradiction; exact W1].
    assert (V : v < 2 ^ field_width f) by (destruct f; try contradiction; apply OK).
    assert (W2 : wok (fst (add_set_st P1 f op v))) by (apply wok_set; assumption).
    destruct f; try contradiction; try exact W2.
    + destruct (add_set_st P1 PktHashF op v) as [P2 [u2|e| |]]; cbn [fst snd st_bind] in *; try exact W2. destruct op; exact W2.
    + destruct (add_set_st P1 DepthF op v) as [P2 [u2|e| |]]; cbn [fst snd st_bind] in *; try exact W2. rewrite check_same_st by apply W2. exact W2.
  - destruct W as (A & B & C). split; [exact A|]. split; [|exact C]. cbn [fst with_recv p_recv]. apply bound_add_small; [exact B|apply OK].
  - destruct val; exact W.
Qed.
Lemma all_st_wok rs : Forall numeric_pred rs -> forall P, wok P -> wok (fst (add_all_st P rs)).
Proof.
  induction 1 as [|r rs H F IH]; intros P W; [exact W|]. cbn [add_all_st]. pose proof (and_st_wok P r W H) as W1. destruct (and_st P r) as [P1 [u|e| |]]; cbn [st_bind fst snd] in *; auto.
Qed.
Definition good (P : PktPredicates) (r : Predicate) : Prop :=
  match p_kind r, p_val r with
  | RField f, PNum v => has_any (field_width PktTypeF) (p_sets P PktTypeF) = true /\ has_any (field_width f) (p_sets P f) = true /\
      (forall u, u < 2 ^ field_width PktTypeF -> member (p_sets P PktTypeF) u = true -> holds Mask1 u (field_pkts f)) /\
      (forall u, u < 2 ^ field_width f -> member (p_sets P f) u = true -> holds (p_op r) u v)
  | RRecv, PNum v => forall u, u < 2 ^ 64 -> bound_test (p_recv P) u = true -> holds (p_op r) u v
  | _, _ => True
  end.
Lemma good_keeps P P' r : keeps P P' -> numeric (p_kind r) -> good P r -> good P' r.
Proof.
  intros [A B] K. unfold good. destruct (p_kind r) as [f| | |q], (p_val r) as [v|sp]; auto.
  intros (H1 & H2 & H3 & H4). destruct (A PktTypeF Logic.I) as [T1 T2], (A f K) as [F1 F2]. auto 8.
Qed.
Lemma and_good P r P' : wok P -> numeric_pred r -> and_ P r = Ok P' -> wok P' /\ keeps P P' /\ good P' r.
Proof.
  intros W [K OK] E. pose proof (and_st_wok P r W (conj K OK)) as WS. pose proof (erase_and P r) as EA. rewrite E in EA.
  assert (fst (and_st P r) = P') as EF. { unfold erase in EA. destruct (snd (and_st P r)); try discriminate. now injection EA. } rewrite EF in WS. split; [exact WS|]. clear EA EF WS.
  destruct r as [k op val]. unfold and_, pred_ok, good in *. cbn [p_kind p_op p_val] in *. destruct k as [f| | |q]; cbn [numeric] in K; [| |contradiction|].
  - destruct (add_set P PktTypeF Mask1 (field_pkts f)) as [P1|e| |] eqn:E1; cbn [obind] in E; try discriminate.
    destruct (add_set_good P PktTypeF Mask1 (field_pkts f) P1 W Logic.I (pkts_small f) E1) as (W1 & K1 & A1 & M1).
    destruct val as [v|sp]; [|destruct f; try contradiction; discriminate].
    assert (V : v < 2 ^ field_width f) by (destruct f; try contradiction; apply OK).
    assert (FIN : forall P2, add_set P1 f op v = Ok P2 -> p_sets P' = p_sets P2 -> p_recv P' = p_recv P2 -> keeps P P' /\
      has_any (field_width PktTypeF) (p_sets P' PktTypeF) = true /\ has_any (field_width f) (p_sets P' f) = true /\
      (forall u, u < 2 ^ field_width PktTypeF -> member (p_sets P' PktTypeF) u = true -> holds Mask1 u (field_pkts f)) /\
      (forall u, u < 2 ^ field_width f -> member (p_sets P' f) u = true -> holds op u v)).
    { intros P2 E2 ES ER. destruct (add_set_good P1 f op v P2 W1 K V E2) as (W2 & K2 & A2 & M2). rewrite !ES.
      split; [apply (keeps_trans P P2 P'); [now apply (keeps_trans P P1 P2)|now apply keeps_refl]|]. destruct K2 as [KA KB]. destruct (KA PktTypeF Logic.I) as [T1 T2]. auto 8. }
    destruct f; try contradiction; try (now apply (FIN P')).
    + destruct (add_set P1 PktHashF op v) as [P2|e| |] eqn:E2; cbn [obind] in E; try discriminate. apply (FIN P2 eq_refl); destruct op; try (injection E as <-; reflexivity);
        destruct (try_add _ _ _ _) as [s|e| |]; cbn [incompat obind] in E; try discriminate; injection E as <-; reflexivity.
    + destruct (add_set P1 DepthF op v) as [P2|e| |] eqn:E2; cbn [obind] in E; try discriminate.
      destruct (add_set_good P1 DepthF op v P2 W1 Logic.I V E2) as (W2 & _). apply check_same in E; [|apply W2]. subst P'. now apply (FIN P2).
  - destruct val as [v|sp]; [|discriminate]. destruct W as (A & B & C). destruct OK as [OV OP].
    pose proof (try_recv_spec (p_recv P) op v B OV OP) as T. destruct (bound_try_add 64 (p_recv P) op v) as [b|e| |]; cbn [incompat obind] in E; try discriminate. injection E as <-.
    destruct T as (_ & T). split; [split; [auto|]; intros u U H; cbn [with_recv p_recv] in H; rewrite T in H by exact U; now apply andb_prop in H as [H _]|].
    intros u U H. cbn [with_recv p_recv] in H. rewrite T in H by exact U. apply andb_prop in H as [_ H]. now apply uint_func_holds.
  - destruct val as [v|sp]; [|discriminate]. destruct (is_valid _); [|discriminate]. injection E as <-. split; [now apply keeps_refl|exact Logic.I].
Qed.
Lemma all_good rs : Forall numeric_pred rs -> forall P P', wok P -> add_all P rs = Ok P' -> wok P' /\ keeps P P' /\ Forall (good P') rs.
Proof.
  induction 1 as [|r rs H F IH]; intros P P' W E; cbn [add_all] in E.
  - injection E as <-. split; [exact W|]. split; [now apply keeps_refl|constructor].
  - destruct (and_ P r) as [P1|e| |] eqn:A; cbn [obind] in E; try discriminate. destruct (and_good P r P1 W H A) as (W1 & K1 & G1). destruct (IH P1 P' W1 E) as (W2 & K2 & G2).
    split; [exact W2|]. split; [now apply (keeps_trans P P1 P')|]. constructor; [|exact G2]. apply (good_keeps P1); [exact K2|apply H|exact G1].
Qed.
Lemma expands_numeric l : Forall stmt_ok l -> Forall numeric_pred (flat_map expand l).
Proof.
  intros F. apply Forall_flat_map. eapply Forall_impl; [|exact F]. intros [[k o] b] OK. pose proof (expand_ok _ OK) as PO. rewrite Forall_forall in *. intros r I. split; [|now apply PO].
  destruct (expand_num _ _ I) as [-> _]. exact (stmt_numeric _ _ _ OK).
Qed.
Section Pass.
Variable hash : bytes -> bytes.
Hypothesis HL : hash32 hash.
Lemma good_satisfied P r b nh p recv : wok P -> numeric_pred r -> good P r -> packet_of hash b nh p -> recv < 2 ^ 64 -> passes P b recv -> satisfies hash recv nh p r.
Proof.
  intros W [K OK] G PK R (np & E & T & B). rewrite (view_packet hash b nh p HL PK) in E. injection E as <-.
  assert (VA : valid hash recv nh p) by (split; [exact R|now exists b]).
  assert (FT : forall f, num_kind f -> has_any (field_width f) (p_sets P f) = true -> member (p_sets P f) (V hash nh p f) = true).
  { intros f Kf A. unfold run_tests, compile_predicates in T. rewrite forallb_app_, andb_true_iff in T. destruct T as [T _]. rewrite forallb_flat_map, forallb_forall in T.
    specialize (T f (proj2 (compiled_num f) Kf)). unfold into_tests in T.
    rewrite <- (compile_exact (field_width f) (p_sets P f) (V hash nh p f) (width_gt f) (width_lt f) (proj1 W f Kf) A (valid_V hash HL recv nh p f VA)).
    destruct (compile_stest (field_width f) (p_sets P f)) as [ts|]; cbn [forallb run_test compiled_test] in *; [|reflexivity]. now rewrite andb_true_r in T. }
  destruct r as [k op val]. unfold good, satisfies, pred_ok in *. cbn [p_kind p_op p_val] in *. destruct k as [f| | |q]; cbn [numeric] in K; [| |contradiction|].
  - destruct val as [v|sp]; [|destruct f; contradiction]. destruct G as (G1 & G2 & G3 & G4).
    assert (exists x, num_field hash f nh p = Some x /\ holds op x v) as X.
    { apply (num_sat hash HL recv nh p f op v VA K). split; [apply G3|apply G4]; try (apply FT; [try exact Logic.I; exact K|assumption]); apply (valid_V hash HL recv nh p _ VA). }
    destruct f; try contradiction; exact X.
  - destruct val; [|contradiction]. now apply G.
  - destruct val; [exact Logic.I|contradiction].
Qed.
End Pass.
