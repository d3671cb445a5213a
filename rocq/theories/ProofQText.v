From Verif Require Import Bytes SpecSpace SpecPkt ModelTestSet SpecTestSet ProofTestSet ModelPred SpecPred ProofPred.
From Verif Require Import ModelQText SpecQText PropsFmt.

(** ** Adding and subtracting one *)
Lemma ok_cons_iff x (b : bytes) : bytes_ok (x :: b) <-> x < 256 /\ bytes_ok b.
Proof. unfold bytes_ok. now rewrite Forall_cons_iff. Qed.
Lemma pow256_cons x (b : bytes) : 256 ^ lenN (x :: b) = 256 * 256 ^ lenN b.
Proof. rewrite lenN_cons, N.pow_add_r. reflexivity. Qed.
Lemma inc_be_spec b : bytes_ok b -> let '(r, c) := inc_be b in
  lenN r = lenN b /\ bytes_ok r /\ be_decode r + (if c then 256 ^ lenN b else 0) = be_decode b + 1 /\ (c = true <-> Forall (eq 255) b).
Proof.
  induction b as [|x b IH]; intros O; [cbn; repeat split; auto; constructor|]. apply ok_cons_iff in O as [X O]. specialize (IH O). cbn [inc_be].
  destruct (inc_be b) as [r c]. destruct IH as (L & R & D & C). pose proof (be_decode_bound r R) as B. pose proof (be_decode_bound b O) as B'. rewrite L in B.
  destruct c; rewrite ?lenN_cons, ?L; rewrite ?be_decode_cons, ?L.
  - destruct (N.eqb_spec x 255) as [->|NX].
    + change ((255 + 1) mod 256) with 0. split; [reflexivity|]. split; [apply ok_cons_iff; split; [reflexivity|assumption]|].
      split; [rewrite N.pow_add_r; change (256 ^ 1) with 256; lia|]. split; [constructor; tauto|reflexivity].
    + rewrite N.mod_small by lia. split; [reflexivity|]. split; [apply ok_cons_iff; split; [lia|assumption]|]. split; [lia|].
      split; [discriminate|]. intros F. inversion F. congruence.
  - split; [reflexivity|]. split; [apply ok_cons_iff; split; assumption|]. split; [lia|]. split; [discriminate|]. intros F. inversion F. apply C in H2. discriminate.
Qed.
Lemma dec_be_spec b : bytes_ok b -> let '(r, c) := dec_be b in
  lenN r = lenN b /\ bytes_ok r /\ be_decode r + 1 = be_decode b + (if c then 256 ^ lenN b else 0) /\ (c = true <-> Forall (eq 0) b).
Proof.
  induction b as [|x b IH]; intros O; [cbn; repeat split; auto; constructor|]. apply ok_cons_iff in O as [X O]. specialize (IH O). cbn [dec_be].
  destruct (dec_be b) as [r c]. destruct IH as (L & R & D & C). pose proof (be_decode_bound r R) as B. pose proof (be_decode_bound b O) as B'. rewrite L in B.
  destruct c; rewrite ?lenN_cons, ?L; rewrite ?be_decode_cons, ?L.
  - destruct (N.eqb_spec x 0) as [->|NX].
    + change ((0 + 255) mod 256) with 255. split; [reflexivity|]. split; [apply ok_cons_iff; split; [reflexivity|assumption]|].
      split; [rewrite N.pow_add_r; change (256 ^ 1) with 256; lia|]. split; [constructor; tauto|reflexivity].
    + replace ((x + 255) mod 256) with (x - 1) by (apply N.mod_unique with 1; lia). split; [reflexivity|]. split; [apply ok_cons_iff; split; [lia|assumption]|].
      split; [nia|]. split; [discriminate|]. intros F. inversion F. congruence.
  - split; [reflexivity|]. split; [apply ok_cons_iff; split; assumption|]. split; [lia|]. split; [discriminate|]. intros F. inversion F. apply C in H2. discriminate.
Qed.
Lemma ones_decode b : Forall (eq 255) b -> be_decode b + 1 = 256 ^ lenN b.
Proof. induction 1 as [|x b <- F IH]; [reflexivity|]. rewrite be_decode_cons, pow256_cons. lia. Qed.
Lemma zeros_decode b : Forall (eq 0) b -> be_decode b = 0.
Proof. induction 1 as [|x b <- F IH]; [reflexivity|]. rewrite be_decode_cons. lia. Qed.

(** ** Partial comparisons *)
Lemma repeat_ok x n : x < 256 -> bytes_ok (repeat x n).
Proof. intros X. induction n; cbn; [constructor|apply ok_cons_iff; auto]. Qed.
Lemma lenN_repeat (x : N) n : lenN (repeat x n) = N.of_nat n.
Proof. unfold lenN. now rewrite repeat_length. Qed.
Lemma decode_255 n : be_decode (repeat 255 n) = N.ones (8 * N.of_nat n).
Proof.
  rewrite N.ones_equiv. assert (Forall (eq 255) (repeat 255 n)) as F by (apply Forall_forall; intros x X; symmetry; now apply repeat_spec in X).
  apply ones_decode in F. rewrite lenN_repeat in F. rewrite N.pow_mul_r. change (2 ^ 8) with 256. lia.
Qed.
Lemma decode_0 n : be_decode (repeat 0 n) = 0.
Proof. apply zeros_decode. apply Forall_forall; intros x X; symmetry; now apply repeat_spec in X. Qed.
Lemma pow8 n : 256 ^ N.of_nat n = 2 ^ (8 * N.of_nat n). Proof. now rewrite N.pow_mul_r. Qed.
Lemma shift_bits h m l i : l < 2 ^ m -> N.testbit (h * 2 ^ m + l) i = if i <? m then N.testbit l i else N.testbit h (i - m).
Proof.
  intros L. assert (h * 2 ^ m + l = N.lor (N.shiftl h m) l) as ->.
  { assert (N.land (N.shiftl h m) l = 0) as Z.
    { apply N.bits_inj; intros j; rewrite N.land_spec, N.bits_0; destruct (N.lt_ge_cases j m);
        [rewrite N.shiftl_spec_low by assumption; reflexivity|rewrite (testbit_high m l j L) by assumption; apply andb_false_r]. }
    rewrite <- N.shiftl_mul_pow2, (N.add_nocarry_lxor _ _ Z). now apply N.lxor_lor. }
  rewrite N.lor_spec. destruct (N.ltb_spec i m) as [I|I]; [now rewrite N.shiftl_spec_low|].
  rewrite N.shiftl_spec_high' by assumption. rewrite (testbit_high m l i L I). apply orb_false_r.
Qed.
Lemma encode_app k1 k2 x : x < 256 ^ N.of_nat (k1 + k2) ->
  be_encode (k1 + k2) x = be_encode k1 (x / 256 ^ N.of_nat k2) ++ be_encode k2 (x mod 256 ^ N.of_nat k2).
Proof.
  intros X. assert (256 ^ N.of_nat k2 <> 0) as NZ by (apply N.pow_nonzero; lia).
  assert (x / 256 ^ N.of_nat k2 < 256 ^ N.of_nat k1) as H1 by (apply N.div_lt_upper_bound; [assumption|rewrite <- N.pow_add_r; rewrite Nat2N.inj_add, N.add_comm in X; exact X]).
  pose proof (N.mod_lt x _ NZ) as H2.
  apply be_decode_inj.
  - now rewrite app_length, !be_encode_length.
  - apply be_encode_ok.
  - apply Forall_app. split; apply be_encode_ok.
  - rewrite be_decode_app2, lenN_be_encode, !be_decode_encode by assumption. rewrite N.mul_comm. now apply N.div_mod.
Qed.
Lemma head_iff k x b : (List.length b <= k)%nat -> bytes_ok b -> x < 256 ^ N.of_nat k ->
  ((exists t, be_encode k x = b ++ t) <-> x / 256 ^ N.of_nat (k - List.length b) = be_decode b).
Proof.
  intros L O X. set (m := (k - List.length b)%nat). replace k with (List.length b + m)%nat in * by lia. rewrite encode_app by assumption.
  assert (x / 256 ^ N.of_nat m < 256 ^ lenN b) as H1 by (apply N.div_lt_upper_bound; [apply N.pow_nonzero; lia|rewrite <- N.pow_add_r; rewrite Nat2N.inj_add, N.add_comm in X; exact X]).
  split.
  - intros [t E]. apply (f_equal (firstn (List.length b))) in E. rewrite !firstn_app, be_encode_length, Nat.sub_diag, !firstn_O, !app_nil_r, firstn_all in E.
    rewrite firstn_all2 in E by (rewrite be_encode_length; lia). rewrite <- E. symmetry. apply be_decode_encode. exact H1.
  - intros E. rewrite E. rewrite be_encode_decode by assumption. eexists. reflexivity.
Qed.
Lemma tail_iff k x b : (List.length b <= k)%nat -> bytes_ok b -> x < 256 ^ N.of_nat k ->
  ((exists t, be_encode k x = t ++ b) <-> x mod 256 ^ lenN b = be_decode b).
Proof.
  intros L O X. set (m := (k - List.length b)%nat). replace k with (m + List.length b)%nat in * by lia. rewrite encode_app by assumption.
  assert (x mod 256 ^ lenN b < 256 ^ lenN b) as H1 by (apply N.mod_lt, N.pow_nonzero; lia).
  split.
  - intros [t E]. assert (List.length t = m) as LT by (apply (f_equal (@List.length N)) in E; rewrite !app_length, !be_encode_length in E; lia).
    apply (f_equal (skipn m)) in E. rewrite !skipn_app, be_encode_length, LT, Nat.sub_diag, !skipn_O in E.
    rewrite !skipn_all2 in E by (rewrite ?be_encode_length; lia). cbn [app] in E. apply (f_equal be_decode) in E. rewrite be_decode_encode in E by exact H1. exact E.
  - intros E. change (N.of_nat (List.length b)) with (lenN b). rewrite E. rewrite be_encode_decode by assumption. eexists. reflexivity.
Qed.
Lemma head_masks x B m : (holds Mask0 x (B * 2 ^ m + N.ones m) /\ holds Mask1 x (B * 2 ^ m)) <-> x / 2 ^ m = B.
Proof.
  replace (holds Mask1 x (B * 2 ^ m)) with (holds Mask1 x (B * 2 ^ m + 0)) by now rewrite N.add_0_r. cbn [holds]. pose proof (ones_small m) as OS. assert (0 < 2 ^ m) as Z by (apply N.neq_0_lt_0, N.pow_nonzero; lia).
  split.
  - intros [A C]. apply N.bits_inj. intros i. rewrite N.div_pow2_bits. specialize (A (i + m)). specialize (C (i + m)). rewrite !bit_testbit in A, C.
    rewrite !shift_bits in A, C by assumption. destruct (N.ltb_spec (i + m) m); [lia|]. replace (i + m - m) with i in * by lia.
    destruct (N.testbit x (i + m)), (N.testbit B i); try reflexivity; [now symmetry; apply A|now apply C].
  - intros <-. split; intros i; rewrite !bit_testbit, shift_bits by assumption; destruct (N.ltb_spec i m).
    + intros _. rewrite ones_bits. now apply N.ltb_lt.
    + rewrite N.div_pow2_bits. now replace (i - m + m) with i by lia.
    + rewrite N.bits_0. discriminate.
    + rewrite N.div_pow2_bits. now replace (i - m + m) with i by lia.
Qed.
Lemma tail_masks x B m k : B < 2 ^ m -> x < 2 ^ (k + m) -> (holds Mask0 x (N.ones k * 2 ^ m + B) /\ holds Mask1 x B) <-> x mod 2 ^ m = B.
Proof.
  intros LB LX. cbn [holds]. split.
  - intros [A C]. apply N.bits_inj. intros i. destruct (N.lt_ge_cases i m) as [I|I].
    + rewrite N.mod_pow2_bits_low by assumption. specialize (A i). specialize (C i). rewrite !bit_testbit in A, C. rewrite shift_bits in A by assumption.
      destruct (N.ltb_spec i m); [|lia]. destruct (N.testbit x i), (N.testbit B i); try reflexivity; [now symmetry; apply A|now apply C].
    + rewrite N.mod_pow2_bits_high by assumption. now rewrite (testbit_high m B i LB I).
  - intros <-. pose proof (N.mod_lt x (2 ^ m) ltac:(apply N.pow_nonzero; lia)) as ML. split; intros i; rewrite !bit_testbit.
    + rewrite shift_bits by assumption. destruct (N.ltb_spec i m) as [I|I]; [now rewrite N.mod_pow2_bits_low|]. intros T. rewrite ones_bits.
      apply N.ltb_lt. destruct (N.lt_ge_cases i (k + m)) as [J|J]; [lia|]. rewrite (testbit_high _ x i LX J) in T. discriminate.
    + destruct (N.lt_ge_cases i m) as [I|I]; [now rewrite N.mod_pow2_bits_low|]. rewrite N.mod_pow2_bits_high by assumption. discriminate.
Qed.

(** ** The predicates of a statement *)
Definition numeric (k : RuleType) : Prop := match k with RField f => num_kind f | RPrefix => False | _ => True end.
Definition expand (s : stmt) : list Predicate :=
  let '(k, o, b) := s in
  let m := (size_of k - List.length b)%nat in
  match o with
  | GreaterEq => if snd (dec_be b) then [] else [mkPred k Greater (PNum (be_decode b - 1))]
  | LessEq => if snd (inc_be b) then [] else [mkPred k Less (PNum (be_decode b + 1))]
  | HeadMask => [mkPred k Mask0 (PNum (be_decode (b ++ repeat 255 m))); mkPred k Mask1 (PNum (be_decode (b ++ repeat 0 m)))]
  | TailMask => [mkPred k Mask0 (PNum (be_decode (repeat 255 m ++ b))); mkPred k Mask1 (PNum (be_decode (repeat 0 m ++ b)))]
  | Op op => [mkPred k op (PNum (be_decode b))]
  end.
Definition lift (o : outcome PredErr PktPredicates) : outcome QErr PktPredicates :=
  match o with Ok p' => Ok p' | Err e => Err (QPred e) | Panic => Panic | OutOfFuel => OutOfFuel end.
Definition width_of (k : RuleType) : N := match k with RField f => field_width f | RRecv => 64 | RPrefix => 0 | RLimit _ => 32 end.
Lemma width_bytes k : numeric k -> width_of k = 8 * N.of_nat (size_of k).
Proof. destruct k as [f| | |q]; cbn [numeric]; try contradiction; try reflexivity. destruct f; try contradiction; reflexivity. Qed.
Lemma fit_exact b : fit (lenN b) b = Ok b.
Proof. unfold fit, fit_front. rewrite N.eqb_refl. cbn [negb]. rewrite N.ltb_irrefl, N.sub_diag. cbn. now rewrite app_nil_r. Qed.
Lemma try_ab_decode b : lenN b <= 16 -> exists x, try_ab 16 b = Ok x /\ be_decode x = be_decode b.
Proof.
  intros L. unfold try_ab, fit_back. destruct (N.ltb_spec 16 (lenN b)); [lia|]. eexists. split; [reflexivity|]. rewrite be_decode_app2, decode_0. lia.
Qed.
Lemma operand_num k b : numeric k -> bytes_ok b -> (List.length b = size_of k \/ k = RField DomainF /\ (List.length b <= 16)%nat) ->
  operand k [(None, b)] = Ok (PNum (be_decode b)).
Proof.
  intros K O [L|[-> L]].
  - assert (forall n, N.of_nat (size_of k) = n -> exact_num n [(None, b)] = Some (be_decode b)) as EX.
    { intros n <-. unfold exact_num. cbn [as_exact_bytes]. rewrite <- L. change (N.of_nat (List.length b)) with (lenN b). now rewrite fit_exact. }
    assert (size_of k = 32%nat -> b64_fit_or_parse 32 b = Some b) as B64.
    { intros E. change 32 with (N.of_nat 32). rewrite <- E, <- L. apply C44_b64_either; [assumption|]. intros ->. rewrite E in L. discriminate. }
    destruct k as [f| | |q]; cbn [numeric] in K; try contradiction; unfold operand; [|now rewrite EX..].
    destruct f; try contradiction; try (rewrite EX by reflexivity; reflexivity); cbn [as_exact_bytes]; try (rewrite B64 by reflexivity; reflexivity).
    destruct (try_ab_decode b) as (x & -> & ->); [|reflexivity]. unfold lenN. rewrite L. now vm_compute.
  - unfold operand. cbn [as_exact_bytes]. destruct (try_ab_decode b) as (x & -> & ->); [|reflexivity]. unfold lenN. lia.
Qed.
Lemma and_num_text P k op b : numeric k -> bytes_ok b -> (List.length b = size_of k \/ k = RField DomainF /\ (List.length b <= 16)%nat) ->
  and_text P (k, op, [(None, b)]) = lift (and_ P (mkPred k op (PNum (be_decode b)))).
Proof. intros K O L. unfold and_text. now rewrite operand_num by assumption. Qed.
Lemma stmt_numeric k o b : stmt_ok (k, o, b) -> numeric k.
Proof. intros (_ & _ & H). destruct k; cbn; tauto. Qed.
Lemma fixed_num k : numeric k -> fixed_size k = Some (N.of_nat (size_of k)).
Proof. destruct k as [f| | |q]; cbn [numeric]; try contradiction; try reflexivity. destruct f; try contradiction; reflexivity. Qed.
Lemma length_eq (a b : bytes) : lenN a = lenN b -> List.length a = List.length b. Proof. unfold lenN. lia. Qed.
Lemma add_ext P k o b : stmt_ok (k, o, b) -> add_ext_predicate P (k, o, [(None, b)]) = lift (add_all P (expand (k, o, b))).
Proof.
  intros OK. pose proof (stmt_numeric _ _ _ OK) as K. destruct OK as (O & F & _). unfold add_ext_predicate. cbn [try_iter expand].
  assert (SZ : size_of k <> 0%nat) by (destruct k as [f| | |q]; try contradiction; try discriminate; destruct f; try contradiction; discriminate).
  assert (single : forall op c, lift (obind (and_ P (mkPred k op c)) (fun p' => Ok p')) = lift (and_ P (mkPred k op c))) by (intros op c; now destruct (and_ P _)).
  destruct o as [| | | |op]; cbn [operand_fits] in F.
  - assert (b <> []) as NE by (intros ->; cbn in F; lia).
    pose proof (dec_be_spec b O) as D. unfold sub_one. destruct b as [|y b]; [contradiction|]. destruct (dec_be (y :: b)) as [r c]. destruct D as (L & R & D & _). cbn [obind snd].
    destruct c; cbn [and_texts add_all lift obind]; [reflexivity|]. rewrite and_num_text; try assumption.
    + rewrite single. replace (be_decode (y :: b) - 1) with (be_decode r) by lia. now destruct (lift _).
    + apply length_eq in L. rewrite L. tauto.
  - assert (b <> []) as NE by (intros ->; cbn in F; lia).
    pose proof (inc_be_spec b O) as D. unfold add_one. destruct b as [|y b]; [contradiction|]. destruct (inc_be (y :: b)) as [r c]. destruct D as (L & R & D & _). cbn [obind snd].
    destruct c; cbn [and_texts add_all lift obind]; [reflexivity|]. rewrite and_num_text; try assumption.
    + rewrite single. replace (be_decode (y :: b) + 1) with (be_decode r) by lia. now destruct (lift _).
    + apply length_eq in L. rewrite L. tauto.
  - rewrite fixed_num by assumption. cbn [as_exact_bytes]. destruct (N.ltb_spec (N.of_nat (size_of k)) (lenN b)) as [X|X]; [unfold lenN in X; lia|].
    replace (N.to_nat (N.of_nat (size_of k) - lenN b)) with (size_of k - List.length b)%nat by (unfold lenN; lia). cbn [obind and_texts].
    rewrite !and_num_text; try assumption; try (apply Forall_app; split; [assumption|now apply repeat_ok]); try (left; rewrite app_length, repeat_length; lia).
    cbn [add_all]. destruct (and_ P _) as [P1|e| |]; cbn [lift obind]; [|reflexivity..].
    rewrite !and_num_text; try assumption; try (apply Forall_app; split; [assumption|now apply repeat_ok]); try (left; rewrite app_length, repeat_length; lia).
    now destruct (and_ P1 _).
  - rewrite fixed_num by assumption. cbn [as_exact_bytes]. destruct (N.ltb_spec (N.of_nat (size_of k)) (lenN b)) as [X|X]; [unfold lenN in X; lia|].
    replace (N.to_nat (N.of_nat (size_of k) - lenN b)) with (size_of k - List.length b)%nat by (unfold lenN; lia). cbn [obind and_texts].
    rewrite !and_num_text; try assumption; try (apply Forall_app; split; [now apply repeat_ok|assumption]); try (left; rewrite app_length, repeat_length; lia).
    cbn [add_all]. destruct (and_ P _) as [P1|e| |]; cbn [lift obind]; [|reflexivity..].
    rewrite !and_num_text; try assumption; try (apply Forall_app; split; [now apply repeat_ok|assumption]); try (left; rewrite app_length, repeat_length; lia).
    now destruct (and_ P1 _).
  - cbn [obind and_texts]. rewrite and_num_text by (assumption || tauto). cbn [add_all]. now destruct (and_ P _).
Qed.
Lemma add_all_app P a b : add_all P (a ++ b) = obind (add_all P a) (fun P' => add_all P' b).
Proof. revert P. induction a as [|r a IH]; intros P; [reflexivity|]. cbn [app add_all]. destruct (and_ P r); cbn [obind]; [apply IH|reflexivity..]. Qed.
Lemma op_text_ext o : ext_op (op_text o) = Some o. Proof. destruct o as [| | | |[| | | | |]]; reflexivity. Qed.
Lemma rule_type_name k : numeric k -> rule_type (rule_name k) = Some k.
Proof. destruct k as [f| | |q]; cbn [numeric]; intros K; try contradiction; [|reflexivity|destruct q; reflexivity]. destruct f; try contradiction; reflexivity. Qed.
Lemma rule_name_cons k : numeric k -> exists x r, rule_name k = x :: r.
Proof. destruct k as [f| | |q]; cbn [numeric]; intros K; try contradiction; [|cbn; eauto|destruct q; cbn; eauto]. destruct f; try contradiction; cbn; eauto. Qed.
Lemma push_ext q k o b : numeric k -> lk_query_push q (rule_name k) (op_text o) b = with_preds q (add_ext_predicate (q_preds q) (k, o, [(None, b)])).
Proof.
  intros K. unfold lk_query_push. rewrite rule_type_name, op_text_ext by assumption. destruct (rule_name_cons k K) as (x & r & ->). reflexivity.
Qed.
Lemma push_all_add l : forall q, Forall stmt_ok l -> push_all q l = with_preds q (lift (add_all (q_preds q) (flat_map expand l))).
Proof.
  induction l as [|[[k o] b] l IH]; intros q F; [destruct q; reflexivity|]. apply Forall_cons_iff in F as [S F]. cbn [push_all flat_map].
  rewrite push_ext by exact (stmt_numeric _ _ _ S). rewrite add_ext by assumption. rewrite add_all_app.
  destruct (add_all (q_preds q) _) as [P|e| |]; cbn [lift with_preds obind]; [|reflexivity..]. rewrite IH by assumption. reflexivity.
Qed.

Lemma decode_small k b : bytes_ok b -> (List.length b <= k)%nat -> be_decode b < 2 ^ (8 * N.of_nat k).
Proof. intros O L. apply be_lt; [assumption|]. unfold lenN. lia. Qed.
Lemma expand_num s r : In r (expand s) -> p_kind r = fst (fst s) /\ exists v, p_val r = PNum v.
Proof.
  destruct s as [[k o] b]. cbn [expand fst]. destruct o; try destruct (snd _); cbn; intros H; repeat (destruct H as [<-|H]; [cbn; eauto|]); contradiction.
Qed.
Lemma fits_length k o b : operand_fits k o b -> (List.length b <= size_of k)%nat.
Proof. destruct o; cbn; intros H; try assumption; destruct H as [->|[-> H]]; cbn; lia. Qed.
Lemma expand_small k o b v : stmt_ok (k, o, b) -> (exists op, In (mkPred k op (PNum v)) (expand (k, o, b))) -> v < 2 ^ width_of k.
Proof.
  intros OK [op I]. pose proof (stmt_numeric _ _ _ OK) as K. destruct OK as (O & F & _). pose proof (fits_length _ _ _ F) as L. rewrite width_bytes by assumption.
  pose proof (decode_small _ _ O L) as D.
  assert (forall x, x < 256 -> be_decode (b ++ repeat x (size_of k - List.length b)) < 2 ^ (8 * N.of_nat (size_of k)) /\ be_decode (repeat x (size_of k - List.length b) ++ b) < 2 ^ (8 * N.of_nat (size_of k))) as M.
  { intros x X. split; (apply decode_small; [apply Forall_app; split; try assumption; now apply repeat_ok|rewrite app_length, repeat_length; lia]). }
  pose proof (proj1 (M 255 eq_refl)). pose proof (proj2 (M 255 eq_refl)). pose proof (proj1 (M 0 eq_refl)). pose proof (proj2 (M 0 eq_refl)).
  cbn [expand] in I. destruct o.
  - destruct (snd (dec_be b)); cbn in I; [contradiction|]. destruct I as [I|[]]. injection I as <- <-. lia.
  - pose proof (inc_be_spec b O) as IB. destruct (inc_be b) as [r c]. cbn [snd] in I. destruct c; cbn in I; [contradiction|]. destruct I as [I|[]]. injection I as <- <-.
    destruct IB as (LR & R & E & _). replace (be_decode b + 1) with (be_decode r) by lia. apply decode_small; [assumption|]. apply length_eq in LR. lia.
  - cbn in I. destruct I as [I|[I|[]]]; injection I as <- <-; assumption.
  - cbn in I. destruct I as [I|[I|[]]]; injection I as <- <-; assumption.
  - cbn in I. destruct I as [I|[]]. injection I as <- <-. assumption.
Qed.
Lemma expand_ok s : stmt_ok s -> Forall pred_ok (expand s).
Proof.
  intros OK. apply Forall_forall. intros r I. destruct s as [[k o] b]. destruct (expand_num _ _ I) as [PK [v PV]]. cbn [fst] in PK. destruct r as [k' op v']. cbn in PK, PV. subst.
  pose proof (expand_small k o b v OK (ex_intro _ op I)) as S. pose proof OK as (_ & _ & K). unfold pred_ok. cbn [p_kind p_val p_op].
  destruct k as [f| | |q]; cbn [width_of] in S.
  - destruct f; try (destruct K as [[] _]); split; (exact Logic.I || exact S).
  - split; [exact S|]. destruct o as [| | | |[]]; try contradiction; cbn [expand] in I; try destruct (snd _); cbn in I; repeat (destruct I as [I|I]; [injection I as <-; try exact Logic.I|]); try contradiction.
  - contradiction.
  - exact S.
Qed.
(** The value [x] of [k] passes the predicates of the statement. *)
Definition all_hold (s : stmt) (x : N) : Prop := Forall (fun r => match p_val r with PNum v => holds (p_op r) x v | _ => False end) (expand s).
Lemma all_hold_iff k o b x : numeric k -> bytes_ok b -> operand_fits k o b -> x < 2 ^ width_of k ->
  (forall f, k = RField f -> ~ vacuous o b) -> (all_hold (k, o, b) x <-> ext_holds (size_of k) o x b).
Proof.
  intros K O F X NV. pose proof (fits_length _ _ _ F) as L. rewrite width_bytes in X by assumption.
  assert (EX : vacuous o b -> List.length b = size_of k).
  { intros V. destruct k as [f| | |q]; [destruct (NV f eq_refl V)|..]; destruct o; cbn in F, V; try contradiction; destruct F as [F|[F _]]; try discriminate; exact F. }
  unfold all_hold, expand. destruct o; cbn [ext_holds].
  - pose proof (dec_be_spec b O) as D. destruct (dec_be b) as [r c]. destruct D as (_ & _ & D & C). cbn [snd]. destruct c.
    + destruct C as [C _]. specialize (C eq_refl). rewrite (zeros_decode b C). split; [lia|constructor].
    + rewrite Forall_cons_iff. cbn [p_val p_op holds]. split; [intros [H _]; lia|]. intros H. split; [lia|constructor].
  - pose proof (inc_be_spec b O) as D. destruct (inc_be b) as [r c]. destruct D as (_ & _ & D & C). cbn [snd]. destruct c.
    + destruct C as [C _]. specialize (C eq_refl). pose proof (ones_decode b C) as E. unfold lenN in E. rewrite (EX C), pow8 in E. split; [lia|constructor].
    + rewrite Forall_cons_iff. cbn [p_val p_op holds]. split; [intros [H _]; lia|]. intros H. split; [lia|constructor].
  - rewrite head_iff; [|assumption|assumption|now rewrite pow8]. rewrite !Forall_cons_iff. cbn [p_val p_op]. rewrite !be_decode_app2, decode_255, decode_0, !lenN_repeat, !N.add_0_r, !pow8.
    rewrite <- head_masks. split; [intros (A & B & _); split; assumption|intros [A B]; repeat split; try assumption; constructor].
  - rewrite tail_iff; [|assumption|assumption|now rewrite pow8]. rewrite !Forall_cons_iff. cbn [p_val p_op]. rewrite !be_decode_app2, decode_255, decode_0, N.mul_0_l, N.add_0_l.
    unfold lenN. rewrite pow8. rewrite <- (tail_masks x (be_decode b) (8 * N.of_nat (List.length b)) (8 * N.of_nat (size_of k - List.length b))).
    + split; [intros (A & B & _); split; assumption|intros [A B]; repeat split; try assumption; constructor].
    + rewrite <- pow8. apply be_decode_bound. assumption.
    + replace (_ + _) with (8 * N.of_nat (size_of k)) by lia. assumption.
  - rewrite Forall_cons_iff. cbn [p_val p_op]. split; [tauto|]. intros H. split; [exact H|constructor].
Qed.
Lemma expand_nonempty f o b : ~ vacuous o b -> bytes_ok b -> expand (RField f, o, b) <> [].
Proof.
  intros NV O. destruct o; cbn [expand]; try discriminate.
  - pose proof (dec_be_spec b O) as D. destruct (dec_be b) as [r c]. destruct D as (_ & _ & _ & C). cbn [snd]. destruct c; [|discriminate]. destruct NV. now apply C.
  - pose proof (inc_be_spec b O) as D. destruct (inc_be b) as [r c]. destruct D as (_ & _ & _ & C). cbn [snd]. destruct c; [|discriminate]. destruct NV. now apply C.
Qed.
Section Sat.
Variable hash : bytes -> bytes.
Hypothesis HL : forall x, lenN (hash x) = 32.
Lemma field_small b nh p f x : packet_of hash b nh p -> num_kind f -> num_field hash f nh p = Some x -> x < 2 ^ field_width f.
Proof.
  intros PK K E. rewrite (num_field_V hash HL) in E by (try apply PK; assumption). destruct (_ =? _); [|discriminate]. injection E as <-. now apply (V_small hash HL b).
Qed.
Lemma expand_sat b nh p recv s : packet_of hash b nh p -> recv < 2 ^ 64 -> stmt_ok s ->
  (Forall (satisfies hash recv nh p) (expand s) <-> stmt_sat hash recv nh p s).
Proof.
  intros PK R OK. destruct s as [[k o] v]. pose proof (stmt_numeric _ _ _ OK) as K. assert (OK2 := OK). destruct OK2 as (O & F & KO).
  assert (forall f, k = RField f -> ~ vacuous o v) as NV by (intros f ->; apply KO).
  destruct k as [f| | |q]; cbn [stmt_sat].
  - assert (NK : num_kind f) by exact K.
    assert (SAT : forall r, In r (expand (RField f, o, v)) -> (satisfies hash recv nh p r <-> exists x, num_field hash f nh p = Some x /\ match p_val r with PNum w => holds (p_op r) x w | _ => False end)).
    { intros r I. destruct (expand_num _ _ I) as [E [w E2]]. unfold satisfies. rewrite E, E2. cbn [fst]. destruct f; try contradiction; reflexivity. }
    pose proof (expand_nonempty f o v (NV f eq_refl) O) as NE.
    split.
    + intros A. destruct (expand (RField f, o, v)) as [|r0 l0] eqn:EX; [contradiction|].
      destruct (proj1 (SAT r0 (or_introl eq_refl)) (proj1 (proj1 (Forall_cons_iff _ _ _) A))) as (x & X & _).
      exists x. split; [exact X|]. apply (all_hold_iff (RField f) o v x K O F (field_small b nh p f x PK NK X) NV). unfold all_hold. rewrite EX.
      rewrite Forall_forall in A |- *. intros r I. specialize (A r I). apply (SAT r I) in A as (x' & X' & H). rewrite X in X'. injection X' as <-. exact H.
    + intros (x & X & H). apply (all_hold_iff (RField f) o v x K O F (field_small b nh p f x PK NK X) NV) in H. unfold all_hold in H.
      rewrite Forall_forall in H |- *. intros r I. apply (SAT r I). exists x. split; [exact X|]. now apply H.
  - rewrite <- (all_hold_iff RRecv o v recv K O F R NV). unfold all_hold. rewrite !Forall_forall. split; intros A r I; specialize (A r I); destruct (expand_num _ _ I) as [E [w E2]];
      unfold satisfies in *; rewrite E, E2 in *; exact A.
  - destruct K.
  - split; [exact (fun _ => I)|]. intros _. apply Forall_forall. intros r J. destruct (expand_num _ _ J) as [E [w E2]]. unfold satisfies. now rewrite E, E2.
Qed.
End Sat.
Lemma expand_position s q n : n < 2 ^ 32 -> stmt_ok s -> (position_ok (expand s) q n <-> stmt_position q n s).
Proof.
  intros Hn OK. destruct s as [[k o] v]. pose proof (stmt_numeric _ _ _ OK) as K. assert (OK2 := OK). destruct OK2 as (O & F & KO).
  unfold position_ok. destruct k as [f| | |q']; cbn [stmt_position].
  - destruct f; try (split; [intros _; exact I|intros _; apply Forall_forall; intros r J; destruct (expand_num _ _ J) as [E [w E2]]; rewrite E; destruct (p_op r); exact I]).
    destruct o as [| | | |op]; cbn [expand]; try destruct (snd _); try (split; [intros _; exact I|intros _; repeat constructor]).
    destruct op; cbn [expand]; try (split; [intros _; exact I|intros _; repeat constructor]). rewrite Forall_cons_iff. cbn. split; [tauto|]. intros H. split; [exact H|constructor].
  - split; [exact (fun _ => I)|]. intros _. apply Forall_forall; intros r J; destruct (expand_num _ _ J) as [E [w E2]]; rewrite E; destruct (p_op r); exact I.
  - destruct K.
  - assert ((q' = q -> all_hold (RLimit q', o, v) n) <-> (q' = q -> ext_holds 4 o n v)) as <-.
    { split; intros H E; specialize (H E); apply (all_hold_iff (RLimit q') o v n K O F Hn); try assumption; discriminate. }
    unfold all_hold. split.
    + intros A ->. rewrite Forall_forall in A |- *. intros r J. specialize (A r J). destruct (expand_num _ _ J) as [E [w E2]]. rewrite E, E2 in *. cbn [fst] in A. destruct (p_op r); now apply A.
    + intros A. apply Forall_forall. intros r J. destruct (expand_num _ _ J) as [E [w E2]]. rewrite E, E2. cbn [fst]. assert (q' = q -> holds (p_op r) n w) as H.
      { intros QQ. specialize (A QQ). rewrite Forall_forall in A. specialize (A r J). now rewrite E2 in A. }
      destruct (p_op r); exact H.
Qed.
