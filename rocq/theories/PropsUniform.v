(** C97: numbers drawn from bytes. *)
From Coq Require Import Lia ZArith Floats.SpecFloat.
From Verif Require Import Bytes ModelTree ProofQuery ModelUniform SpecUniform.

(** ** Exactness of the subtraction *)
Lemma digits_bounds p : (2 ^ (Z.pos (digits2_pos p) - 1) <= Z.pos p < 2 ^ Z.pos (digits2_pos p))%Z.
Proof.
  induction p as [p IH|p IH|]; cbn [digits2_pos]; [| |cbn; lia].
  all: rewrite Pos2Z.inj_succ; replace (Z.succ (Z.pos (digits2_pos p)) - 1)%Z with (Z.succ (Z.pos (digits2_pos p) - 1)) by lia; rewrite !Z.pow_succ_r by lia; lia.
Qed.
Lemma digits_eq p d : (0 < d)%Z -> (2 ^ (d - 1) <= Z.pos p < 2 ^ d)%Z -> Z.pos (digits2_pos p) = d.
Proof.
  intros D [A B]. pose proof (digits_bounds p) as [C E]. set (x := Z.pos (digits2_pos p)) in *. assert (0 < x)%Z by reflexivity.
  assert (d - 1 < x)%Z by (apply (Z.pow_lt_mono_r_iff 2); lia). assert (x - 1 < d)%Z by (apply (Z.pow_lt_mono_r_iff 2); lia). lia.
Qed.
Lemma shift_pos_z d m : Z.pos (shift_pos d m) = (Z.pos m * 2 ^ Z.pos d)%Z.
Proof. rewrite Zpower.shift_pos_correct, Zpower.two_power_pos_correct || rewrite Zpower.shift_pos_correct. rewrite Z.mul_comm. reflexivity. Qed.
Lemma fexp_small e : (-1021 <= e)%Z -> fexp 53 1024 e = (e - 53)%Z.
Proof. intros H. unfold fexp, emin. lia. Qed.
Lemma aux_exact m e : Z.pos (digits2_pos m) = 53%Z -> (-1074 <= e <= 971)%Z -> binary_round_aux 53 1024 false (Z.pos m) e loc_Exact = S754_finite false m e.
Proof.
  intros D E. unfold binary_round_aux, shr_fexp. cbn [Zdigits2 shr_record_of_loc]. rewrite D, fexp_small by lia. replace (53 + e - 53 - e)%Z with 0%Z by lia.
  cbn [shr loc_of_shr_record shr_m shr_r shr_s round_nearest_even]. unfold shr_fexp. cbn [Zdigits2 shr_record_of_loc]. rewrite D, fexp_small by lia. replace (53 + e - 53 - e)%Z with 0%Z by lia.
  cbn [shr shr_m]. replace (e <=? 1024 - 53)%Z with true by (symmetry; apply Z.leb_le; lia). reflexivity.
Qed.
Lemma round_fraction k : (Z.pos k < 2 ^ 52)%Z -> is_fraction (binary_round 53 1024 false k (-52)) (Npos k) 52.
Proof.
  intros LT. pose proof (digits_bounds k) as [DA DB]. set (D := Z.pos (digits2_pos k)) in *. assert (DP : (0 < D)%Z) by reflexivity.
  assert (DL : (D <= 52)%Z). { assert (D - 1 < 52)%Z by (apply (Z.pow_lt_mono_r_iff 2); lia). lia. }
  unfold binary_round. fold D. rewrite fexp_small by lia. unfold shl_align. replace (D + -52 - 53 - -52)%Z with (- (53 - D))%Z by lia.
  destruct (53 - D)%Z as [|d|d] eqn:E; [lia| |lia]. cbn [Z.opp].
  assert (SD : Z.pos (digits2_pos (shift_pos d k)) = 53%Z).
  { apply digits_eq; [lia|]. rewrite shift_pos_z, <- E. change (53 - 1)%Z with 52%Z. replace (2 ^ 52)%Z with (2 ^ (D - 1) * 2 ^ (53 - D))%Z by (rewrite <- Z.pow_add_r by lia; f_equal; lia).
    replace (2 ^ 53)%Z with (2 ^ D * 2 ^ (53 - D))%Z by (rewrite <- Z.pow_add_r by lia; f_equal; lia). assert (0 < 2 ^ (53 - D))%Z by (apply Z.pow_pos_nonneg; lia). nia. }
  rewrite aux_exact by (exact SD || lia). split.
  - unfold valid_binary, bounded, canonical_mantissa. rewrite SD, fexp_small by lia. apply andb_true_intro. split; [apply Zeq_is_eq_bool; lia|apply Z.leb_le; lia].
  - split; [reflexivity|]. split; [lia|]. rewrite shift_pos_z, <- E. change (Z.of_N (N.pos k)) with (Z.pos k). change (Z.of_N 52) with 52%Z.
    replace (2 ^ 1074)%Z with (2 ^ (53 - D) * 2 ^ (D + -52 - 53 + 1074) * 2 ^ 52)%Z by (rewrite <- !Z.pow_add_r by lia; f_equal; lia). ring.
Qed.

(** ** The bits *)
Definition top (b : bytes) : N := be_decode (takeN 8 b) / 2 ^ 12.
Lemma bytes_take n b : bytes_ok b -> bytes_ok (takeN n b).
Proof. unfold bytes_ok, takeN. intros F. rewrite Forall_forall in *. intros x X. apply F. rewrite <- (firstn_skipn (N.to_nat n) b). apply in_or_app. now left. Qed.
Lemma take_len (b : bytes) : 8 <= lenN b -> lenN (takeN 8 b) = 8.
Proof. unfold lenN, takeN. intros H. rewrite firstn_length. lia. Qed.
Lemma first_small (b : bytes) : bytes_ok b -> 8 <= lenN b -> be_decode (takeN 8 b) < 2 ^ 64.
Proof. intros B L. pose proof (be_decode_bound (takeN 8 b) (bytes_take 8 b B)) as U. rewrite take_len in U by exact L. exact U. Qed.
Lemma top_small (b : bytes) : bytes_ok b -> 8 <= lenN b -> top b < 2 ^ 52.
Proof. intros B L. unfold top. apply N.div_lt_upper_bound; [discriminate|]. exact (first_small b B L). Qed.
Lemma bits_of k : k < 2 ^ 52 -> exists p, Npos p = 2 ^ 52 + k /\ from_bits (N.lor k (N.shiftl 1023 52)) = S754_finite false p (-52).
Proof.
  intros K. unfold from_bits.
  assert (HS : N.shiftr k 52 = 0) by (rewrite N.shiftr_div_pow2; now apply N.div_small).
  assert (E : N.land (N.shiftr (N.lor k (N.shiftl 1023 52)) 52) 2047 = 1023) by (rewrite N.shiftr_lor, HS; reflexivity).
  assert (M : N.land (N.lor k (N.shiftl 1023 52)) (2 ^ 52 - 1) = k).
  { change (2 ^ 52 - 1) with (N.ones 52). rewrite N.land_lor_distr_l, !N.land_ones. change (N.shiftl 1023 52 mod 2 ^ 52) with 0. rewrite N.lor_0_r. now apply N.mod_small. }
  assert (T : N.testbit (N.lor k (N.shiftl 1023 52)) 63 = false).
  { rewrite N.lor_spec. change (N.testbit (N.shiftl 1023 52) 63) with false. rewrite orb_false_r. change 63 with (11 + 52). rewrite <- N.shiftr_spec', HS. reflexivity. }
  rewrite E, M, T. change (1023 =? 2047) with false. change (1023 =? 0) with false. cbv iota. destruct (2 ^ 52 + k) as [|p] eqn:P; [lia|]. exists p. split; reflexivity.
Qed.
Lemma diff_fraction k : k < 2 ^ 52 -> is_fraction (SFsub 53 1024 (from_bits (N.lor k (N.shiftl 1023 52))) one) k 52.
Proof.
  intros K. destruct (bits_of k K) as (p & P & ->). unfold SFsub, one. change (Z.min (-52) (-52)) with (-52)%Z. unfold shl_align. change (-52 - -52)%Z with 0%Z. cbn [fst cond_Zopp].
  assert (Z.pos p = 2 ^ 52 + Z.of_N k)%Z as -> by lia.
  replace (2 ^ 52 + Z.of_N k - Z.pos (2 ^ 52))%Z with (Z.of_N k) by lia. unfold binary_normalize. destruct k as [|k]; cbn [Z.of_N].
  - split; [reflexivity|]. auto.
  - apply round_fraction. lia.
Qed.
(** The value is the first 52 bits as a fraction, exactly. *)
Theorem C97_value (b : bytes) : bytes_ok b -> 8 <= lenN b -> top b < 2 ^ 52 /\ exists f, bytes2uniform b = Ok f /\ is_fraction f (top b) 52.
Proof.
  intros B L. split; [now apply top_small|]. unfold bytes2uniform. destruct (N.ltb_spec (lenN b) 8); [lia|]. eexists. split; [reflexivity|].
  change (64 - 52) with 12. rewrite N.shiftr_div_pow2. apply diff_fraction, top_small; assumption.
Qed.
Print Assumptions C97_value.

(** ** Uniqueness and order *)
Lemma fraction_inj f n m k : is_fraction f n k -> is_fraction f m k -> n = m.
Proof.
  intros [_ A] [_ B]. destruct f as [s|s| |s p e]; [destruct A, B; congruence|destruct A|destruct A|].
  destruct A as (_ & _ & A), B as (_ & _ & B). assert (Z.of_N n * 2 ^ 1074 = Z.of_N m * 2 ^ 1074)%Z as E by (now rewrite <- A, <- B). clear A B.
  apply Z.mul_reg_r in E; [lia|]. apply Z.pow_nonzero; lia.
Qed.
Lemma valid_digits m e : valid_binary 53 1024 (S754_finite false m e) = true -> (Z.pos m < 2 ^ 53)%Z /\ ((-1074 < e)%Z -> (2 ^ 52 <= Z.pos m)%Z).
Proof.
  unfold valid_binary, bounded, canonical_mantissa. intros H. apply andb_prop in H as [H _]. apply Zeq_bool_eq in H. pose proof (digits_bounds m) as [A B].
  set (D := Z.pos (digits2_pos m)) in *. assert (0 < D)%Z by reflexivity. unfold fexp, emin in H.
  assert (D <= 53)%Z by lia. split.
  - assert (2 ^ D <= 2 ^ 53)%Z by (apply Z.pow_le_mono_r; lia). lia.
  - intros E. assert (D = 53)%Z as D53 by lia. rewrite D53 in A. exact A.
Qed.
Lemma lower_exponent p e q e' : (-1074 <= e)%Z -> (e < e')%Z -> (Z.pos p < 2 ^ 53)%Z -> (2 ^ 52 <= Z.pos q)%Z -> (Z.pos p * 2 ^ (e + 1074) < Z.pos q * 2 ^ (e' + 1074))%Z.
Proof.
  intros E LT PU QL. assert (2 ^ (e + 1074) * 2 <= 2 ^ (e' + 1074))%Z as ST by (rewrite Z.mul_comm, <- Z.pow_succ_r by lia; apply Z.pow_le_mono_r; lia).
  assert (0 < 2 ^ (e + 1074))%Z by (apply Z.pow_pos_nonneg; lia). change (2 ^ 53)%Z with (2 * 2 ^ 52)%Z in PU.
  set (a := (2 ^ (e + 1074))%Z) in *. set (b := (2 ^ (e' + 1074))%Z) in *. set (c := (2 ^ 52)%Z) in *. assert (0 < c)%Z by reflexivity. clearbody a b c.
  assert (c * (a * 2) <= Z.pos q * b)%Z by (apply Z.mul_le_mono_nonneg; lia). assert (Z.pos p * a < 2 * c * a)%Z by (apply Z.mul_lt_mono_pos_r; lia). lia.
Qed.
Lemma fraction_pos m e n k : is_fraction (S754_finite false m e) n k -> 0 < n.
Proof.
  intros (_ & _ & E & A). destruct n as [|n]; [exfalso|reflexivity]. cbn [Z.of_N] in A. rewrite Z.mul_0_l in A.
  assert (0 < 2 ^ (e + 1074))%Z by (apply Z.pow_pos_nonneg; lia). assert (0 < 2 ^ Z.of_N k)%Z by (apply Z.pow_pos_nonneg; lia). apply Z.eq_mul_0 in A as [A|A]; [apply Z.eq_mul_0 in A as [A|A]|]; lia.
Qed.
(** The order of IEEE 754 is that of the fractions. *)
Lemma fraction_compare f g n m k : is_fraction f n k -> is_fraction g m k -> SFcompare f g = Some (n ?= m).
Proof.
  intros A B. pose proof A as [VF AF]. pose proof B as [VG BG]. assert (KP : (0 < 2 ^ Z.of_N k)%Z) by (apply Z.pow_pos_nonneg; lia).
  destruct f as [s|s| |s p e]; [|destruct AF|destruct AF|]; (destruct g as [s'|s'| |s' q e']; [|destruct BG|destruct BG|]).
  - destruct AF as [-> ->], BG as [-> ->]. reflexivity.
  - destruct AF as [-> ->], BG as [-> _]. apply fraction_pos in B. destruct m; [discriminate|reflexivity].
  - destruct AF as [-> _], BG as [-> ->]. apply fraction_pos in A. destruct n; [discriminate|reflexivity].
  - destruct AF as (-> & EA & AF), BG as (-> & EB & BG). destruct (valid_digits p e VF) as [PU PL]. destruct (valid_digits q e' VG) as [QU QL].
    assert (CMP : (Z.pos p * 2 ^ (e + 1074) ?= Z.pos q * 2 ^ (e' + 1074))%Z = (n ?= m)).
    { rewrite (Zmult_compare_compat_r _ _ (2 ^ Z.of_N k)) by lia. rewrite AF, BG. rewrite <- (Zmult_compare_compat_r _ _ (2 ^ 1074)) by (apply Z.lt_gt, Z.pow_pos_nonneg; lia). apply N2Z.inj_compare. }
    rewrite <- CMP. unfold SFcompare. destruct (Z.compare_spec e e') as [->|LT|GT].
    + rewrite <- (Zmult_compare_compat_r _ _ (2 ^ (e' + 1074))) by (apply Z.lt_gt, Z.pow_pos_nonneg; lia). reflexivity.
    + f_equal. symmetry. apply Z.compare_lt_iff. apply lower_exponent; auto. apply QL. lia.
    + f_equal. symmetry. apply Z.compare_gt_iff. apply lower_exponent; auto. apply PL. lia.
Qed.
Lemma one_fraction : is_fraction one (2 ^ 52) 52.
Proof. split; [reflexivity|]. split; [reflexivity|]. split; [lia|]. vm_compute. reflexivity. Qed.
Lemma zero_fraction : is_fraction (S754_zero false) 0 52.
Proof. split; [reflexivity|]. auto. Qed.
(** It is at least 0 and below 1. *)
Theorem C97_range (b : bytes) : bytes_ok b -> 8 <= lenN b -> exists f, bytes2uniform b = Ok f /\ SFleb (S754_zero false) f = true /\ SFltb f one = true.
Proof.
  intros B L. destruct (C97_value b B L) as (T & f & E & F). exists f. split; [exact E|]. unfold SFleb, SFltb. rewrite (fraction_compare _ _ _ _ _ zero_fraction F), (fraction_compare _ _ _ _ _ F one_fraction).
  split; [destruct (top b); reflexivity|]. apply N.compare_lt_iff in T. now rewrite T.
Qed.
(** Every fraction of 2^52 is drawn from equally many beginnings, 2^12 of them. *)
Theorem C97_uniform (b : bytes) n : bytes_ok b -> 8 <= lenN b ->
  ((exists f, bytes2uniform b = Ok f /\ is_fraction f n 52) <-> n * 2 ^ 12 <= be_decode (takeN 8 b) < n * 2 ^ 12 + 2 ^ 12).
Proof.
  intros B L. destruct (C97_value b B L) as (_ & f & E & F). transitivity (top b = n).
  - split; [|intros <-; eauto]. intros (g & E' & G). rewrite E in E'. injection E' as <-. exact (fraction_inj f (top b) n 52 F G).
  - unfold top. pose proof (N.div_mod (be_decode (takeN 8 b)) (2 ^ 12) ltac:(discriminate)) as D. pose proof (N.mod_lt (be_decode (takeN 8 b)) (2 ^ 12) ltac:(discriminate)) as M. split.
    + intros H. rewrite H in D. lia.
    + intros [A C]. symmetry. apply (N.div_unique _ _ _ (be_decode (takeN 8 b) - n * 2 ^ 12)); lia.
Qed.
(** The numbers are ordered as the bytes are, and only the first 52 bits count. *)
Lemma first_compare (a b : bytes) : bytes_ok a -> 8 <= lenN a -> bytes_ok b -> 8 <= lenN b -> lex (takeN 8 a) (takeN 8 b) = (be_decode (takeN 8 a) ?= be_decode (takeN 8 b)).
Proof.
  intros BA LA BB LB. pose proof (first_small a BA LA) as UA. pose proof (first_small b BB LB) as UB.
  rewrite <- (be_encode_decode _ (bytes_take 8 a BA)) at 1. rewrite <- (be_encode_decode _ (bytes_take 8 b BB)) at 1.
  pose proof (take_len a LA) as TA. pose proof (take_len b LB) as TB. unfold lenN in TA, TB. replace (length (takeN 8 a)) with 8%nat by lia. replace (length (takeN 8 b)) with 8%nat by lia.
  apply (be_compare 8 _ _ 64 eq_refl); assumption.
Qed.
Theorem C97_order (a b : bytes) : bytes_ok a -> 8 <= lenN a -> bytes_ok b -> 8 <= lenN b -> exists f g, bytes2uniform a = Ok f /\ bytes2uniform b = Ok g /\
  (lex (takeN 8 a) (takeN 8 b) <> Gt -> SFleb f g = true) /\ (SFltb f g = true -> lex (takeN 8 a) (takeN 8 b) = Lt) /\
  (f = g <-> top a = top b).
Proof.
  intros BA LA BB LB. destruct (C97_value a BA LA) as (_ & f & E & F). destruct (C97_value b BB LB) as (_ & g & E' & G). exists f, g. split; [exact E|]. split; [exact E'|].
  rewrite (first_compare a b BA LA BB LB). unfold SFleb, SFltb. rewrite (fraction_compare _ _ _ _ _ F G). split; [|split].
  - intros H. apply N.compare_le_iff in H. assert (top a <= top b) as T by (apply N.div_le_mono; [discriminate|exact H]). apply N.compare_le_iff in T. destruct (top a ?= top b); congruence.
  - intros H. apply N.compare_lt_iff. destruct (N.lt_ge_cases (be_decode (takeN 8 a)) (be_decode (takeN 8 b))) as [X|X]; [exact X|].
    assert (top b <= top a) as T by (apply N.div_le_mono; [discriminate|exact X]). apply N.compare_ge_iff in T. destruct (top a ?= top b); [discriminate|now contradiction T|discriminate].
  - split; [intros ->; exact (fraction_inj g _ _ _ F G)|]. intros T. assert (X : bytes2uniform a = bytes2uniform b).
    { unfold bytes2uniform. apply N.ltb_ge in LA, LB. rewrite LA, LB. change (64 - 52) with 12. rewrite !N.shiftr_div_pow2. unfold top in T. now rewrite T. }
    rewrite E, E' in X. exact (f_equal (fun x => match x with Ok y => y | _ => f end) X).
Qed.
(** With fewer than eight bytes it panics. *)
Theorem C97_short (b : bytes) : bytes2uniform b = Panic <-> lenN b < 8.
Proof. unfold bytes2uniform. destruct (N.ltb_spec (lenN b) 8); split; intros; (reflexivity || discriminate || assumption || lia). Qed.
Example C97_ex : bytes2uniform [128;0;0;0;0;0;0;0;9] = Ok (S754_finite false (2 ^ 52) (-53)) /\ bytes2uniform (repeat 255 32) = Ok (S754_finite false (2 ^ 53 - 2) (-53)) /\
  bytes2uniform [0;0;0;0;0;0;15;255] = Ok (S754_zero false) /\ bytes2uniform [0;0;0;0;0;0;16;0] = Ok (S754_finite false (2 ^ 52) (-104)) /\ bytes2uniform [1;2;3] = Panic.
Proof. repeat split. Qed.
Print Assumptions C97_range.
Print Assumptions C97_uniform.
Print Assumptions C97_order.
Print Assumptions C97_short.
