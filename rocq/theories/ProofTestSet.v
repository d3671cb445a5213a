From Verif Require Import Bytes ModelTestSet SpecTestSet.
From Coq Require Import Sorting.Sorted Sorting.Permutation.

(** ** Bits *)
Lemma bit_testbit v i : bit v i = N.testbit v i.
Proof. unfold bit. now rewrite N.testbit_odd, N.shiftr_div_pow2. Qed.
#[global] Arguments umax : simpl never.
#[global] Arguments N.ones : simpl never.
Lemma testbit_high w v i : v < 2 ^ w -> w <= i -> N.testbit v i = false.
Proof.
  intros H L. destruct (N.eq_dec v 0) as [->|Z]; [apply N.bits_0|]. apply N.bits_above_log2.
  apply N.log2_lt_pow2; [lia|]. eapply N.lt_le_trans; [exact H|]. apply N.pow_le_mono_r; lia.
Qed.
Lemma small_of_bits w v : (forall i, w <= i -> N.testbit v i = false) -> v < 2 ^ w.
Proof.
  intros H. destruct (N.eq_dec v 0) as [->|Z]; [apply N.neq_0_lt_0; apply N.pow_nonzero; lia|].
  apply N.log2_lt_pow2; [lia|]. destruct (N.lt_ge_cases (N.log2 v) w) as [L|L]; [exact L|].
  specialize (H _ L). now rewrite N.bit_log2 in H.
Qed.
Lemma unot_bits w a i : a < 2 ^ w -> N.testbit (unot w a) i = (i <? w) && negb (N.testbit a i).
Proof.
  intros H. unfold unot. destruct (N.ltb_spec i w) as [L|L]; cbn [andb].
  - now apply N.lnot_spec_low.
  - rewrite N.lnot_spec_high by assumption. now apply (testbit_high w).
Qed.
Lemma ones_bits w i : N.testbit (N.ones w) i = (i <? w).
Proof. destruct (N.ltb_spec i w); [now apply N.ones_spec_low|now apply N.ones_spec_high]. Qed.
Lemma ones_small w : N.ones w < 2 ^ w.
Proof. apply small_of_bits. intros i L. now apply N.ones_spec_high. Qed.
Lemma unot_small w a : a < 2 ^ w -> unot w a < 2 ^ w.
Proof.
  intros H. apply small_of_bits. intros i L. rewrite unot_bits by assumption.
  destruct (N.ltb_spec i w); [lia|reflexivity].
Qed.
Lemma umax_val w : umax w = 2 ^ w - 1.
Proof. unfold umax. rewrite N.ones_equiv. lia. Qed.

(** Comparing numbers by their highest differing bit. *)
Lemma lt_by_bit a b i : (forall j, i < j -> N.testbit a j = N.testbit b j) ->
  N.testbit a i = false -> N.testbit b i = true -> a < b.
Proof.
  intros H A B.
  assert (X : forall v, v = (v / 2 ^ i) * 2 ^ i + v mod 2 ^ i) by (intros v; rewrite N.mul_comm; apply N.div_mod; apply N.pow_nonzero; lia).
  assert (Y : forall v, v / 2 ^ i = 2 * (v / 2 ^ (i + 1)) + N.b2n (N.testbit v i)).
  { intros v. rewrite N.add_1_r, N.pow_succ_r', (N.mul_comm 2 (2 ^ i)), <- N.div_div by (try apply N.pow_nonzero; lia).
    pose proof (N.div_mod (v / 2 ^ i) 2 ltac:(lia)) as D. rewrite N.testbit_eqb.
    pose proof (N.mod_lt (v / 2 ^ i) 2 ltac:(lia)) as Q.
    destruct (N.eqb_spec ((v / 2 ^ i) mod 2) 1); cbn [N.b2n]; lia. }
  assert (Z : a / 2 ^ (i + 1) = b / 2 ^ (i + 1)).
  { apply N.bits_inj. intros k. rewrite !N.div_pow2_bits by lia. apply H. lia. }
  pose proof (Y a) as Ya. pose proof (Y b) as Yb. rewrite A in Ya. rewrite B in Yb. cbn [N.b2n] in *.
  assert (Q : a / 2 ^ i < b / 2 ^ i) by lia.
  destruct (N.lt_ge_cases a b) as [L|L]; [exact L|]. exfalso.
  apply (N.div_le_mono _ _ (2 ^ i)) in L; [lia|]. apply N.pow_nonzero. lia.
Qed.
(** The converse. *)
Lemma lt_has_bit a b : a < b -> exists i, (forall j, i < j -> N.testbit a j = N.testbit b j) /\
  N.testbit a i = false /\ N.testbit b i = true.
Proof.
  intros L. exists (N.log2 (N.lxor a b)).
  assert (NZ : N.lxor a b <> 0) by (intros E; apply N.lxor_eq in E; lia).
  assert (HI : forall j, N.log2 (N.lxor a b) < j -> N.testbit a j = N.testbit b j).
  { intros j Hj. apply N.bits_above_log2 in Hj. rewrite N.lxor_spec in Hj. destruct (N.testbit a j), (N.testbit b j); auto; discriminate. }
  split; [exact HI|].
  pose proof (N.bit_log2 _ NZ) as B. rewrite N.lxor_spec in B.
  destruct (N.testbit a (N.log2 (N.lxor a b))) eqn:A, (N.testbit b (N.log2 (N.lxor a b))) eqn:C; cbn in B; try discriminate; [|auto].
  exfalso. assert (b < a); [|lia]. apply (lt_by_bit b a (N.log2 (N.lxor a b))); auto. intros j Hj. symmetry. auto.
Qed.
Lemma le_by_bits a b p : (forall j, p <= j -> N.testbit a j = N.testbit b j) ->
  (forall j, j < p -> N.testbit a j = true -> N.testbit b j = true) -> a <= b.
Proof.
  intros H1 H2. destruct (N.le_gt_cases a b) as [L|L]; [exact L|]. exfalso.
  apply lt_has_bit in L as (i & I1 & I2 & I3).
  destruct (N.lt_ge_cases i p) as [X|X]; [rewrite (H2 i X I3) in I2; discriminate|].
  rewrite (H1 i X) in I3. congruence.
Qed.

(** ** Tests *)
Lemma uint_func_holds op v x : uint_func op v x = true <-> holds op v x.
Proof.
  destruct op; cbn [uint_func holds].
  - tauto.
  - apply N.eqb_eq.
  - apply N.ltb_lt.
  - rewrite N.ltb_lt. lia.
  - rewrite N.eqb_eq. split.
    + intros E i. rewrite !bit_testbit. intros B. rewrite <- E, N.lor_spec, B. reflexivity.
    + intros H. apply N.bits_inj. intros i. rewrite N.lor_spec. specialize (H i). rewrite !bit_testbit in H.
      destruct (N.testbit v i); cbn [orb]; [symmetry; auto|reflexivity].
  - rewrite N.eqb_eq. split.
    + intros E i. rewrite !bit_testbit. intros B. rewrite <- E, N.land_spec in B. now apply andb_prop in B as [B _].
    + intros H. apply N.bits_inj. intros i. rewrite N.land_spec. specialize (H i). rewrite !bit_testbit in H.
      destruct (N.testbit x i); [rewrite H by reflexivity; reflexivity|apply andb_false_r].
Qed.
Lemma mask_test_bits m v : mask_test m v = true <->
  (forall i, N.testbit v i = true -> N.testbit (zeros m) i = true) /\
  (forall i, N.testbit (ones m) i = true -> N.testbit v i = true).
Proof.
  unfold mask_test. rewrite andb_true_iff, !uint_func_holds. cbn [holds].
  split; intros [A B]; (split; intros i; [specialize (A i)|specialize (B i)]); rewrite ?bit_testbit in *; auto.
Qed.
Definition mask_ok (w : N) (m : Mask) : Prop := ones m < 2 ^ w /\ zeros m < 2 ^ w.
Definition bound_ok (w : N) (b : Bound) : Prop := low b < 2 ^ w /\ high b < 2 ^ w.
Definition set_ok (w : N) (s : TestSet) : Prop := bound_ok w (bound s) /\ mask_ok w (mask s).

Lemma wrong_bits_spec w m v i : mask_ok w m -> v < 2 ^ w ->
  N.testbit (wrong_bits w m v) i =
  (i <? w) && ((negb (N.testbit (zeros m) i) && N.testbit v i) || (N.testbit (ones m) i && negb (N.testbit v i))).
Proof.
  intros [O Z] V. unfold wrong_bits. rewrite N.lor_spec, !N.land_spec, !unot_bits by assumption.
  destruct (N.ltb_spec i w) as [L|L]; cbn [andb]; [reflexivity|]. rewrite andb_false_r. reflexivity.
Qed.
Lemma wrong_bits_zero w m v : mask_ok w m -> v < 2 ^ w -> (wrong_bits w m v = 0 <-> mask_test m v = true).
Proof.
  intros M V. rewrite mask_test_bits. split.
  - intros E. assert (B : forall i, N.testbit (wrong_bits w m v) i = false) by (intros i; rewrite E; apply N.bits_0).
    split; intros i H; specialize (B i); rewrite wrong_bits_spec in B by assumption.
    + destruct (N.ltb_spec i w) as [L|L]; [|rewrite (testbit_high w v i V L) in H; discriminate].
      rewrite H in B. destruct (N.testbit (zeros m) i); [reflexivity|discriminate].
    + destruct (N.ltb_spec i w) as [L|L]; [|rewrite (testbit_high w _ i (proj1 M) L) in H; discriminate].
      rewrite H in B. destruct (N.testbit v i); [reflexivity|]. cbn [andb negb orb] in B.
      rewrite andb_false_r in B. discriminate.
  - intros [A B]. apply N.bits_inj_0. intros i. rewrite wrong_bits_spec by assumption. specialize (A i). specialize (B i).
    destruct (i <? w); [|reflexivity]. destruct (N.testbit (zeros m) i), (N.testbit v i), (N.testbit (ones m) i); cbn in *; try reflexivity; exfalso;
      try (discriminate A; auto); try (discriminate (A eq_refl)); discriminate (B eq_refl).
Qed.

Lemma trailing_ones_from_spec n : forall i a,
  (forall j, i <= j -> j < trailing_ones_from n i a -> N.testbit a j = true) /\
  i <= trailing_ones_from n i a /\ trailing_ones_from n i a <= i + N.of_nat n /\
  (trailing_ones_from n i a < i + N.of_nat n -> N.testbit a (trailing_ones_from n i a) = false).
Proof.
  induction n as [|n IH]; intros i a; cbn [trailing_ones_from].
  - split; [intros; lia|]. split; [lia|]. split; [lia|]. lia.
  - destruct (N.testbit a i) eqn:B.
    + destruct (IH (i + 1) a) as (H1 & H2 & H3 & H4). split; [|split; [lia|split; [lia|]]].
      * intros j L1 L2. destruct (N.eq_dec j i) as [->|]; [exact B|]. apply H1; lia.
      * intros L. apply H4. lia.
    + split; [intros; lia|]. split; [lia|]. split; [lia|]. auto.
Qed.
Lemma trailing_ones_spec w a : let p := trailing_ones w a in
  (forall j, j < p -> N.testbit a j = true) /\ p <= w /\ (p < w -> N.testbit a p = false).
Proof.
  unfold trailing_ones. destruct (trailing_ones_from_spec (N.to_nat w) 0 a) as (H1 & H2 & H3 & H4).
  rewrite N2Nat.id in *. cbn zeta. split; [intros j L; apply H1; lia|]. split; [lia|]. intros L. apply H4. lia.
Qed.

(** [umax << r] without its low [r] bits. *)
Lemma shl_umax_bits w r i : r < w -> N.testbit (fst (overflowing_shl w (umax w) r)) i = (r <=? i) && (i <? w).
Proof.
  intros R. unfold overflowing_shl. cbn [fst]. rewrite N.mod_small by assumption. rewrite N.land_spec, ones_bits.
  destruct (N.leb_spec r i) as [L|L].
  - rewrite N.shiftl_spec_high' by assumption. unfold umax. rewrite ones_bits.
    destruct (N.ltb_spec i w); [|now rewrite andb_false_r]. destruct (N.ltb_spec (i - r) w); [reflexivity|lia].
  - rewrite N.shiftl_spec_low by assumption. reflexivity.
Qed.
Lemma shl_umax_small w r : fst (overflowing_shl w (umax w) r) < 2 ^ w.
Proof.
  unfold overflowing_shl. cbn [fst]. apply small_of_bits. intros i L. rewrite N.land_spec, ones_bits.
  destruct (N.ltb_spec i w); [lia|]. apply andb_false_r.
Qed.
Lemma low_mask_bits w r i : r < w -> N.testbit (unot w (fst (overflowing_shl w (umax w) r))) i = (i <? r).
Proof.
  intros R. rewrite unot_bits by apply shl_umax_small. rewrite shl_umax_bits by assumption.
  destruct (N.leb_spec r i), (N.ltb_spec i r), (N.ltb_spec i w); try lia; reflexivity.
Qed.

(** The result of the seek when the value is not a member. *)
Definition bumped (w : N) (m : Mask) (val p : N) (v : N) : Prop :=
  v < 2 ^ w /\
  (forall j, p < j -> N.testbit v j = N.testbit val j) /\ N.testbit v p = true /\
  (forall j, j < p -> N.testbit v j = N.testbit (zeros m) j && N.testbit (ones m) j).

Lemma in_set_bumped w m val : 1 < w -> w < 2 ^ 32 -> mask_ok w m -> val < 2 ^ w -> mask_test m val = false ->
  exists h p, N.testbit (wrong_bits w m val) h = true /\ (forall j, h < j -> N.testbit (wrong_bits w m val) j = false) /\
    h <= p /\ p <= w /\
    (forall j, h <= j -> j < p -> N.testbit val j = true \/ N.testbit (zeros m) j = false) /\
    match mask_in_set w m val with
    | None => p = w
    | Some v => p < w /\ N.testbit val p = false /\ N.testbit (zeros m) p = true /\ bumped w m val p v
    end.
Proof.
  intros W0 W1 M V T. pose proof M as [Mo Mz].
  assert (NZ : wrong_bits w m val <> 0).
  { intros E. apply wrong_bits_zero in E; try assumption. congruence. }
  unfold mask_in_set, overflowing_in_set.
  destruct (N.eqb_spec (wrong_bits w m val) 0) as [E|_]; [contradiction|].
  set (wrong := wrong_bits w m val) in *. set (h := N.log2 wrong).
  assert (Wsmall : wrong < 2 ^ w).
  { apply small_of_bits. intros i L. unfold wrong. rewrite wrong_bits_spec by assumption. destruct (N.ltb_spec i w); [lia|reflexivity]. }
  assert (Hh : h < w) by (apply N.log2_lt_pow2; lia).
  replace (w - 1 - leading_zeros w wrong) with h.
  2:{ unfold leading_zeros. rewrite N.size_log2 by assumption. fold h. lia. }
  set (wm := unot w (fst (overflowing_shl w (umax w) h))).
  assert (Bwm : forall i, N.testbit wm i = (i <? h)) by (intros i; now apply low_mask_bits).
  set (vnz := N.lor (N.lor val (unot w (zeros m))) wm).
  assert (Bv : forall i, N.testbit vnz i = N.testbit val i || ((i <? w) && negb (N.testbit (zeros m) i)) || (i <? h)).
  { intros i. unfold vnz. now rewrite !N.lor_spec, Bwm, unot_bits. }
  destruct (trailing_ones_spec w vnz) as (P1 & P2 & P3). set (p := trailing_ones w vnz) in *. clearbody p.
  exists h, p. split; [now apply N.bit_log2|]. split; [intros j Hj; now apply N.bits_above_log2|].
  assert (HP : h <= p).
  { destruct (N.le_gt_cases h p) as [L|L]; [exact L|]. exfalso. assert (Q : N.testbit vnz p = false) by (apply P3; lia).
    rewrite Bv in Q. apply orb_false_iff in Q as [_ Q]. apply N.ltb_ge in Q. lia. }
  split; [exact HP|]. split; [exact P2|]. split.
  { intros j L1 L2. specialize (P1 j L2). rewrite Bv in P1. destruct (N.ltb_spec j h); [lia|].
    destruct (N.testbit val j); [now left|]. right. destruct (N.testbit (zeros m) j); [|reflexivity].
    rewrite andb_false_r in P1. discriminate. }
  unfold overflowing_shr at 1. 
  assert (WS : wrapping_sub32 (w - 1) p = if p =? w then 2 ^ 32 - 1 else w - 1 - p).
  { unfold wrapping_sub32. destruct (N.eqb_spec p w) as [->|N].
    - replace (w - 1 + 2 ^ 32 - w) with (2 ^ 32 - 1) by lia. now apply N.mod_small.
    - replace (w - 1 + 2 ^ 32 - p) with ((w - 1 - p) + 1 * 2 ^ 32) by lia.
      rewrite N.mod_add by lia. apply N.mod_small. lia. }
  rewrite WS. destruct (N.eqb_spec p w) as [PW|PW].
  { destruct (N.leb_spec w (2 ^ 32 - 1)); [exact PW|lia]. }
  destruct (N.leb_spec w (w - 1 - p)) as [|_]; [lia|].
  assert (PL : p < w) by lia. specialize (P3 PL). rewrite Bv in P3.
  apply orb_false_iff in P3 as [P3 _]. apply orb_false_iff in P3 as [P3 P4].
  destruct (N.ltb_spec p w); [|lia]. cbn [andb] in P4. apply negb_false_iff in P4.
  split; [exact PL|]. split; [exact P3|]. split; [exact P4|].
  rewrite N.mod_small by lia.
  set (free := N.shiftr (umax w) (w - 1 - p)).
  assert (BF : forall i, N.testbit (fst (overflowing_shr w free 1)) i = (i <? p)).
  { intros i. unfold overflowing_shr. cbn [fst]. rewrite N.mod_small by lia. unfold free, umax. rewrite !N.shiftr_spec', ones_bits.
    destruct (N.ltb_spec (i + 1 + (w - 1 - p)) w), (N.ltb_spec i p); try lia; reflexivity. }
  set (fixm := unot w (fst (overflowing_shl w (umax w) p))).
  assert (Bfix : forall i, N.testbit fixm i = (i <? p)) by (intros i; now apply low_mask_bits).
  assert (Fsmall : fixm < 2 ^ w) by (apply unot_small, shl_umax_small).
  set (x := N.lor val (fst (overflowing_shr w free 1))).
  (* x + 1 has bit p set, the bits above p of val, and zeros below *)
  assert (Bx : forall i, N.testbit x i = N.testbit val i || (i <? p)) by (intros i; unfold x; now rewrite N.lor_spec, BF).
  assert (Hx : x + 1 = N.lor (N.ldiff x (N.ones p)) (2 ^ p)).
  { assert (E : x = N.ldiff x (N.ones p) + N.ones p).
    { rewrite N.add_nocarry_lxor.
      - apply N.bits_inj. intros i. rewrite N.lxor_spec, N.ldiff_spec, ones_bits, Bx.
        destruct (i <? p); [now rewrite orb_true_r|]. cbn [negb]. now rewrite andb_true_r, xorb_false_r.
      - apply N.bits_inj_0. intros i. rewrite N.land_spec, N.ldiff_spec, ones_bits. destruct (i <? p); cbn; [now rewrite andb_false_r|apply andb_false_r]. }
    rewrite <- N.lxor_lor.
    - rewrite <- N.add_nocarry_lxor.
      + rewrite E at 1. rewrite N.ones_equiv. pose proof (N.pow_nonzero 2 p ltac:(lia)). lia.
      + apply N.bits_inj_0. intros i. rewrite N.land_spec, N.ldiff_spec, ones_bits, Bx, N.pow2_bits_eqb.
        destruct (N.eqb_spec p i) as [<-|]; [rewrite P3, N.ltb_irrefl; reflexivity|apply andb_false_r].
    - apply N.bits_inj_0. intros i. rewrite N.land_spec, N.ldiff_spec, ones_bits, Bx, N.pow2_bits_eqb.
      destruct (N.eqb_spec p i) as [<-|]; [rewrite P3, N.ltb_irrefl; reflexivity|apply andb_false_r]. }
  assert (Bx1 : forall i, N.testbit (x + 1) i = (N.testbit val i && negb (i <? p)) || (p =? i)).
  { intros i. rewrite Hx, N.lor_spec, N.ldiff_spec, ones_bits, Bx, N.pow2_bits_eqb. destruct (i <? p); [now rewrite !andb_false_r|].
    now rewrite orb_false_r. }
  assert (Sx : x + 1 < 2 ^ w).
  { apply small_of_bits. intros i L. rewrite Bx1, (testbit_high w val i V L). cbn [andb orb]. apply N.eqb_neq. lia. }
  unfold overflowing_add. cbn [fst]. rewrite N.mod_small by exact Sx.
  assert (Bres : forall i, N.testbit (N.lor (N.land (x + 1) (unot w fixm)) (N.land (min_val m) fixm)) i =
     if i <? p then N.testbit (zeros m) i && N.testbit (ones m) i else (i <? w) && (N.testbit val i || (p =? i))).
  { intros i. rewrite N.lor_spec, !N.land_spec, unot_bits, Bfix, Bx1 by exact Fsmall. unfold min_val. rewrite N.land_spec.
    destruct (i <? p); cbn [negb]; rewrite ?andb_false_r, ?andb_true_r, ?orb_false_r, ?orb_false_l; [reflexivity|].
    apply andb_comm. }
  split; [|split; [|split]].
  - apply small_of_bits. intros i L. rewrite Bres. destruct (N.ltb_spec i p); [lia|]. destruct (N.ltb_spec i w); [lia|reflexivity].
  - intros j L. rewrite Bres. destruct (N.ltb_spec j p); [lia|]. destruct (N.eqb_spec p j); [lia|]. rewrite orb_false_r.
    destruct (N.ltb_spec j w); [reflexivity|]. symmetry. now apply (testbit_high w).
  - rewrite Bres, N.ltb_irrefl, N.eqb_refl, orb_true_r. destruct (N.ltb_spec p w); [reflexivity|lia].
  - intros j L. rewrite Bres. destruct (N.ltb_spec j p); [reflexivity|lia].
Qed.

(** The seek never goes back, and is exact for consistent masks. *)
Lemma mask_in_set_gt w m val v : 1 < w -> w < 2 ^ 32 -> mask_ok w m -> val < 2 ^ w -> mask_test m val = false ->
  mask_in_set w m val = Some v -> val < v /\ v < 2 ^ w.
Proof.
  intros W0 W1 M V T E. destruct (in_set_bumped w m val W0 W1 M V T) as (h & p & _ & _ & _ & _ & _ & R).
  rewrite E in R. destruct R as (_ & B & _ & (S & A & C & _)). split; [|exact S].
  apply (lt_by_bit val v p); auto. intros j L. symmetry. auto.
Qed.
Lemma mask_in_set_member w m val : 1 < w -> mask_ok w m -> val < 2 ^ w -> mask_test m val = true -> mask_in_set w m val = Some val.
Proof.
  intros W M V T. unfold mask_in_set, overflowing_in_set. apply (wrong_bits_zero w) in T; try assumption. rewrite T. reflexivity.
Qed.
(** Whatever the mask, no member at or after [val] is skipped. *)
Lemma mask_in_set_lower w m val u : 1 < w -> w < 2 ^ 32 -> mask_ok w m -> val < 2 ^ w ->
  val <= u -> u < 2 ^ w -> mask_test m u = true -> exists v, mask_in_set w m val = Some v /\ v <= u.
Proof.
  intros W0 W1 M V L U T. destruct (mask_test m val) eqn:TV.
  { exists val. rewrite mask_in_set_member by assumption. auto. }
  destruct (in_set_bumped w m val W0 W1 M V TV) as (h & p & H1 & H2 & HP & PW & FR & R).
  assert (LT : val < u) by (destruct (N.eq_dec val u) as [->|]; [congruence|lia]).
  destruct (lt_has_bit _ _ LT) as (d & D1 & D2 & D3).
  apply mask_test_bits in T as [T1 T2].
  assert (DW : d < w) by (destruct (N.lt_ge_cases d w) as [|X]; [assumption|rewrite (testbit_high w u d U X) in D3; discriminate]).
  assert (DH : h <= d).
  { destruct (N.le_gt_cases h d) as [|X]; [assumption|]. exfalso. specialize (D1 h X).
    rewrite wrong_bits_spec in H1 by assumption. apply andb_prop in H1 as [_ H1]. rewrite D1 in H1.
    apply orb_prop in H1 as [H1|H1]; apply andb_prop in H1 as [Y Z].
    - apply negb_true_iff in Y. rewrite (T1 h Z) in Y. discriminate.
    - apply negb_true_iff in Z. rewrite (T2 h Y) in Z. discriminate. }
  assert (DP : p <= d).
  { destruct (N.le_gt_cases p d) as [|X]; [assumption|]. exfalso. destruct (FR d DH X) as [Y|Y]; [congruence|].
    rewrite (T1 d D3) in Y. discriminate. }
  destruct (mask_in_set w m val) as [v|]; [|lia]. exists v. split; [reflexivity|].
  destruct R as (_ & P1 & P2 & (S & A & B & C)).
  destruct (N.eq_dec p d) as [<-|ND].
  - apply (le_by_bits v u p).
    + intros j Lj. destruct (N.eq_dec j p) as [->|]; [congruence|]. rewrite A by lia. apply D1. lia.
    + intros j Lj Bj. rewrite C in Bj by exact Lj. apply andb_prop in Bj as [_ Bj]. now apply T2.
  - apply N.lt_le_incl. apply (lt_by_bit v u d); [|rewrite A by lia; exact D2|exact D3].
    intros j Lj. rewrite A by lia. now apply D1.
Qed.
(** If some number passes the mask the result does too. *)
Lemma mask_in_set_sound w m val v : 1 < w -> w < 2 ^ 32 -> mask_ok w m -> val < 2 ^ w ->
  mask_has_any m = true -> mask_in_set w m val = Some v -> mask_test m v = true /\ val <= v /\ v < 2 ^ w.
Proof.
  intros W0 W1 M V A E. destruct (mask_test m val) eqn:TV.
  { rewrite mask_in_set_member in E by assumption. injection E as <-. split; [assumption|]. split; [lia|assumption]. }
  destruct (mask_in_set_gt w m val v W0 W1 M V TV E) as [L S]. split; [|split; [lia|assumption]].
  destruct (in_set_bumped w m val W0 W1 M V TV) as (h & p & H1 & H2 & HP & PW & FR & R). rewrite E in R.
  destruct R as (_ & P1 & P2 & (_ & B1 & B2 & B3)).
  assert (OZ : forall i, N.testbit (ones m) i = true -> N.testbit (zeros m) i = true).
  { intros i O. unfold mask_has_any in A. apply N.eqb_eq in A. rewrite <- A, N.land_spec in O. now apply andb_prop in O as [O _]. }
  assert (HI : forall i, p < i -> (N.testbit val i = true -> N.testbit (zeros m) i = true) /\ (N.testbit (ones m) i = true -> N.testbit val i = true)).
  { intros i Li. destruct (N.lt_ge_cases i w) as [Lw|Lw].
    2:{ rewrite (testbit_high w val i V Lw), (testbit_high w (ones m) i (proj1 M) Lw). split; discriminate. }
    specialize (H2 i ltac:(lia)). rewrite wrong_bits_spec in H2 by assumption.
    destruct (N.ltb_spec i w); [|lia]. cbn [andb] in H2. apply orb_false_iff in H2 as [X Y].
    split; intros Z; rewrite Z in *.
    - rewrite andb_true_r in X. now apply negb_false_iff in X.
    - cbn [andb] in Y. now apply negb_false_iff in Y. }
  apply mask_test_bits. split; intros i Hi.
  - destruct (N.lt_trichotomy i p) as [X|[->|X]].
    + rewrite B3 in Hi by exact X. now apply andb_prop in Hi as [Hi _].
    + exact P2.
    + rewrite B1 in Hi by exact X. now apply HI.
  - destruct (N.lt_trichotomy i p) as [X|[->|X]].
    + rewrite B3 by exact X. now rewrite Hi, (OZ i Hi).
    + exact B2.
    + rewrite B1 by exact X. now apply HI.
Qed.
Lemma mask_has_any_iff m : mask_has_any m = true <-> exists v, mask_test m v = true.
Proof.
  unfold mask_has_any. rewrite N.eqb_eq. split.
  - intros E. exists (ones m). apply mask_test_bits. split; [|auto]. intros i B. rewrite <- E, N.land_spec in B. now apply andb_prop in B as [B _].
  - intros [v T]. apply mask_test_bits in T as [A B]. apply N.bits_inj. intros i. rewrite N.land_spec.
    destruct (N.testbit (ones m) i) eqn:O; [|apply andb_false_r]. now rewrite (A i (B i O)).
Qed.

(** ** Sets *)
Definition member (s : TestSet) (v : N) : bool := bound_test (bound s) v && mask_test (mask s) v.

Lemma forallb_app_ {A} (f : A -> bool) a b : forallb f (a ++ b) = forallb f a && forallb f b.
Proof. induction a as [|x a IH]; cbn; [reflexivity|]. now rewrite IH, andb_assoc. Qed.
Definition optest (v : N) (t : TestOp * N) : bool := let '(op, rh) := t in uint_func op v rh.

Lemma less_test w b v : bound_ok w b -> v < 2 ^ w ->
  forallb (optest v) (map (pair Less) (opt_list (less w b))) = (v <=? high b).
Proof.
  intros [_ H] V. unfold less, inc. destruct (N.ltb_spec (high b + 1) (2 ^ w)) as [L|L]; cbn.
  - destruct (N.ltb_spec v (high b + 1)), (N.leb_spec v (high b)); try lia; reflexivity.
  - destruct (N.leb_spec v (high b)); [reflexivity|lia].
Qed.
Lemma greater_test w b v : forallb (optest v) (map (pair Greater) (opt_list (greater w b))) = (low b <=? v).
Proof.
  unfold greater, decr. destruct (N.eqb_spec (low b) 0) as [E|E]; cbn.
  - rewrite E. destruct (N.leb_spec 0 v); [reflexivity|lia].
  - destruct (N.ltb_spec (low b - 1) v), (N.leb_spec (low b) v); try lia; reflexivity.
Qed.
Lemma bound_as_eq_test b x v : bound_as_eq b = Some x -> bound_test b v = (v =? x) /\ low b = x /\ high b = x.
Proof.
  unfold bound_as_eq. destruct (N.eqb_spec (high b) (low b)) as [E|]; [|discriminate]. intros Q. injection Q as <-.
  unfold bound_test. rewrite <- E. split; [|auto]. destruct (N.leb_spec v (high b)), (N.leb_spec (high b) v), (N.eqb_spec v (high b)); try lia; reflexivity.
Qed.
Lemma bound_iter_test w b v : bound_ok w b -> v < 2 ^ w -> forallb (optest v) (bound_iter w b) = bound_test b v.
Proof.
  intros B V. unfold bound_iter. destruct (bound_as_eq b) as [x|] eqn:E.
  - destruct (bound_as_eq_test b x v E) as [-> _]. cbn. apply andb_true_r.
  - rewrite forallb_app_, less_test, greater_test by assumption. reflexivity.
Qed.
Lemma mask_rule_tests w m v : mask_ok w m -> v < 2 ^ w ->
  forallb (optest v) (if ones m =? 0 then [] else [(Mask1, ones m)]) = uint_func Mask1 v (ones m) /\
  forallb (optest v) (if zeros m =? umax w then [] else [(Mask0, zeros m)]) = uint_func Mask0 v (zeros m).
Proof.
  intros [O Z] V. split.
  - destruct (N.eqb_spec (ones m) 0) as [->|]; cbn; [|now rewrite andb_true_r]. now rewrite N.land_0_r.
  - destruct (N.eqb_spec (zeros m) (umax w)) as [->|]; cbn [forallb optest uint_func]; [|now rewrite andb_true_r].
    symmetry. apply N.eqb_eq. apply N.bits_inj. intros i. rewrite N.lor_spec. unfold umax. rewrite !ones_bits.
    destruct (N.ltb_spec i w); [apply orb_true_r|]. now rewrite (testbit_high w v i V).
Qed.
Lemma has_any_member w s v : 1 < w -> w < 2 ^ 32 -> set_ok w s -> v < 2 ^ w -> member s v = true ->
  exists x, min_value w s = Some x /\ x <= v.
Proof.
  intros W0 W1 [B M] V H. apply andb_prop in H as [H1 H2]. unfold bound_test in H1. apply andb_prop in H1 as [H3 H4].
  apply N.leb_le in H3, H4. destruct (mask_in_set_lower w (mask s) (low (bound s)) v W0 W1 M (proj1 B) H4 V H2) as (x & E & L).
  exists x. unfold min_value. rewrite E. destruct (N.ltb_spec (high (bound s)) x); [lia|auto].
Qed.
Lemma test_member w s v : 1 < w -> w < 2 ^ 32 -> set_ok w s -> v < 2 ^ w -> test w s v = member s v.
Proof.
  intros W0 W1 S V. unfold test, rules. change (fun '(op, rh) => uint_func op v rh) with (optest v).
  unfold has_any. destruct (min_value w s) as [x|] eqn:E; cbn [negb].
  - rewrite !forallb_app_, bound_iter_test by (apply S || assumption).
    destruct (mask_rule_tests w (mask s) v (proj2 S) V) as [-> ->]. unfold member, mask_test. f_equal. apply andb_comm.
  - cbn. destruct (N.ltb_spec v 0); [lia|]. destruct (member s v) eqn:Q; [|reflexivity].
    destruct (has_any_member w s v W0 W1 S V Q) as (y & Y & _). congruence.
Qed.

(** Adding a test. *)
Lemma pow2_pos w : 0 < 2 ^ w. Proof. apply N.neq_0_lt_0, N.pow_nonzero. lia. Qed.
Lemma umax_small w : umax w < 2 ^ w. Proof. apply ones_small. Qed.
Lemma add_ok w s op x : set_ok w s -> x < 2 ^ w -> set_ok w (add w s op x).
Proof.
  intros [[L H] [O Z]] X. pose proof (pow2_pos w) as P. pose proof (umax_small w) as U. split.
  - split; destruct op; cbn [add bound bound_add]; auto; try (cbn; lia).
    + unfold decr. destruct (x =? 0); cbn; [exact U|exact L].
    + unfold inc. destruct (N.ltb_spec (x + 1) (2 ^ w)); cbn; [lia|exact U].
    + unfold decr. destruct (N.eqb_spec x 0); cbn; lia.
    + unfold inc. destruct (N.ltb_spec (x + 1) (2 ^ w)); cbn; [lia|lia].
  - split; destruct op; cbn [add mask mask_add ones zeros]; auto.
    + apply small_of_bits. intros i Li. rewrite N.lor_spec, (testbit_high w _ i O Li), (testbit_high w _ i X Li). reflexivity.
    + apply small_of_bits. intros i Li. rewrite N.land_spec, (testbit_high w _ i X Li). apply andb_false_r.
Qed.
Lemma empty_bound_test w v : 0 < w -> v < 2 ^ w -> bound_test (bound_empty w) v = false.
Proof.
  intros W V. unfold bound_test, bound_empty. cbn [low high]. rewrite umax_val.
  assert (2 ^ 1 <= 2 ^ w) by (apply N.pow_le_mono_r; lia). change (2 ^ 1) with 2 in *.
  destruct (N.leb_spec v 0), (N.leb_spec (2 ^ w - 1) v); try reflexivity. lia.
Qed.
Lemma bound_add_test w b op x v : 0 < w -> bound_ok w b -> x < 2 ^ w -> v < 2 ^ w ->
  bound_test (bound_add w b op x) v =
  bound_test b v && match op with Equal => v =? x | Less => v <? x | Greater => x <? v | _ => true end.
Proof.
  intros W [L H] X V. destruct op; cbn [bound_add]; rewrite ?andb_true_r; try reflexivity.
  - unfold bound_test. cbn [low high].
    destruct (N.leb_spec v (N.min (high b) x)), (N.leb_spec (N.max (low b) x) v), (N.leb_spec v (high b)),
      (N.leb_spec (low b) v), (N.eqb_spec v x); cbn; try reflexivity; lia.
  - unfold decr. destruct (N.eqb_spec x 0) as [->|NZ].
    + rewrite empty_bound_test by assumption. destruct (N.ltb_spec v 0); [lia|]. now rewrite andb_false_r.
    + unfold bound_test; cbn [low high].
      destruct (N.leb_spec v (N.min (high b) (x - 1))), (N.leb_spec (low b) v), (N.leb_spec v (high b)), (N.ltb_spec v x);
        cbn; try reflexivity; lia.
  - unfold inc. destruct (N.ltb_spec (x + 1) (2 ^ w)).
    + unfold bound_test; cbn [low high].
      destruct (N.leb_spec v (high b)), (N.leb_spec (N.max (low b) (x + 1)) v), (N.leb_spec (low b) v), (N.ltb_spec x v);
        cbn; try reflexivity; lia.
    + rewrite empty_bound_test by assumption. destruct (N.ltb_spec x v); [lia|]. now rewrite andb_false_r.
Qed.
Lemma and_iff (a b : bool) : (a = true <-> b = true) -> a = b.
Proof. destruct a, b; intros [A B]; auto. symmetry; auto. Qed.
Lemma mask_add_test m op x v :
  mask_test (mask_add m op x) v = mask_test m v && match op with Mask0 => uint_func Mask0 v x | Mask1 => uint_func Mask1 v x | _ => true end.
Proof.
  destruct op; cbn [mask_add]; rewrite ?andb_true_r; try reflexivity.
  - apply and_iff. rewrite andb_true_iff, !mask_test_bits. cbn [ones zeros].
    rewrite uint_func_holds. cbn [holds].
    setoid_rewrite N.land_spec. setoid_rewrite andb_true_iff. setoid_rewrite bit_testbit. firstorder.
  - apply and_iff. rewrite andb_true_iff, !mask_test_bits. cbn [ones zeros].
    rewrite uint_func_holds. cbn [holds].
    setoid_rewrite N.lor_spec. setoid_rewrite orb_true_iff. setoid_rewrite bit_testbit. firstorder.
Qed.
Lemma member_add w s op x v : 0 < w -> set_ok w s -> x < 2 ^ w -> v < 2 ^ w ->
  member (add w s op x) v = member s v && uint_func op v x.
Proof.
  intros W [B M] X V. unfold member. cbn [add bound mask]. rewrite mask_add_test, bound_add_test by assumption.
  destruct op; cbn [uint_func]; rewrite ?andb_true_r; try reflexivity;
    destruct (bound_test (bound s) v), (mask_test (mask s) v); cbn; rewrite ?andb_true_r, ?andb_false_r; reflexivity.
Qed.
Lemma default_ok w : set_ok w (set_default w).
Proof. pose proof (pow2_pos w). pose proof (umax_small w). split; split; cbn; auto. Qed.
Lemma member_default w v : v < 2 ^ w -> member (set_default w) v = true.
Proof.
  intros V. unfold member. apply andb_true_intro. split.
  - unfold bound_test. cbn. rewrite umax_val. destruct (N.leb_spec v (2 ^ w - 1)), (N.leb_spec 0 v); try lia; reflexivity.
  - apply mask_test_bits. cbn [set_default mask mask_default ones zeros]. split; intros i; [|now rewrite N.bits_0].
    unfold umax. rewrite ones_bits. destruct (N.ltb_spec i w); [auto|]. now rewrite (testbit_high w v i V).
Qed.
Lemma fold_add_ok w ts s : set_ok w s -> operands_ok w ts -> set_ok w (fold_left (fun s t => add w s (fst t) (snd t)) ts s).
Proof. revert s. induction ts as [|t ts IH]; cbn; intros s S T; [assumption|]. inversion T; subst. apply IH; [now apply add_ok|assumption]. Qed.
Lemma fold_add_member w ts s v : 0 < w -> set_ok w s -> operands_ok w ts -> v < 2 ^ w ->
  (member (fold_left (fun s t => add w s (fst t) (snd t)) ts s) v = true <-> member s v = true /\ accepts ts v).
Proof.
  intros W. revert s. induction ts as [|t ts IH]; cbn; intros s S T V.
  - split; [|tauto]. intros H; split; [assumption|constructor].
  - inversion T; subst. rewrite IH by (assumption || now apply add_ok). rewrite member_add by assumption.
    rewrite andb_true_iff, uint_func_holds. split.
    + intros [[A B] C]. split; [assumption|]. now constructor.
    + intros [A B]. inversion B; subst. tauto.
Qed.
Lemma built_ok w ts : operands_ok w ts -> set_ok w (built w ts).
Proof. intros T. apply fold_add_ok; [apply default_ok|assumption]. Qed.
Lemma built_member w ts v : 0 < w -> operands_ok w ts -> v < 2 ^ w -> (member (built w ts) v = true <-> accepts ts v).
Proof.
  intros W T V. unfold built. rewrite fold_add_member by (assumption || apply default_ok).
  rewrite member_default by assumption. tauto.
Qed.
Lemma try_build_ok w s ts s' : try_build w s ts = Ok s' -> s' = fold_left (fun s t => add w s (fst t) (snd t)) ts s.
Proof.
  revert s. induction ts as [|t ts IH]; cbn; intros s H; [congruence|].
  unfold try_add in H. destruct (has_any w _); cbn in H; [|discriminate]. now apply IH.
Qed.

(** Least member. *)
Lemma min_value_none w s v : 1 < w -> w < 2 ^ 32 -> set_ok w s -> v < 2 ^ w -> min_value w s = None -> member s v = false.
Proof.
  intros W0 W1 S V E. destruct (member s v) eqn:Q; [|reflexivity].
  destruct (has_any_member w s v W0 W1 S V Q) as (y & Y & _). congruence.
Qed.
Lemma min_value_some w s x : 1 < w -> w < 2 ^ 32 -> set_ok w s -> mask_has_any (mask s) = true -> min_value w s = Some x ->
  x < 2 ^ w /\ member s x = true /\ (forall y, y < 2 ^ w -> member s y = true -> x <= y).
Proof.
  intros W0 W1 S A E. split; [|split].
  - unfold min_value in E. destruct (mask_in_set _ _ _) as [z|] eqn:Z; [|discriminate].
    apply mask_in_set_sound in Z; try assumption; try apply S. destruct (N.ltb_spec (high (bound s)) z); [discriminate|].
    injection E as <-. apply Z.
  - unfold min_value in E. destruct (mask_in_set _ _ _) as [z|] eqn:Z; [|discriminate].
    apply mask_in_set_sound in Z; try assumption; try apply S. destruct (N.ltb_spec (high (bound s)) z); [discriminate|].
    injection E as <-. destruct Z as (T & L & _). unfold member, bound_test. rewrite T, andb_true_r.
    apply andb_true_intro. split; apply N.leb_le; assumption.
  - intros y Y M. destruct (has_any_member w s y W0 W1 S Y M) as (z & Z & L). congruence.
Qed.
Lemma member_mask s v : member s v = true -> mask_has_any (mask s) = true.
Proof. intros H. apply andb_prop in H as [_ H]. apply mask_has_any_iff. eauto. Qed.

(** [info]. *)
Lemma info_exact w s u v : 1 < w -> w < 2 ^ 32 -> set_ok w s -> u < 2 ^ w -> member s u = true -> v < 2 ^ w ->
  exists i, info w s v = Ok i /\ in_set i = member s v /\ next_member w (fun x => member s x = true) v (sval i).
Proof.
  intros W0 W1 S U MU V. pose proof (member_mask s u MU) as A. destruct (S) as [[SL SH] SM].
  assert (low (bound s) <= high (bound s)) as LH.
  { apply andb_prop in MU as [Q _]. unfold bound_test in Q. apply andb_prop in Q as [Q1 Q2]. apply N.leb_le in Q1, Q2. lia. }
  assert (forall y, member s y = true <-> low (bound s) <= y /\ y <= high (bound s) /\ mask_test (mask s) y = true) as MM.
  { intros y. unfold member, bound_test. rewrite !andb_true_iff, !N.leb_le. tauto. }
  unfold info, bound_cmp.
  destruct (N.compare_spec v (low (bound s))) as [C|C|C], (N.compare_spec v (high (bound s))) as [D|D|D]; try lia; cbn [obind].
  3:{ (* below *)
    eexists; split; [reflexivity|]. cbn [in_set sval]. split.
    { symmetry. apply not_true_is_false. rewrite MM. lia. }
    destruct (has_any_member w s u W0 W1 S U MU) as (x & X & L). pose proof X as X'.
    apply min_value_some in X as (Xs & Xm & Xl); try assumption.
    unfold min_value in X'. destruct (mask_in_set _ _ _) as [z|] eqn:Z; [|discriminate].
    destruct (N.ltb_spec (high (bound s)) z); [discriminate|]. injection X' as ->. cbn. split; [|auto].
    apply MM in Xm. lia. }
  5:{ eexists; split; [reflexivity|]. cbn [in_set sval]. split.
    { symmetry. apply not_true_is_false. rewrite MM. lia. }
    cbn. intros y Y _ Q. apply MM in Q. lia. }
  all: assert (low (bound s) <= v /\ v <= high (bound s)) as [C1 D1] by lia;
    destruct (mask_in_set w (mask s) v) as [x|] eqn:E.
  all: try solve [eexists; split; [reflexivity|]; cbn [in_set sval]; split;
    [symmetry; apply not_true_is_false; rewrite MM; intros (_ & _ & T);
       rewrite mask_in_set_member in E by assumption; discriminate
    |cbn; intros y Y Y2 Q; apply MM in Q;
      destruct (mask_in_set_lower w (mask s) v y W0 W1 SM V Y Y2 ltac:(apply Q)) as (? & ? & _); congruence]].
  all: pose proof E as E'; apply mask_in_set_sound in E' as (T & L & X); try assumption;
    destruct (N.ltb_spec (high (bound s)) x) as [B|B];
    [eexists; split; [reflexivity|]; cbn [in_set sval]; split;
      [symmetry; apply not_true_is_false; rewrite MM; intros (_ & _ & T');
       rewrite mask_in_set_member in E by assumption; injection E as E; lia
      |cbn; intros y Y Y2 Q; apply MM in Q;
       destruct (mask_in_set_lower w (mask s) v y W0 W1 SM V Y Y2 ltac:(apply Q)) as (z & Z & L2); rewrite E in Z; injection Z as <-; lia]
    |eexists; split; [reflexivity|]; cbn [in_set sval]; split;
      [apply and_iff; rewrite N.eqb_eq, MM; split;
        [intros <-; auto
        |intros (_ & _ & T'); rewrite mask_in_set_member in E by assumption; injection E as E; auto]
      |cbn; split; [assumption|]; split; [assumption|]; split; [apply MM; lia || (split; [lia|auto])
      |intros y Y Y2 Q; apply MM in Q;
       destruct (mask_in_set_lower w (mask s) v y W0 W1 SM V Y Y2 ltac:(apply Q)) as (z & Z & L2); rewrite E in Z; injection Z as <-; assumption]]].
Qed.

(** [rules]. *)
Lemma rules_operands w s : set_ok w s -> operands_ok w (rules w s).
Proof.
  intros [[L H] [O Z]]. pose proof (pow2_pos w). unfold rules, operands_ok. destruct (negb _); [constructor; [cbn; lia|constructor]|].
  apply Forall_app. split; [|apply Forall_app; split].
  - unfold bound_iter. destruct (bound_as_eq (bound s)) as [x|] eqn:E.
    + unfold bound_as_eq in E. destruct (N.eqb_spec (high (bound s)) (low (bound s))); [|discriminate]. injection E as <-. constructor; [assumption|constructor].
    + apply Forall_app. unfold less, greater, inc, decr. split.
      * destruct (N.ltb_spec (high (bound s) + 1) (2 ^ w)); cbn; constructor; [assumption|constructor].
      * destruct (N.eqb_spec (low (bound s)) 0); cbn; constructor; [cbn; lia|constructor].
  - destruct (_ =? _); constructor; [assumption|constructor].
  - destruct (_ =? _); constructor; [assumption|constructor].
Qed.
Lemma forallb_accepts v ts : forallb (fun '(op, rh) => uint_func op v rh) ts = true <-> accepts ts v.
Proof.
  unfold accepts. induction ts as [|[op x] ts IH]; cbn; [split; [constructor|auto]|].
  rewrite andb_true_iff, IH, uint_func_holds. split; [intros []; now constructor|]. intros H; inversion H; subst; auto.
Qed.

(** Compiled tests. *)
Lemma compile_exact w s v : 1 < w -> w < 2 ^ 32 -> set_ok w s -> has_any w s = true -> v < 2 ^ w ->
  compiled_test (compile_stest w s) v = member s v.
Proof.
  intros W0 W1 S A V. unfold compile_stest.
  destruct (set_eqb s (set_default w)) eqn:E.
  { cbn. unfold set_eqb, bound_eqb, mask_eqb in E. rewrite !andb_true_iff, !N.eqb_eq in E. destruct E as [[E1 E2] [E3 E4]].
    destruct s as [[l h] [o z]]; cbn in *; subst. symmetry. exact (member_default w v V). }
  destruct (bound_as_eq (bound s)) as [x|] eqn:B.
  - destruct (bound_as_eq_test (bound s) x v B) as (T & L & H). cbn. rewrite andb_true_r. unfold member. rewrite T.
    destruct (N.eqb_spec v x) as [->|]; [|reflexivity]. cbn.
    destruct (mask_test (mask s) x) eqn:Q; [reflexivity|exfalso].
    unfold has_any, min_value in A. rewrite L, H in A. destruct (mask_in_set w (mask s) x) as [y|] eqn:Y; [|discriminate].
    destruct (N.ltb_spec x y); [discriminate|]. apply mask_in_set_gt in Y; try assumption; [|apply S]. lia.
  - cbn [compiled_test]. change (fun '(op, rh) => uint_func op v rh) with (optest v).
    rewrite !forallb_app_, less_test, greater_test by (apply S || assumption).
    destruct (mask_rule_tests w (mask s) v (proj2 S) V) as [M1 M0].
    replace (forallb (optest v) (map (pair Mask0) (opt_list (mask_opt (umax w) (zeros (mask s)))))) with (uint_func Mask0 v (zeros (mask s))).
    2:{ unfold mask_opt. destruct (zeros (mask s) =? umax w); rewrite <- M0; reflexivity. }
    replace (forallb (optest v) (map (pair Mask1) (opt_list (mask_opt 0 (ones (mask s)))))) with (uint_func Mask1 v (ones (mask s))).
    2:{ unfold mask_opt. destruct (ones (mask s) =? 0); rewrite <- M1; reflexivity. }
    unfold member, bound_test, mask_test. rewrite <- !andb_assoc. reflexivity.
Qed.
Lemma compile_none w s : compile_stest w s = None -> s = set_default w.
Proof.
  unfold compile_stest. destruct (set_eqb s (set_default w)) eqn:E; [|destruct (bound_as_eq _); discriminate]. intros _.
  unfold set_eqb, bound_eqb, mask_eqb in E. rewrite !andb_true_iff, !N.eqb_eq in E. destruct E as [[E1 E2] [E3 E4]].
  destruct s as [[l h] [o z]]; cbn in *; subst. reflexivity.
Qed.
Lemma all_members_default w s : set_ok w s -> (forall v, v < 2 ^ w -> member s v = true) -> s = set_default w.
Proof.
  intros [[L H] [O Z]] A. pose proof (pow2_pos w) as P. pose proof (umax_small w) as U.
  pose proof (A 0 P) as A0. pose proof (A (umax w) U) as A1. unfold member, bound_test in A0, A1.
  rewrite !andb_true_iff, !N.leb_le, mask_test_bits in A0, A1. destruct A0 as [[_ A0] [_ B0]], A1 as [[A1 _] [B1 _]].
  assert (high (bound s) = umax w) by (clear - A1 H P; rewrite umax_val in A1 |- *; lia). assert (low (bound s) = 0) by lia.
  assert (ones (mask s) = 0).
  { apply N.bits_inj. intros i. rewrite N.bits_0. destruct (N.testbit (ones (mask s)) i) eqn:T; [|reflexivity]. apply B0 in T. now rewrite N.bits_0 in T. }
  assert (zeros (mask s) = umax w).
  { apply N.bits_inj. intros i. specialize (B1 i). unfold umax in *. rewrite ones_bits in *. destruct (N.ltb_spec i w); [auto|]. now apply testbit_high with w. }
  destruct s as [[l h] [o z]]; cbn in *; subst. reflexivity.
Qed.

(** [enumerate]. *)
Lemma inc_some w r x : inc w r = Some x -> x = r + 1 /\ x < 2 ^ w.
Proof. unfold inc. destruct (N.ltb_spec (r + 1) (2 ^ w)); [|discriminate]. intros E; injection E as <-. auto. Qed.
Lemma inc_none w r : inc w r = None -> 2 ^ w <= r + 1.
Proof. unfold inc. destruct (N.ltb_spec (r + 1) (2 ^ w)); [discriminate|auto]. Qed.
Lemma enumerate_from_spec n w s u from next : 1 < w -> w < 2 ^ 32 -> set_ok w s -> u < 2 ^ w -> member s u = true ->
  next_member w (fun x => member s x = true) from next ->
  let l := enumerate_from n w s next in
  StronglySorted N.lt l /\ Forall (fun x => from <= x /\ x < 2 ^ w /\ member s x = true) l /\
  (forall y, from <= y -> y < 2 ^ w -> member s y = true -> In y l \/ length l = n /\ Forall (fun x => x < y) l).
Proof.
  intros W0 W1 S U MU. revert from next. induction n as [|n IH]; intros from next NM; cbn [enumerate_from].
  - split; [constructor|]. split; [constructor|]. intros y _ _ _. right. split; [reflexivity|constructor].
  - destruct next as [r|].
    2:{ split; [constructor|]. split; [constructor|]. intros y A B C. exfalso. exact (NM y A B C). }
    destruct NM as (N1 & N2 & N3 & N4).
    assert (next_member w (fun x => member s x = true) (r + 1) match inc w r with Some v => info_val w s v | None => None end) as NM'.
    { destruct (inc w r) as [v|] eqn:I.
      - apply inc_some in I as [-> Iv]. destruct (info_exact w s u (r + 1) W0 W1 S U MU Iv) as (i & E & _ & NX). unfold info_val. now rewrite E.
      - apply inc_none in I. cbn. intros y A B. lia. }
    destruct (IH _ _ NM') as (A & B & C). split; [|split].
    + constructor; [exact A|]. eapply Forall_impl; [|exact B]. cbn. intros a Ha. lia.
    + constructor; [auto|]. eapply Forall_impl; [|exact B]. cbn. intros a Ha. split; [lia|tauto].
    + intros y Y1 Y2 Y3. pose proof (N4 y Y1 Y2 Y3) as Y4. destruct (N.eq_dec r y) as [->|NE]; [left; now left|].
      destruct (C y ltac:(lia) Y2 Y3) as [Q|[Q1 Q2]]; [left; now right|]. right. cbn. split; [now f_equal|]. constructor; [lia|assumption].
Qed.

(** ** Depth sets *)
Lemma shl_bit r i : r < 32 -> N.testbit (N.land (N.shiftl 1 r) (N.ones 32)) i = (i =? r).
Proof.
  intros R. rewrite N.land_spec, ones_bits. destruct (N.ltb_spec i r) as [L|L].
  - rewrite N.shiftl_spec_low by assumption. cbn. destruct (N.eqb_spec i r); [lia|reflexivity].
  - rewrite N.shiftl_spec_high' by assumption. destruct (N.eqb_spec i r) as [->|NE].
    + rewrite N.sub_diag. destruct (N.ltb_spec r 32); [reflexivity|lia].
    + replace (N.testbit 1 (i - r)) with false; [reflexivity|]. symmetry. apply N.bits_above_log2. change (N.log2 1) with 0. lia.
Qed.
Lemma land_zero_iff a b : N.land a b = 0 <-> forall i, N.testbit a i && N.testbit b i = false.
Proof.
  split; [intros E i; rewrite <- N.land_spec, E; apply N.bits_0|]. intros H. apply N.bits_inj. intros i. now rewrite N.land_spec, N.bits_0.
Qed.
Lemma bit_contains_spec s d : bit_contains s d = (d <? 32) && N.testbit s d.
Proof.
  unfold bit_contains, bit_shl32. destruct (N.ltb_spec d 32) as [L|L]; [|now rewrite N.land_0_r].
  cbn [andb]. destruct (N.testbit s d) eqn:T.
  - apply negb_true_iff. apply N.eqb_neq. intros E. apply land_zero_iff with (i := d) in E. rewrite shl_bit, T, N.eqb_refl in E by assumption. discriminate.
  - apply negb_false_iff. apply N.eqb_eq. apply land_zero_iff. intros i. rewrite shl_bit by assumption. destruct (N.eqb_spec i d) as [->|]; [now rewrite T|apply andb_false_r].
Qed.
Lemma from_el_iter_spec l d : d < 32 -> N.testbit (from_el_iter l) d = existsb (N.eqb d) l.
Proof.
  intros D. unfold from_el_iter.
  assert (forall a, N.testbit (fold_left (fun this i => N.lor this match bit_shl32 1 i with Some b => b | None => 0 end) l a) d = N.testbit a d || existsb (N.eqb d) l) as H.
  { induction l as [|x l IH]; intros a; cbn [fold_left existsb]; [now rewrite orb_false_r|].
    rewrite IH, N.lor_spec. rewrite <- orb_assoc. f_equal. f_equal. unfold bit_shl32.
    destruct (N.ltb_spec x 32); [now apply shl_bit|]. rewrite N.bits_0. symmetry. apply N.eqb_neq. lia. }
  rewrite H. now rewrite N.bits_0.
Qed.
Lemma from_rules_spec t d : bit_contains (from_rules t) d = (d <=? 8) && test 8 t d.
Proof.
  rewrite bit_contains_spec. destruct (N.ltb_spec d 32) as [D|D].
  2:{ destruct (N.leb_spec d 8); [lia|reflexivity]. }
  cbn [andb]. unfold from_rules. rewrite from_el_iter_spec by assumption. apply and_iff. rewrite existsb_exists, andb_true_iff, N.leb_le. split.
  - intros (x & I & E). apply N.eqb_eq in E. subst x. apply filter_In in I as [I T]. split; [|assumption]. cbn in I. lia.
  - intros [L T]. exists d. split; [|apply N.eqb_refl]. apply filter_In. split; [|assumption]. cbn. lia.
Qed.
Lemma tz_from_spec n i a : (exists j, i <= j /\ j < i + N.of_nat n /\ N.testbit a j = true) ->
  let r := trailing_zeros_from n i a in i <= r /\ N.testbit a r = true /\ forall j, i <= j -> j < r -> N.testbit a j = false.
Proof.
  revert i. induction n as [|n IH]; intros i (j & L1 & L2 & T); [lia|]. cbn [trailing_zeros_from].
  destruct (N.testbit a i) eqn:E; [split; [lia|split; [assumption|intros; lia]]|].
  destruct (IH (i + 1)) as (A & B & C).
  { exists j. split; [|split; [lia|assumption]]. destruct (N.eq_dec i j); [congruence|lia]. }
  split; [lia|]. split; [assumption|]. intros k K1 K2. destruct (N.eq_dec k i) as [->|]; [assumption|]. apply C; lia.
Qed.
Lemma shl_ones_bit r i : i < 32 -> N.testbit (N.land (N.shiftl (N.ones 32) r) (N.ones 32)) i = (r <=? i).
Proof.
  intros I. rewrite N.land_spec, ones_bits. destruct (N.ltb_spec i 32); [|lia]. rewrite andb_true_r.
  destruct (N.leb_spec r i).
  - rewrite N.shiftl_spec_high', ones_bits by assumption. apply N.ltb_lt. lia.
  - now apply N.shiftl_spec_low.
Qed.
Definition depth_set (s : N) : Prop := s < 2 ^ 32.
Lemma next_depth_spec s d : depth_set s ->
  match next_depth s d with
  | Some x => d < x /\ x < 32 /\ N.testbit s x = true /\ forall y, d < y -> N.testbit s y = true -> x <= y
  | None => forall y, d < y -> N.testbit s y = false
  end.
Proof.
  intros S. unfold next_depth, bit_shl32. destruct (N.ltb_spec (d + 1) 32) as [D|D].
  2:{ intros y Y. apply testbit_high with 32; [exact S|lia]. }
  set (m := N.land (N.shiftl (N.ones 32) (d + 1)) (N.ones 32)).
  assert (forall i, N.testbit (N.land s m) i = (d <? i) && N.testbit s i) as B.
  { intros i. rewrite N.land_spec. destruct (N.ltb_spec i 32) as [I|I].
    - unfold m. rewrite shl_ones_bit by assumption. rewrite andb_comm. f_equal. destruct (N.leb_spec (d + 1) i), (N.ltb_spec d i); try lia; reflexivity.
    - rewrite (testbit_high 32 s i S I). now rewrite andb_false_r. }
  destruct (N.eqb_spec (N.land s m) 0) as [E|E].
  - intros y Y. specialize (B y). rewrite E, N.bits_0 in B. destruct (N.ltb_spec d y); [|lia]. now symmetry.
  - assert (exists j, 0 <= j /\ j < 0 + N.of_nat 32 /\ N.testbit (N.land s m) j = true) as X.
    { exists (N.log2 (N.land s m)). split; [lia|]. pose proof (N.bit_log2 _ E) as Q. split; [|assumption].
      rewrite B in Q. apply andb_prop in Q as [_ Q]. destruct (N.lt_ge_cases (N.log2 (N.land s m)) 32) as [G|G]; [exact G|].
      rewrite (testbit_high 32 s _ S G) in Q. discriminate. }
    pose proof (tz_from_spec 32 0 (N.land s m) X) as Y. cbv zeta in Y. remember (trailing_zeros_from 32 0 (N.land s m)) as r. destruct Y as (_ & Y1 & Y2).
    rewrite B in Y1. apply andb_prop in Y1 as [Y1 Y3]. apply N.ltb_lt in Y1. split; [assumption|]. split.
    { destruct (N.lt_ge_cases r 32) as [G|G]; [exact G|]. rewrite (testbit_high 32 s _ S G) in Y3. discriminate. }
    split; [assumption|]. intros y G T. destruct (N.le_gt_cases r y); [assumption|]. specialize (Y2 y ltac:(lia) ltac:(assumption)).
    rewrite B, T in Y2. destruct (N.ltb_spec d y); [discriminate|lia].
Qed.
Lemma from_rules_small t : depth_set (from_rules t).
Proof.
  unfold depth_set, from_rules, from_el_iter. apply small_of_bits. intros i I.
  assert (forall l a, N.testbit a i = false -> N.testbit (fold_left (fun this i => N.lor this match bit_shl32 1 i with Some b => b | None => 0 end) l a) i = false) as H.
  { induction l as [|x l IH]; intros a A; cbn; [assumption|]. apply IH. rewrite N.lor_spec, A. cbn [orb]. unfold bit_shl32.
    destruct (N.ltb_spec x 32); [|apply N.bits_0]. rewrite shl_bit by assumption. apply N.eqb_neq. lia. }
  apply H. apply N.bits_0.
Qed.

(** Positions. *)
Lemma zip_members_picks {A} w s (l : list A) at_ : 1 < w -> w < 2 ^ 32 -> set_ok w s -> at_ + lenN l <= 2 ^ w ->
  picks (fun i => member s i = true) at_ l (zip_members w s at_ l).
Proof.
  intros W0 W1 S. revert at_. induction l as [|a l IH]; intros at_ L; [constructor|].
  assert (lenN (a :: l) = 1 + lenN l) as E by (unfold lenN; cbn [length]; lia). rewrite E in L. cbn [zip_members]. unfold member_next.
  destruct (N.ltb_spec (high (bound s)) at_) as [H|H].
  - clear IH. revert at_ H L E. induction (a :: l) as [|b m IHm]; intros at_ H L E; [constructor|]. apply picks_out.
    + unfold member, bound_test. destruct (N.leb_spec at_ (high (bound s))); [lia|]. cbn. discriminate.
    + assert (forall x, high (bound s) < x -> picks (fun i => member s i = true) x m []) as G.
      { clear. induction m as [|c m IH]; intros x X; [constructor|]. apply picks_out; [|apply IH; lia].
        unfold member, bound_test. destruct (N.leb_spec x (high (bound s))); [lia|]. cbn. discriminate. }
      apply G. lia.
  - assert (at_ < 2 ^ w) as V by lia. rewrite test_member by assumption.
    destruct (inc w at_) as [nt|] eqn:I.
    + apply inc_some in I as [-> I]. destruct (member s at_) eqn:M; constructor; try congruence; apply IH; lia.
    + apply inc_none in I. assert (lenN l = 0) as Z by lia.
      assert (l = []) as -> by (destruct l; [reflexivity|unfold lenN in Z; cbn [length] in Z; lia]).
      destruct (member s at_) eqn:M; constructor; try congruence; constructor.
Qed.
