(** Fixed size byte formats (C44). *)
From Verif Require Import Bytes ModelAbe SpecAbe ProofAbe ModelFmt SpecFmt ProofFmt.
Ltac Zify.zify_post_hook ::= Z.div_mod_to_equations.

(** ** Fitting and trimming *)
Theorem C44_fit L fill b v :
  (fit_back fill L b = Ok v <-> left_padded fill L b v) /\
  (fit_front L b = Ok v <-> right_padded 0 L b v) /\
  (fit L b = Ok v <-> v = b /\ lenN b = L) /\
  ((exists e, fit_back fill L b = Err e) <-> L < lenN b).
Proof.
  unfold fit_back, fit_front, fit, left_padded, right_padded. split; [|split; [|split]].
  - destruct (N.ltb_spec L (lenN b)) as [G|G]; split.
    + discriminate.
    + intros (n & -> & E). rewrite lenN_app in E. lia.
    + intros [= <-]. eexists. split; [reflexivity|]. rewrite lenN_app, lenN_repeat. lia.
    + intros (n & -> & E). rewrite lenN_app, lenN_repeat in E. f_equal. f_equal. f_equal. lia.
  - destruct (N.ltb_spec L (lenN b)) as [G|G]; split.
    + discriminate.
    + intros (n & -> & E). rewrite lenN_app in E. lia.
    + intros [= <-]. eexists. split; [reflexivity|]. rewrite lenN_app, lenN_repeat. lia.
    + intros (n & -> & E). rewrite lenN_app, lenN_repeat in E. f_equal. f_equal. f_equal. lia.
  - destruct (N.eqb_spec (lenN b) L) as [G|G]; cbn [negb].
    + unfold fit_front. assert ((L <? lenN b) = false) as -> by lia. replace (N.to_nat (L - lenN b)) with 0%nat by lia. cbn [repeat]. rewrite app_nil_r.
      split; [intros [= <-]; now split|intros [-> _]; reflexivity].
    + split; [discriminate|intros [_ E]; contradiction].
  - destruct (N.ltb_spec L (lenN b)); split; [trivial|now eexists|intros [e E]; discriminate|lia].
Qed.
Print Assumptions C44_fit.
Theorem C44_trim x b v : cut_prefixeq x b = v <-> trimmed x b v.
Proof. split; [intros <-; apply cut_trimmed|]. intros H. apply (trimmed_fun x b); [apply cut_trimmed|assumption]. Qed.
Print Assumptions C44_trim.
Theorem C44_trim_end b v : cut_ending_nulls2 b = v <-> trimmed 0 (rev b) (rev v).
Proof.
  unfold cut_ending_nulls2. rewrite <- C44_trim. split.
  - intros <-. now rewrite rev_involutive.
  - intros ->. apply rev_involutive.
Qed.
Print Assumptions C44_trim_end.

(** ** Tags and domains *)
(** Text that is a byte string of at most the size, padded on the left with zeros. *)
Theorem C44_ab_parse_exact L t v : ab_parse L t = Ok v <-> exists b, reads t b /\ left_padded 0 L b v.
Proof.
  unfold ab_parse, parse_abtxt_into. split.
  - destruct (parse_abtxt t (Some L)) as [x| | |] eqn:P; try discriminate. cbn [obind]. apply parse_abtxt_iff in P as [R _].
    destruct (fit_back 0 L x) eqn:F; try discriminate. intros [= <-]. exists x. split; [assumption|]. now apply C44_fit.
  - intros (b & R & H). assert (LB : lenN b <= L) by (destruct H as (n & -> & <-); rewrite lenN_app; lia).
    assert (parse_abtxt t (Some L) = Ok b) as -> by (apply parse_abtxt_iff; now split). cbn [obind].
    assert (fit_back 0 L b = Ok v) as -> by now apply C44_fit. reflexivity.
Qed.
Print Assumptions C44_ab_parse_exact.
Theorem C44_ab_round_trip b : bytes_ok b -> ab_parse (lenN b) (ab_display b) = Ok b.
Proof.
  intros O. apply C44_ab_parse_exact. exists b. split; [unfold ab_display; rewrite as_abtxt_flat; now apply escape_all_reads|].
  exists 0%nat. now split.
Qed.
Print Assumptions C44_ab_round_trip.
(** Byte strings of unknown size: up to 65000 bytes. *)
Theorem C44_ab_vec b : bytes_ok b -> ab_vec_parse (ab_display b) = Ok b <-> lenN b <= 65000.
Proof.
  intros O. unfold ab_vec_parse, parse_abtxt_upto_max, ab_display. rewrite parse_abtxt_iff.
  assert (R : reads (as_abtxt b) b) by (rewrite as_abtxt_flat; now apply escape_all_reads). tauto.
Qed.
Print Assumptions C44_ab_vec.

Example C44_ab_ex : ab_parse 16 (str "hello\/world") = Ok (repeat 0 5 ++ str "hello/world") /\ ab_parse 4 (str "hello") = Err EFit
  /\ ab_display (repeat 0 2 ++ str "ab") = str "\0\0ab" /\ ab_parse 4 (str "\0\0ab") = Ok (repeat 0 2 ++ str "ab").
Proof. repeat split; vm_compute; reflexivity. Qed.

(** ** Hashes and keys *)
Theorem C44_b64_exact t b : base64_decode t = Some b <-> bytes_ok b /\ b64_text true t b.
Proof. unfold base64_decode. rewrite decode_raw_iff. split; intros [O H]; (split; [assumption|]); now apply (b64_text_iff true t b O). Qed.
Print Assumptions C44_b64_exact.
Theorem C44_b64_print b : bytes_ok b -> b64_text true (b64_display b) b /\ forall t, b64_text true t b -> t = b64_display b.
Proof. intros O. split; [now apply b64_text_iff|]. intros t. now apply b64_text_iff. Qed.
Print Assumptions C44_b64_print.
Theorem C44_b64_parse_exact L t b : b64_parse L t = Some b <-> bytes_ok b /\ lenN b = L /\ b64_text true t b.
Proof.
  unfold b64_parse. split.
  - destruct (negb _); [discriminate|]. destruct (base64_decode t) as [x|] eqn:D; [|discriminate].
    destruct (N.eqb_spec (lenN x) L); [|discriminate]. intros [= <-]. apply C44_b64_exact in D. tauto.
  - intros (O & L1 & H). assert (E : lenN t = (L * 4 + 2) / 3) by (destruct H as (ds & _ & A & B & _); lia).
    rewrite E, N.eqb_refl. cbn [negb]. rewrite (proj2 (C44_b64_exact t b) (conj O H)). now rewrite L1, N.eqb_refl.
Qed.
Print Assumptions C44_b64_parse_exact.
Theorem C44_b64_round_trip b : bytes_ok b -> b64_parse (lenN b) (b64_display b) = Some b.
Proof. intros O. apply C44_b64_parse_exact. split; [assumption|]. split; [reflexivity|]. now apply C44_b64_print. Qed.
Print Assumptions C44_b64_round_trip.
(** Where either the bytes or the text is taken, both give the value. *)
Theorem C44_b64_either b : bytes_ok b -> b <> [] ->
  b64_fit_or_parse (lenN b) b = Some b /\ b64_fit_or_parse (lenN b) (b64_display b) = Some b.
Proof.
  intros O NE. unfold b64_fit_or_parse. rewrite C44_b64_round_trip by assumption. split; [|reflexivity].
  assert (b64_parse (lenN b) b = None) as ->.
  { unfold b64_parse. assert (lenN b <> 0) by (destruct b; [contradiction|rewrite lenN_cons; lia]).
    assert (lenN b =? (lenN b * 4 + 2) / 3 = false) as -> by lia. reflexivity. }
  now rewrite (proj2 (proj1 (proj2 (proj2 (C44_fit (lenN b) 0 b b)))) (conj eq_refl eq_refl)).
Qed.
Print Assumptions C44_b64_either.
Theorem C44_b64_standard t b : base64_std_decode t = Some b <-> bytes_ok b /\ b64_padded t b.
Proof.
  rewrite base64_std_decode_iff. split; intros [O H]; (split; [assumption|]).
  - subst t. unfold base64_std. set (x := map (b64_char false) (b64_digits b)).
    exists x, (N.to_nat (pad_len (lenN x))). split; [reflexivity|]. split; [now apply b64_text_iff|].
    unfold pad_len. split; [lia|]. rewrite lenN_app, lenN_repeat. exists ((lenN x + 3) / 4). lia.
  - destruct H as (body & p & -> & T & P & q & Q). apply b64_text_iff in T; [|assumption]. unfold base64_std. rewrite <- T.
    f_equal. f_equal. rewrite lenN_app, lenN_repeat in Q. unfold pad_len. lia.
Qed.
Print Assumptions C44_b64_standard.

Example C44_b64_ex : b64_display (str "hello!?") = str "aGVsbG8hPw" /\ b64_parse 7 (str "aGVsbG8hPw") = Some (str "hello!?")
  /\ b64_parse 7 (str "aGVsbG8hPx") = None /\ base64_std (str "hello!?") = str "aGVsbG8hPw==" /\ base64_std_decode (str "aGVsbG8hPw=") = None.
Proof. repeat split; vm_compute; reflexivity. Qed.

(** ** Integers *)
Definition in_size (k : nat) (v : N) : Prop := v < 256 ^ N.of_nat k.
Lemma in_size_umax k v : in_size k v <-> v <= umax_of k.
Proof. unfold in_size, umax_of. pose proof (N.pow_nonzero 256 (N.of_nat k)). lia. Qed.
Lemma rev_ok b : bytes_ok b -> bytes_ok (rev b).
Proof. unfold bytes_ok. rewrite !Forall_forall. intros H x I. apply H. now apply in_rev. Qed.
Theorem C44_int_value le k v : in_size k v -> uint_get le (uint_new le k v) = v /\ lenN (uint_new le k v) = N.of_nat k.
Proof.
  intros S. unfold uint_get, uint_new. destruct le.
  - rewrite rev_involutive, be_decode_encode by assumption. split; [reflexivity|]. unfold lenN. rewrite rev_length, be_encode_length. reflexivity.
  - rewrite be_decode_encode by assumption. split; [reflexivity|apply lenN_be_encode].
Qed.
Print Assumptions C44_int_value.
Theorem C44_int_bytes le k b : bytes_ok b -> lenN b = N.of_nat k -> uint_new le k (uint_get le b) = b /\ in_size k (uint_get le b).
Proof.
  intros O L. unfold uint_get, uint_new, in_size. assert (LK : List.length b = k) by (unfold lenN in L; lia). destruct le.
  - rewrite <- LK at 1. rewrite <- (rev_length b), be_encode_decode by now apply rev_ok. rewrite rev_involutive. split; [reflexivity|].
    pose proof (be_decode_bound (rev b) (rev_ok b O)) as B. unfold lenN in B. rewrite rev_length in B. now rewrite LK in B.
  - rewrite <- LK at 1. rewrite be_encode_decode by assumption. split; [reflexivity|].
    pose proof (be_decode_bound b O) as B. now rewrite L in B.
Qed.
Print Assumptions C44_int_bytes.
(** Printing is decimal; parsing takes any numeral in range, so what is printed is read back. *)
Theorem C44_int_text le k b : bytes_ok b -> lenN b = N.of_nat k ->
  canonical (uint_display le b) (uint_get le b) /\ uint_parse le k (uint_display le b) = Some b.
Proof.
  intros O L. split; [apply to_string_canonical|]. destruct (C44_int_bytes le k b O L) as [E S]. unfold uint_parse, parse_uint, uint_display.
  rewrite parse_to_string by now apply in_size_umax. now rewrite E.
Qed.
Print Assumptions C44_int_text.
Theorem C44_int_parse_exact le k t b :
  uint_parse le k t = Some b <-> exists v, numeral 10 t v /\ in_size k v /\ b = uint_new le k v.
Proof.
  unfold uint_parse, parse_uint. split.
  - destruct (parse_radix _ 10 t) as [v|] eqn:P; [|discriminate]. intros [= <-]. apply parse_radix_iff in P as [H M]; [|lia..].
    exists v. split; [assumption|]. split; [now apply in_size_umax|reflexivity].
  - intros (v & H & S & ->). rewrite (proj2 (parse_radix_iff (umax_of k) 10 t v ltac:(lia) ltac:(lia))); [reflexivity|].
    split; [assumption|now apply in_size_umax].
Qed.
Print Assumptions C44_int_parse_exact.
(** Order: by value, which for big endian is the order of the bytes. *)
Theorem C44_int_order k a b : bytes_ok a -> bytes_ok b -> lenN a = N.of_nat k -> lenN b = N.of_nat k ->
  uint_cmp false a b = lex a b.
Proof. intros A B LA LB. unfold uint_cmp, uint_get. symmetry. apply lex_be_decode; [unfold lenN in *; lia|assumption..]. Qed.
Print Assumptions C44_int_order.
Theorem C44_int_saturating le k a b : bytes_ok a -> lenN a = N.of_nat k -> bytes_ok b -> lenN b = N.of_nat k ->
  uint_get le (uint_sat_add le k a b) = N.min (uint_get le a + uint_get le b) (umax_of k) /\
  uint_get le (uint_sat_sub le k a b) = uint_get le a - uint_get le b /\
  uint_get le (uint_incr le k a) = N.min (uint_get le a + 1) (umax_of k).
Proof.
  intros A LA B LB. pose proof (proj2 (C44_int_bytes le k a A LA)) as SA. apply in_size_umax in SA.
  unfold uint_sat_add, uint_sat_sub, uint_incr. repeat split; apply C44_int_value; apply in_size_umax; lia.
Qed.
Print Assumptions C44_int_saturating.
(** As a value of an expression: little endian integers drop their trailing zeros. *)
Theorem C44_int_eval_bytes le k b : bytes_ok b -> lenN b = N.of_nat k -> uint_of_bytes le k (uint_to_bytes le b) = Ok b.
Proof.
  intros O L. unfold uint_of_bytes, uint_to_bytes. destruct le; apply (C44_fit _ 0).
  - pose proof (proj1 (C44_trim_end b (cut_ending_nulls2 b)) eq_refl) as [[n E] _]. exists n. split; [|assumption].
    apply (f_equal (@rev N)) in E. now rewrite rev_app_distr, !rev_involutive, rev_repeat in E.
  - now split.
Qed.
Print Assumptions C44_int_eval_bytes.
Theorem C44_int_bits a b i x y : nth_error a i = Some x -> nth_error b i = Some y ->
  nth_error (uint_and a b) i = Some (N.land x y) /\ nth_error (uint_or a b) i = Some (N.lor x y) /\ nth_error (uint_not a) i = Some (255 - x).
Proof.
  intros HA HB. unfold uint_and, uint_or, uint_not, map2. split; [|split]; [| |now rewrite nth_error_map, HA].
  all: rewrite nth_error_map; assert (C : nth_error (combine a b) i = Some (x, y)) by
    (revert b i HA HB; induction a as [|a0 a IH]; intros [|b0 b] [|i] HA HB; try discriminate; cbn in *; [congruence|now apply IH]); now rewrite C.
Qed.
Print Assumptions C44_int_bits.

Example C44_int_ex : uint_new false 4 258 = [0; 0; 1; 2] /\ uint_new true 4 258 = [2; 1; 0; 0] /\ uint_display true [2; 1; 0; 0] = str "258"
  /\ uint_parse false 2 (str "+65535") = Some [255; 255] /\ uint_parse false 2 (str "65536") = None /\ uint_incr false 2 [255; 255] = [255; 255]
  /\ uint_to_bytes true [2; 1; 0; 0] = [2; 1] /\ uint_of_bytes true 4 [2; 1] = Ok [2; 1; 0; 0].
Proof. repeat split; vm_compute; reflexivity. Qed.
