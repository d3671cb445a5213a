(** Proofs about numerals, base64 and padding. *)
From Verif Require Import Bytes ModelAbe ModelFmt SpecFmt.
Ltac Zify.zify_post_hook ::= Z.div_mod_to_equations.

(** ** Numerals *)
Lemma positional_app base a x : positional base (a ++ [x]) = positional base a * base + x.
Proof. unfold positional. rewrite fold_left_app. reflexivity. Qed.
Lemma fold_positional base d : forall acc, fold_left (fun a x => a * base + x) d acc = acc * base ^ lenN d + positional base d.
Proof.
  unfold positional. induction d as [|x d IH]; intros acc; cbn [fold_left].
  - change (lenN (@nil N)) with 0. rewrite N.pow_0_r. lia.
  - rewrite IH, (IH (0 * base + x)), lenN_cons, N.add_1_l, N.pow_succ_r'. lia.
Qed.
Lemma positional_cons base x d : positional base (x :: d) = x * base ^ lenN d + positional base d.
Proof. unfold positional. cbn [fold_left]. rewrite fold_positional. unfold positional. lia. Qed.
Lemma positional_app2 base a b : positional base (a ++ b) = positional base a * base ^ lenN b + positional base b.
Proof. unfold positional at 1. rewrite fold_left_app. fold (positional base a). apply fold_positional. Qed.
Lemma positional_bound base d : Forall (fun x => x < base) d -> positional base d < base ^ lenN d.
Proof.
  induction 1 as [|x d H F IH]; [change (lenN (@nil N)) with 0; cbn; lia|].
  rewrite positional_cons, lenN_cons, N.add_1_l, N.pow_succ_r'. nia.
Qed.
Lemma positional_inj base a : forall b, Forall (fun x => x < base) a -> Forall (fun x => x < base) b ->
  List.length a = List.length b -> positional base a = positional base b -> a = b.
Proof.
  induction a as [|x a IH]; intros [|y b] A B L E; try discriminate; [reflexivity|].
  inversion A; inversion B; subst. injection L as L.
  rewrite !positional_cons in E. assert (LN : lenN a = lenN b) by (unfold lenN; lia). rewrite LN in E.
  pose proof (positional_bound base a). pose proof (positional_bound base b). rewrite LN in *.
  assert (x = y) as -> by nia. f_equal. apply IH; auto. nia.
Qed.
Lemma positional_be b : positional 256 b = be_decode b. Proof. reflexivity. Qed.

Lemma digit_of_iff radix c d : radix <= 36 -> digit_of radix c = Some d <-> is_digit radix c d.
Proof.
  intros R. unfold digit_of, is_digit. split.
  - destruct ((48 <=? c) && (c <=? 57)) eqn:E1; [|destruct ((97 <=? c) && (c <=? 122)) eqn:E2; [|destruct ((65 <=? c) && (c <=? 90)) eqn:E3; [|discriminate]]].
    + destruct (N.ltb_spec (c - 48) radix); intros [= <-]. split; [lia|]. left.
      assert (exists m, (m < 10)%nat /\ c = N.of_nat m + 48) as (m & M & ->) by (exists (N.to_nat (c - 48)); lia).
      replace (N.to_nat (N.of_nat m + 48 - 48)) with m by lia. do 10 (destruct m as [|m]; [reflexivity|]). lia.
    + destruct (N.ltb_spec (c - 87) radix); intros [= <-]. split; [lia|]. left.
      assert (exists m, (m < 26)%nat /\ c = N.of_nat m + 97) as (m & M & ->) by (exists (N.to_nat (c - 97)); lia).
      replace (N.to_nat (N.of_nat m + 97 - 87)) with (10 + m)%nat by lia. do 26 (destruct m as [|m]; [reflexivity|]). lia.
    + destruct (N.ltb_spec (c - 55) radix); intros [= <-]. split; [lia|]. right.
      assert (exists m, (m < 26)%nat /\ c = N.of_nat m + 65) as (m & M & ->) by (exists (N.to_nat (c - 65)); lia).
      replace (N.to_nat (N.of_nat m + 65 - 55)) with (10 + m)%nat by lia. do 26 (destruct m as [|m]; [reflexivity|]). lia.
  - intros [D H]. assert (D36 : d < 36) by lia. assert (exists m, (m < 36)%nat /\ d = N.of_nat m) as (m & M & ->) by (exists (N.to_nat d); lia).
    rewrite Nat2N.id in H. assert (A : (N.of_nat m <? radix) = true) by lia. clear D D36 R.
    do 36 (destruct m as [|m]; [destruct H as [H|H]; injection H as <-; cbv -[N.ltb] in *; rewrite A; reflexivity|]). lia.
Qed.
Lemma parse_digits_iff max radix t : radix <= 36 -> 1 <= radix -> forall acc n, acc <= max ->
  parse_digits max radix acc t = Some n <-> exists ds, Forall2 (is_digit radix) t ds /\ fold_left (fun a x => a * radix + x) ds acc = n /\ n <= max.
Proof.
  intros R R1. induction t as [|c t IH]; intros acc n A; cbn [parse_digits].
  - split.
    + intros [= <-]. exists []. repeat split; [constructor|assumption].
    + intros (ds & F & E & L). inversion F; subst. reflexivity.
  - destruct (digit_of radix c) as [d|] eqn:D.
    + apply digit_of_iff in D; [|assumption]. destruct (N.ltb_spec max (acc * radix + d)) as [O|O].
      * split; [discriminate|]. intros (ds & F & E & L). inversion F as [|? d' ? ds' D' F']; subst.
        assert (d' = d) as -> by (apply digit_of_iff in D, D'; [congruence|assumption..]).
        cbn [fold_left] in L. rewrite fold_positional in L. assert (1 <= radix ^ lenN ds') by (pose proof (N.pow_nonzero radix (lenN ds')); lia). nia.
      * rewrite IH by assumption. split.
        -- intros (ds & F & E & L). exists (d :: ds). repeat split; [now constructor|assumption..].
        -- intros (ds & F & E & L). inversion F as [|? d' ? ds' D' F']; subst. exists ds'.
           assert (d' = d) as -> by (apply digit_of_iff in D, D'; [congruence|assumption..]). repeat split; assumption.
    + split; [discriminate|]. intros (ds & F & E & L). inversion F as [|? d' ? ds' D' F']; subst.
      apply digit_of_iff in D'; [congruence|assumption].
Qed.
Lemma digit_plus radix d : radix <= 36 -> ~ is_digit radix 43 d.
Proof. intros R H. apply digit_of_iff in H; [|assumption]. discriminate. Qed.
Lemma parse_radix_iff max radix t n : radix <= 36 -> 1 <= radix ->
  parse_radix max radix t = Some n <-> numeral radix t n /\ n <= max.
Proof.
  intros R R1. assert (A : forall t, t <> [] -> parse_digits max radix 0 t = Some n <-> number radix t n /\ n <= max).
  { intros u NE. rewrite parse_digits_iff by (assumption || lia). unfold number, positional. split.
    - intros (ds & F & E & L). repeat split; [assumption|exists ds; now split|assumption].
    - intros [[_ (ds & F & E)] L]. exists ds. repeat split; assumption. }
  destruct t as [|c t]; cbn [parse_radix].
  - split; [discriminate|]. intros [[[N _]|(r & N & _)] _]; [now destruct N|discriminate].
  - destruct (N.eq_dec c 43) as [->|NE].
    + destruct t as [|c t].
      * split; [discriminate|]. intros [[[_ (ds & F & _)]|(r & [= <-] & [N _])] _]; [|now destruct N].
        inversion F; subst. now apply digit_plus in H1.
      * rewrite A by discriminate. split; intros [H L]; split; try assumption.
        -- right. now exists (c :: t).
        -- destruct H as [[_ (ds & F & _)]|(r & [= <-] & H)]; [|assumption]. inversion F; subst. now apply digit_plus in H1.
    + replace (match c with 43 => match t with [] => None | _ => parse_digits max radix 0 t end | _ => parse_digits max radix 0 (c :: t) end)
        with (parse_digits max radix 0 (c :: t)).
      * rewrite A by discriminate. split; intros [H L]; split; try assumption; [now left|].
        destruct H as [H|(r & [= -> _] & _)]; [assumption|contradiction].
      * clear A. destruct c as [|p]; [reflexivity|]. do 6 (destruct p as [p|p|]; try reflexivity). contradiction.
Qed.
Lemma is_digit_10 d : d < 10 -> is_digit 10 (48 + d) d.
Proof. intros D. apply digit_of_iff; [lia|]. unfold digit_of. assert ((48 <=? 48 + d) && (48 + d <=? 57) = true) as -> by lia. replace (48 + d - 48) with d by lia. now assert ((d <? 10) = true) as -> by lia. Qed.
(** What [dec_loop] writes in front of [acc]. *)
Lemma dec_loop_spec f : forall n acc, n < 2 ^ N.of_nat f -> (0 < f)%nat -> exists ds, Forall (fun d => d < 10) ds /\ positional 10 ds = n /\
  dec_loop f n acc = map (fun d => 48 + d) ds ++ acc /\ (ds = [0] \/ (ds <> [] /\ hd 0 ds <> 0)).
Proof.
  induction f as [|f IH]; intros n acc L P; [lia|]. cbn [dec_loop].
  destruct (N.eqb_spec (n / 10) 0) as [Z|Z].
  - exists [n]. repeat split.
    + constructor; [lia|constructor].
    + rewrite (N.mod_small n 10) by lia. reflexivity.
    + destruct n; [now left|right]. split; [discriminate|cbn; lia].
  - assert (F : (0 < f)%nat). { destruct f; [|lia]. cbn in L. exfalso. apply Z. apply N.div_small. lia. }
    destruct (IH (n / 10) ((48 + n mod 10) :: acc)) as (ds & D & V & E & H); [|assumption|].
    { rewrite Nat2N.inj_succ, N.pow_succ_r' in L. lia. }
    exists (ds ++ [n mod 10]). repeat split.
    + apply Forall_app. split; [assumption|]. constructor; [lia|constructor].
    + rewrite positional_app, V. lia.
    + rewrite E, map_app, <- app_assoc. reflexivity.
    + right. split; [now destruct ds|]. destruct H as [->|[NE H]]; [change (positional 10 [0]) with 0 in V; lia|]. destruct ds; [contradiction|exact H].
Qed.
Lemma to_string_canonical n : canonical (to_string n) n.
Proof.
  unfold to_string. destruct (dec_loop_spec (S (N.to_nat (N.log2 n))) n []) as (ds & D & V & E & H); [|lia|].
  { rewrite Nat2N.inj_succ, N2Nat.id. destruct n; [cbn; lia|]. apply N.log2_spec. lia. }
  rewrite E, app_nil_r. split.
  - split; [destruct H as [->|[H _]]; [discriminate|destruct ds; [contradiction|discriminate]]|].
    exists ds. split; [|assumption]. clear -D. induction D; cbn; constructor; [now apply is_digit_10|assumption].
  - destruct H as [->|[NE H]]; [now right|left]. destruct ds; [contradiction|]. cbn in *. lia.
Qed.
Lemma parse_to_string max n : n <= max -> parse_radix max 10 (to_string n) = Some n.
Proof. intros L. apply parse_radix_iff; [lia..|]. split; [left; apply to_string_canonical|assumption]. Qed.
Lemma number_digit radix t n c : number radix t n -> radix <= 36 -> In c t -> (48 <= c <= 57) \/ (97 <= c <= 122) \/ (65 <= c <= 90).
Proof.
  intros [_ (ds & F & _)] R I. induction F as [|x d t ds H F IH]; [contradiction|]. destruct I as [->|I]; [|auto].
  apply digit_of_iff in H; [|assumption]. unfold digit_of in H.
  destruct ((48 <=? c) && (c <=? 57)) eqn:E1; [left; lia|]. destruct ((97 <=? c) && (c <=? 122)) eqn:E2; [right; left; lia|].
  destruct ((65 <=? c) && (c <=? 90)) eqn:E3; [right; right; lia|discriminate].
Qed.
Lemma to_string_digits n c : In c (to_string n) -> 48 <= c <= 57.
Proof.
  intros I. destruct (to_string_canonical n) as [[_ (ds & F & _)] _]. induction F as [|x d t ds H F IH]; [contradiction|].
  destruct I as [->|I]; [|auto]. apply digit_of_iff in H; [|lia]. unfold digit_of in H.
  destruct ((48 <=? c) && (c <=? 57)) eqn:E1; [lia|]. destruct ((97 <=? c) && (c <=? 122)) eqn:E2.
  - destruct (N.ltb_spec (c - 87) 10); [lia|discriminate].
  - destruct ((65 <=? c) && (c <=? 90)) eqn:E3; [destruct (N.ltb_spec (c - 55) 10); [lia|discriminate]|discriminate].
Qed.

(** ** base64 *)
Lemma b64_char_value url d : d < 64 -> b64_value url (b64_char url d) = Some d /\ b64_digit url (b64_char url d) d.
Proof.
  intros D. assert (exists m, (m < 64)%nat /\ d = N.of_nat m) as (m & M & ->) by (exists (N.to_nat d); lia). clear D.
  unfold b64_digit. rewrite Nat2N.id.
  do 64 (destruct m as [|m]; [destruct url; split; reflexivity|]). lia.
Qed.
Lemma b64_value_char url c d : b64_value url c = Some d -> d < 64 /\ c = b64_char url d.
Proof.
  unfold b64_value, b64_char.
  destruct ((65 <=? c) && (c <=? 90)) eqn:E1; [|destruct ((97 <=? c) && (c <=? 122)) eqn:E2; [|destruct ((48 <=? c) && (c <=? 57)) eqn:E3]].
  - intros [= <-]. assert ((c - 65 <? 26) = true) as -> by lia. lia.
  - intros [= <-]. assert ((c - 71 <? 26) = false) as -> by lia. assert ((c - 71 <? 52) = true) as -> by lia. lia.
  - intros [= <-]. assert ((c + 4 <? 26) = false) as -> by lia. assert ((c + 4 <? 52) = false) as -> by lia. assert ((c + 4 <? 62) = true) as -> by lia. lia.
  - destruct (N.eqb_spec c (if url then 45 else 43)) as [->|N1]; [intros [= <-]; split; [lia|reflexivity]|].
    destruct (N.eqb_spec c (if url then 95 else 47)) as [->|N2]; [intros [= <-]; split; [lia|reflexivity]|discriminate].
Qed.
Lemma b64_digit_iff url c d : b64_digit url c d <-> d < 64 /\ c = b64_char url d.
Proof.
  split.
  - unfold b64_digit. intros H. assert (D : d < 64).
    { assert (L : (N.to_nat d < List.length (alphabet url))%nat) by (apply nth_error_Some; congruence).
      destruct url; change (List.length (alphabet _)) with 64%nat in L; lia. }
    split; [assumption|]. destruct (b64_char_value url d D) as [_ E]. unfold b64_digit in E. congruence.
  - intros [D ->]. now apply b64_char_value.
Qed.
Lemma b64_values_iff url t : forall ds, b64_values url t = Some ds <-> Forall (fun d => d < 64) ds /\ t = map (b64_char url) ds.
Proof.
  induction t as [|c t IH]; intros ds; cbn [b64_values].
  - split; [intros [= <-]; now split|]. intros [_ E]. now destruct ds.
  - split.
    + destruct (b64_value url c) as [v|] eqn:V; [|discriminate]. destruct (b64_values url t) as [l|]; [|discriminate]. intros [= <-].
      apply b64_value_char in V as [V ->]. destruct (proj1 (IH l) eq_refl) as [F ->]. split; [now constructor|reflexivity].
    + intros [F E]. destruct ds as [|d ds]; [discriminate|]. cbn in E. injection E as -> ->. inversion F; subst.
      rewrite (proj1 (b64_char_value url d H1)). now rewrite (proj2 (IH ds) (conj H2 eq_refl)).
Qed.
Lemma triples (P : bytes -> Prop) : P [] -> (forall x, P [x]) -> (forall x y, P [x; y]) ->
  (forall x y z r, P r -> P (x :: y :: z :: r)) -> forall b, P b.
Proof.
  intros H0 H1 H2 H3. fix IH 1. intros [|x [|y [|z r]]]; [assumption|apply H1|apply H2|apply H3, IH].
Qed.
Lemma quads (P : list N -> Prop) : P [] -> (forall x, P [x]) -> (forall x y, P [x; y]) -> (forall x y z, P [x; y; z]) ->
  (forall x y z w r, P r -> P (x :: y :: z :: w :: r)) -> forall b, P b.
Proof.
  intros H0 H1 H2 H3 H4. fix IH 1. intros [|x [|y [|z [|w r]]]]; [assumption|apply H1|apply H2|apply H3|apply H4, IH].
Qed.
Lemma ok_cons x b : bytes_ok (x :: b) <-> x < 256 /\ bytes_ok b.
Proof. unfold bytes_ok, byte_ok. now rewrite Forall_cons_iff. Qed.
Lemma b64_digits_ok b : bytes_ok b -> Forall (fun d => d < 64) (b64_digits b).
Proof.
  induction b as [|x|x y|x y z r IH] using triples; intros O; cbn [b64_digits]; rewrite ?ok_cons in O; repeat constructor; try lia.
  apply IH. tauto.
Qed.
Lemma b64_bytes_digits b : bytes_ok b -> b64_bytes (b64_digits b) = Some b.
Proof.
  induction b as [|x|x y|x y z r IH] using triples; intros O; cbn [b64_digits]; rewrite ?ok_cons in O; cbn [b64_bytes].
  - reflexivity.
  - assert ((x mod 4 * 16) mod 16 =? 0 = true) as -> by lia. f_equal. f_equal. lia.
  - assert ((y mod 16 * 4) mod 4 =? 0 = true) as -> by lia. f_equal. f_equal; [lia|]. f_equal. lia.
  - rewrite IH by tauto. f_equal. f_equal; [lia|]. f_equal; [lia|]. f_equal. lia.
Qed.
Lemma b64_bytes_inv d : forall b, Forall (fun d => d < 64) d -> b64_bytes d = Some b -> bytes_ok b /\ d = b64_digits b.
Proof.
  induction d as [|x|x y|x y z|x y z w r IH] using quads; intros b F; cbn [b64_bytes]; rewrite ?Forall_cons_iff in F.
  - intros [= <-]. split; [constructor|reflexivity].
  - discriminate.
  - destruct (N.eqb_spec (y mod 16) 0); [|discriminate]. intros [= <-]. rewrite ok_cons. split; [split; [lia|constructor]|].
    cbn [b64_digits]. f_equal; [lia|]. f_equal. lia.
  - destruct (N.eqb_spec (z mod 4) 0); [|discriminate]. intros [= <-]. rewrite !ok_cons. split; [repeat split; [lia|lia|constructor]|].
    cbn [b64_digits]. f_equal; [lia|]. f_equal; [lia|]. f_equal. lia.
  - destruct (b64_bytes r) as [l|]; [|discriminate]. intros [= <-]. destruct (IH l) as [O ->]; [tauto|reflexivity|].
    rewrite !ok_cons. split; [repeat split; [lia..|assumption]|].
    cbn [b64_digits]. f_equal; [lia|]. f_equal; [lia|]. f_equal; [lia|]. f_equal. lia.
Qed.
Lemma decode_raw_iff url t b : b64_decode_raw url t = Some b <-> bytes_ok b /\ t = map (b64_char url) (b64_digits b).
Proof.
  unfold b64_decode_raw. split.
  - destruct (b64_values url t) as [d|] eqn:V; [|discriminate]. apply b64_values_iff in V as [F ->]. intros H.
    apply b64_bytes_inv in H as [O ->]; [|assumption]. now split.
  - intros [O ->]. rewrite (proj2 (b64_values_iff url _ (b64_digits b)) (conj (b64_digits_ok b O) eq_refl)). now apply b64_bytes_digits.
Qed.
Lemma b64_digits_len b : 6 * lenN (b64_digits b) < 8 * lenN b + 6 /\ 8 * lenN b <= 6 * lenN (b64_digits b).
Proof.
  induction b as [|x|x y|x y z r IH] using triples; cbn [b64_digits]; rewrite ?lenN_cons; change (lenN (@nil N)) with 0; lia.
Qed.
Lemma b64_digits_positional b : bytes_ok b ->
  positional 64 (b64_digits b) = positional 256 b * 2 ^ (6 * lenN (b64_digits b) - 8 * lenN b).
Proof.
  induction b as [|x|x y|x y z r IH] using triples; intros O; cbn [b64_digits]; rewrite ?ok_cons in O.
  - reflexivity.
  - change (2 ^ _) with 16. unfold positional. cbn [fold_left]. lia.
  - change (2 ^ _) with 4. unfold positional. cbn [fold_left]. lia.
  - specialize (IH ltac:(tauto)). pose proof (b64_digits_len r) as L.
    rewrite !positional_cons, !lenN_cons. set (n := lenN (b64_digits r)) in *. set (m := lenN r) in *. rewrite IH. clear IH.
    replace (6 * (1 + (1 + (1 + (1 + n)))) - 8 * (1 + (1 + (1 + m)))) with (6 * n - 8 * m) by lia.
    replace (64 ^ n) with (256 ^ m * 2 ^ (6 * n - 8 * m)).
    2:{ change 64 with (2 ^ 6). change 256 with (2 ^ 8). rewrite <- !N.pow_mul_r, <- N.pow_add_r. f_equal. lia. }
    rewrite !N.add_1_l, !N.pow_succ_r'. set (q := 2 ^ (6 * n - 8 * m)). replace (64 ^ n) with (256 ^ m * q).
    2:{ unfold q. change 64 with (2 ^ 6). change 256 with (2 ^ 8). rewrite <- !N.pow_mul_r, <- N.pow_add_r. f_equal. lia. }
    set (p := 256 ^ m). clearbody p q.
    assert (E : (x / 4) * 262144 + (x mod 4 * 16 + y / 16) * 4096 + (y mod 16 * 4 + z / 64) * 64 + z mod 64 = x * 65536 + y * 256 + z) by lia.
    transitivity ((x * 65536 + y * 256 + z) * p * q + positional 256 r * q); [rewrite <- E; nia|nia].
Qed.
Lemma b64_text_iff url t b : bytes_ok b -> b64_text url t b <-> t = map (b64_char url) (b64_digits b).
Proof.
  intros O. pose proof (b64_digits_len b) as L. split.
  - intros (ds & F & L1 & L2 & E).
    assert (F64 : Forall (fun d => d < 64) ds) by (clear -F; induction F; constructor; [now apply b64_digit_iff in H|assumption]).
    assert (T : t = map (b64_char url) ds) by (clear -F; induction F; cbn; [reflexivity|f_equal; [now apply b64_digit_iff in H|assumption]]).
    assert (lenN t = lenN ds) by (rewrite T; unfold lenN; now rewrite map_length).
    rewrite T. f_equal. apply (positional_inj 64); [assumption|now apply b64_digits_ok|unfold lenN in *; lia|].
    rewrite E, b64_digits_positional by assumption. f_equal. f_equal. unfold lenN in *. lia.
  - intros ->. assert (LM : lenN (map (b64_char url) (b64_digits b)) = lenN (b64_digits b)) by (unfold lenN; now rewrite map_length).
    exists (b64_digits b). rewrite LM. split; [|split; [tauto|split; [tauto|now apply b64_digits_positional]]].
    pose proof (b64_digits_ok b O) as F. clear -F. induction F; cbn; constructor; [now apply b64_digit_iff|assumption].
Qed.
Lemma base64_chars b c : bytes_ok b -> In c (base64 b) -> exists d, d < 64 /\ c = b64_char true d.
Proof.
  intros O I. unfold base64 in I. apply in_map_iff in I as (d & <- & I). exists d. split; [|reflexivity].
  pose proof (b64_digits_ok b O) as F. rewrite Forall_forall in F. now apply F.
Qed.

(** Trimming *)
Lemma cut_trimmed x b : trimmed x b (cut_prefixeq x b).
Proof.
  induction b as [|y b IH]; cbn; [split; [now exists 0%nat|now left]|]. destruct (N.eqb_spec y x) as [->|NE].
  - destruct IH as [[n E] H]. split; [|assumption]. exists (S n). cbn. now rewrite <- E.
  - split; [now exists 0%nat|]. right. exact NE.
Qed.
Lemma cut_repeat x n v : (v = [] \/ hd 0 v <> x) -> cut_prefixeq x (repeat x n ++ v) = v.
Proof.
  intros H. induction n as [|n IH]; cbn.
  - destruct v as [|y v]; [reflexivity|]. destruct H as [|H]; [discriminate|]. cbn in *. destruct (N.eqb_spec y x); [contradiction|reflexivity].
  - now rewrite N.eqb_refl.
Qed.
Lemma trimmed_fun x b v w : trimmed x b v -> trimmed x b w -> v = w.
Proof. intros [[n E] H] [[m E'] H']. rewrite <- (cut_repeat x n v H), <- E, E'. now apply cut_repeat. Qed.
Lemma lenN_repeat {A} (x : A) n : lenN (repeat x n) = N.of_nat n.
Proof. unfold lenN. now rewrite repeat_length. Qed.
Lemma rev_repeat {A} (x : A) n : rev (repeat x n) = repeat x n.
Proof.
  induction n as [|n IH]; [reflexivity|]. cbn [repeat rev]. rewrite IH. clear IH. induction n as [|n IH]; [reflexivity|].
  cbn. now rewrite IH.
Qed.
Lemma base64_std_decode_iff t b : base64_std_decode t = Some b <-> bytes_ok b /\ t = base64_std b.
Proof.
  unfold base64_std_decode. set (body := rev (cut_prefixeq 61 (rev t))). split.
  - destruct (N.eqb_spec (lenN t) (lenN body + pad_len (lenN body))) as [L|L]; [|discriminate]. intros H.
    apply decode_raw_iff in H as [O E]. split; [assumption|]. unfold base64_std. rewrite <- E.
    destruct (cut_trimmed 61 (rev t)) as [[n T] _]. assert (T' : t = body ++ repeat 61 n).
    { rewrite <- (rev_involutive t), T, rev_app_distr, rev_repeat. reflexivity. }
    rewrite T' at 1. f_equal. f_equal. rewrite T', lenN_app, lenN_repeat in L. lia.
  - intros [O ->]. unfold base64_std. set (x := map (b64_char false) (b64_digits b)).
    assert (B : rev (cut_prefixeq 61 (rev (x ++ repeat 61 (N.to_nat (pad_len (lenN x)))))) = x).
    { rewrite rev_app_distr, rev_repeat, cut_repeat; [apply rev_involutive|].
      destruct (rev x) as [|y r] eqn:R; [now left|right]. cbn. assert (I : In y x) by (apply in_rev; rewrite R; now left).
      unfold x in I. apply in_map_iff in I as (d & <- & I). intros E.
      pose proof (b64_digits_ok b O) as F. rewrite Forall_forall in F. apply F in I.
      pose proof (b64_char_value false d I) as [V _]. rewrite E in V. discriminate. }
    unfold body. unfold base64_std. fold x. rewrite B. rewrite lenN_app, lenN_repeat, N2Nat.id, N.eqb_refl. apply decode_raw_iff. now split.
Qed.
