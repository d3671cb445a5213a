(** C106: abbreviated hashes. *)
From Verif Require Import Bytes ModelFmt ModelFn SpecFmt ProofFmt ModelPartial SpecPartial.

Notation char := (b64_char true).
Lemma chars_vals p : b64_chars p -> exists v, Forall (fun d => d < 64) v /\ p = map char v.
Proof.
  induction 1 as [|c p (d & D) F (v & V & ->)]; [now exists []|]. apply b64_digit_iff in D as (L & ->). exists (d :: v). split; [now constructor|reflexivity].
Qed.
Lemma map_char_inj a b : Forall (fun d => d < 64) a -> Forall (fun d => d < 64) b -> map char a = map char b -> a = b.
Proof.
  intros A B E. pose proof (proj2 (b64_values_iff true _ a) (conj A eq_refl)) as X. rewrite E, (proj2 (b64_values_iff true _ b) (conj B eq_refl)) in X. now injection X.
Qed.
Lemma digits_43 h : is_hash h -> lenN (b64_digits h) = 43.
Proof. intros (_ & L). pose proof (b64_digits_len h). lia. Qed.
Lemma abbreviates_iff p h : is_hash h -> abbreviates p h <-> exists r, base64 h = p ++ r.
Proof.
  intros (O & L). unfold abbreviates, base64. split; intros (r & H); exists r.
  - apply b64_text_iff in H; [now symmetry|exact O].
  - apply b64_text_iff; [exact O|now symmetry].
Qed.
(** The digits of a hash an abbreviation stands for *)
Lemma abbreviates_digits v h : Forall (fun d => d < 64) v -> is_hash h -> abbreviates (map char v) h <-> exists r, b64_digits h = v ++ r.
Proof.
  intros V H. rewrite (abbreviates_iff _ h H). unfold base64. pose proof (b64_digits_ok h (proj1 H)) as D. split; intros (r & E).
  - exists (skipn (List.length v) (b64_digits h)). rewrite <- (firstn_skipn (List.length v) (b64_digits h)) at 1. f_equal.
    apply map_char_inj; [apply Forall_forall; intros x X; rewrite Forall_forall in D; apply D; rewrite <- (firstn_skipn (List.length v) (b64_digits h)); apply in_or_app; now left|exact V|].
    rewrite <- firstn_map, E. rewrite <- (map_length char v), firstn_app, Nat.sub_diag, firstn_all. cbn [firstn]. now rewrite app_nil_r.
  - exists (map char r). now rewrite E, map_app.
Qed.
(** The order of digits is the order of bytes *)
Lemma lex_positional base a : forall b, List.length a = List.length b -> Forall (fun x => x < base) a -> Forall (fun x => x < base) b -> lex a b = (positional base a ?= positional base b).
Proof.
  induction a as [|x a IH]; intros [|y b] L A B; try discriminate; cbn [lex]; [reflexivity|].
  injection L as L. inversion A; inversion B; subst. rewrite !positional_cons.
  pose proof (positional_bound base a ltac:(assumption)) as PA. pose proof (positional_bound base b ltac:(assumption)) as PB.
  assert (LN : lenN a = lenN b) by (unfold lenN; now rewrite L). rewrite LN in *. set (K := base ^ lenN b) in *. clearbody K.
  destruct (N.compare_spec x y) as [->|H|H]; symmetry.
  - rewrite (IH b L) by assumption. destruct (N.compare_spec (positional base a) (positional base b)) as [E|E|E]; [apply N.compare_eq_iff|apply N.compare_lt_iff|apply N.compare_gt_iff]; nia.
  - apply N.compare_lt_iff. nia.
  - apply N.compare_gt_iff. nia.
Qed.
Lemma lex_digits a b : is_hash a -> is_hash b -> lex a b = lex (b64_digits a) (b64_digits b).
Proof.
  intros A B. pose proof (digits_43 a A) as DA. pose proof (digits_43 b B) as DB.
  rewrite (lex_positional 256 a b); [|destruct A, B; unfold lenN in *; lia|apply A|apply B].
  rewrite (lex_positional 64 (b64_digits a) (b64_digits b)); [|unfold lenN in *; lia|apply b64_digits_ok, A|apply b64_digits_ok, B].
  rewrite !b64_digits_positional by (apply A || apply B). rewrite DA, DB, (proj2 A), (proj2 B). change (2 ^ (6 * 43 - 8 * 32)) with 4.
  destruct (N.compare_spec (positional 256 a) (positional 256 b)) as [E|E|E]; symmetry; [apply N.compare_eq_iff|apply N.compare_lt_iff|apply N.compare_gt_iff]; lia.
Qed.
Lemma zeros_least n r : List.length r = n -> lex (repeat 0 n) r <> Gt.
Proof.
  revert r. induction n as [|n IH]; intros [|x r] L; try discriminate; cbn [repeat lex]. injection L as L.
  destruct (N.compare_spec 0 x) as [E|E|E]; [now apply IH|discriminate|lia].
Qed.


(** ** Which digits decode *)
Lemma quads (P : list N -> Prop) : P [] -> (forall a, P [a]) -> (forall a b, P [a; b]) -> (forall a b c, P [a; b; c]) ->
  (forall a b c e r, P r -> P (a :: b :: c :: e :: r)) -> forall l, P l.
Proof.
  intros A B C D E. fix F 1. intros [|a [|b [|c [|e r]]]]; [exact A|apply B|apply C|apply D|]. apply E. apply F.
Qed.
Lemma decode_whole d : forall k, lenN d = 4 * k -> exists b, b64_bytes d = Some b.
Proof.
  induction d as [|a|a b|a b c|a b c e r IH] using quads; intros k L; cbn [b64_bytes].
  - now exists [].
  - rewrite lenN_cons in L. change (lenN (@nil N)) with 0 in L. lia.
  - rewrite !lenN_cons in L. change (lenN (@nil N)) with 0 in L. lia.
  - rewrite !lenN_cons in L. change (lenN (@nil N)) with 0 in L. lia.
  - rewrite !lenN_cons in L. destruct (IH (k - 1)) as (l & ->); [lia|]. eexists. reflexivity.
Qed.
Lemma decode_three d x : forall k, lenN d = 4 * k + 2 -> x mod 4 = 0 -> exists b, b64_bytes (d ++ [x]) = Some b.
Proof.
  induction d as [|a|a b|a b c|a b c e r IH] using quads; intros k L X; cbn [app b64_bytes]; rewrite ?lenN_cons in L; change (lenN (@nil N)) with 0 in L; try lia.
  - rewrite X. eexists. reflexivity.
  - destruct (IH (k - 1)) as (l & ->); [lia|exact X|]. eexists. reflexivity.
Qed.
Lemma vals_chars v : Forall (fun d => d < 64) v -> b64_chars (map char v).
Proof. induction 1 as [|d v D F IH]; constructor; [|exact IH]. exists d. now apply b64_digit_iff. Qed.
Lemma decode_chars t : b64_chars t -> (exists k, lenN t = 4 * k) -> exists b, base64_decode t = Some b.
Proof.
  intros C (k & L). destruct (chars_vals t C) as (v & V & ->). unfold base64_decode, b64_decode_raw.
  rewrite (proj2 (b64_values_iff true _ v) (conj V eq_refl)). apply (decode_whole v k). unfold lenN in *. now rewrite map_length in L.
Qed.
Lemma decoded_chars t b : base64_decode t = Some b -> b64_chars t.
Proof. intros H. apply decode_raw_iff in H as (O & ->). now apply vals_chars, b64_digits_ok. Qed.
Lemma take_sub (t : bytes) : lenN (takeN (lenN t - lenN t mod 4) t) = lenN t - lenN t mod 4.
Proof. unfold takeN, lenN. rewrite firstn_length. lia. Qed.

(** What is accepted as an abbreviation *)
Theorem C106_parse t : (forall p, try_from_strlike t = Ok p -> p = t) /\ ((exists p, try_from_strlike t = Ok p) <->
  4 <= lenN t <= 43 /\ b64_chars (takeN (lenN t - lenN t mod 4) t) /\ is_utf8 (t ++ repeat 65 (N.to_nat (43 - lenN t))) = true).
Proof.
  unfold try_from_strlike, B64_HASH_LENGTH. pose proof (N.ltb_spec (lenN t) 4) as A. pose proof (N.ltb_spec 43 (lenN t)) as B.
  destruct A as [A|A]; [split; [discriminate|]; split; [intros (p & H); discriminate|lia]|].
  destruct B as [B|B]; [split; [discriminate|]; split; [intros (p & H); discriminate|lia]|]. cbn [orb].
  destruct (base64_decode (takeN (lenN t - lenN t mod 4) t)) as [b|] eqn:D.
  - pose proof (decoded_chars _ b D) as C. destruct (is_utf8 _).
    + split; [now intros p [= <-]|]. split; [intros _; auto|intros _; now exists t].
    + split; [discriminate|]. split; [intros (p & H); discriminate|intros (_ & _ & H); discriminate].
  - split; [discriminate|]. split; [intros (p & H); discriminate|]. intros (_ & C & _). exfalso.
    destruct (decode_chars _ C) as (b & E); [|congruence]. rewrite take_sub. exists (lenN t / 4). pose proof (N.div_mod (lenN t) 4 ltac:(discriminate)). lia.
Qed.
Theorem C106_matches p h : is_hash h -> str_matches p h = true <-> abbreviates p h.
Proof. intros H. unfold str_matches. rewrite (abbreviates_iff p h H). apply Bytes.starts_with_iff. Qed.

(** The first hash an abbreviation stands for, from which to search *)
Lemma decode_hash d b : Forall (fun x => x < 64) d -> lenN d = 43 -> b64_bytes d = Some b -> is_hash b /\ b64_digits b = d.
Proof.
  intros F L H. apply b64_bytes_inv in H as (O & ->); [|exact F]. split; [|reflexivity]. split; [exact O|]. pose proof (b64_digits_len b). lia.
Qed.
Theorem C106_first p : b64_chars p -> lenN p < 43 -> exists idx, aprox_btree_idx p = Ok idx /\ is_hash idx /\ abbreviates p idx /\
  forall h, is_hash h -> abbreviates p h -> not_after idx h.
Proof.
  intros C L. destruct (chars_vals p C) as (v & V & ->). assert (LV : lenN v < 43) by (unfold lenN in *; now rewrite map_length in L).
  set (n := N.to_nat (42 - lenN v)). set (d := (v ++ repeat 0 n) ++ [0]).
  assert (Z : forall k, Forall (fun x => x < 64) (repeat 0 k)) by (intros k; apply Forall_forall; intros x X; apply repeat_spec in X; subst; reflexivity).
  assert (D : Forall (fun x => x < 64) d) by (unfold d; repeat (apply Forall_app; split); [exact V|apply Z|constructor; [reflexivity|constructor]]).
  assert (LD : lenN d = 43) by (unfold d, lenN, n in *; rewrite !app_length, repeat_length; cbn [List.length]; unfold lenN; lia).
  destruct (decode_three (v ++ repeat 0 n) 0 10) as (idx & E); [unfold n, lenN in *; rewrite app_length, repeat_length; lia|reflexivity|].
  fold d in E. destruct (decode_hash d idx D LD E) as (H & G).
  assert (DE : d = v ++ repeat 0 (N.to_nat (43 - lenN v))).
  { unfold d. rewrite <- app_assoc. f_equal. change [0] with (repeat 0 1). rewrite <- repeat_app. f_equal. unfold n. lia. }
  assert (A : aprox_btree_idx (map char v) = Ok idx).
  { unfold aprox_btree_idx, B64_HASH_LENGTH. assert (LM : lenN (map char v) = lenN v) by (unfold lenN; now rewrite map_length). rewrite LM.
    replace (map char v ++ repeat 65 (N.to_nat (43 - lenN v))) with (map char d).
    - unfold base64_decode, b64_decode_raw. rewrite (proj2 (b64_values_iff true _ d) (conj D eq_refl)), E. reflexivity.
    - rewrite DE, map_app. f_equal. generalize (N.to_nat (43 - lenN v)). intros k. induction k as [|k IH]; [reflexivity|]. cbn [repeat map]. now rewrite IH. }
  exists idx. split; [exact A|]. split; [exact H|]. split.
  - apply abbreviates_digits; [exact V|exact H|]. rewrite G, DE. eexists. reflexivity.
  - intros h HH AB. apply abbreviates_digits in AB as (r & R); [|exact V|exact HH]. unfold not_after. rewrite (lex_digits idx h H HH), G, DE, R, lex_app_same.
    apply zeros_least. pose proof (digits_43 h HH) as X. rewrite R in X. unfold lenN in *. rewrite app_length in X. lia.
Qed.
(** The hashes an abbreviation stands for are next to each other *)
Theorem C106_between p a b c : b64_chars p -> is_hash a -> is_hash b -> is_hash c -> abbreviates p a -> abbreviates p c ->
  not_after a b -> not_after b c -> abbreviates p b.
Proof.
  intros C HA HB HC A Cc L1 L2. destruct (chars_vals p C) as (v & V & ->).
  apply abbreviates_digits in A as (r1 & R1); [|exact V|exact HA]. apply abbreviates_digits in Cc as (r3 & R3); [|exact V|exact HC].
  apply abbreviates_digits; [exact V|exact HB|]. unfold not_after in *. rewrite (lex_digits a b HA HB), R1 in L1. rewrite (lex_digits b c HB HC), R3 in L2.
  pose proof (digits_43 a HA) as LA. pose proof (digits_43 b HB) as LB. rewrite R1 in LA. set (d := b64_digits b) in *.
  assert (LF : List.length (firstn (List.length v) d) = List.length v) by (rewrite firstn_length; unfold lenN in *; rewrite app_length in LA; lia).
  rewrite <- (firstn_skipn (List.length v) d) in L1, L2. rewrite lex_app_len in L1 by now symmetry. rewrite lex_app_len in L2 by exact LF.
  exists (skipn (List.length v) d). rewrite <- (firstn_skipn (List.length v) d) at 1. f_equal.
  rewrite lex_antisym in L2. destruct (lex v (firstn (List.length v) d)) eqn:X; cbn [CompOpp] in L2; [symmetry; now apply lex_eq|congruence|congruence].
Qed.
(** A whole hash *)
Theorem C106_complete p h : complete_try_into p = Some h <-> is_hash h /\ b64_text true p h.
Proof.
  unfold complete_try_into, B64_HASH_LENGTH. split.
  - destruct (N.eqb_spec (lenN p) 43) as [L|L]; [|discriminate]. intros H. apply decode_raw_iff in H as (O & ->).
    assert (L' : lenN (b64_digits h) = 43) by (unfold lenN in *; now rewrite map_length in L). pose proof (b64_digits_len h).
    split; [split; [exact O|lia]|]. now apply b64_text_iff.
  - intros (H & T). apply b64_text_iff in T; [|apply H]. assert (L : lenN p = 43) by (rewrite T, <- (digits_43 h H); unfold lenN; now rewrite map_length).
    rewrite (proj2 (N.eqb_eq _ _) L). apply decode_raw_iff. split; [apply H|exact T].
Qed.
(** Any character of text may come after the last whole group of four; then there is nowhere to search from *)
Theorem C106_panics_refuted p c : b64_chars p -> lenN p mod 4 = 0 -> 4 <= lenN p < 43 -> c < 128 -> (forall d, ~ b64_digit true c d) ->
  try_from_strlike (p ++ [c]) = Ok (p ++ [c]) /\ aprox_btree_idx (p ++ [c]) = Panic.
Proof.
  intros P M L A N.
  assert (LE : lenN (p ++ [c]) = lenN p + 1) by (unfold lenN; rewrite app_length; cbn [List.length]; lia).
  assert (M1 : (lenN p + 1) mod 4 = 1) by (pose proof (N.div_mod (lenN p) 4 ltac:(discriminate)); symmetry; apply (N.mod_unique _ 4 (lenN p / 4)); lia).
  split.
  - assert (T : takeN (lenN (p ++ [c]) - lenN (p ++ [c]) mod 4) (p ++ [c]) = p).
    { rewrite LE, M1. replace (lenN p + 1 - 1) with (lenN p) by lia. now apply takeN_app_exact. }
    assert (X : exists q, try_from_strlike (p ++ [c]) = Ok q).
    { apply C106_parse. split; [lia|]. split; [now rewrite T|].
      assert (S : forall l, Forall (fun x => x < 128) l -> is_utf8 l = true) by (induction 1 as [|x l X F IH]; cbn [is_utf8]; [reflexivity|]; rewrite (proj2 (N.ltb_lt x 128) X); exact IH).
      apply S. repeat (apply Forall_app; split).
      - destruct (chars_vals p P) as (v & V & ->). rewrite Forall_forall in *. intros x I. apply in_map_iff in I as (d & <- & I). specialize (V d I).
        unfold b64_char. destruct (N.ltb_spec d 26); [lia|]. destruct (N.ltb_spec d 52); [lia|]. destruct (N.ltb_spec d 62); [lia|]. destruct (d =? 62); reflexivity.
      - now constructor.
      - apply Forall_forall. intros x X. apply repeat_spec in X. subst. reflexivity. }
    destruct X as (q & X). rewrite (proj1 (C106_parse _) q X) in X. exact X.
  - unfold aprox_btree_idx. destruct (base64_decode _) as [b|] eqn:D; [|reflexivity]. exfalso.
    apply decoded_chars in D. unfold b64_chars in D. rewrite Forall_forall in D. destruct (D c) as (d & X); [|exact (N d X)]. rewrite <- app_assoc. apply in_or_app. right. now left.
Qed.
(** The comparison of texts is not the order of the hashes: "aAAA" is greater than the text of a hash that comes after all it stands for *)
Theorem C106_order_refuted : exists p h, b64_chars p /\ is_hash h /\ str_greater_then p h = true /\
  forall x, is_hash x -> abbreviates p x -> lex x h = Lt.
Proof.
  exists (map char [26;0;0;0]), (208 :: repeat 0 31).
  assert (V : Forall (fun d => d < 64) [26;0;0;0]) by (repeat constructor).
  assert (H : is_hash (208 :: repeat 0 31)) by (split; [unfold bytes_ok, byte_ok; repeat constructor|reflexivity]).
  split; [now apply vals_chars|]. split; [exact H|]. split; [vm_compute; reflexivity|].
  intros x X A. apply abbreviates_digits in A as (r & R); [|exact V|exact X]. rewrite (lex_digits x _ X H), R. reflexivity.
Qed.
Example C106_ex : let h := repeat 26 32 in is_hash h /\ base64 h = [71;104;111;97] ++ skipn 4 (base64 h) /\ b64_chars [71;104;111;97;71] /\
  try_from_strlike [71;104;111;97;71] = Ok [71;104;111;97;71] /\ str_matches [71;104;111;97;71] h = true /\
  aprox_btree_idx [71;104;111;97;71] = Ok ([26;26;26;24] ++ repeat 0 28) /\ complete_try_into (base64 h) = Some h /\
  try_from_strlike [71;104;111;97;33] = Ok [71;104;111;97;33] /\ aprox_btree_idx [71;104;111;97;33] = Panic.
Proof.
  intros h. split; [split; [unfold bytes_ok, byte_ok; repeat constructor|reflexivity]|]. split; [reflexivity|].
  split; [change [71;104;111;97;71] with (map char [6;33;40;26;6]); apply vals_chars; repeat constructor|]. repeat split.
Qed.
Print Assumptions C106_parse.
Print Assumptions C106_matches.
Print Assumptions C106_first.
Print Assumptions C106_between.
Print Assumptions C106_complete.
Print Assumptions C106_panics_refuted.
Print Assumptions C106_order_refuted.
Print Assumptions C106_ex.
