(** Proofs about ABE text: reading single bytes, and byte strings. *)
From Verif Require Import Bytes ModelAbe SpecAbe.
Opaque N.land.

Lemma below_256 (f : N -> bool) b : forallb f (map N.of_nat (seq 0 256)) = true -> b < 256 -> f b = true.
Proof.
  intros H B. rewrite forallb_forall in H. apply H. apply in_map_iff. exists (N.to_nat b). split; [lia|]. apply in_seq. lia.
Qed.

(** Hexadecimal digits. *)
Lemma hex_digit_value c v : hex_digit c = Some v <-> hex_value c v.
Proof.
  unfold hex_digit, hex_value. split.
  - intros H.
    destruct ((48 <=? c) && (c <=? 57)) eqn:E.
    + injection H as <-. left.
      assert (c = 48 \/ c = 49 \/ c = 50 \/ c = 51 \/ c = 52 \/ c = 53 \/ c = 54 \/ c = 55 \/ c = 56 \/ c = 57) as D by lia.
      repeat destruct D as [->|D]; try reflexivity. subst. reflexivity.
    + destruct ((97 <=? c) && (c <=? 102)) eqn:E2.
      * injection H as <-. left.
        assert (c = 97 \/ c = 98 \/ c = 99 \/ c = 100 \/ c = 101 \/ c = 102) as D by lia.
        repeat destruct D as [->|D]; try reflexivity. subst. reflexivity.
      * destruct ((65 <=? c) && (c <=? 70)) eqn:E3; [|discriminate].
        injection H as <-. right.
        assert (c = 65 \/ c = 66 \/ c = 67 \/ c = 68 \/ c = 69 \/ c = 70) as D by lia.
        repeat destruct D as [->|D]; try reflexivity. subst. reflexivity.
  - intros H.
    assert (L : v < 16).
    { destruct (N.lt_ge_cases v 16) as [?|G]; [assumption|exfalso].
      destruct H as [H|H]; (rewrite (proj2 (nth_error_None _ _)) in H; [discriminate|cbn; lia]). }
    assert (D : v = 0 \/ v = 1 \/ v = 2 \/ v = 3 \/ v = 4 \/ v = 5 \/ v = 6 \/ v = 7 \/ v = 8 \/ v = 9 \/ v = 10
              \/ v = 11 \/ v = 12 \/ v = 13 \/ v = 14 \/ v = 15) by lia.
    destruct H as [H|H]; repeat destruct D as [->|D]; try subst v; cbn in H; injection H as <-; reflexivity.
Qed.

(** Single bytes. *)
Lemma std_err k : negb (N.land STD_ERR_CSET (ctr_bit k) =? 0) = match k with Newline => true | _ => false end.
Proof. now destruct k. Qed.
Lemma std_plain k : negb (N.land STD_PLAIN_CSET (ctr_bit k) =? 0) = false.
Proof. now destruct k. Qed.
Lemma ctr_of_char b k : ctr_of b = Some k <-> b = as_char k.
Proof.
  unfold ctr_of. split.
  - repeat match goal with |- context [b =? ?c] => destruct (N.eqb_spec b c); [intros [= <-]; assumption|] end. discriminate.
  - intros ->. now destruct k.
Qed.
Lemma unescape_table e v : unescape e = Some v <-> In (e, v) escapes.
Proof.
  unfold unescape, escapes. split.
  - repeat match goal with |- context [e =? ?c] => destruct (N.eqb_spec e c); [intros [= <-]; subst e; cbn; tauto|] end. discriminate.
  - cbn. intros H. repeat destruct H as [[= <- <-]|H]; try reflexivity. contradiction.
Qed.
Lemma plain_char b : plain b <-> ctr_of b = None /\ (b =? 92) = false /\ (b =? 9) || (b =? 13) = false /\ (32 <=? b) && (b <=? 126) = true.
Proof.
  unfold plain, special, ctr_of. cbn. split.
  - intros [R H]. repeat split; try lia.
    repeat match goal with |- context [b =? ?c] => destruct (N.eqb_spec b c) as [->|?]; [exfalso; try tauto; lia|] end. reflexivity.
  - intros (C & B & _ & R). split; [lia|].
    repeat match type of C with context [b =? ?c] => destruct (N.eqb_spec b c); [discriminate|] end.
    lia.
Qed.

(** [next_byte] with the delimiters [plain], none of them an error when [err] = 0. *)
Inductive nb_spec (p e : N) : bytes -> Byte -> Prop :=
| nb_fin : nb_spec p e [] Finished
| nb_one u v rest : reads1 u v -> nb_spec p e (u ++ rest) (BByte v rest)
| nb_plain k rest : N.land e (ctr_bit k) = 0 -> N.land p (ctr_bit k) <> 0 -> nb_spec p e (as_char k :: rest) (BByte (as_char k) rest)
| nb_ctr k rest : N.land e (ctr_bit k) = 0 -> N.land p (ctr_bit k) = 0 -> nb_spec p e (as_char k :: rest) (BCtr k rest).
Lemma next_byte_sound t idx p e nb : next_byte t idx p e = Ok nb -> nb_spec p e t nb.
Proof.
  destruct t as [|b rest]; cbn [next_byte]; [intros [= <-]; constructor|].
  destruct (ctr_of b) as [k|] eqn:K.
  - apply ctr_of_char in K as ->.
    destruct (N.eqb_spec (N.land e (ctr_bit k)) 0) as [E0|E0]; cbn [negb]; [|discriminate].
    destruct (N.eqb_spec (N.land p (ctr_bit k)) 0) as [P|P]; cbn [negb]; intros [= <-]; now constructor.
  - destruct (N.eqb_spec b 92) as [->|B].
    + destruct rest as [|s rest']; [discriminate|].
      destruct (N.eqb_spec s 120) as [->|S].
      * destruct rest' as [|h [|l r]]; try discriminate. cbn [hex_byte].
        destruct (hex_digit h) as [a|] eqn:H; [|discriminate]. destruct (hex_digit l) as [c|] eqn:L; [|discriminate].
        cbn [obind]. intros [= <-]. apply hex_digit_value in H. apply hex_digit_value in L.
        apply (nb_one p e [92; 120; h; l]). now constructor.
      * destruct (unescape s) as [v|] eqn:U; [|discriminate]. intros [= <-]. apply unescape_table in U.
        apply (nb_one p e [92; s]). now constructor.
    + destruct ((b =? 9) || (b =? 13)) eqn:T; [discriminate|].
      destruct ((32 <=? b) && (b <=? 126)) eqn:R; [|discriminate]. intros [= <-].
      apply (nb_one p e [b]). constructor. apply plain_char. repeat split; try assumption. now apply N.eqb_neq.
Qed.
Lemma reads1_next u v rest idx p e : reads1 u v -> next_byte (u ++ rest) idx p e = Ok (BByte v rest).
Proof.
  intros [c P|c w I|h l a b H L].
  - apply plain_char in P as (C & B & T & R). cbn [app next_byte]. now rewrite C, B, T, R.
  - cbn [app next_byte]. change (ctr_of 92) with (@None CtrChar). cbn. change (92 =? 92) with true. cbn.
    assert (c =? 120 = false) as ->. { cbn in I. repeat destruct I as [[= <- <-]|I]; try reflexivity. contradiction. }
    apply unescape_table in I. now rewrite I.
  - cbn [app next_byte]. change (ctr_of 92) with (@None CtrChar). cbn. change (92 =? 92) with true. change (120 =? 120) with true. cbn.
    apply hex_digit_value in H. apply hex_digit_value in L. now rewrite H, L.
Qed.
Lemma ctr_next k rest idx p e : N.land e (ctr_bit k) = 0 ->
  next_byte (as_char k :: rest) idx p e = Ok (if N.land p (ctr_bit k) =? 0 then BCtr k rest else BByte (as_char k) rest).
Proof.
  intros E. cbn [next_byte]. rewrite (proj2 (ctr_of_char _ k) eq_refl), E. change (negb (0 =? 0)) with false. cbv iota.
  now destruct (N.land p (ctr_bit k) =? 0).
Qed.
Lemma nb_next p e t nb idx : nb_spec p e t nb -> next_byte t idx p e = Ok nb.
Proof.
  intros [|u v rest H|k rest E P|k rest E P].
  - reflexivity.
  - now apply reads1_next.
  - rewrite ctr_next by assumption. now rewrite (proj2 (N.eqb_neq _ _) P).
  - rewrite ctr_next by assumption. now rewrite P.
Qed.
Lemma reads1_len u v : reads1 u v -> (0 < List.length u)%nat.
Proof. intros []; cbn; lia. Qed.
Lemma reads1_ok u v : reads1 u v -> v < 256.
Proof.
  intros [c [P _]|c w I|h l a b H L]; [lia| |].
  - cbn in I. repeat destruct I as [[= <- <-]|I]; try lia; try contradiction.
  - assert (forall c x, hex_value c x -> x < 16) as K.
    { intros c x K. destruct (N.lt_ge_cases x 16) as [?|G]; [assumption|exfalso].
      destruct K as [K|K]; (rewrite (proj2 (nth_error_None _ _)) in K; [discriminate|cbn; lia]). }
    apply K in H. apply K in L. lia.
Qed.

(** ** Byte strings *)
Lemma reads_app t1 b1 t2 b2 : reads t1 b1 -> reads t2 b2 -> reads (t1 ++ t2) (b1 ++ b2).
Proof. induction 1 as [|u v t b U R IH]; intros H; [assumption|]. rewrite <- app_assoc. cbn. constructor; auto. Qed.
Lemma reads_bytes_ok t b : reads t b -> bytes_ok b.
Proof. induction 1; constructor; [|assumption]. now apply reads1_ok with u. Qed.
Lemma parse_loop_reads f len t max out r : parse_loop f len t max out = Ok r -> exists b, r = out ++ b /\ reads t b /\
  match max with Some m => b = [] \/ lenN r <= m | None => True end.
Proof.
  revert t out. induction f as [|f IH]; [discriminate|]. intros t out. cbn [parse_loop].
  destruct (next_byte t _ _ _) as [nb| | |] eqn:N; try discriminate. cbn [obind].
  apply next_byte_sound in N. destruct N as [|u v rest U|k rest _ P|k rest _ P].
  - intros [= <-]. exists []. rewrite app_nil_r. repeat split; [constructor|]. destruct max; auto.
  - assert (parse_loop f len rest max (out ++ [v]) = Ok r -> exists b, r = out ++ b /\ reads (u ++ rest) b /\
      match max with Some m => lenN out <? m = true -> b = [] \/ lenN r <= m | None => True end) as G.
    { intros H. apply IH in H as (b & -> & R & M). exists (v :: b). rewrite <- app_assoc. repeat split; [now constructor|].
      destruct max as [m|]; [|trivial]. intros L. right. cbn [app]. rewrite lenN_app, lenN_cons. rewrite !lenN_app, lenN_cons in M.
      change (lenN (@nil N)) with 0 in M. destruct M as [->|M]; [change (lenN (@nil N)) with 0|]; lia. }
    destruct max as [m|]; [|assumption]. destruct (m <=? lenN out) eqn:M; [discriminate|].
    intros H. apply G in H as (b & ? & ? & ?). exists b. repeat split; [assumption..|]. assert (lenN out <? m = true) by lia. auto.
  - exfalso. apply P. reflexivity.
  - discriminate.
Qed.
Lemma reads_parse_loop f len t max out b : reads t b -> (List.length t < f)%nat ->
  match max with Some m => b = [] \/ lenN out + lenN b <= m | None => True end -> parse_loop f len t max out = Ok (out ++ b).
Proof.
  intros R. revert f out. induction R as [|u v t b U R IH]; intros f out F M; destruct f as [|f]; try lia; cbn [parse_loop].
  - cbn [next_byte obind]. now rewrite app_nil_r.
  - rewrite (reads1_next u v) by assumption. cbn [obind].
    assert (parse_loop f len t max (out ++ [v]) = Ok (out ++ v :: b)) as G.
    { rewrite IH; [now rewrite <- app_assoc| |].
      - rewrite app_length in F. pose proof (reads1_len u v U). lia.
      - destruct max as [m|]; [|trivial]. destruct M as [M|M]; [discriminate|].
        rewrite lenN_cons in M. rewrite lenN_app, lenN_cons. change (lenN (@nil N)) with 0. right. lia. }
    destruct max as [m|]; [|assumption]. destruct M as [M|M]; [discriminate|]. rewrite lenN_cons in M.
    destruct (N.leb_spec m (lenN out)); [lia|assumption].
Qed.
Lemma parse_abtxt_iff t max b : parse_abtxt t max = Ok b <-> reads t b /\ match max with Some m => lenN b <= m | None => True end.
Proof.
  unfold parse_abtxt. split.
  - intros H. apply parse_loop_reads in H as (x & -> & R & M). split; [assumption|]. destruct max; [|trivial].
    destruct M as [->|M]; [change (lenN ([] ++ [])) with 0; lia|assumption].
  - intros [R M]. rewrite (reads_parse_loop _ _ _ _ _ b R); [reflexivity|lia|]. destruct max; [|trivial].
    right. change (lenN (@nil N)) with 0. lia.
Qed.
Lemma next_byte_fuel t idx p e : next_byte t idx p e <> OutOfFuel /\ next_byte t idx p e <> Panic.
Proof.
  destruct t as [|b rest]; cbn [next_byte]; [split; discriminate|].
  destruct (ctr_of b); [destruct (negb _); [|destruct (negb _)]; split; discriminate|].
  destruct (b =? 92).
  - destruct rest as [|s r]; [split; discriminate|]. destruct (s =? 120).
    + destruct r as [|h [|l r]]; cbn [hex_byte obind]; try (split; discriminate).
      destruct (hex_digit h), (hex_digit l); cbn; split; discriminate.
    + destruct (unescape s); split; discriminate.
  - destruct (_ || _); [split; discriminate|]. destruct (_ && _); split; discriminate.
Qed.
Lemma nb_shorter p e t nb : nb_spec p e t nb -> match nb with Finished => True | BCtr _ r | BByte _ r => (List.length r < List.length t)%nat end.
Proof. intros [|u v rest H|k rest E P|k rest E P]; cbn; try lia. rewrite app_length. pose proof (reads1_len u v H). lia. Qed.
Lemma parse_loop_total f len t max out : (List.length t < f)%nat ->
  parse_loop f len t max out <> OutOfFuel /\ parse_loop f len t max out <> Panic.
Proof.
  revert t out. induction f as [|f IH]; [lia|]. intros t out F. cbn [parse_loop].
  destruct (next_byte t _ _ _) as [nb| | |] eqn:N; cbn [obind]; try (split; discriminate).
  - apply next_byte_sound in N. apply nb_shorter in N.
    destruct nb as [|k r|b r]; try (split; discriminate). destruct max as [m|]; [destruct (m <=? lenN out); [split; discriminate|]|]; apply IH; lia.
  - now destruct (next_byte_fuel t (len - lenN t) STD_PLAIN_CSET STD_ERR_CSET) as [_ K].
  - now destruct (next_byte_fuel t (len - lenN t) STD_PLAIN_CSET STD_ERR_CSET) as [K _].
Qed.

(** Printing. *)
Lemma escape_reads b : b < 256 -> reads1 (escape_default b) b.
Proof.
  intros B. unfold escape_default.
  repeat match goal with |- context [b =? ?c] => destruct (N.eqb_spec b c) as [->|?]; [apply reads_escape; cbn; tauto|] end.
  destruct ((32 <=? b) && (b <=? 126)) eqn:R.
  - apply reads_plain. split; [lia|]. unfold special. cbn. lia.
  - unfold hex_lookup.
    assert (K : forall d, d < 16 -> hex_value (hex_char d) d).
    { intros d L. apply hex_digit_value. unfold hex_char, hex_digit. destruct (N.ltb_spec d 10).
      - assert ((48 <=? 48 + d) && (48 + d <=? 57) = true) as -> by lia. f_equal. lia.
      - assert ((48 <=? 87 + d) && (87 + d <=? 57) = false) as -> by lia.
        assert ((97 <=? 87 + d) && (87 + d <=? 102) = true) as -> by lia. f_equal. lia. }
    replace b with (16 * (b / 16) + b mod 16) at 3 by lia. constructor; apply K; lia.
Qed.
Lemma escape_all_reads b : bytes_ok b -> reads (flat_map escape_default b) b.
Proof. induction 1; cbn; constructor; [|assumption]. now apply escape_reads. Qed.
Lemma as_abtxt_flat b : as_abtxt b = flat_map escape_default b.
Proof.
  unfold as_abtxt. destruct (forallb _ b) eqn:H; [|reflexivity]. induction b as [|x b IH]; [reflexivity|].
  cbn in H. apply andb_true_iff in H as [H1 H2]. cbn. rewrite <- IH by assumption.
  enough (escape_default x = [x]) as -> by reflexivity.
  unfold escaped_byte, escape_default in *.
  repeat match goal with |- context [x =? ?c] => destruct (x =? c); [discriminate|] end.
  destruct (_ && _); [reflexivity|discriminate].
Qed.
Lemma reads1_escaped u v t : reads1 u v -> escaped t -> escaped (u ++ t).
Proof.
  intros [c P|e w I|h l a b H L] E; cbn.
  - now constructor.
  - apply escaped_pair; [|assumption]. cbn in I. repeat destruct I as [[= <- <-]|I]; try lia; try contradiction.
  - assert (D : forall c x, hex_value c x -> plain c).
    { intros c x D. apply hex_digit_value in D. unfold hex_digit in D. unfold plain, special. cbn.
      destruct ((48 <=? c) && (c <=? 57)) eqn:?; [lia|]. destruct ((97 <=? c) && (c <=? 102)) eqn:?; [lia|].
      destruct ((65 <=? c) && (c <=? 70)) eqn:?; [lia|discriminate]. }
    apply escaped_pair; [lia|]. apply escaped_plain; [now apply (D h a)|]. apply escaped_plain; [now apply (D l b)|assumption].
Qed.
Lemma reads_escaped t b : reads t b -> escaped t.
Proof. induction 1; [constructor|]. now apply reads1_escaped with v. Qed.
(** A text is the bytes of at most one byte string. *)
Lemma reads_fun t b1 b2 : reads t b1 -> reads t b2 -> b1 = b2.
Proof.
  intros H1 H2. assert (parse_abtxt t None = Ok b1) by now apply parse_abtxt_iff.
  assert (parse_abtxt t None = Ok b2) by now apply parse_abtxt_iff. congruence.
Qed.
