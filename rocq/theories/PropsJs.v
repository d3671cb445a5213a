(** C100: reading and writing packets in JavaScript. *)
From Verif Require Import Bytes ModelSpace SpecSpace ProofSpace ProofRooted.
From Verif Require Import ModelPkt SpecPkt ProofPkt ProofPkt2 PropsPkt ModelStream SpecStream ProofStream ModelJs SpecJs.

(** What is thrown for an error of the packet crate. *)
Definition thrown {A} (o : outcome PktError A) : outcome JsErr A :=
  match o with
  | Ok a => Ok a
  | Err e => Err (match requires_more e with Some n => JNeed n | None => JPkt e end)
  | Panic => Panic
  | OutOfFuel => OutOfFuel
  end.

Lemma js_read_eq c b allow skip : bytes_ok b -> js_read c b allow skip = thrown (read_with c b skip allow).
Proof.
  intros B. unfold js_read, read_with, read_pkt, MIN_NETPKT_SIZE.
  destruct (N.ltb_spec (lenN b) 68) as [L|L]; [reflexivity|]. cbv zeta.
  change (sliceN 0 68 b) with (takeN 68 b).
  assert (PH : ph_cast (nptr_point (takeN 68 b)) = ph_cast (nptr_point b)).
  { unfold nptr_point. rewrite dropN_takeN. apply ph_cast_take; rewrite ?lenN_dropN; lia. }
  rewrite PH. set (h := ph_cast (nptr_point b)) in *.
  destruct (ph_check h) as [h'|e| |] eqn:C; cbn [obind js_pkt thrown]; try reflexivity.
  2:{ now rewrite (ph_check_err_kind _ _ C). }
  pose proof (netpkt_size_padded _ _ C) as NS. rewrite NS.
  destruct (N.ltb_spec (lenN b) (padded_point_size h + 64)) as [S|S]; [reflexivity|].
  unfold from_header_and_copy. rewrite PH. fold h.
  assert (LS : lenN (sliceN 68 (padded_point_size h + 64) b) = padded_content_size h).
  { unfold sliceN, padded_content_size. rewrite lenN_takeN, lenN_dropN. lia. }
  rewrite LS, N.eqb_refl. cbn [negb]. cbv zeta.
  destruct (N.ltb_spec (padded_point_size h + 64) 68) as [Z|Z].
  { (* declared size zero *)
    pose proof C as C'. apply ph_check_iff in C' as (-> & R0 & U & M & T).
    assert (Z0 : uset_bytes h = 0) by (destruct (N.eq_dec (uset_bytes h) 0); [assumption|]; pose proof (padded_ge4 _ _ C); lia).
    assert (DG : degenerate h).
    { split; [|lia]. destruct T as [T|[T|[T|T]]]; rewrite T in *; auto; exfalso.
      - change (min_size 3) with 64 in M. lia.
      - change (min_size 7) with 160 in M. lia. }
    assert (P : nptr_check c b skip = Panic).
    { unfold nptr_check. pose proof (lenN_dropN 64 b) as LD.
      rewrite icl_degenerate; [reflexivity|now apply bytes_ok_dropN|unfold nptr_point; lia|exact C|exact DG|].
      fold h. unfold nptr_point. lia. }
    assert (E : sliceN 68 (padded_point_size h + 64) b = []).
    { unfold sliceN. replace (padded_point_size h + 64 - 68) with 0 by lia. reflexivity. }
    rewrite E, app_nil_r. rewrite nptr_check_take by (fold h; lia). rewrite P. reflexivity. }
  assert (E : takeN 68 b ++ sliceN 68 (padded_point_size h + 64) b = takeN (padded_point_size h + 64) b).
  { unfold sliceN. rewrite <- takeN_split. f_equal. lia. }
  rewrite E, nptr_check_take by (fold h; lia).
  destruct (nptr_check c b skip) as [u|e| |] eqn:NC; cbn [obind js_pkt thrown]; try reflexivity.
  2:{ assert (X : requires_more e = None) by (eapply nptr_check_err_kind; eauto; fold h; lia). now rewrite X. }
  assert (SZ : nptr_size (takeN (padded_point_size h + 64) b) = padded_point_size h + 64).
  { unfold nptr_size, nptr_point. rewrite dropN_takeN, ph_cast_take by (rewrite ?lenN_dropN; lia). exact NS. }
  rewrite SZ.
  assert (SL : sliceN (padded_point_size h + 64) (lenN b) b = dropN (padded_point_size h + 64) b).
  { unfold sliceN. apply takeN_all. rewrite lenN_dropN. lia. }
  rewrite SL.
  destruct allow; cbn [obind js_pkt thrown]; [reflexivity|].
  destruct (ptr_group (nptr_point (takeN (padded_point_size h + 64) b))) as [g|e| |] eqn:G; cbn [obind js_pkt thrown]; try reflexivity.
  - destruct (check_private_cases g) as [Q|[Q _]]; rewrite Q; reflexivity.
  - now apply ptr_group_no_err in G.
Qed.
Lemma or_false_iff a : or_false a = false <-> ~ lets_private a.
Proof. unfold lets_private. destruct a as [[]|]; cbn; split; congruence. Qed.

(** [lk_read] gives a packet and a rest exactly when the bytes are a packet, with the right
    hash, a valid signature when it is signed, and the rest; a packet of the private group
    only when the second argument is [true]. *)
Theorem C100_read : forall c b allow pkt rest,
  bytes_ok b -> crypto_ok c ->
  js_lk_read c b allow = Ok (pkt, rest) <->
  exists nh p, lenN nh = 32 /\ point_ok p /\ signature_ok (hash c) (validate_signature c) p /\
    (~ lets_private allow -> ~ in_private_group p) /\ pkt = packet (hash c) nh p /\ b = pkt ++ rest.
Proof.
  intros c b allow pkt rest B C. unfold js_lk_read. rewrite js_read_eq by assumption.
  change (read_with c b false (or_false allow)) with (lk_read c b (or_false allow)).
  pose proof (C04_read_exact c b (or_false allow) pkt rest B C) as X.
  transitivity (lk_read c b (or_false allow) = Ok (pkt, rest)).
  { destruct (lk_read c b (or_false allow)); cbn [thrown]; split; intros E; try discriminate; congruence. }
  rewrite X. split; intros (nh & p & H1 & H2 & H3 & H4 & H5); exists nh, p;
    (split; [exact H1|]; split; [exact H2|]; split; [exact H3|]; split; [|exact H5]);
    intros W; apply H4; now apply or_false_iff.
Qed.
Print Assumptions C100_read.

(** [lk_read_unchecked] takes any hash and signature, and still only packets. *)
Theorem C100_unchecked : forall c b allow pkt rest,
  bytes_ok b -> crypto_ok c ->
  js_lk_read_unchecked c b allow = Ok (pkt, rest) <->
  exists nh h32 p, lenN nh = 32 /\ lenN h32 = 32 /\ point_ok p /\
    (~ lets_private allow -> ~ in_private_group p) /\ pkt = claimed_packet nh h32 p /\ b = pkt ++ rest.
Proof.
  intros c b allow pkt rest B (HL & _). unfold js_lk_read_unchecked. rewrite js_read_eq by assumption.
  unfold read_with. split.
  - intros E. destruct (read_pkt c b true) as [pk|e| |] eqn:R; try discriminate. cbn [obind] in E.
    apply read_ok_iff in R as (nh & h32 & p & r & Hn & Hh & Hp & Eb & Ep & _); try assumption.
    pose proof (raw_point nh h32 p [] Hn Hh) as E1. rewrite app_nil_r in E1.
    pose proof (raw_size nh h32 p [] Hn Hh Hp) as E2. rewrite app_nil_r in E2.
    rewrite Ep, E1, E2, ptr_group_content in E by assumption. cbn [obind] in E.
    exists nh, h32, p. split; [assumption|]. split; [assumption|]. split; [assumption|].
    assert (X : (if or_false allow then Ok tt else check_private (point_group p)) = Ok tt).
    { destruct (or_false allow); [reflexivity|]. destruct (check_private_cases (point_group p)) as [X|[X _]]; [exact X|].
      rewrite X in E. discriminate. }
    split; [intros W; apply or_false_iff in W; rewrite W in X; apply check_private_iff in X; exact X|].
    rewrite X in E. cbn [obind thrown] in E. subst b pk. rewrite dropN_app_exact in E by reflexivity.
    injection E as <- <-. split; reflexivity.
  - intros (nh & h32 & p & Hn & Hh & Hp & Pr & -> & ->). change (claimed_packet nh h32 p) with (raw_packet nh h32 p) in *.
    rewrite read_raw by assumption. cbn [obind].
    pose proof (raw_point nh h32 p [] Hn Hh) as E1. rewrite app_nil_r in E1.
    pose proof (raw_size nh h32 p [] Hn Hh Hp) as E2. rewrite app_nil_r in E2.
    rewrite E1, E2, ptr_group_content by assumption. cbn [obind].
    assert (X : (if or_false allow then Ok tt else check_private (point_group p)) = Ok tt)
      by (destruct (or_false allow) eqn:W; [reflexivity|]; apply check_private_iff; apply Pr; now apply or_false_iff).
    rewrite X. cbn [obind thrown]. now rewrite dropN_app_exact.
Qed.
Print Assumptions C100_unchecked.

(** On a packet cut short the number thrown is above what is there and at most the size of
    the packet; with the first 68 bytes there, it is the size of the packet.  So asking for
    as many bytes as the thrown number says never reads past the packet, and the second
    attempt that fails is the last. *)
Theorem C100_need : forall c nh p x y allow,
  crypto_ok c -> lenN nh = 32 -> point_ok p -> bytes_ok x -> packet (hash c) nh p = x ++ y -> y <> [] ->
  exists n, js_lk_read c x allow = Err (JNeed n) /\ js_lk_read_unchecked c x allow = Err (JNeed n) /\
    lenN x < n /\ n <= lenN (packet (hash c) nh p) /\ (68 <= lenN x -> n = lenN (packet (hash c) nh p)).
Proof.
  intros c nh p x y allow (HL & _) Hn Hp B E Hy.
  destruct (read_prefix c nh p x y false HL Hn Hp E Hy) as (e & n & R & Q & L1 & L2 & L3 & L4).
  destruct (read_prefix c nh p x y true HL Hn Hp E Hy) as (e' & n' & R' & Q' & L1' & L2' & L3' & L4').
  assert (EQ : e' = e /\ n' = n).
  { destruct (N.lt_ge_cases (lenN x) 68) as [L|L].
    - assert (e' = e) by (rewrite (L4 L), (L4' L); reflexivity). split; [assumption|]. subst. congruence.
    - destruct (L3 L) as [-> ->]. destruct (L3' L) as [-> ->]. split; reflexivity. }
  destruct EQ as [-> ->]. exists n. unfold js_lk_read, js_lk_read_unchecked. rewrite !js_read_eq by assumption.
  unfold read_with. rewrite R, R'. cbn [obind thrown]. rewrite Q.
  split; [reflexivity|]. split; [reflexivity|]. split; [exact L1|]. split; [exact L2|]. intros L. now apply L3.
Qed.
Print Assumptions C100_need.
(** And a number is thrown only when there are fewer bytes than that. *)
Theorem C100_need_only : forall c b allow n,
  bytes_ok b ->
  js_lk_read c b allow = Err (JNeed n) \/ js_lk_read_unchecked c b allow = Err (JNeed n) ->
  lenN b < n /\ 68 <= n /\ n <= 65088.
Proof.
  intros c b allow n B E.
  assert (X : exists skip, js_read c b (or_false allow) skip = Err (JNeed n)).
  { destruct E as [E|E]; [exists false|exists true]; exact E. }
  clear E. destruct X as [skip E]. rewrite js_read_eq in E by assumption. unfold read_with, read_pkt, MIN_NETPKT_SIZE in E.
  destruct (N.ltb_spec (lenN b) 68) as [L|L]; [cbn in E; injection E as <-; lia|].
  cbv zeta in E. set (h := ph_cast (nptr_point b)) in *.
  destruct (ph_check h) as [h'|e| |] eqn:C; cbn [obind thrown] in E; try discriminate.
  2:{ rewrite (ph_check_err_kind _ _ C) in E. discriminate. }
  pose proof (netpkt_size_padded _ _ C) as NS. rewrite NS in E.
  destruct (N.ltb_spec (lenN b) (padded_point_size h + 64)) as [S|S].
  - cbn [obind thrown requires_more] in E. injection E as <-.
    apply ph_check_iff in C as (_ & _ & U & _). split; [exact S|]. split; [lia|].
    unfold padded_point_size, upoint_size.
    assert (U1 : (uset_bytes h + 7) / 8 * 8 <= uset_bytes h + 7) by (rewrite N.mul_comm; apply N.mul_div_le; lia).
    assert (U2 : (uset_bytes h + 7) / 8 <= 65031 / 8) by (apply N.div_le_mono; lia).
    change (65031 / 8) with 8128 in U2.
    assert (U3 : ((uset_bytes h + 7) / 8 * 8) mod 65536 <= (uset_bytes h + 7) / 8 * 8) by (apply N.mod_le; lia).
    lia.
  - exfalso. destruct (nptr_check c b skip) as [u|e| |] eqn:NC; cbn [obind thrown] in E; try discriminate.
    + destruct (or_false allow); cbn [obind thrown] in E; [discriminate|].
      match type of E with context [ptr_group ?x] => destruct (ptr_group x) as [g|e| |] eqn:G end; cbn [obind thrown] in E; try discriminate.
      * destruct (check_private_cases g) as [Q|[Q _]]; rewrite Q in E; discriminate.
      * now apply ptr_group_no_err in G.
    + assert (X : requires_more e = None) by (eapply nptr_check_err_kind; eauto; fold h; lia).
      rewrite X in E. discriminate.
Qed.
Print Assumptions C100_need_only.

(** Writing a packet gives its bytes back, and refuses exactly the packets of the private
    group unless the second argument is [true]. *)
Theorem C100_write : forall nh h32 p allow w,
  lenN nh = 32 -> lenN h32 = 32 -> point_ok p ->
  (js_lk_write (claimed_packet nh h32 p) allow = Ok w <->
     w = claimed_packet nh h32 p /\ (~ lets_private allow -> ~ in_private_group p)) /\
  (js_lk_write (claimed_packet nh h32 p) allow = Err (JPkt EPrivateGroup) <->
     ~ lets_private allow /\ in_private_group p) /\
  js_lk_write (claimed_packet nh h32 p) allow <> Panic.
Proof.
  intros nh h32 p allow w Hn Hh Hp. unfold js_lk_write, lets_private, in_private_group.
  change (claimed_packet nh h32 p) with (raw_packet nh h32 p).
  pose proof (raw_point nh h32 p [] Hn Hh) as E1. rewrite app_nil_r in E1.
  pose proof (raw_size nh h32 p [] Hn Hh Hp) as E2. rewrite app_nil_r in E2.
  rewrite E1, E2, ptr_group_content by assumption. rewrite takeN_all by lia. rewrite N.eqb_refl. cbn [negb obind].
  destruct (check_private_cases (point_group p)) as [Q|[Q G]]; rewrite Q.
  - apply check_private_iff in Q.
    assert (X : (match allow with Some true => Ok tt | _ => js_pkt (Ok tt) end) = Ok tt :> outcome JsErr unit)
      by (destruct allow as [[]|]; reflexivity).
    rewrite X. cbn [obind]. split; [|split; [split; [discriminate|tauto]|discriminate]].
    split; [intros E; injection E as <-; split; [reflexivity|intros _; exact Q]|intros [-> _]; reflexivity].
  - destruct allow as [[]|]; cbn [js_pkt obind].
    + split; [split; [intros E; injection E as <-; split; [reflexivity|intros H; congruence]|intros [-> _]; reflexivity]|].
      split; [split; [discriminate|intros [H _]; congruence]|discriminate].
    + split; [split; [discriminate|intros [_ H]; exfalso; apply H; [discriminate|exact G]]|].
      split; [split; [intros _; split; [discriminate|exact G]|reflexivity]|discriminate].
    + split; [split; [discriminate|intros [_ H]; exfalso; apply H; [discriminate|exact G]]|].
      split; [split; [intros _; split; [discriminate|exact G]|reflexivity]|discriminate].
Qed.
Print Assumptions C100_write.

(** The reads agree with those of the library on every input, also on the inputs that make
    it panic: reading in JavaScript panics exactly where [lk_read] of the library does. *)
Theorem C100_panics_refuted : forall c b allow,
  bytes_ok b -> crypto_ok c ->
  (js_lk_read c b allow = Panic <->
     68 <= lenN b /\ nth 64 b 0 = 0 /\ (nth 65 b 0 = 1 \/ nth 65 b 0 = 128) /\ nth 66 b 0 = 0 /\
     (nth 67 b 0 = 0 \/ nth 67 b 0 < 4 /\ 72 <= lenN b)) /\
  js_lk_read c b allow <> OutOfFuel.
Proof.
  intros c b allow B C. unfold js_lk_read. rewrite js_read_eq by assumption.
  change (read_with c b false (or_false allow)) with (lk_read c b (or_false allow)).
  destruct (C05_read_no_panic_partial c b (or_false allow) B C) as [X Y]. rewrite <- X. split.
  - destruct (lk_read c b (or_false allow)); cbn [thrown]; split; intros E; try discriminate; reflexivity.
  - destruct (lk_read c b (or_false allow)); cbn [thrown]; congruence.
Qed.
Print Assumptions C100_panics_refuted.

(** The documentation calls the second argument [validate].  Passing [true] does not
    validate: a packet with a wrong hash is still taken by [lk_read_unchecked], and
    packets of the private group, refused by default, are let through. *)
Definition ex_private : point := PLink (repeat 0 32) ex_domain 7 ex_links ex_rspace ex_data.
Theorem C100_validate_refuted :
  (exists b, js_lk_read_unchecked toy b (Some true) = Ok (b, []) /\ js_lk_read toy b (Some true) = Err (JPkt EHashMismatch)) /\
  (exists b, js_lk_read toy b None = Err (JPkt EPrivateGroup) /\ js_lk_read toy b (Some true) = Ok (b, [])).
Proof.
  split.
  - exists (claimed_packet ex_nh (repeat 9 32) (PData ex_data)). split; vm_compute; reflexivity.
  - exists (packet toy_hash ex_nh ex_private). split; vm_compute; reflexivity.
Qed.
Print Assumptions C100_validate_refuted.

Definition ex_js : point := PLink ex_group ex_domain 7 ex_links ex_rspace ex_data.
Example C100_ex :
  js_lk_read toy (packet toy_hash ex_nh ex_js ++ [1;2]) None = Ok (packet toy_hash ex_nh ex_js, [1;2]) /\
  js_lk_read toy (takeN 10 (packet toy_hash ex_nh ex_js)) None = Err (JNeed 68) /\
  js_lk_read toy (takeN 80 (packet toy_hash ex_nh ex_js)) None = Err (JNeed (lenN (packet toy_hash ex_nh ex_js))) /\
  js_lk_write (packet toy_hash ex_nh ex_js) None = Ok (packet toy_hash ex_nh ex_js) /\
  js_lk_write (packet toy_hash ex_nh ex_private) (Some false) = Err (JPkt EPrivateGroup) /\
  js_lk_read toy (ex_nh ++ repeat 0 32 ++ [0;1;0;3;255;255;255;255]) None = Panic.
Proof. repeat split; vm_compute; reflexivity. Qed.
