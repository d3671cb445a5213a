From Verif Require Import Bytes ModelSpace SpecSpace ProofSpace ProofRooted ModelPkt SpecPkt ProofPkt.

(** ** Reading packets *)
(** A packet with any 32-byte value in the hash field. *)
Definition raw_packet (nh h32 : bytes) (p : point) : bytes := nh ++ h32 ++ content p.

Section Raw.
Variables (nh h32 : bytes) (p : point) (r : bytes).
Hypotheses (Hn : lenN nh = 32) (Hh : lenN h32 = 32) (Hp : point_ok p).
Lemma raw_point : nptr_point (raw_packet nh h32 p ++ r) = content p ++ r.
Proof using Hn Hh.
  unfold nptr_point, raw_packet. rewrite <- !app_assoc, app_assoc. apply dropN_app_exact. rewrite lenN_app. lia.
Qed.
Lemma raw_hash : nptr_hash (raw_packet nh h32 p ++ r) = h32.
Proof using Hn Hh.
  unfold nptr_hash, raw_packet. rewrite <- !app_assoc. apply sliceN_mid; lia.
Qed.
Lemma raw_header : nptr_header (raw_packet nh h32 p ++ r) = nh.
Proof using Hn. unfold nptr_header, raw_packet. rewrite <- !app_assoc. now apply takeN_app_exact. Qed.
Lemma raw_len : lenN (raw_packet nh h32 p) = 64 + lenN (content p).
Proof using Hn Hh. unfold raw_packet. rewrite !lenN_app. lia. Qed.
Lemma raw_size : nptr_size (raw_packet nh h32 p ++ r) = lenN (raw_packet nh h32 p).
Proof using Hn Hh Hp.
  unfold nptr_size. rewrite raw_point, header_of_content by assumption.
  rewrite netpkt_size_eq by apply Hp. rewrite raw_len, content_len by assumption. lia.
Qed.
End Raw.

Lemma content_ge4 p : 4 <= lenN (content p).
Proof. rewrite content_eq, lenN_app, ph_as_bytes_len. lia. Qed.

Lemma read_raw c nh h32 p r skip : lenN nh = 32 -> lenN h32 = 32 -> point_ok p ->
  read_pkt c (raw_packet nh h32 p ++ r) skip =
  if skip then Ok (raw_packet nh h32 p)
  else match p with
       | PKey _ _ _ _ _ _ pk sg =>
           if validate_signature c pk sg (hash c (unsigned_content p))
           then (if beqb h32 (hash c (content p)) then Ok (raw_packet nh h32 p) else Err EHashMismatch)
           else Err EInvalidSignature
       | _ => if beqb h32 (hash c (content p)) then Ok (raw_packet nh h32 p) else Err EHashMismatch
       end.
Proof.
  intros Hn Hh Hp. unfold read_pkt. pose proof (content_ge4 p).
  rewrite lenN_app, raw_len by assumption. unfold MIN_NETPKT_SIZE.
  destruct (N.ltb_spec (64 + lenN (content p) + lenN r) 68); [lia|].
  rewrite raw_point, header_of_content, header_check by assumption. cbn [obind].
  assert (E : netpkt_size (header_of p) = lenN (raw_packet nh h32 p)).
  { rewrite netpkt_size_eq by apply Hp. rewrite raw_len, content_len by assumption. lia. }
  rewrite E, raw_len by assumption.
  destruct (N.ltb_spec (64 + lenN (content p) + lenN r) (64 + lenN (content p))); [lia|].
  rewrite <- raw_len with (nh := nh) (h32 := h32) by assumption.
  rewrite takeN_app_exact by reflexivity. unfold nptr_check.
  rewrite raw_point, raw_hash by assumption.
  rewrite icl_content by assumption. cbn [obind]. destruct skip; [reflexivity|].
  rewrite check_signature_content, pkt_bytes_content by assumption.
  destruct p as [d|d|g dm cc ls rs d|g dm cc ls rs d pk sg]; cbn [obind];
    try (destruct (beqb h32 _); reflexivity).
  destruct (validate_signature c pk sg _); cbn [obind]; [|reflexivity].
  destruct (beqb h32 _); reflexivity.
Qed.

Lemma requires_more_missing e : requires_more e = None \/ e = EMissingHeader \/ exists n, e = EMissingBytes n.
Proof. destruct e; cbn; eauto. Qed.

(** Every input either is a packet followed by something, or is an error, or has a
    degenerate header. *)
Lemma read_cases c b skip : bytes_ok b ->
  (exists nh h32 p r, lenN nh = 32 /\ lenN h32 = 32 /\ point_ok p /\ b = raw_packet nh h32 p ++ r) \/
  (exists e, read_pkt c b skip = Err e) \/
  (68 <= lenN b /\ reserved (ph_cast (dropN 64 b)) = 0 /\ degenerate (ph_cast (dropN 64 b)) /\
   netpkt_size (ph_cast (dropN 64 b)) <= lenN b /\ read_pkt c b skip = Panic).
Proof.
  intros B. unfold read_pkt, MIN_NETPKT_SIZE, nptr_point.
  destruct (N.ltb_spec (lenN b) 68) as [|L]; [right; left; eexists; reflexivity|].
  destruct (ph_check_total (ph_cast (dropN 64 b))) as [C|(e & C & _)]; rewrite C; cbn [obind];
    [|right; left; eexists; reflexivity].
  destruct (N.ltb_spec (lenN b) (netpkt_size (ph_cast (dropN 64 b)))) as [|L2]; [right; left; eexists; reflexivity|].
  set (pt := dropN 64 b) in *. pose proof C as C'. apply ph_check_iff in C' as (_ & R0 & U & M & T).
  rewrite netpkt_size_eq in * by assumption.
  assert (Bp : bytes_ok pt) by now apply bytes_ok_dropN.
  assert (Lp : lenN pt = lenN b - 64) by apply lenN_dropN.
  assert (DD : degenerate (ph_cast pt) \/ ~ degenerate (ph_cast pt)) by (unfold degenerate; lia).
  destruct DD as [D|D].
  - right; right. split; [assumption|]. split; [assumption|]. split; [assumption|]. split; [assumption|].
    unfold nptr_check, nptr_point. fold pt. rewrite icl_degenerate; try assumption; try lia. reflexivity.
  - destruct (icl_char pt Bp) as [[_ (p & r & Hp & E)]|(e & E & _)]; try assumption; try lia.
    + left. destruct (cut 64 b) as (x & y & -> & Hx); [lia|].
      destruct (cut 32 x) as (nh & h32 & -> & Hn); [lia|]. rewrite lenN_app in Hx.
      assert (Y : pt = y) by (unfold pt; apply dropN_app_exact; rewrite lenN_app; lia).
      exists nh, h32, p, r. split; [assumption|]. split; [lia|]. split; [assumption|].
      rewrite <- Y, E. unfold raw_packet. now rewrite <- !app_assoc.
    + right; left. exists e. unfold nptr_check, nptr_point. fold pt. rewrite E. reflexivity.
Qed.

Lemma read_ok_iff c b skip pkt : bytes_ok b -> (forall x, lenN (hash c x) = 32) ->
  read_pkt c b skip = Ok pkt <->
  exists nh h32 p r, lenN nh = 32 /\ lenN h32 = 32 /\ point_ok p /\ b = pkt ++ r /\ pkt = raw_packet nh h32 p /\
    (skip = false -> h32 = hash c (content p) /\ signature_ok (hash c) (validate_signature c) p).
Proof.
  intros B HL. split.
  - intros E. destruct (read_cases c b skip B) as [(nh & h32 & p & r & Hn & Hh & Hp & ->)|[[e X]|(_ & _ & _ & _ & X)]];
      try congruence.
    rewrite read_raw in E by assumption. exists nh, h32, p, r.
    destruct skip; [injection E as E; subst pkt; repeat (split; [solve [assumption|reflexivity]|]); intros X; inversion X|].
    destruct p as [d|d|g dm cc ls rs d|g dm cc ls rs d pk sg];
      try (destruct (beqb h32 _) eqn:Q; [|discriminate]; apply beqb_eq in Q; injection E as E; subst pkt; cbn [signature_ok]; tauto).
    destruct (validate_signature c pk sg _) eqn:V; [|discriminate].
    destruct (beqb h32 _) eqn:Q; [|discriminate]; apply beqb_eq in Q. injection E as E; subst pkt. cbn [signature_ok]. tauto.
  - intros (nh & h32 & p & r & Hn & Hh & Hp & -> & -> & H). rewrite read_raw by assumption.
    destruct skip; [reflexivity|]. destruct (H eq_refl) as [-> S].
    destruct p as [d|d|g dm cc ls rs d|g dm cc ls rs d pk sg];
      try (rewrite (proj2 (beqb_eq _ _) eq_refl); reflexivity).
    cbn [signature_ok] in S. rewrite S, (proj2 (beqb_eq _ _) eq_refl). reflexivity.
Qed.

Lemma check_private_iff g : check_private g = Ok tt <-> g <> Some (repeat 0 32).
Proof.
  unfold check_private, PRIVATE. destruct g as [g|]; [|split; [discriminate|reflexivity]].
  destruct (beqb g (repeat 0 32)) eqn:E.
  - apply beqb_eq in E. subst. split; [discriminate|congruence].
  - apply beqb_neq in E. split; [congruence|reflexivity].
Qed.
Lemma check_private_cases g : check_private g = Ok tt \/ (check_private g = Err EPrivateGroup /\ g = Some (repeat 0 32)).
Proof.
  unfold check_private, PRIVATE. destruct g as [g|]; [|now left].
  destruct (beqb g (repeat 0 32)) eqn:E; [|now left]. apply beqb_eq in E. subst. now right.
Qed.

Lemma packet_raw c nh p : packet (hash c) nh p = raw_packet nh (hash c (content p)) p.
Proof. reflexivity. Qed.

Lemma lk_read_iff c b allow pkt rest : bytes_ok b -> (forall x, lenN (hash c x) = 32) ->
  lk_read c b allow = Ok (pkt, rest) <->
  exists nh p, lenN nh = 32 /\ point_ok p /\ signature_ok (hash c) (validate_signature c) p /\
    (allow = false -> ~ in_private_group p) /\ pkt = packet (hash c) nh p /\ b = pkt ++ rest.
Proof.
  intros B HL. unfold lk_read. split.
  - intros E. destruct (read_pkt c b false) as [pk|e| |] eqn:R; try discriminate. cbn [obind] in E.
    apply read_ok_iff in R as (nh & h32 & p & r & Hn & Hh & Hp & Eb & Ep & S); try assumption.
    destruct (S eq_refl) as [Eh Sg]. subst h32. rewrite <- packet_raw in Ep.
    pose proof (raw_point nh (hash c (content p)) p [] Hn Hh) as E1. rewrite app_nil_r in E1.
    pose proof (raw_size nh (hash c (content p)) p [] Hn Hh Hp) as E2. rewrite app_nil_r in E2.
    rewrite <- packet_raw in E1, E2. rewrite Ep, E1, E2, ptr_group_content in E by assumption. cbn [obind] in E.
    exists nh, p. split; [assumption|]. split; [assumption|]. split; [assumption|].
    assert (X : (if allow then Ok tt else check_private (point_group p)) = Ok tt)
      by (destruct allow; [reflexivity|]; destruct (check_private (point_group p)) as [[]| | |]; try discriminate; reflexivity).
    split; [intros ->; apply check_private_iff in X; exact X|].
    rewrite X in E. cbn [obind] in E. inversion E; subst. split; [reflexivity|].
    now rewrite dropN_app_exact.
  - intros (nh & p & Hn & Hp & Sg & Pr & -> & ->).
    assert (Hh : lenN (hash c (content p)) = 32) by apply HL.
    assert (R : read_pkt c (packet (hash c) nh p ++ rest) false = Ok (packet (hash c) nh p)).
    { apply read_ok_iff; try assumption. exists nh, (hash c (content p)), p, rest. rewrite packet_raw. tauto. }
    rewrite R. cbn [obind].
    pose proof (raw_point nh (hash c (content p)) p [] Hn Hh) as E1. rewrite app_nil_r in E1.
    pose proof (raw_size nh (hash c (content p)) p [] Hn Hh Hp) as E2. rewrite app_nil_r in E2.
    rewrite <- packet_raw in E1, E2. rewrite E1, E2, ptr_group_content by assumption. cbn [obind].
    assert (X : (if allow then Ok tt else check_private (point_group p)) = Ok tt)
      by (destruct allow; [reflexivity|]; apply check_private_iff; exact (Pr eq_refl)).
    rewrite X. cbn [obind]. now rewrite dropN_app_exact.
Qed.

(** [lk_read] on a written packet needs no assumption on the bytes. *)
Lemma lk_read_packet c nh p rest allow : (forall x, lenN (hash c x) = 32) ->
  lenN nh = 32 -> point_ok p -> signature_ok (hash c) (validate_signature c) p ->
  lk_read c (packet (hash c) nh p ++ rest) allow =
  if allow then Ok (packet (hash c) nh p, rest)
  else obind (check_private (point_group p)) (fun _ => Ok (packet (hash c) nh p, rest)).
Proof.
  intros HL Hn Hp Sg. unfold lk_read.
  assert (Hh : lenN (hash c (content p)) = 32) by apply HL.
  assert (R : read_pkt c (packet (hash c) nh p ++ rest) false = Ok (packet (hash c) nh p)).
  { rewrite packet_raw, read_raw by assumption.
    destruct p as [d|d|g dm cc ls rs d|g dm cc ls rs d pk sg];
      try (rewrite (proj2 (beqb_eq _ _) eq_refl); reflexivity).
    cbn [signature_ok] in Sg. rewrite Sg, (proj2 (beqb_eq _ _) eq_refl). reflexivity. }
  rewrite R. cbn [obind].
  pose proof (raw_point nh (hash c (content p)) p [] Hn Hh) as E1. rewrite app_nil_r in E1.
  pose proof (raw_size nh (hash c (content p)) p [] Hn Hh Hp) as E2. rewrite app_nil_r in E2.
  rewrite <- packet_raw in E1, E2. rewrite E1, E2, ptr_group_content, dropN_app_exact by (reflexivity || assumption).
  destruct allow; reflexivity.
Qed.

(** Reading the fields of an accepted packet. *)
Lemma packet_fields c nh p r : (forall x, lenN (hash c x) = 32) -> lenN nh = 32 -> point_ok p ->
  ptr_parts (nptr_point (packet (hash c) nh p ++ r)) = Ok (parts_of p) /\
  nptr_hash (packet (hash c) nh p ++ r) = hash c (content p) /\
  nptr_header (packet (hash c) nh p ++ r) = nh.
Proof.
  intros HL Hn Hp. rewrite packet_raw, raw_point, raw_hash, raw_header by (apply HL || assumption).
  rewrite ptr_parts_content by assumption. repeat split.
Qed.

(** ** Writing *)
Definition net_of (c : crypto) (nh : bytes) (p : point) : NetPktParts :=
  mkNetParts nh (hash c (content p)) (parts_of p).

Lemma app_nil_concat (l : bytes) : l ++ concat [] = l. Proof. apply app_nil_r. Qed.
Lemma seg_parts p : point_size p <= 65024 -> seg_bytes (parts_segments (parts_of p)) = content p.
Proof.
  intros H. unfold seg_bytes, parts_segments, parts_of. cbn [pkt_header fields].
  rewrite <- padding_bytes_eq by assumption. rewrite content_eq.
  destruct p as [d|d|g dm cc ls rs d|g dm cc ls rs d pk sg]; cbn [fields_of head tail links rspace tdata];
    unfold from_array; cbn [app repeat firstn concat point_body sig_bytes signed_as_bytes s_pubkey s_signature];
    rewrite ?app_nil_r; try reflexivity.
  - change (point_body (PLink g dm cc ls rs d)) with (point_body (PLink g dm cc ls rs d)).
    pose proof (point_body_link g dm cc ls rs d) as E. unfold point_body in E. rewrite E, <- !app_assoc. reflexivity.
  - pose proof (point_body_link g dm cc ls rs d) as E. unfold point_body in E. rewrite E, <- !app_assoc. reflexivity.
Qed.
Lemma seg_key_unsigned g dm cc ls rs d pk sg : let p := PKey g dm cc ls rs d pk sg in point_size p <= 65024 ->
  seg_bytes (parts_segments (mkParts (header_of p) (FLink (mkLinkPoint (lph_of g dm cc ls rs) (mkTail ls d rs))))) =
  unsigned_content p.
Proof.
  intros p H. unfold seg_bytes, parts_segments. cbn [pkt_header fields head tail links rspace tdata].
  rewrite <- padding_bytes_eq by assumption. rewrite unsigned_eq.
  unfold from_array. cbn [app repeat firstn concat]. rewrite !app_nil_r.
  change (point_body p) with (point_body (PLink g dm cc ls rs d)). rewrite point_body_link, <- !app_assoc. reflexivity.
Qed.
Lemma seg_net c nh p : point_size p <= 65024 ->
  seg_bytes (np_byte_segments (net_of c nh p)) = packet (hash c) nh p.
Proof.
  intros H. unfold np_byte_segments, net_of, push_front, packet. cbn [net_header np_hash point_parts].
  rewrite <- (seg_parts p H). unfold seg_bytes. cbn [concat]. rewrite <- app_assoc. do 2 f_equal.
  unfold parts_segments, parts_of. cbn [pkt_header fields]. destruct p; cbn [fields_of]; unfold from_array;
    cbn [app repeat firstn concat]; rewrite ?app_nil_r; reflexivity.
Qed.

(** ** Builders *)
Lemma new_point_size_iff k n h : new_point_size k n = Ok h <->
  h = mkPointHeader 0 k n /\ n <= 65024 /\ min_size k <= n /\ (k = 1 \/ k = 3 \/ k = 7 \/ k = 128).
Proof.
  unfold new_point_size, MAX_POINT_SIZE. destruct (N.ltb_spec 65024 n).
  - split; [discriminate|lia].
  - rewrite ph_check_iff. cbn [reserved point_type uset_bytes]. split; intros X; decompose [and] X; repeat split; auto.
Qed.
Lemma new_point_size_err k n : k = 1 \/ k = 3 \/ k = 7 \/ k = 128 -> min_size k <= n -> 65024 < n ->
  new_point_size k n = Err EContentLen.
Proof. intros _ _ H. unfold new_point_size, MAX_POINT_SIZE. destruct (N.ltb_spec 65024 n); [reflexivity|lia]. Qed.

Lemma try_datapoint_eval c d nh : try_datapoint c d nh =
  if lenN d <=? 65020 then Ok (net_of c nh (PData d)) else Err EContentLen.
Proof.
  unfold try_datapoint, new_content_len. destruct (N.leb_spec (lenN d) 65020) as [H|H].
  - assert (E : new_point_size DATA_POINT (lenN d + 4) = Ok (header_of (PData d))).
    { apply new_point_size_iff. unfold header_of. cbn [type_byte point_size].
      rewrite (N.add_comm (lenN d)). change (min_size DATA_POINT) with 0. repeat split; auto; lia. }
    rewrite E. cbn [obind]. unfold net_of, parts_compute_hash.
    change (mkParts (header_of (PData d)) (FData d)) with (parts_of (PData d)).
    rewrite seg_parts by (cbn [point_size]; lia). reflexivity.
  - rewrite new_point_size_err; [reflexivity|auto| |lia]. change (min_size DATA_POINT) with 0. lia.
Qed.
Lemma errorpoint_eval c d nh : errorpoint c d nh =
  if lenN d <=? 65020 then Ok (net_of c nh (PError d)) else Panic.
Proof.
  unfold errorpoint, new_content_len. destruct (N.leb_spec (lenN d) 65020) as [H|H].
  - assert (E : new_point_size ERROR_POINT (lenN d + 4) = Ok (header_of (PError d))).
    { apply new_point_size_iff. unfold header_of. cbn [type_byte point_size].
      rewrite (N.add_comm (lenN d)). change (min_size ERROR_POINT) with 0. unfold ERROR_POINT. repeat split; auto; lia. }
    rewrite E. unfold net_of, parts_compute_hash.
    change (mkParts (header_of (PError d)) (FError d)) with (parts_of (PError d)).
    rewrite seg_parts by (cbn [point_size]; lia). reflexivity.
  - rewrite new_point_size_err; [reflexivity|unfold ERROR_POINT; auto| |lia]. change (min_size ERROR_POINT) with 0. lia.
Qed.

Lemma rooted_ok_len b : rooted_ok b -> lenN b <= 250.
Proof.
  intros [->|(d & cs & [_ H] & _ & _ & ->)]; [unfold lenN; cbn; lia|].
  rewrite rooted_with_lenN. unfold lenN. lia.
Qed.

Lemma linkp_eval g dm rs ls d cc : Forall link_ok ls -> rooted_ok rs ->
  let p := PLink g dm cc ls rs d in
  linkp g dm rs ls d cc =
  if point_size p <=? 65024 then Ok (header_of p, mkLinkPoint (lph_of g dm cc ls rs) (mkTail ls d rs))
  else Err EContentLen.
Proof.
  intros HL HR p. unfold linkp. rewrite (proj2 (rs_check_iff rs) HR).
  unfold p; cbn [point_size]. unfold to_u16.
  destruct (N.leb_spec (64 + 48 * lenN ls + lenN rs + lenN d) 65024) as [H|H].
  - destruct (N.ltb_spec (4 + 60 + 48 * lenN ls) 65536); [|lia]. cbn [obind].
    destruct (N.ltb_spec (4 + 60 + 48 * lenN ls + lenN rs) 65536); [|lia]. cbn [obind].
    unfold new_content_len, tail_byte_len. cbn [tdata rspace links]. rewrite links_as_bytes_len by assumption.
    replace (60 + (lenN d + lenN rs + 48 * lenN ls) + 4) with (point_size p) by (unfold p; cbn [point_size]; lia).
    assert (E : new_point_size LINK_POINT (point_size p) = Ok (header_of p)).
    { apply new_point_size_iff. change (min_size LINK_POINT) with 64. unfold p; cbn [point_size]. repeat split; auto; lia. }
    rewrite E. reflexivity.
  - destruct (N.ltb_spec (4 + 60 + 48 * lenN ls) 65536); [|reflexivity]. cbn [obind].
    destruct (N.ltb_spec (4 + 60 + 48 * lenN ls + lenN rs) 65536); [|reflexivity]. cbn [obind].
    unfold new_content_len, tail_byte_len. cbn [tdata rspace links]. rewrite links_as_bytes_len by assumption.
    rewrite new_point_size_err; [reflexivity|unfold LINK_POINT; auto| |lia].
    change (min_size LINK_POINT) with 64. lia.
Qed.
Lemma linkp_bad_space g dm rs ls d cc : ~ rooted_ok rs -> linkp g dm rs ls d cc = Panic.
Proof.
  intros H. unfold linkp. destruct (rs_check_ok_or rs) as [[X _]|[e ->]]; [contradiction|reflexivity].
Qed.

Lemma try_linkpoint_eval c g dm rs ls d cc nh : Forall link_ok ls -> rooted_ok rs ->
  let p := PLink g dm cc ls rs d in
  try_linkpoint c g dm rs ls d cc nh = if point_size p <=? 65024 then Ok (net_of c nh p) else Err EContentLen.
Proof.
  intros HL HR p. unfold try_linkpoint. rewrite linkp_eval by assumption. fold p.
  destruct (N.leb_spec (point_size p) 65024) as [H|H]; [|reflexivity]. cbn [obind].
  unfold net_of, parts_compute_hash.
  change (mkParts (header_of p) (FLink _)) with (parts_of p). rewrite seg_parts by assumption. reflexivity.
Qed.

(** The signature the key builder makes. *)
Definition key_point (c : crypto) (g dm : bytes) (cc : N) (ls : list Link) (rs d : bytes) (k : skey c) : point :=
  PKey g dm cc ls rs d (pubkey_of c k)
    (sign_hash c k (hash c (unsigned_content (PKey g dm cc ls rs d (pubkey_of c k) [])))).

Lemma try_keypoint_eval c g dm rs ls d cc k nh : Forall link_ok ls -> rooted_ok rs ->
  let p := key_point c g dm cc ls rs d k in
  try_keypoint c g dm rs ls d cc k nh = if point_size p <=? 65024 then Ok (net_of c nh p) else Err EContentLen.
Proof.
  intros HL HR p. unfold try_keypoint. rewrite linkp_eval by assumption. unfold p, key_point; cbn [point_size].
  set (p0 := PLink g dm cc ls rs d).
  destruct (N.leb_spec (64 + 48 * lenN ls + lenN rs + lenN d + 96) 65024) as [H|H].
  - destruct (N.leb_spec (64 + 48 * lenN ls + lenN rs + lenN d) 65024); [|lia]. cbn [obind header_of point_type uset_bytes].
    change (N.lor (type_byte p0) SIGNATURE_FLAG) with 7.
    assert (E : new_point_size 7 (point_size p0 + 96) = Ok (header_of p)).
    { apply new_point_size_iff. change (min_size 7) with 160. unfold p0; cbn [point_size]. repeat split; auto; lia. }
    rewrite E. cbn [obind]. unfold net_of, parts_compute_hash.
    change (header_of p) with (header_of (PKey g dm cc ls rs d (pubkey_of c k) [])).
    rewrite seg_key_unsigned by (cbn [point_size]; assumption).
    fold p. change (mkParts (header_of _) (FKey _ _)) with (parts_of p).
    rewrite seg_parts by (unfold p, key_point; cbn [point_size]; assumption). reflexivity.
  - destruct (N.leb_spec (64 + 48 * lenN ls + lenN rs + lenN d) 65024); [|reflexivity]. cbn [obind header_of point_type uset_bytes].
    change (N.lor (type_byte p0) SIGNATURE_FLAG) with 7.
    rewrite new_point_size_err; [reflexivity|auto| |unfold p0; cbn [point_size]; lia].
    change (min_size 7) with 160. unfold p0; cbn [point_size]. lia.
Qed.
Lemma key_point_sig c g dm cc ls rs d k : crypto_ok c ->
  signature_ok (hash c) (validate_signature c) (key_point c g dm cc ls rs d k).
Proof.
  intros (_ & _ & _ & V). unfold key_point. cbn [signature_ok].
  match goal with |- validate_signature c _ (sign_hash c k (hash c ?a)) (hash c ?b) = true => change b with a end.
  apply V.
Qed.
Lemma key_point_ok c g dm cc ls rs d k : crypto_ok c ->
  lenN g = 32 -> lenN dm = 16 -> cc < 2 ^ 64 -> Forall link_ok ls -> rooted_ok rs ->
  160 + 48 * lenN ls + lenN rs + lenN d <= 65024 -> point_ok (key_point c g dm cc ls rs d k).
Proof.
  intros (_ & P & S & _) H1 H2 H3 H4 H5 H6. unfold key_point. split; [cbn [point_size]; lia|].
  cbv beta iota. rewrite P, S. tauto.
Qed.

(** ** Injectivity *)
Lemma fields_of_inj p q : fields_of p = fields_of q -> p = q.
Proof.
  destruct p, q; cbn [fields_of]; intros E; inversion E; subst; reflexivity.
Qed.
Lemma content_inj_app p q r s : point_ok p -> point_ok q -> content p ++ r = content q ++ s -> p = q /\ r = s.
Proof.
  intros Hp Hq E. assert (X : ptr_parts (content p ++ r) = ptr_parts (content q ++ s)) by now rewrite E.
  rewrite !ptr_parts_content in X by assumption. unfold parts_of in X.
  assert (Y : fields_of p = fields_of q) by congruence. apply fields_of_inj in Y. subst q.
  split; [reflexivity|]. now apply app_inv_head in E.
Qed.

(** ** Streams *)
Lemma read_prefix c nh p x y skip : (forall b, lenN (hash c b) = 32) -> lenN nh = 32 -> point_ok p ->
  packet (hash c) nh p = x ++ y -> y <> [] ->
  exists e n, read_pkt c x skip = Err e /\ requires_more e = Some n /\
    lenN x < n /\ n <= lenN (packet (hash c) nh p) /\
    (68 <= lenN x -> n = lenN (packet (hash c) nh p) /\ e = EMissingBytes n) /\ (lenN x < 68 -> e = EMissingHeader).
Proof.
  intros HL Hn Hp E Hy. assert (Hh : lenN (hash c (content p)) = 32) by apply HL.
  assert (L : lenN (packet (hash c) nh p) = 64 + lenN (content p)) by (rewrite packet_raw; now apply raw_len).
  pose proof (content_ge4 p) as G. assert (Ly : 0 < lenN y) by (destruct y; [congruence|rewrite lenN_cons; lia]).
  assert (Lx : lenN x + lenN y = 64 + lenN (content p)) by (rewrite <- L, E, lenN_app; reflexivity).
  unfold read_pkt, MIN_NETPKT_SIZE. destruct (N.ltb_spec (lenN x) 68) as [S|S].
  - exists EMissingHeader, 68. split; [reflexivity|]. split; [reflexivity|]. repeat split; lia.
  - assert (P : ph_cast (nptr_point x) = header_of p).
    { assert (Q : nptr_point x ++ y = content p).
      { transitivity (nptr_point (packet (hash c) nh p ++ [])).
        - rewrite app_nil_r, E. unfold nptr_point. rewrite dropN_app_le by lia. reflexivity.
        - rewrite packet_raw, raw_point, app_nil_r by assumption. reflexivity. }
      destruct (cut 4 (nptr_point x)) as (u & v & Euv & Hu); [unfold nptr_point; rewrite lenN_dropN; lia|].
      rewrite <- (header_of_content p [] Hp), app_nil_r, <- Q, Euv.
      destruct (lenN_4 u Hu) as (a1 & a2 & a3 & a4 & ->). rewrite <- app_assoc. reflexivity. }
    rewrite P, header_check by assumption. cbn [obind]. rewrite netpkt_size_eq by apply Hp.
    rewrite <- content_len by assumption.
    destruct (N.ltb_spec (lenN x) (lenN (content p) + 64)); [|lia].
    exists (EMissingBytes (lenN (content p) + 64)), (lenN (content p) + 64).
    split; [reflexivity|]. split; [reflexivity|]. repeat split; lia.
Qed.

(** ** Panics *)
Lemma ptr_group_raw c nh p : (forall x, lenN (hash c x) = 32) -> lenN nh = 32 -> point_ok p ->
  ptr_group (nptr_point (packet (hash c) nh p)) = Ok (point_group p).
Proof.
  intros HL Hn Hp. pose proof (raw_point nh (hash c (content p)) p [] Hn (HL _)) as E. rewrite app_nil_r in E.
  rewrite packet_raw, E. now apply ptr_group_content.
Qed.

Lemma read_total c b skip : bytes_ok b -> (forall x, lenN (hash c x) = 32) ->
  (exists pkt, read_pkt c b skip = Ok pkt) \/ (exists e, read_pkt c b skip = Err e) \/ read_pkt c b skip = Panic.
Proof.
  intros B HL. destruct (read_cases c b skip B) as [(nh & h32 & p & r & Hn & Hh & Hp & ->)|[[e X]|(_ & _ & _ & _ & X)]];
    [|right; left; eauto|auto].
  rewrite read_raw by assumption. destruct skip; [eauto|].
  destruct p as [d|d|g dm cc ls rs d|g dm cc ls rs d pk sg];
    try solve [destruct (beqb h32 _); eauto].
  destruct (validate_signature c pk sg _); [destruct (beqb h32 _)|]; eauto.
Qed.

(** The inputs on which reading a packet panics. *)
Definition bad_header (b : bytes) : Prop :=
  68 <= lenN b /\ nth 64 b 0 = 0 /\ (nth 65 b 0 = 1 \/ nth 65 b 0 = 128) /\ nth 66 b 0 = 0 /\
  (nth 67 b 0 = 0 \/ nth 67 b 0 < 4 /\ 72 <= lenN b).

Lemma ph_cast_nth b : 68 <= lenN b -> bytes_ok b ->
  ph_cast (dropN 64 b) = mkPointHeader (nth 64 b 0) (nth 65 b 0) (nth 66 b 0 * 256 + nth 67 b 0).
Proof.
  intros L _. destruct (cut 64 b) as (x & y & -> & Hx); [lia|].
  rewrite dropN_app_exact by assumption. rewrite lenN_app in L.
  destruct (cut 4 y) as (u & v & -> & Hu); [lia|]. destruct (lenN_4 u Hu) as (a1 & a2 & a3 & a4 & ->).
  assert (Lx : length x = 64%nat) by (unfold lenN in Hx; lia).
  rewrite !(app_nth2 x) by (rewrite Lx; auto with arith; lia). rewrite Lx. reflexivity.
Qed.
Lemma read_panic c b skip : bytes_ok b -> (forall x, lenN (hash c x) = 32) ->
  read_pkt c b skip = Panic <-> bad_header b.
Proof.
  intros B HL. split.
  - intros E. destruct (read_cases c b skip B) as [(nh & h32 & p & r & Hn & Hh & Hp & ->)|[[e X]|(L & R & D & S & _)]].
    + rewrite read_raw in E by assumption. destruct skip; [discriminate|].
      destruct p as [d|d|g dm cc ls rs d|g dm cc ls rs d pk sg];
        try (destruct (beqb h32 _); discriminate).
      destruct (validate_signature c pk sg _); [|discriminate]. destruct (beqb h32 _); discriminate.
    + congruence.
    + rewrite netpkt_size_eq in S by (destruct D as [_ D]; lia).
      rewrite ph_cast_nth in * by assumption. destruct D as [D1 D2]. cbn [reserved point_type uset_bytes] in *.
      unfold bad_header. split; [assumption|]. split; [assumption|]. split; [assumption|].
      split; [lia|]. assert (U : nth 66 b 0 = 0) by lia. rewrite U in *.
      destruct (N.eq_dec (nth 67 b 0) 0) as [Z|Z]; [now left|]. right. split; [lia|].
      rewrite padded_size in S by (cbn [uset_bytes]; lia). cbn [uset_bytes] in S.
      assert (nth 67 b 0 = 1 \/ nth 67 b 0 = 2 \/ nth 67 b 0 = 3) as [Q|[Q|Q]] by lia; rewrite Q in S; cbn in S; lia.
  - intros (L & R & T & U & S). unfold read_pkt, MIN_NETPKT_SIZE. destruct (N.ltb_spec (lenN b) 68); [lia|].
    assert (P : ph_cast (nptr_point b) = mkPointHeader 0 (nth 65 b 0) (nth 67 b 0)).
    { unfold nptr_point. rewrite ph_cast_nth, R, U by assumption. f_equal. }
    assert (U4 : nth 67 b 0 < 4) by lia.
    assert (CK : ph_check (mkPointHeader 0 (nth 65 b 0) (nth 67 b 0)) = Ok (mkPointHeader 0 (nth 65 b 0) (nth 67 b 0))).
    { apply ph_check_iff. cbn [reserved point_type uset_bytes]. destruct T as [T|T]; rewrite T.
      all: match goal with |- context [min_size ?k] => change (min_size k) with 0 end.
      all: repeat split; auto; lia. }
    rewrite P, CK.
    cbn [obind]. rewrite netpkt_size_eq by (cbn [uset_bytes]; lia).
    assert (PS : padded_point_size (mkPointHeader 0 (nth 65 b 0) (nth 67 b 0)) + 64 <= lenN b).
    { rewrite padded_size by (cbn [uset_bytes]; lia). cbn [uset_bytes].
      assert (nth 67 b 0 = 0 \/ nth 67 b 0 = 1 \/ nth 67 b 0 = 2 \/ nth 67 b 0 = 3) as [Q|[Q|[Q|Q]]] by lia;
        rewrite Q in *; cbn; lia. }
    destruct (N.ltb_spec (lenN b) (padded_point_size (mkPointHeader 0 (nth 65 b 0) (nth 67 b 0)) + 64)); [lia|].
    unfold nptr_check. rewrite icl_degenerate; [reflexivity|..].
    all: unfold nptr_point in *; rewrite ?P; unfold degenerate; cbn [reserved point_type uset_bytes]; auto.
    all: try (rewrite lenN_dropN; lia).
    now apply bytes_ok_dropN.
Qed.
Lemma lk_read_total c b allow : bytes_ok b -> (forall x, lenN (hash c x) = 32) ->
  (lk_read c b allow = Panic <-> bad_header b) /\ lk_read c b allow <> OutOfFuel.
Proof.
  intros B HL. rewrite <- (read_panic c b false B HL). unfold lk_read.
  destruct (read_total c b false B HL) as [[pkt E]|[[e E]|E]]; rewrite E; cbn [obind]; try (split; [split; congruence|congruence]).
  apply read_ok_iff in E as (nh & h32 & p & r & Hn & Hh & Hp & _ & -> & S); try assumption.
  destruct (S eq_refl) as [-> _]. rewrite <- packet_raw, ptr_group_raw by assumption.
  destruct allow; cbn [obind]; [split; [split; discriminate|discriminate]|].
  destruct (check_private_cases (point_group p)) as [Q|[Q _]]; rewrite Q; cbn [obind];
    (split; [split; discriminate|discriminate]).
Qed.

Lemma lk_read_all_packets c allow (l : list (bytes * point)) : (forall x, lenN (hash c x) = 32) ->
  Forall (fun q => lenN (fst q) = 32 /\ point_ok (snd q) /\ signature_ok (hash c) (validate_signature c) (snd q) /\
                   (allow = false -> ~ in_private_group (snd q))) l ->
  forall fuel, (length l <= fuel)%nat ->
  lk_read_all fuel c (concat (map (fun q => packet (hash c) (fst q) (snd q)) l)) allow =
  Ok (map (fun q => packet (hash c) (fst q) (snd q)) l).
Proof.
  intros HL H. induction H as [|[nh p] l (Hn & Hp & Sg & Pr) _ IH]; intros fuel Hf; [destruct fuel; reflexivity|].
  cbn [map concat fst snd]. cbn [fst snd] in Hn, Hp, Sg, Pr. cbn [length] in Hf. destruct fuel as [|f]; [lia|].
  cbn [lk_read_all].
  assert (NE : packet (hash c) nh p ++ concat (map (fun q => packet (hash c) (fst q) (snd q)) l) <> []).
  { unfold packet. destruct nh; [discriminate Hn|discriminate]. }
  destruct (packet (hash c) nh p ++ _) eqn:Q; [congruence|]. rewrite <- Q. clear NE Q.
  rewrite lk_read_packet by assumption.
  assert (X : (if allow then Ok (packet (hash c) nh p, concat (map (fun q => packet (hash c) (fst q) (snd q)) l))
          else obind (check_private (point_group p)) (fun _ => Ok (packet (hash c) nh p, concat (map (fun q => packet (hash c) (fst q) (snd q)) l))))
          = @Ok PktError _ (packet (hash c) nh p, concat (map (fun q => packet (hash c) (fst q) (snd q)) l))).
  { destruct allow; [reflexivity|]. rewrite (proj2 (check_private_iff (point_group p)) (Pr eq_refl)). reflexivity. }
  rewrite X. cbn [obind]. rewrite IH by lia. reflexivity.
Qed.

(** ** Rerouting *)
Lemma nptr_size_packet c nh p r : (forall x, lenN (hash c x) = 32) -> lenN nh = 32 -> point_ok p ->
  nptr_size (packet (hash c) nh p ++ r) = lenN (packet (hash c) nh p).
Proof. intros HL Hn Hp. rewrite packet_raw. apply raw_size; auto. Qed.
Lemma reroute_ptr c nh nh' p r : (forall x, lenN (hash c x) = 32) -> lenN nh = 32 -> point_ok p ->
  reroute_ptr_bytes nh' (packet (hash c) nh p ++ r) = packet (hash c) nh' p.
Proof.
  intros HL Hn Hp. unfold reroute_ptr_bytes. rewrite nptr_size_packet, takeN_app_exact by (reflexivity || assumption).
  unfold reroute_segments, from_array, push_front, seg_bytes. cbn [app repeat firstn concat]. rewrite app_nil_r.
  unfold packet. rewrite dropN_app_exact by assumption. reflexivity.
Qed.
Lemma reroute_parts c nh nh' p : (forall x, lenN (hash c x) = 32) -> lenN nh = 32 -> point_ok p ->
  match p with PKey _ _ _ _ _ _ _ _ => False | _ => True end ->
  reroute_parts_bytes nh' (net_of c nh p) = packet (hash c) nh' p.
Proof.
  intros HL Hn Hp K. unfold reroute_parts_bytes.
  change (np_byte_segments (net_of c nh p)) with ((nh ++ hash c (content p)) :: firstn 7 (parts_segments (parts_of p))).
  cbn [reroute_segments]. rewrite dropN_app_exact by assumption.
  unfold packet. rewrite <- (seg_parts p (proj1 Hp)). unfold seg_bytes, push_front. cbn [firstn concat].
  do 2 f_equal. unfold parts_segments, parts_of. cbn [pkt_header fields].
  destruct p; cbn [fields_of]; try contradiction; unfold from_array;
    cbn [app repeat firstn concat]; rewrite ?app_nil_r; reflexivity.
Qed.
Lemma reroute_parts_key c nh nh' g dm cc ls rs d pk sg : let p := PKey g dm cc ls rs d pk sg in
  (forall x, lenN (hash c x) = 32) -> lenN nh = 32 -> point_ok p ->
  reroute_parts_bytes nh' (net_of c nh p) = nh' ++ hash c (content p) ++ unsigned_content p.
Proof.
  intros p HL Hn Hp. unfold reroute_parts_bytes.
  change (np_byte_segments (net_of c nh p)) with ((nh ++ hash c (content p)) :: firstn 7 (parts_segments (parts_of p))).
  cbn [reroute_segments]. rewrite dropN_app_exact by assumption.
  pose proof (seg_key_unsigned g dm cc ls rs d pk sg (proj1 Hp)) as E. fold p in E. rewrite <- E. unfold seg_bytes, push_front. cbn [firstn concat].
  do 2 f_equal.
Qed.
