From Verif Require Import Bytes ModelSpace SpecSpace ProofSpace ProofRooted ModelPkt SpecPkt.

(** ** Slices of concatenations *)
Lemma sliceN_mid {A} a b (x y z : list A) : lenN x = a -> lenN x + lenN y = b ->
  sliceN a b (x ++ y ++ z) = y.
Proof.
  intros <- <-. unfold sliceN. rewrite dropN_app_exact by reflexivity.
  replace (lenN x + lenN y - lenN x) with (lenN y) by lia. now apply takeN_app_exact.
Qed.
Lemma sliceN_end {A} a b (x y : list A) : lenN x = a -> lenN x + lenN y = b -> sliceN a b (x ++ y) = y.
Proof. intros H1 H2. rewrite <- (app_nil_r y) at 1. now apply sliceN_mid. Qed.
Lemma sliceN_front {A} b (x z : list A) : lenN x = b -> sliceN 0 b (x ++ z) = x.
Proof. intros H. change (x ++ z) with ([] ++ x ++ z). apply sliceN_mid; [reflexivity|exact H]. Qed.
Lemma cut {A} n (l : list A) : n <= lenN l -> exists x y, l = x ++ y /\ lenN x = n.
Proof.
  intros H. exists (takeN n l), (dropN n l). split; [now rewrite takeN_dropN|].
  rewrite lenN_takeN. lia.
Qed.
Lemma lenN_4 {A} (l : list A) : lenN l = 4 -> exists a b c d, l = [a;b;c;d].
Proof.
  destruct l as [|a [|b [|c [|d [|e l]]]]]; unfold lenN; cbn [length]; intros H; try lia. eauto.
Qed.

(** ** Headers *)
Lemma ph_as_bytes_len h : lenN (ph_as_bytes h) = 4.
Proof. unfold ph_as_bytes. rewrite lenN_app, lenN_be_encode. reflexivity. Qed.
Lemma ph_cast_as_bytes h r : uset_bytes h < 65536 -> ph_cast (ph_as_bytes h ++ r) = h.
Proof.
  intros H. unfold ph_cast, ph_as_bytes. destruct h as [a b u]; cbn [reserved point_type uset_bytes] in *.
  cbn [app nth]. f_equal. change (a :: b :: be_encode 2 u ++ r) with ([a;b] ++ be_encode 2 u ++ r).
  rewrite sliceN_mid; [|reflexivity|now rewrite lenN_be_encode]. apply be_decode_encode. exact H.
Qed.
Lemma ph_cast_inv pt : bytes_ok pt -> 4 <= lenN pt ->
  exists r, pt = ph_as_bytes (ph_cast pt) ++ r /\ uset_bytes (ph_cast pt) < 65536.
Proof.
  intros B H. destruct (cut 4 pt H) as (x & y & -> & Hx). destruct (lenN_4 x Hx) as (a & b & c & d & ->).
  exists y. apply bytes_ok_app in B as [B _].
  assert (B2 : bytes_ok [c;d]) by (inversion B as [|? ? _ B1]; inversion B1; assumption).
  assert (E : ph_cast ([a;b;c;d] ++ y) = mkPointHeader a b (be_decode [c;d])).
  { reflexivity. }
  rewrite E. unfold ph_as_bytes. cbn [reserved point_type uset_bytes]. split.
  - pose proof (be_encode_decode [c;d] B2) as X. cbn [length] in X. rewrite X. reflexivity.
  - apply (be_decode_bound [c;d] B2).
Qed.

Lemma padded_size h : uset_bytes h <= 65024 -> padded_point_size h = (uset_bytes h + 7) / 8 * 8.
Proof. intros H. unfold padded_point_size, upoint_size. rewrite N.mod_small; lia. Qed.
Lemma padding_len_lt h : uset_bytes h <= 65024 -> padding_len h < 8.
Proof. intros H. unfold padding_len. rewrite padded_size by assumption. unfold upoint_size. lia. Qed.
Lemma padding_len_sum h : uset_bytes h <= 65024 -> uset_bytes h + padding_len h = padded_point_size h.
Proof. intros H. unfold padding_len. rewrite padded_size by assumption. unfold upoint_size. lia. Qed.
Lemma netpkt_size_eq h : uset_bytes h <= 65024 -> netpkt_size h = padded_point_size h + 64.
Proof.
  intros H. unfold netpkt_size. pose proof (padded_size h H). rewrite N.mod_small; lia.
Qed.

Definition min_size (t : N) : N := if t =? 3 then 64 else if t =? 7 then 160 else 0.
Lemma ph_check_iff h h' : ph_check h = Ok h' <->
  h' = h /\ reserved h = 0 /\ uset_bytes h <= 65024 /\ min_size (point_type h) <= uset_bytes h /\
  (point_type h = 1 \/ point_type h = 3 \/ point_type h = 7 \/ point_type h = 128).
Proof.
  unfold ph_check, ucontent_size, upoint_size, MAX_CONTENT_SIZE, MAX_POINT_SIZE, min_size,
    DATA_POINT, LINK_POINT, KEY_POINT, ERROR_POINT.
  destruct h as [r t u]; cbn [reserved point_type uset_bytes].
  destruct (N.eqb_spec r 0); cbn [negb]; [|split; [discriminate|tauto]].
  destruct (N.ltb_spec (65024 - 4) (u - 4)); [split; [discriminate|lia]|].
  destruct (N.eqb_spec t 1); subst.
  1: change (if 1 =? 3 then 64 else if 1 =? 7 then 160 else 0) with 0.
  { split; [intros E; inversion E; repeat split; auto; lia|intros (-> & _); reflexivity]. }
  destruct (N.eqb_spec t 3); subst.
  1: change (if 3 =? 3 then 64 else if 3 =? 7 then 160 else 0) with 64.
  { destruct (N.leb_spec 60 (u - 4)); (split; [intros E; inversion E; repeat split; auto; lia|]);
    intros (-> & _ & _ & X & _); [reflexivity|lia]. }
  destruct (N.eqb_spec t 7); subst.
  1: change (if 7 =? 3 then 64 else if 7 =? 7 then 160 else 0) with 160.
  { destruct (N.leb_spec (60 + 96) (u - 4)); (split; [intros E; inversion E; repeat split; auto; lia|]);
    intros (-> & _ & _ & X & _); [reflexivity|lia]. }
  destruct (N.eqb_spec t 128); subst.
  1: change (if 128 =? 3 then 64 else if 128 =? 7 then 160 else 0) with 0.
  { split; [intros E; inversion E; repeat split; auto; lia|intros (-> & _); reflexivity]. }
  split; [discriminate|]. intros (_ & _ & _ & _ & X). lia.
Qed.
Lemma ph_check_total h : ph_check h = Ok h \/ exists e, ph_check h = Err e /\ requires_more e = None.
Proof.
  unfold ph_check. destruct (negb _); [right; eexists; split; reflexivity|]. cbv zeta.
  destruct (_ <? _); [right; eexists; split; reflexivity|].
  destruct (_ =? _); [now left|]. destruct (_ =? _); [destruct (_ <=? _); [now left|right; eexists; split; reflexivity]|].
  destruct (_ =? _); [destruct (_ <=? _); [now left|right; eexists; split; reflexivity]|].
  destruct (_ =? _); [now left|right; eexists; split; reflexivity].
Qed.

Lemma lph_as_bytes_len h : lenN (group h) = 32 -> lenN (domain h) = 16 -> lenN (lph_as_bytes h) = 60.
Proof. intros H1 H2. unfold lph_as_bytes. rewrite !lenN_app, !lenN_be_encode, H1, H2. reflexivity. Qed.
Lemma lph_cast_as_bytes h : lenN (group h) = 32 -> lenN (domain h) = 16 ->
  offset_rspace h < 65536 -> offset_data h < 65536 -> create_stamp h < 2 ^ 64 ->
  lph_cast (lph_as_bytes h) = h.
Proof.
  destruct h as [a b c g d]; cbn [offset_rspace offset_data create_stamp group domain]; intros H1 H2 H3 H4 H5.
  unfold lph_cast, lph_as_bytes. cbn [offset_rspace offset_data create_stamp group domain].
  assert (L : forall k n, lenN (be_encode k n) = N.of_nat k) by (intros; apply lenN_be_encode).
  f_equal.
  - rewrite sliceN_front by apply L. now apply be_decode_encode.
  - rewrite sliceN_mid; [|apply L|now rewrite !L]. now apply be_decode_encode.
  - rewrite (app_assoc (be_encode 2 a)). rewrite sliceN_mid; [|now rewrite lenN_app, !L|now rewrite lenN_app, !L].
    now apply be_decode_encode.
  - rewrite (app_assoc (be_encode 2 a)), (app_assoc (_ ++ _)).
    apply sliceN_mid; rewrite !lenN_app, !L; [reflexivity|rewrite H1; reflexivity].
  - rewrite (app_assoc (be_encode 2 a)), (app_assoc (_ ++ _)), (app_assoc (_ ++ _)).
    apply sliceN_end; rewrite !lenN_app, !L, H1; [reflexivity|rewrite H2; reflexivity].
Qed.
Lemma lph_cast_inv lp : bytes_ok lp -> lenN lp = 60 ->
  lph_as_bytes (lph_cast lp) = lp /\ lenN (group (lph_cast lp)) = 32 /\ lenN (domain (lph_cast lp)) = 16 /\
  offset_rspace (lph_cast lp) < 65536 /\ offset_data (lph_cast lp) < 65536 /\ create_stamp (lph_cast lp) < 2 ^ 64.
Proof.
  intros B H.
  destruct (cut 2 lp) as (a & r1 & -> & Ha); [lia|]. rewrite lenN_app in H.
  destruct (cut 2 r1) as (b & r2 & -> & Hb); [lia|]. rewrite lenN_app in H.
  destruct (cut 8 r2) as (c & r3 & -> & Hc); [lia|]. rewrite lenN_app in H.
  destruct (cut 32 r3) as (g & d & -> & Hg); [lia|]. rewrite lenN_app in H.
  repeat (apply bytes_ok_app in B as [? B]).
  assert (E : lph_cast (a ++ b ++ c ++ g ++ d) = mkLPH (be_decode a) (be_decode b) (be_decode c) g d).
  { unfold lph_cast. f_equal.
    - now rewrite sliceN_front.
    - now rewrite sliceN_mid by lia.
    - rewrite (app_assoc a b). now rewrite sliceN_mid by (rewrite lenN_app; lia).
    - rewrite (app_assoc a b), (app_assoc (a ++ b)). now rewrite sliceN_mid by (rewrite !lenN_app; lia).
    - rewrite (app_assoc a b), (app_assoc (a ++ b)), (app_assoc ((a ++ b) ++ c)).
      now rewrite sliceN_end by (rewrite !lenN_app; lia). }
  rewrite E. unfold lph_as_bytes. cbn [offset_rspace offset_data create_stamp group domain].
  assert (X : forall x k, lenN x = N.of_nat k -> bytes_ok x -> be_encode k (be_decode x) = x).
  { intros x k Hx Bx. rewrite <- (be_encode_decode x Bx) at 2. f_equal. unfold lenN in Hx. lia. }
  rewrite !X by assumption. split; [reflexivity|]. split; [assumption|]. split; [lia|].
  pose proof (be_decode_bound a) as Ba. pose proof (be_decode_bound b) as Bb. pose proof (be_decode_bound c) as Bc.
  rewrite Ha in Ba. rewrite Hb in Bb. rewrite Hc in Bc.
  repeat split; [apply Ba|apply Bb|apply Bc]; assumption.
Qed.

Lemma signed_cast_bytes pk sg : lenN pk = 32 -> lenN sg = 64 -> signed_cast (pk ++ sg) = mkSigned pk sg.
Proof.
  intros H1 H2. unfold signed_cast. f_equal; [now apply takeN_app_exact|]. apply sliceN_end; lia.
Qed.

(** ** Links *)
Lemma links_as_bytes_len ls : Forall link_ok ls -> lenN (links_as_bytes ls) = 48 * lenN ls.
Proof.
  intros H. induction H as [|l ls [H1 H2] _ IH]; [reflexivity|].
  unfold links_as_bytes in *. cbn [flat_map]. rewrite lenN_app, lenN_cons, IH.
  unfold link_as_bytes. rewrite lenN_app, H1, H2. lia.
Qed.
Lemma links_cast_bytes ls : Forall link_ok ls ->
  links_cast (length ls) (links_as_bytes ls) = ls.
Proof.
  intros H. induction H as [|[t p] ls [H1 H2] _ IH]; [reflexivity|]. cbn [fst snd] in *.
  unfold links_as_bytes in *. cbn [length links_cast flat_map]. change (link_as_bytes (t, p)) with (t ++ p).
  f_equal.
  - f_equal; rewrite <- app_assoc; [now apply takeN_app_exact|apply sliceN_mid; lia].
  - rewrite dropN_app_exact by (rewrite lenN_app; lia). exact IH.
Qed.
Lemma links_cast_inv n b : lenN b = 48 * N.of_nat n ->
  b = links_as_bytes (links_cast n b) /\ Forall link_ok (links_cast n b) /\ length (links_cast n b) = n.
Proof.
  revert b. induction n as [|n IH]; intros b H.
  - assert (b = []) by (apply lenN_0_inv; lia). subst. repeat split. constructor.
  - destruct (cut 16 b) as (t & r & -> & Ht); [lia|]. rewrite lenN_app in H.
    destruct (cut 32 r) as (p & q & -> & Hp); [lia|]. rewrite lenN_app in H.
    cbn [links_cast]. rewrite takeN_app_exact, sliceN_mid by lia.
    assert (E : dropN 48 (t ++ p ++ q) = q) by (rewrite app_assoc; apply dropN_app_exact; rewrite lenN_app; lia).
    rewrite E. destruct (IH q) as (E1 & E2 & E3); [lia|]. split; [|split].
    + unfold links_as_bytes in *. cbn [flat_map]. rewrite <- E1. unfold link_as_bytes. cbn [fst snd].
      now rewrite <- app_assoc.
    + constructor; [split; assumption|assumption].
    + cbn [length]. now rewrite E3.
Qed.

(** ** Evaluating the reader on a decomposed point *)
Lemma split_ok n (x y : bytes) : lenN x = n -> split_at_unchecked n (x ++ y) = Ok (x, y).
Proof.
  intros H. unfold split_at_unchecked. rewrite lenN_app. destruct (N.ltb_spec (lenN x + lenN y) n); [lia|].
  rewrite takeN_app_exact, dropN_app_exact by assumption. reflexivity.
Qed.
Lemma usub_ok a b : b <= a -> usub a b = Ok (a - b).
Proof. intros H. unfold usub. destruct (N.ltb_spec a b); [lia|reflexivity]. Qed.

Lemma pkt_bytes_eval h y r : uset_bytes h <= 65024 ->
  4 + lenN y = padded_point_size h ->
  pkt_bytes (ph_as_bytes h ++ y ++ r) = Ok (ph_as_bytes h ++ y).
Proof.
  intros H L. unfold pkt_bytes. rewrite ph_cast_as_bytes by lia.
  rewrite !lenN_app, ph_as_bytes_len. destruct (N.ltb_spec (4 + (lenN y + lenN r)) (padded_point_size h)); [lia|].
  f_equal. rewrite app_assoc. apply takeN_app_exact. rewrite lenN_app, ph_as_bytes_len. exact L.
Qed.

Definition bare_flat (t : N) (mem pad : bytes) : BarePointFields :=
  if t =? DATA_POINT then BData mem pad else if t =? ERROR_POINT then BError mem pad else BUnknown (mem ++ pad).

Lemma fixed_flat_eval h mem pad r : uset_bytes h <= 65024 -> contains (point_type h) LINK_FLAG = false ->
  4 + lenN mem = uset_bytes h -> lenN pad = padding_len h ->
  fixed (ph_as_bytes h ++ mem ++ pad ++ r) = Ok (bare_flat (point_type h) mem pad).
Proof.
  intros H T L P. unfold fixed. pose proof (padding_len_sum h H).
  rewrite (app_assoc mem pad r), pkt_bytes_eval by (rewrite ?lenN_app; lia). cbn [obind].
  rewrite split_ok by apply ph_as_bytes_len. cbn [obind]. rewrite ph_cast_as_bytes, T by lia.
  rewrite lenN_app, <- P, usub_ok by lia. cbn [obind].
  replace (lenN mem + lenN pad - lenN pad) with (lenN mem) by lia.
  rewrite split_ok by reflexivity. reflexivity.
Qed.

Definition sig_of (t : N) (sb : bytes) : option Signed :=
  if contains t SIGNATURE_FLAG then Some (signed_cast sb) else None.
Definition sig_len (t : N) : N := if contains t SIGNATURE_FLAG then 96 else 0.

Lemma fixed_link_eval h lp x pad sb r : uset_bytes h <= 65024 -> contains (point_type h) LINK_FLAG = true ->
  lenN lp = 60 -> lenN sb = sig_len (point_type h) ->
  64 + lenN x + lenN sb = uset_bytes h -> lenN pad = padding_len h ->
  fixed (ph_as_bytes h ++ lp ++ x ++ pad ++ sb ++ r) = Ok (BLink (lph_cast lp) (sig_of (point_type h) sb) pad).
Proof.
  intros H T Hlp Hsb L P. unfold fixed, sig_of, sig_len in *. pose proof (padding_len_sum h H).
  replace (ph_as_bytes h ++ lp ++ x ++ pad ++ sb ++ r) with (ph_as_bytes h ++ (lp ++ (x ++ pad) ++ sb) ++ r)
    by (rewrite <- !app_assoc; reflexivity).
  rewrite pkt_bytes_eval by (rewrite ?lenN_app; lia). cbn [obind].
  rewrite split_ok by apply ph_as_bytes_len. cbn [obind]. rewrite ph_cast_as_bytes, T by lia.
  rewrite split_ok by assumption. cbn [obind].
  assert (S : usub (lenN (x ++ pad)) (padding_len h) = Ok (lenN x)).
  { rewrite usub_ok by (rewrite lenN_app; lia). f_equal. rewrite lenN_app; lia. }
  destruct (contains (point_type h) SIGNATURE_FLAG).
  - rewrite (lenN_app (x ++ pad) sb), Hsb, usub_ok by lia. cbn [obind].
    rewrite split_ok by lia. cbn [obind]. rewrite S. cbn [obind]. rewrite split_ok by reflexivity. reflexivity.
  - apply lenN_0_inv in Hsb. subst sb. rewrite app_nil_r. cbn [obind]. rewrite S. cbn [obind].
    rewrite split_ok by reflexivity. reflexivity.
Qed.

Lemma tail_eval h lp L rs d z : uset_bytes h <= 65024 -> lenN lp = 60 ->
  offset_rspace (lph_cast lp) = 64 + lenN L -> offset_data (lph_cast lp) = 64 + lenN L + lenN rs ->
  lenN L mod 48 = 0 -> 64 + lenN L + lenN rs + lenN d + sig_len (point_type h) = uset_bytes h ->
  unchecked_tail (ph_as_bytes h ++ lp ++ L ++ rs ++ d ++ z) =
  Ok (mkTail (links_cast (N.to_nat (lenN L / 48)) L) d rs).
Proof.
  intros H Hlp Ho Hd M S. unfold unchecked_tail.
  rewrite ph_cast_as_bytes by lia.
  assert (E : sliceN 4 64 (ph_as_bytes h ++ lp ++ L ++ rs ++ d ++ z) = lp)
    by (apply sliceN_mid; rewrite ph_as_bytes_len; lia).
  rewrite E, Ho, Hd. unfold upoint_size.
  assert (Sz : uset_bytes h - (if contains (point_type h) SIGNATURE_FLAG then 96 else 0) =
               64 + lenN L + lenN rs + lenN d).
  { unfold sig_len in S. destruct (contains (point_type h) SIGNATURE_FLAG); lia. }
  rewrite Sz. replace (64 + lenN L - 64) with (lenN L) by lia. rewrite M, !lenN_app, ph_as_bytes_len, Hlp.
  destruct (N.ltb_spec (64 + lenN L) 64); [lia|].
  destruct (N.ltb_spec (64 + lenN L + lenN rs) (64 + lenN L)); [lia|].
  destruct (N.ltb_spec (64 + lenN L + lenN rs + lenN d) (64 + lenN L + lenN rs)); [lia|].
  match goal with |- context [?a <? ?b] => destruct (N.ltb_spec a b); [lia|] end.
  change (0 =? 0) with true. cbn [orb negb]. f_equal. f_equal.
  - f_equal. replace (ph_as_bytes h ++ lp ++ L ++ rs ++ d ++ z) with ((ph_as_bytes h ++ lp) ++ L ++ (rs ++ d ++ z))
      by (rewrite <- !app_assoc; reflexivity).
    apply sliceN_mid; rewrite lenN_app, ph_as_bytes_len; lia.
  - replace (ph_as_bytes h ++ lp ++ L ++ rs ++ d ++ z) with ((ph_as_bytes h ++ lp ++ L ++ rs) ++ d ++ z)
      by (rewrite <- !app_assoc; reflexivity).
    apply sliceN_mid; rewrite !lenN_app, ph_as_bytes_len; lia.
  - replace (ph_as_bytes h ++ lp ++ L ++ rs ++ d ++ z) with ((ph_as_bytes h ++ lp ++ L) ++ rs ++ d ++ z)
      by (rewrite <- !app_assoc; reflexivity).
    apply sliceN_mid; rewrite !lenN_app, ph_as_bytes_len; lia.
Qed.

(** ** Points of the specification *)
Definition header_of (p : point) : PointHeader := mkPointHeader 0 (type_byte p) (point_size p).
Definition lph_of (g dm : bytes) (c : N) (ls : list Link) (rs : bytes) : LinkPointHeader :=
  mkLPH (64 + 48 * lenN ls) (64 + 48 * lenN ls + lenN rs) c g dm.
Definition fields_of (p : point) : PointFields :=
  match p with
  | PData d => FData d
  | PError d => FError d
  | PLink g dm c ls rs d => FLink (mkLinkPoint (lph_of g dm c ls rs) (mkTail ls d rs))
  | PKey g dm c ls rs d pk sg => FKey (mkLinkPoint (lph_of g dm c ls rs) (mkTail ls d rs)) (mkSigned pk sg)
  end.
Definition parts_of (p : point) : PointParts := mkParts (header_of p) (fields_of p).

Definition sig_bytes (p : point) : bytes := match p with PKey _ _ _ _ _ _ pk sg => pk ++ sg | _ => [] end.

Lemma unsigned_eq p : unsigned_content p = ph_as_bytes (header_of p) ++ point_body p ++ padding_bytes p.
Proof. unfold unsigned_content, ph_as_bytes. cbn [header_of reserved point_type uset_bytes]. now rewrite <- app_assoc. Qed.
Lemma content_eq p : content p = ph_as_bytes (header_of p) ++ point_body p ++ padding_bytes p ++ sig_bytes p.
Proof. unfold content. rewrite unsigned_eq, <- !app_assoc. reflexivity. Qed.
Lemma point_body_link g dm c ls rs d :
  point_body (PLink g dm c ls rs d) = lph_as_bytes (lph_of g dm c ls rs) ++ links_as_bytes ls ++ rs ++ d.
Proof. unfold point_body, lph_as_bytes. cbn [lph_of offset_rspace offset_data create_stamp group domain].
  rewrite <- !app_assoc. reflexivity. Qed.
Lemma pad_len_eq p : point_size p <= 65024 -> pad_len p = padding_len (header_of p).
Proof.
  intros H. unfold pad_len, padding_len. rewrite padded_size by assumption.
  cbn [header_of uset_bytes]. unfold upoint_size. cbn [header_of uset_bytes]. lia.
Qed.
Lemma padding_bytes_eq p : point_size p <= 65024 -> padding_bytes p = parts_padding (header_of p).
Proof. intros H. unfold padding_bytes, parts_padding. now rewrite pad_len_eq. Qed.
Lemma padding_bytes_len p : lenN (padding_bytes p) = pad_len p.
Proof. unfold padding_bytes. rewrite lenN_repeat. lia. Qed.
Lemma body_len p : point_ok p -> 4 + lenN (point_body p) + lenN (sig_bytes p) = point_size p.
Proof.
  intros [S H]. destruct p as [d|d|g dm c ls rs d|g dm c ls rs d pk sg]; cbn [point_size sig_bytes].
  - cbn [point_body]. change (lenN []) with 0. lia.
  - cbn [point_body]. change (lenN []) with 0. lia.
  - destruct H as (H1 & H2 & _ & H4 & _). rewrite point_body_link, !lenN_app, lph_as_bytes_len, links_as_bytes_len by assumption.
    change (lenN []) with 0. lia.
  - destruct H as (H1 & H2 & _ & H4 & _ & H5 & H6).
    change (point_body (PKey g dm c ls rs d pk sg)) with (point_body (PLink g dm c ls rs d)).
    rewrite point_body_link, !lenN_app, lph_as_bytes_len, links_as_bytes_len by assumption. lia.
Qed.
Lemma content_len p : point_ok p -> lenN (content p) = padded_point_size (header_of p).
Proof.
  intros H. pose proof (body_len p H). rewrite content_eq, !lenN_app, ph_as_bytes_len, padding_bytes_len.
  rewrite pad_len_eq by apply H. rewrite <- (padding_len_sum (header_of p)) by apply H.
  cbn [header_of uset_bytes]. lia.
Qed.
Lemma content_len_le p : point_ok p -> lenN (content p) <= 65024.
Proof. intros H. rewrite content_len by assumption. rewrite padded_size by apply H. destruct H as [H _].
  cbn [header_of uset_bytes]. lia. Qed.

Lemma header_of_content p r : point_ok p -> ph_cast (content p ++ r) = header_of p.
Proof.
  intros [H _]. rewrite content_eq, <- app_assoc. apply ph_cast_as_bytes. cbn [header_of uset_bytes]. lia.
Qed.
Lemma header_check p : point_ok p -> ph_check (header_of p) = Ok (header_of p).
Proof.
  intros [H H2]. apply ph_check_iff. cbn [header_of reserved point_type uset_bytes]. split; [reflexivity|].
  split; [reflexivity|]. split; [assumption|].
  destruct p as [d|d|g dm c ls rs d|g dm c ls rs d pk sg]; cbn [type_byte point_size].
  - change (min_size 1) with 0. split; [lia|auto].
  - change (min_size 128) with 0. split; [lia|auto].
  - change (min_size 3) with 64. split; [lia|auto].
  - change (min_size 7) with 160. split; [lia|auto].
Qed.

Lemma pkt_bytes_content p r : point_ok p -> pkt_bytes (content p ++ r) = Ok (content p).
Proof.
  intros H. rewrite content_eq, <- app_assoc. rewrite pkt_bytes_eval; [reflexivity|apply H|].
  rewrite <- content_len by assumption. rewrite content_eq, (lenN_app (ph_as_bytes _)), ph_as_bytes_len. reflexivity.
Qed.

Definition bare_of (p : point) : BarePointFields :=
  match p with
  | PData d => BData d (padding_bytes p)
  | PError d => BError d (padding_bytes p)
  | PLink g dm c ls rs d => BLink (lph_of g dm c ls rs) None (padding_bytes p)
  | PKey g dm c ls rs d pk sg => BLink (lph_of g dm c ls rs) (Some (mkSigned pk sg)) (padding_bytes p)
  end.
Lemma fixed_content p r : point_ok p -> fixed (content p ++ r) = Ok (bare_of p).
Proof.
  intros H. pose proof (body_len p H) as BL. rewrite content_eq, <- !app_assoc.
  assert (P : lenN (padding_bytes p) = padding_len (header_of p))
    by (rewrite padding_bytes_len; apply pad_len_eq, H).
  destruct H as [S H]. destruct p as [d|d|g dm c ls rs d|g dm c ls rs d pk sg].
  - cbn [sig_bytes app]. rewrite fixed_flat_eval; [reflexivity|assumption|reflexivity| |assumption].
    cbn [sig_bytes] in BL. change (lenN []) with 0 in BL. cbn [header_of uset_bytes]. lia.
  - cbn [sig_bytes app]. rewrite fixed_flat_eval; [reflexivity|assumption|reflexivity| |assumption].
    cbn [sig_bytes] in BL. change (lenN []) with 0 in BL. cbn [header_of uset_bytes]. lia.
  - destruct H as (H1 & H2 & H3 & H4 & H5). rewrite point_body_link in *. cbn [point_size] in S.
    rewrite lenN_app, lph_as_bytes_len in BL by assumption.
    rewrite <- app_assoc, fixed_link_eval; try assumption; try reflexivity.
    + unfold bare_of. rewrite lph_cast_as_bytes; [reflexivity|assumption|assumption| | |assumption];
        unfold lph_of; cbn [offset_rspace offset_data]; lia.
    + now apply lph_as_bytes_len.
    + cbn [header_of uset_bytes]. lia.
  - destruct H as (H1 & H2 & H3 & H4 & H5 & H6 & H7).
    change (point_body (PKey g dm c ls rs d pk sg)) with (point_body (PLink g dm c ls rs d)) in *.
    rewrite point_body_link in *. cbn [point_size] in S.
    rewrite lenN_app, lph_as_bytes_len in BL by assumption.
    cbn [sig_bytes] in *.
    rewrite <- app_assoc, fixed_link_eval; try assumption; try reflexivity.
    + unfold bare_of. rewrite lph_cast_as_bytes; [|assumption|assumption| | |assumption];
        try (unfold lph_of; cbn [offset_rspace offset_data]; lia).
      unfold sig_of. cbn [header_of point_type type_byte].
      change (contains 7 SIGNATURE_FLAG) with true. now rewrite signed_cast_bytes.
    + now apply lph_as_bytes_len.
    + rewrite lenN_app. change (sig_len _) with 96. lia.
    + cbn [header_of uset_bytes]. lia.
Qed.

Lemma tail_content p r g dm c ls rs d : point_ok p ->
  (p = PLink g dm c ls rs d \/ exists pk sg, p = PKey g dm c ls rs d pk sg) ->
  unchecked_tail (content p ++ r) = Ok (mkTail ls d rs).
Proof.
  intros [S H] E.
  assert (G : lenN g = 32 /\ lenN dm = 16 /\ c < 2 ^ 64 /\ Forall link_ok ls /\ rooted_ok rs)
    by (destruct E as [->|(pk & sg & ->)]; tauto).
  assert (B : point_body p = point_body (PLink g dm c ls rs d)) by (destruct E as [->|(pk & sg & ->)]; reflexivity).
  assert (Z : 64 + 48 * lenN ls + lenN rs + lenN d + sig_len (type_byte p) = point_size p).
  { destruct E as [->|(pk & sg & ->)]; cbn [type_byte point_size]; [change (sig_len 3) with 0|change (sig_len 7) with 96]; lia. }
  destruct G as (H1 & H2 & H3 & H4 & H5).
  pose proof (links_as_bytes_len ls H4) as HL.
  rewrite content_eq, <- !app_assoc, B, point_body_link, <- !app_assoc.
  rewrite tail_eval.
  - f_equal. f_equal. replace (N.to_nat (lenN (links_as_bytes ls) / 48)) with (length ls).
    + now apply links_cast_bytes.
    + rewrite HL. unfold lenN. lia.
  - exact S.
  - now apply lph_as_bytes_len.
  - rewrite lph_cast_as_bytes, HL; try assumption; unfold lph_of; cbn [offset_rspace offset_data]; lia.
  - rewrite lph_cast_as_bytes, HL; try assumption; unfold lph_of; cbn [offset_rspace offset_data]; lia.
  - rewrite HL. lia.
  - rewrite HL. cbn [header_of point_type uset_bytes]. lia.
Qed.

Lemma ptr_parts_content p r : point_ok p -> ptr_parts (content p ++ r) = Ok (parts_of p).
Proof.
  intros H. unfold ptr_parts. rewrite fixed_content, header_of_content by assumption. cbn [obind].
  destruct p as [d|d|g dm c ls rs d|g dm c ls rs d pk sg]; try reflexivity; cbn [bare_of].
  - rewrite (tail_content _ r g dm c ls rs d H) by (now left). reflexivity.
  - rewrite (tail_content _ r g dm c ls rs d H) by (right; eauto). reflexivity.
Qed.

Lemma forallb_repeat255 n : forallb (fun o => o =? 255) (repeat 255 n) = true.
Proof. induction n; [reflexivity|]. cbn. exact IHn. Qed.
Lemma forallb_255 l : forallb (fun o => o =? 255) l = true -> l = repeat 255 (length l).
Proof.
  induction l as [|x l IH]; [reflexivity|]. cbn [forallb length repeat]. intros H.
  apply andb_true_iff in H as [H1 H2]. apply N.eqb_eq in H1. subst. now rewrite <- IH.
Qed.

Lemma pad_check p : point_ok p ->
  (if 7 <? lenN (padding_bytes p) then Err EPaddingBitsNotU8Max
   else if negb (forallb (fun o => o =? 255) (padding_bytes p)) then Err EPaddingBitsNotU8Max
   else Ok tt) = @Ok PktError unit tt.
Proof.
  intros [H _]. rewrite padding_bytes_len. unfold padding_bytes. rewrite forallb_repeat255. unfold pad_len.
  destruct (N.ltb_spec 7 ((8 - point_size p mod 8) mod 8)); [lia|reflexivity].
Qed.

Lemma icl_content p r : point_ok p -> internal_consistent_length (content p ++ r) = Ok tt.
Proof.
  intros H. pose proof H as [S _]. unfold internal_consistent_length.
  rewrite header_of_content, header_check, fixed_content by assumption. cbn [obind].
  destruct p as [d|d|g dm c ls rs d|g dm c ls rs d pk sg]; cbn [bare_of].
  - cbn [obind]. now apply pad_check.
  - cbn [obind]. now apply pad_check.
  - rewrite (tail_content _ r g dm c ls rs d H) by (now left). cbn [obind rspace].
    unfold upoint_size. cbn [header_of uset_bytes point_type type_byte point_size].
    change (contains 3 SIGNATURE_FLAG) with false. cbn [lph_of offset_rspace offset_data].
    destruct (N.ltb_spec (64 + 48 * lenN ls + lenN rs + lenN d - 0) (64 + 48 * lenN ls + lenN rs)); [lia|].
    destruct (N.ltb_spec (64 + 48 * lenN ls + lenN rs) (64 + 48 * lenN ls)); [lia|].
    destruct (N.ltb_spec (64 + 48 * lenN ls) (4 + 60)); [lia|].
    replace ((64 + 48 * lenN ls - (4 + 60)) mod 48) with 0 by lia.
    change (0 =? 0) with true. cbn [negb].
    pose proof H as (_ & _ & _ & _ & _ & R). apply rs_check_iff in R. rewrite R. cbn [obind]. now apply pad_check.
  - rewrite (tail_content _ r g dm c ls rs d H) by (right; eauto). cbn [obind rspace].
    unfold upoint_size. cbn [header_of uset_bytes point_type type_byte point_size].
    change (contains 7 SIGNATURE_FLAG) with true. cbn [lph_of offset_rspace offset_data].
    destruct (N.ltb_spec (64 + 48 * lenN ls + lenN rs + lenN d + 96 - 96) (64 + 48 * lenN ls + lenN rs)); [lia|].
    destruct (N.ltb_spec (64 + 48 * lenN ls + lenN rs) (64 + 48 * lenN ls)); [lia|].
    destruct (N.ltb_spec (64 + 48 * lenN ls) (4 + 60)); [lia|].
    replace ((64 + 48 * lenN ls - (4 + 60)) mod 48) with 0 by lia.
    change (0 =? 0) with true. cbn [negb].
    pose proof H as (_ & _ & _ & _ & _ & R & _). apply rs_check_iff in R. rewrite R. cbn [obind]. now apply pad_check.
Qed.

Lemma unsigned_take p : point_ok p -> forall g dm c ls rs d pk sg, p = PKey g dm c ls rs d pk sg ->
  takeN (lenN (content p) - 96) (content p) = unsigned_content p.
Proof.
  intros H g dm c ls rs d pk sg ->. destruct H as (_ & _ & _ & _ & _ & _ & H1 & H2).
  unfold content. rewrite !lenN_app. rewrite H1, H2. apply takeN_app_exact. lia.
Qed.

Lemma check_signature_content c p r : point_ok p ->
  check_signature c (content p ++ r) =
  match p with
  | PKey _ _ _ _ _ _ pk sg => if validate_signature c pk sg (hash c (unsigned_content p)) then Ok tt else Err EInvalidSignature
  | _ => Ok tt
  end.
Proof.
  intros H. unfold check_signature. rewrite fixed_content, pkt_bytes_content by assumption. cbn [obind].
  destruct p as [d|d|g dm cs ls rs d|g dm cs ls rs d pk sg]; try reflexivity. cbn [bare_of].
  rewrite usub_ok.
  - cbn [obind s_pubkey s_signature]. now rewrite (unsigned_take _ H g dm cs ls rs d pk sg).
  - pose proof (body_len _ H) as X. rewrite content_eq, !lenN_app. cbn [sig_bytes].
    destruct H as (_ & _ & _ & _ & _ & _ & H1 & H2). rewrite lenN_app. lia.
Qed.

Lemma ptr_group_content p r : point_ok p -> ptr_group (content p ++ r) = Ok (point_group p).
Proof.
  intros H. unfold ptr_group. rewrite fixed_content by assumption.
  destruct p; reflexivity.
Qed.

(** ** The converse: whatever is accepted is the content of a point *)
Lemma ph_check_inv pt h' : ph_check (ph_cast pt) = Ok h' -> bytes_ok pt -> 4 <= lenN pt ->
  exists r, pt = ph_as_bytes (ph_cast pt) ++ r /\ h' = ph_cast pt /\ reserved (ph_cast pt) = 0 /\
    uset_bytes (ph_cast pt) <= 65024 /\ min_size (point_type (ph_cast pt)) <= uset_bytes (ph_cast pt) /\
    (point_type (ph_cast pt) = 1 \/ point_type (ph_cast pt) = 3 \/ point_type (ph_cast pt) = 7 \/ point_type (ph_cast pt) = 128).
Proof.
  intros H B L. apply ph_check_iff in H. destruct (ph_cast_inv pt B L) as (r & E & _). exists r. tauto.
Qed.

(** A header on which [fixed] leaves the packet: a data or error point smaller than
    its own header. *)
Definition degenerate (h : PointHeader) : Prop :=
  (point_type h = 1 \/ point_type h = 128) /\ uset_bytes h < 4.

Lemma fixed_degenerate h r : degenerate h -> padded_point_size h <= 4 + lenN r -> fixed (ph_as_bytes h ++ r) = Panic.
Proof.
  intros [T U] L. unfold fixed. rewrite ph_cast_as_bytes by lia.
  assert (C : contains (point_type h) LINK_FLAG = false) by (destruct T as [->| ->]; reflexivity).
  unfold pkt_bytes. rewrite ph_cast_as_bytes by lia. rewrite lenN_app, ph_as_bytes_len.
  destruct (N.ltb_spec (4 + lenN r) (padded_point_size h)); [reflexivity|]. cbn [obind].
  unfold padding_len. rewrite padded_size in * by lia. unfold upoint_size in *.
  unfold split_at_unchecked at 1. rewrite lenN_takeN, lenN_app, ph_as_bytes_len.
  match goal with |- context [?a <? 4] => destruct (N.ltb_spec a 4); [reflexivity|] end. cbn [obind].
  rewrite C. unfold usub. rewrite lenN_dropN, lenN_takeN, lenN_app, ph_as_bytes_len.
  match goal with |- context [?a <? ?b] => destruct (N.ltb_spec a b); [reflexivity|] end. lia.
Qed.
Lemma icl_degenerate pt : bytes_ok pt -> 4 <= lenN pt -> ph_check (ph_cast pt) = Ok (ph_cast pt) ->
  degenerate (ph_cast pt) -> padded_point_size (ph_cast pt) <= lenN pt ->
  internal_consistent_length pt = Panic.
Proof.
  intros B L C D P. unfold internal_consistent_length. rewrite C. cbn [obind].
  destruct (ph_cast_inv pt B L) as (r & E & _).
  assert (X : fixed pt = Panic).
  { rewrite E. apply fixed_degenerate; [exact D|]. rewrite E in P at 2. rewrite lenN_app, ph_as_bytes_len in P. exact P. }
  now rewrite X.
Qed.

Lemma rs_check_ok_or b : (rooted_ok b /\ rs_check_components b = Ok tt) \/
  (exists e, rs_check_components b = Err e).
Proof.
  destruct (rs_check_total b) as [H|H]; [left|right; exact H]. split; [now apply rs_check_iff|assumption].
Qed.

Lemma icl_char pt : bytes_ok pt -> 4 <= lenN pt -> ph_check (ph_cast pt) = Ok (ph_cast pt) ->
  ~ degenerate (ph_cast pt) -> padded_point_size (ph_cast pt) <= lenN pt ->
  (internal_consistent_length pt = Ok tt /\ exists p r, point_ok p /\ pt = content p ++ r) \/
  (exists e, internal_consistent_length pt = Err e /\ requires_more e = None).
Proof.
  intros B L C D P. destruct (ph_check_inv pt _ C B L) as (r & E & _ & R0 & U & M & T).
  set (h := ph_cast pt) in *. clearbody h. subst pt. rewrite lenN_app, ph_as_bytes_len in *.
  pose proof (padding_len_sum h U) as PS. pose proof (padding_len_lt h U) as PL.
  apply bytes_ok_app in B as [_ B].
  destruct T as [T|[T|[T|T]]].
  - assert (U4 : 4 <= uset_bytes h) by (destruct (N.lt_ge_cases (uset_bytes h) 4); [exfalso; apply D; split; auto|assumption]).
    destruct (cut (uset_bytes h - 4) r) as (mem & r1 & -> & Hm); [lia|]. rewrite lenN_app in *.
    destruct (cut (padding_len h) r1) as (pad & r2 & -> & Hp); [lia|].
    assert (F : fixed (ph_as_bytes h ++ mem ++ pad ++ r2) = Ok (BData mem pad)).
    { rewrite fixed_flat_eval; try assumption; [|rewrite T; reflexivity|lia]. rewrite T. reflexivity. }
    unfold internal_consistent_length. rewrite ph_cast_as_bytes, C, F by lia. cbn [obind].
    destruct (N.ltb_spec 7 (lenN pad)); [lia|].
    destruct (forallb (fun o => o =? 255) pad) eqn:FB; cbn [negb]; [left|right; eexists; split; reflexivity].
    split; [reflexivity|]. exists (PData mem), r2.
    assert (Hh : h = header_of (PData mem)).
    { destruct h as [a b u]; cbn [reserved point_type uset_bytes] in *. subst. unfold header_of. cbn [type_byte point_size]. f_equal. lia. }
    split; [split; [cbn [point_size]; lia|exact I]|].
    rewrite content_eq, <- Hh, <- !app_assoc. cbn [point_body sig_bytes app]. do 3 f_equal.
    apply forallb_255 in FB. rewrite FB. unfold padding_bytes. do 2 f_equal.
    rewrite pad_len_eq, <- Hh by (cbn [point_size]; lia). unfold lenN in Hp. lia.
  - assert (U4 : 64 <= uset_bytes h) by (rewrite T in M; exact M).
    destruct (cut 60 r) as (lp & r0 & -> & Hlp); [lia|]. rewrite lenN_app in *.
    destruct (cut (uset_bytes h - 64) r0) as (x & r1 & -> & Hx); [lia|]. rewrite lenN_app in *.
    destruct (cut (padding_len h) r1) as (pad & r2 & -> & Hp); [lia|].
    apply bytes_ok_app in B as [Blp _].
    destruct (lph_cast_inv lp Blp Hlp) as (I1 & I2 & I3 & I4 & I5 & I6).
    assert (F : fixed (ph_as_bytes h ++ lp ++ x ++ pad ++ r2) = Ok (BLink (lph_cast lp) None pad)).
    { change (pad ++ r2) with (pad ++ [] ++ r2). rewrite fixed_link_eval; try assumption; rewrite ?T; try reflexivity.
      change (lenN []) with 0. lia. }
    unfold internal_consistent_length. rewrite ph_cast_as_bytes, C, F by lia. cbn [obind].
    rewrite T. change (contains 3 SIGNATURE_FLAG) with false. cbn [obind]. unfold upoint_size.
    destruct (N.ltb_spec (uset_bytes h - 0) (offset_data (lph_cast lp))) as [|Q1]; [right; eexists; split; reflexivity|].
    destruct (N.ltb_spec (offset_data (lph_cast lp)) (offset_rspace (lph_cast lp))) as [|Q2]; [right; eexists; split; reflexivity|].
    destruct (N.ltb_spec (offset_rspace (lph_cast lp)) (4 + 60)) as [|Q3]; [right; eexists; split; reflexivity|].
    destruct (N.eqb_spec ((offset_rspace (lph_cast lp) - (4 + 60)) mod 48) 0) as [Q4|]; cbn [negb]; [|right; eexists; split; reflexivity].
    destruct (cut (offset_rspace (lph_cast lp) - 64) x) as (l & x1 & -> & Hl); [lia|]. rewrite lenN_app in *.
    destruct (cut (offset_data (lph_cast lp) - offset_rspace (lph_cast lp)) x1) as (rs & d & -> & Hrs); [lia|]. rewrite lenN_app in *.
    assert (TE : unchecked_tail (ph_as_bytes h ++ lp ++ (l ++ rs ++ d) ++ pad ++ r2) =
                 Ok (mkTail (links_cast (N.to_nat (lenN l / 48)) l) d rs)).
    { rewrite <- !app_assoc. apply tail_eval; try assumption; try lia. rewrite T. change (sig_len 3) with 0. lia. }
    rewrite TE. cbn [obind rspace].
    destruct (rs_check_ok_or rs) as [[RO RC]|[e RC]]; rewrite RC; cbn [obind]; [|right; eexists; split; reflexivity].
    destruct (N.ltb_spec 7 (lenN pad)); [lia|].
    destruct (forallb (fun o => o =? 255) pad) eqn:FB; cbn [negb]; [left|right; eexists; split; reflexivity].
    split; [reflexivity|].
    destruct (links_cast_inv (N.to_nat (lenN l / 48)) l) as (L1 & L2 & L3); [lia|].
    set (ls := links_cast (N.to_nat (lenN l / 48)) l) in *.
    pose proof (links_as_bytes_len ls L2) as LL. rewrite <- L1 in LL.
    set (p := PLink (group (lph_cast lp)) (domain (lph_cast lp)) (create_stamp (lph_cast lp)) ls rs d).
    exists p, r2.
    assert (Hh : h = header_of p).
    { destruct h as [a b u]; cbn [reserved point_type uset_bytes] in *. subst a b. unfold header_of, p. cbn [type_byte point_size]. f_equal. lia. }
    assert (Hl2 : lph_of (group (lph_cast lp)) (domain (lph_cast lp)) (create_stamp (lph_cast lp)) ls rs = lph_cast lp).
    { destruct (lph_cast lp) as [a b cc g dm]; unfold lph_of; cbn [offset_rspace offset_data create_stamp group domain] in *. f_equal; lia. }
    assert (PS2 : point_size p <= 65024) by (unfold p; cbn [point_size]; lia).
    split; [split; [assumption|unfold p; tauto]|].
    rewrite content_eq, <- Hh, <- !app_assoc. unfold p at 1. rewrite point_body_link, Hl2, I1, <- L1, <- !app_assoc.
    do 6 f_equal. cbn [sig_bytes p app]. f_equal.
    apply forallb_255 in FB. rewrite FB. unfold padding_bytes. f_equal.
    rewrite pad_len_eq, <- Hh by assumption. unfold lenN in Hp. lia.
  - assert (U4 : 160 <= uset_bytes h) by (rewrite T in M; exact M).
    destruct (cut 60 r) as (lp & r0 & -> & Hlp); [lia|]. rewrite lenN_app in *.
    destruct (cut (uset_bytes h - 160) r0) as (x & r1 & -> & Hx); [lia|]. rewrite lenN_app in *.
    destruct (cut (padding_len h) r1) as (pad & r2 & -> & Hp); [lia|]. rewrite lenN_app in *.
    destruct (cut 32 r2) as (pk & r3 & -> & Hpk); [lia|]. rewrite lenN_app in *.
    destruct (cut 64 r3) as (sg & r4 & -> & Hsg); [lia|].
    apply bytes_ok_app in B as [Blp _].
    destruct (lph_cast_inv lp Blp Hlp) as (I1 & I2 & I3 & I4 & I5 & I6).
    assert (F : fixed (ph_as_bytes h ++ lp ++ x ++ pad ++ pk ++ sg ++ r4) = Ok (BLink (lph_cast lp) (Some (mkSigned pk sg)) pad)).
    { rewrite (app_assoc pk). rewrite fixed_link_eval; try assumption; rewrite ?T, ?lenN_app; try reflexivity.
      - unfold sig_of. change (contains 7 SIGNATURE_FLAG) with true. now rewrite signed_cast_bytes.
      - change (sig_len 7) with 96. lia.
      - lia. }
    unfold internal_consistent_length. rewrite ph_cast_as_bytes, C, F by lia. cbn [obind].
    rewrite T. change (contains 7 SIGNATURE_FLAG) with true. cbn [obind]. unfold upoint_size.
    destruct (N.ltb_spec (uset_bytes h - 96) (offset_data (lph_cast lp))) as [|Q1]; [right; eexists; split; reflexivity|].
    destruct (N.ltb_spec (offset_data (lph_cast lp)) (offset_rspace (lph_cast lp))) as [|Q2]; [right; eexists; split; reflexivity|].
    destruct (N.ltb_spec (offset_rspace (lph_cast lp)) (4 + 60)) as [|Q3]; [right; eexists; split; reflexivity|].
    destruct (N.eqb_spec ((offset_rspace (lph_cast lp) - (4 + 60)) mod 48) 0) as [Q4|]; cbn [negb]; [|right; eexists; split; reflexivity].
    destruct (cut (offset_rspace (lph_cast lp) - 64) x) as (l & x1 & -> & Hl); [lia|]. rewrite lenN_app in *.
    destruct (cut (offset_data (lph_cast lp) - offset_rspace (lph_cast lp)) x1) as (rs & d & -> & Hrs); [lia|]. rewrite lenN_app in *.
    assert (TE : unchecked_tail (ph_as_bytes h ++ lp ++ (l ++ rs ++ d) ++ pad ++ pk ++ sg ++ r4) =
                 Ok (mkTail (links_cast (N.to_nat (lenN l / 48)) l) d rs)).
    { rewrite <- !app_assoc. apply tail_eval; try assumption; try lia. rewrite T. change (sig_len 7) with 96. lia. }
    rewrite TE. cbn [obind rspace].
    destruct (rs_check_ok_or rs) as [[RO RC]|[e RC]]; rewrite RC; cbn [obind]; [|right; eexists; split; reflexivity].
    destruct (N.ltb_spec 7 (lenN pad)); [lia|].
    destruct (forallb (fun o => o =? 255) pad) eqn:FB; cbn [negb]; [left|right; eexists; split; reflexivity].
    split; [reflexivity|].
    destruct (links_cast_inv (N.to_nat (lenN l / 48)) l) as (L1 & L2 & L3); [lia|].
    set (ls := links_cast (N.to_nat (lenN l / 48)) l) in *.
    pose proof (links_as_bytes_len ls L2) as LL. rewrite <- L1 in LL.
    set (p := PKey (group (lph_cast lp)) (domain (lph_cast lp)) (create_stamp (lph_cast lp)) ls rs d pk sg).
    exists p, r4.
    assert (Hh : h = header_of p).
    { destruct h as [a b u]; cbn [reserved point_type uset_bytes] in *. subst a b. unfold header_of, p. cbn [type_byte point_size]. f_equal. lia. }
    assert (Hl2 : lph_of (group (lph_cast lp)) (domain (lph_cast lp)) (create_stamp (lph_cast lp)) ls rs = lph_cast lp).
    { destruct (lph_cast lp) as [a b cc g dm]; unfold lph_of; cbn [offset_rspace offset_data create_stamp group domain] in *. f_equal; lia. }
    assert (PS2 : point_size p <= 65024) by (unfold p; cbn [point_size]; lia).
    split; [split; [assumption|unfold p; tauto]|].
    rewrite content_eq, <- Hh, <- !app_assoc. unfold p at 1.
    change (point_body (PKey ?g ?dm ?c ls rs d pk sg)) with (point_body (PLink g dm c ls rs d)).
    rewrite point_body_link, Hl2, I1, <- L1, <- !app_assoc.
    do 5 f_equal. cbn [sig_bytes p]. rewrite <- !app_assoc. f_equal.
    apply forallb_255 in FB. rewrite FB. unfold padding_bytes. f_equal.
    rewrite pad_len_eq, <- Hh by assumption. unfold lenN in Hp. lia.
  - assert (U4 : 4 <= uset_bytes h) by (destruct (N.lt_ge_cases (uset_bytes h) 4); [exfalso; apply D; split; auto|assumption]).
    destruct (cut (uset_bytes h - 4) r) as (mem & r1 & -> & Hm); [lia|]. rewrite lenN_app in *.
    destruct (cut (padding_len h) r1) as (pad & r2 & -> & Hp); [lia|].
    assert (F : fixed (ph_as_bytes h ++ mem ++ pad ++ r2) = Ok (BError mem pad)).
    { rewrite fixed_flat_eval; try assumption; [|rewrite T; reflexivity|lia]. rewrite T. reflexivity. }
    unfold internal_consistent_length. rewrite ph_cast_as_bytes, C, F by lia. cbn [obind].
    destruct (N.ltb_spec 7 (lenN pad)); [lia|].
    destruct (forallb (fun o => o =? 255) pad) eqn:FB; cbn [negb]; [left|right; eexists; split; reflexivity].
    split; [reflexivity|]. exists (PError mem), r2.
    assert (Hh : h = header_of (PError mem)).
    { destruct h as [a b u]; cbn [reserved point_type uset_bytes] in *. subst. unfold header_of. cbn [type_byte point_size]. f_equal. lia. }
    split; [split; [cbn [point_size]; lia|exact I]|].
    rewrite content_eq, <- Hh, <- !app_assoc. cbn [point_body sig_bytes app]. do 3 f_equal.
    apply forallb_255 in FB. rewrite FB. unfold padding_bytes. do 2 f_equal.
    rewrite pad_len_eq, <- Hh by (cbn [point_size]; lia). unfold lenN in Hp. lia.
Qed.
