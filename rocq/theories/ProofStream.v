From Verif Require Import Bytes ModelSpace SpecSpace ProofSpace ProofRooted ModelPkt SpecPkt ProofPkt ProofPkt2 ModelStream SpecStream.

(** ** The checks only look at the packet *)
Lemma sliceN_takeN {A} a b n (l : list A) : b <= n -> sliceN a b (takeN n l) = sliceN a b l.
Proof.
  intros H. unfold sliceN. rewrite dropN_takeN, takeN_takeN. f_equal. lia.
Qed.
Lemma ph_cast_take n pt : 4 <= n -> 4 <= lenN pt -> ph_cast (takeN n pt) = ph_cast pt.
Proof.
  intros H L. destruct (cut 4 pt) as (u & v & -> & Hu); [assumption|].
  rewrite takeN_app_ge by lia. destruct (lenN_4 u Hu) as (a1 & a2 & a3 & a4 & ->). reflexivity.
Qed.
Lemma pkt_bytes_take n pt : 4 <= n -> n <= lenN pt -> padded_point_size (ph_cast pt) <= n ->
  pkt_bytes (takeN n pt) = pkt_bytes pt.
Proof.
  intros H L P. unfold pkt_bytes. rewrite ph_cast_take by lia. rewrite lenN_takeN.
  destruct (N.ltb_spec (N.min n (lenN pt)) (padded_point_size (ph_cast pt))); [lia|].
  destruct (N.ltb_spec (lenN pt) (padded_point_size (ph_cast pt))); [lia|].
  rewrite takeN_takeN. do 2 f_equal. lia.
Qed.
Lemma fixed_take n pt : 4 <= n -> n <= lenN pt -> padded_point_size (ph_cast pt) <= n ->
  fixed (takeN n pt) = fixed pt.
Proof. intros H L P. unfold fixed. rewrite pkt_bytes_take, ph_cast_take by lia. reflexivity. Qed.
Lemma tail_take n pt : 64 <= n -> n <= lenN pt -> upoint_size (ph_cast pt) <= n ->
  unchecked_tail (takeN n pt) = unchecked_tail pt.
Proof.
  intros H L P. unfold unchecked_tail. rewrite ph_cast_take, lenN_takeN by lia.
  rewrite (sliceN_takeN 4 64) by lia.
  set (h := ph_cast pt) in *. set (p := lph_cast (sliceN 4 64 pt)).
  set (size := upoint_size h - (if contains (point_type h) SIGNATURE_FLAG then 96 else 0)) in *.
  assert (S : size <= n) by (unfold size; lia). clearbody size.
  destruct (N.ltb_spec (offset_rspace p) 64); [reflexivity|].
  destruct ((offset_rspace p - 64) mod 48 =? 0); [|reflexivity].
  destruct (N.ltb_spec (offset_data p) (offset_rspace p)); [reflexivity|].
  destruct (N.ltb_spec size (offset_data p)); [reflexivity|]. cbn [orb negb].
  destruct (N.ltb_spec (N.min n (lenN pt)) size); [lia|]. destruct (N.ltb_spec (lenN pt) size); [lia|].
  rewrite !sliceN_takeN by lia. reflexivity.
Qed.
Lemma icl_take n pt : 4 <= n -> n <= lenN pt -> padded_point_size (ph_cast pt) <= n ->
  internal_consistent_length (takeN n pt) = internal_consistent_length pt.
Proof.
  intros H L P. unfold internal_consistent_length. rewrite ph_cast_take, fixed_take by lia.
  destruct (ph_check (ph_cast pt)) as [h|e| |] eqn:C; try reflexivity. cbn [obind].
  apply ph_check_iff in C as (-> & R0 & U & M & T).
  destruct (fixed pt) as [bf|e| |] eqn:F; try reflexivity. cbn [obind].
  destruct bf as [d pad|hd sg pad|m pad|u]; try reflexivity.
  assert (Q : upoint_size (ph_cast pt) <= n /\ 64 <= upoint_size (ph_cast pt)).
  { rewrite padded_size in P by assumption. unfold upoint_size in *.
    assert (LK : contains (point_type (ph_cast pt)) LINK_FLAG = true).
    { destruct (contains (point_type (ph_cast pt)) LINK_FLAG) eqn:K; [reflexivity|]. exfalso. revert F.
      unfold fixed. rewrite K. unfold pkt_bytes, split_at_unchecked, usub.
      repeat (match goal with |- context [if ?x then _ else _] => destruct x end; cbn [obind]; try discriminate). }
    split; [lia|]. destruct T as [T|[T|[T|T]]]; rewrite T in *; try discriminate LK.
    - change (min_size 3) with 64 in M. lia.
    - change (min_size 7) with 160 in M. lia. }
  rewrite tail_take by lia. reflexivity.
Qed.
Lemma check_signature_take c n pt : 4 <= n -> n <= lenN pt -> padded_point_size (ph_cast pt) <= n ->
  check_signature c (takeN n pt) = check_signature c pt.
Proof. intros H L P. unfold check_signature. rewrite fixed_take, pkt_bytes_take by lia. reflexivity. Qed.
Lemma nptr_check_take c n b skip : 68 <= n -> n <= lenN b -> padded_point_size (ph_cast (nptr_point b)) + 64 <= n ->
  nptr_check c (takeN n b) skip = nptr_check c b skip.
Proof.
  intros H L P. unfold nptr_check, nptr_point, nptr_hash in *. rewrite dropN_takeN.
  pose proof (lenN_dropN 64 b).
  rewrite icl_take, check_signature_take, pkt_bytes_take, sliceN_takeN by lia. reflexivity.
Qed.

(** ** Readers that deliver a byte string in non-empty chunks *)
Lemma delivers_nil : delivers [] []. Proof. exists []. repeat split; constructor. Qed.
Lemma delivers_cons b r s : b <> [] -> delivers r s -> delivers (Chunk b :: r) (b ++ s).
Proof. intros B (cs & -> & F & <-). exists (b :: cs). repeat split. now constructor. Qed.

Lemma fill_header_delivers r : forall s need z acc, delivers r s ->
  if need <=? lenN s
  then exists r', fill_header need z acc r = Full (acc ++ takeN need s) r' /\ delivers r' (dropN need s)
  else fill_header need z acc r = EndOfStream [].
Proof.
  induction r as [|ev r IH]; intros s need z acc (cs & E & F & <-).
  - destruct cs; [|discriminate]. cbn [concat]. destruct (N.leb_spec need (lenN (@nil N))) as [L|L].
    + change (lenN (@nil N)) with 0 in L. assert (need = 0) by lia. subst. exists []. cbn. rewrite app_nil_r.
      split; [reflexivity|apply delivers_nil].
    + cbn [fill_header]. destruct (N.eqb_spec need 0); [subst; cbn in L; lia|reflexivity].
  - destruct cs as [|b cs]; [discriminate|]. cbn [map] in E. injection E as -> ->. inversion F as [|? ? B F']; subst.
    assert (D : delivers (map Chunk cs) (concat cs)) by (exists cs; auto).
    assert (Lb : 0 < lenN b) by (destruct b; [congruence|rewrite lenN_cons; lia]).
    cbn [fill_header concat]. destruct (N.eqb_spec need 0) as [->|NZ].
    + destruct (N.leb_spec 0 (lenN (b ++ concat cs))); [|lia]. exists (Chunk b :: map Chunk cs).
      rewrite takeN_0, dropN_0, app_nil_r. split; [reflexivity|now apply delivers_cons].
    + destruct (N.eqb_spec (lenN b) 0); [lia|]. rewrite lenN_app.
      destruct (N.leb_spec (lenN b) need) as [L|L].
      * specialize (IH (concat cs) (need - lenN b) z (acc ++ b) D).
        destruct (N.leb_spec (need - lenN b) (lenN (concat cs))) as [K|K];
          destruct (N.leb_spec need (lenN b + lenN (concat cs))); try lia; [|exact IH].
        destruct IH as (r' & I1 & I2). exists r'. rewrite I1, takeN_app_ge, dropN_app_ge, app_assoc by assumption. auto.
      * destruct (N.leb_spec need (lenN b + lenN (concat cs))); [|lia].
        eexists. split; [rewrite takeN_app_le by lia; reflexivity|]. rewrite dropN_app_le by lia.
        apply delivers_cons; [|assumption]. intros X. apply (f_equal lenN) in X. rewrite lenN_dropN in X. change (lenN (@nil N)) with 0 in X. lia.
Qed.
Lemma read_exact_delivers r : forall s need acc, delivers r s ->
  if need <=? lenN s
  then exists r', read_exact need acc r = Full (acc ++ takeN need s) r' /\ delivers r' (dropN need s)
  else read_exact need acc r = IoFailed IoUnexpectedEof [].
Proof.
  induction r as [|ev r IH]; intros s need acc (cs & E & F & <-).
  - destruct cs; [|discriminate]. cbn [concat]. destruct (N.leb_spec need (lenN (@nil N))) as [L|L].
    + change (lenN (@nil N)) with 0 in L. assert (need = 0) by lia. subst. exists []. cbn. rewrite app_nil_r.
      split; [reflexivity|apply delivers_nil].
    + cbn [read_exact]. destruct (N.eqb_spec need 0); [subst; cbn in L; lia|reflexivity].
  - destruct cs as [|b cs]; [discriminate|]. cbn [map] in E. injection E as -> ->. inversion F as [|? ? B F']; subst.
    assert (D : delivers (map Chunk cs) (concat cs)) by (exists cs; auto).
    assert (Lb : 0 < lenN b) by (destruct b; [congruence|rewrite lenN_cons; lia]).
    cbn [read_exact concat]. destruct (N.eqb_spec need 0) as [->|NZ].
    + destruct (N.leb_spec 0 (lenN (b ++ concat cs))); [|lia]. exists (Chunk b :: map Chunk cs).
      rewrite takeN_0, dropN_0, app_nil_r. split; [reflexivity|now apply delivers_cons].
    + destruct (N.eqb_spec (lenN b) 0); [lia|]. rewrite lenN_app.
      destruct (N.leb_spec (lenN b) need) as [L|L].
      * specialize (IH (concat cs) (need - lenN b) (acc ++ b) D).
        destruct (N.leb_spec (need - lenN b) (lenN (concat cs))) as [K|K];
          destruct (N.leb_spec need (lenN b + lenN (concat cs))); try lia; [|exact IH].
        destruct IH as (r' & I1 & I2). exists r'. rewrite I1, takeN_app_ge, dropN_app_ge, app_assoc by assumption. auto.
      * destruct (N.leb_spec need (lenN b + lenN (concat cs))); [|lia].
        eexists. split; [rewrite takeN_app_le by lia; reflexivity|]. rewrite dropN_app_le by lia.
        apply delivers_cons; [|assumption]. intros X. apply (f_equal lenN) in X. rewrite lenN_dropN in X. change (lenN (@nil N)) with 0 in X. lia.
Qed.

(** ** The decoder on a delivered byte string, as a function of the byte string *)
Definition hopped (o : decoder_opts) (pkt : bytes) : bytes :=
  if hop o then hop_header (takeN 32 pkt) ++ dropN 32 pkt else pkt.

(** [lk_read] with a choice about the hash check. *)
Definition read_with (c : crypto) (s : bytes) (skip allow : bool) : outcome PktError (bytes * bytes) :=
  obind (read_pkt c s skip) (fun pkt =>
  obind (if allow then Ok tt else obind (ptr_group (nptr_point pkt)) check_private) (fun _ =>
  Ok (pkt, dropN (nptr_size pkt) s))).

Lemma ph_check_err_kind h e : ph_check h = Err e -> requires_more e = None.
Proof. intros E. destruct (ph_check_total h) as [X|(e' & X & Q)]; congruence. Qed.

Lemma netpkt_size_padded h h' : ph_check h = Ok h' -> netpkt_size h = padded_point_size h + 64.
Proof. intros C. apply ph_check_iff in C as (_ & _ & U & _). now apply netpkt_size_eq. Qed.

Lemma padded_ge4 h h' : ph_check h = Ok h' -> uset_bytes h <> 0 -> 4 <= padded_point_size h.
Proof. intros C Z. apply ph_check_iff in C as (_ & _ & U & _). rewrite padded_size by assumption. lia. Qed.

Definition next_spec (c : crypto) (o : decoder_opts) (s : bytes) : option (outcome DecError bytes) :=
  match read_with c s (skip_hash o) (allow_private o) with
  | Ok (pkt, _) => Some (Ok (hopped o pkt))
  | Err EMissingHeader => None
  | Err (EMissingBytes _) => Some (Err (DIo IoUnexpectedEof))
  | Err e => Some (Err (DPkt e))
  | Panic => Some Panic
  | OutOfFuel => Some OutOfFuel
  end.
Definition not_missing (e : PktError) : Prop := requires_more e = None.

Lemma icl_err_kind pt e : bytes_ok pt -> 4 <= lenN pt -> padded_point_size (ph_cast pt) <= lenN pt ->
  internal_consistent_length pt = Err e -> requires_more e = None.
Proof.
  intros B L P E. destruct (ph_check_total (ph_cast pt)) as [C|(e' & C & Q)].
  - assert (DD : degenerate (ph_cast pt) \/ ~ degenerate (ph_cast pt)) by (unfold degenerate; lia).
    destruct DD as [D|D]; [rewrite icl_degenerate in E by assumption; discriminate|].
    destruct (icl_char pt B L C D P) as [[X _]|(e' & X & Q)]; congruence.
  - unfold internal_consistent_length in E. rewrite C in E. cbn [obind] in E. congruence.
Qed.
Lemma sig_err_kind c pt e : check_signature c pt = Err e -> requires_more e = None \/ exists e', fixed pt = Err e'.
Proof.
  intros E. unfold check_signature in E. destruct (fixed pt) as [bf|e'| |] eqn:F; try discriminate; [|right; eauto].
  cbn [obind] in E. left. destruct bf as [d pad|hd [sg|] pad|m pad|u]; try discriminate.
  unfold pkt_bytes, usub in E.
  repeat (match type of E with context [if ?x then _ else _] => destruct x end; cbn [obind] in E; try discriminate).
  injection E as <-. reflexivity.
Qed.
Lemma fixed_no_err pt e : fixed pt <> Err e.
Proof.
  unfold fixed, pkt_bytes, split_at_unchecked, usub.
  repeat (match goal with |- context [if ?x then _ else _] => destruct x end; cbn [obind]; try discriminate).
Qed.
Lemma nptr_check_err_kind c b skip e : bytes_ok b -> 68 <= lenN b ->
  padded_point_size (ph_cast (nptr_point b)) + 64 <= lenN b ->
  nptr_check c b skip = Err e -> requires_more e = None.
Proof.
  intros B L P E. unfold nptr_check in E. pose proof (lenN_dropN 64 b) as LD.
  destruct (internal_consistent_length (nptr_point b)) as [u|e'| |] eqn:I; cbn [obind] in E; try discriminate.
  - destruct skip; [discriminate|].
    destruct (check_signature c (nptr_point b)) as [u'|e'| |] eqn:S; cbn [obind] in E; try discriminate.
    + unfold pkt_bytes in E.
      repeat (match type of E with context [if ?x then _ else _] => destruct x end; cbn [obind] in E; try discriminate).
      now injection E as <-.
    + injection E as ->. destruct (sig_err_kind _ _ _ S) as [|[e' X]]; [assumption|]. now apply fixed_no_err in X.
  - injection E as ->. apply icl_err_kind in I; try assumption; unfold nptr_point in *; try lia. now apply bytes_ok_dropN.
Qed.
Lemma ptr_group_no_err pt e : ptr_group pt <> Err e.
Proof.
  unfold ptr_group. destruct (fixed pt) as [bf|e'| |] eqn:F; cbn [obind]; try discriminate; [|now apply fixed_no_err in F].
  destruct bf; discriminate.
Qed.

Lemma next_delivers c o r s : bytes_ok s -> delivers r s ->
  fst (next c o r) = next_spec c o s /\
  match read_with c s (skip_hash o) (allow_private o) with
  | Ok (_, rest) => delivers (snd (next c o r)) rest
  | _ => True
  end.
Proof.
  intros B D. unfold next, next_spec, read_with, read_pkt, MIN_NETPKT_SIZE.
  pose proof (fill_header_delivers r s 68 0 [] D) as FH. cbn [app] in FH.
  destruct (N.leb_spec 68 (lenN s)) as [L|L].
  2:{ rewrite FH. destruct (N.ltb_spec (lenN s) 68); [|lia]. split; [reflexivity|exact I]. }
  destruct FH as (r1 & F1 & D1). rewrite F1. destruct (N.ltb_spec (lenN s) 68); [lia|]. clear F1.
  assert (PH : ph_cast (nptr_point (takeN 68 s)) = ph_cast (nptr_point s)).
  { unfold nptr_point. rewrite dropN_takeN. apply ph_cast_take; rewrite ?lenN_dropN; lia. }
  rewrite PH. set (h := ph_cast (nptr_point s)) in *.
  destruct (ph_check h) as [h'|e| |] eqn:C; cbn [obind fst snd].
  2:{ split; [|exact I]. pose proof (ph_check_err_kind _ _ C). destruct e; try discriminate; reflexivity. }
  2,3: split; [reflexivity|exact I].
  pose proof (netpkt_size_padded _ _ C) as NS. rewrite NS.
  destruct (N.ltb_spec (padded_point_size h + 64) 68) as [S|S].
  { (* declared size zero *)
    destruct (N.ltb_spec (lenN s) (padded_point_size h + 64)); [lia|].
    assert (P : nptr_check c s (skip_hash o) = Panic).
    { pose proof C as C'. apply ph_check_iff in C' as (-> & R0 & U & M & T).
      assert (Z : uset_bytes h = 0) by (destruct (N.eq_dec (uset_bytes h) 0); [assumption|]; pose proof (padded_ge4 _ _ C); lia).
      assert (DG : degenerate h).
      { split; [|lia]. destruct T as [T|[T|[T|T]]]; rewrite T in *; auto; exfalso.
        - change (min_size 3) with 64 in M. lia.
        - change (min_size 7) with 160 in M. lia. }
      unfold nptr_check. pose proof (lenN_dropN 64 s) as LD.
      rewrite icl_degenerate; [reflexivity|now apply bytes_ok_dropN|unfold nptr_point; lia|exact C|exact DG|].
      fold h. unfold nptr_point. lia. }
    rewrite P. split; [reflexivity|exact I]. }
  pose proof (read_exact_delivers r1 (dropN 68 s) (padded_point_size h + 64 - 68) (takeN 68 s) D1) as RE.
  rewrite lenN_dropN in RE.
  destruct (N.leb_spec (padded_point_size h + 64 - 68) (lenN s - 68)) as [K|K];
    destruct (N.ltb_spec (lenN s) (padded_point_size h + 64)) as [J|J]; try lia.
  2:{ rewrite RE. split; [reflexivity|exact I]. }
  destruct RE as (r2 & R2 & D2). rewrite R2. clear R2.
  replace (takeN 68 s ++ takeN (padded_point_size h + 64 - 68) (dropN 68 s)) with (takeN (padded_point_size h + 64) s).
  2:{ rewrite <- takeN_split. f_equal. lia. }
  rewrite dropN_dropN in D2. replace (68 + (padded_point_size h + 64 - 68)) with (padded_point_size h + 64) in D2 by lia.
  rewrite nptr_check_take by (unfold h in *; lia).
  destruct (nptr_check c s (skip_hash o)) as [u|e| |] eqn:NC; cbn [obind fst snd].
  2:{ split; [|exact I]. assert (requires_more e = None) by (eapply nptr_check_err_kind; eauto; fold h; lia).
      destruct e; try discriminate; reflexivity. }
  2,3: split; [reflexivity|exact I].
  assert (SZ : nptr_size (takeN (padded_point_size h + 64) s) = padded_point_size h + 64).
  { unfold nptr_size, nptr_point. rewrite dropN_takeN, ph_cast_take by (rewrite ?lenN_dropN; lia). exact NS. }
  rewrite SZ. unfold hopped.
  destruct (allow_private o); cbn [obind fst snd]; [split; [reflexivity|exact D2]|].
  destruct (ptr_group (nptr_point (takeN (padded_point_size h + 64) s))) as [g|e| |] eqn:G; cbn [obind fst snd].
  - destruct (check_private_cases g) as [Q|[Q _]]; rewrite Q; cbn [obind fst snd]; split; auto.
  - now apply ptr_group_no_err in G.
  - split; auto.
  - split; auto.
Qed.

Lemma read_with_rest c s skip allow pkt rest : read_with c s skip allow = Ok (pkt, rest) -> exists n, rest = dropN n s.
Proof.
  intros E. unfold read_with in E.
  destruct (read_pkt c s skip) as [p|e| |]; try discriminate. cbn [obind] in E.
  destruct allow; [injection E as <- <-; eauto|].
  destruct (ptr_group (nptr_point p)) as [g|e| |]; try discriminate. cbn [obind] in E.
  destruct (check_private g) as [u|e| |]; try discriminate. injection E as <- <-. eauto.
Qed.

(** The whole decoder as a function of the delivered bytes. *)
Fixpoint decode_bytes (fuel : nat) (c : crypto) (o : decoder_opts) (s : bytes) : list bytes * ending :=
  match fuel with
  | O => ([], Unfinished)
  | S f =>
      match read_with c s (skip_hash o) (allow_private o) with
      | Ok (pkt, rest) => let (l, e) := decode_bytes f c o rest in (hopped o pkt :: l, e)
      | Err EMissingHeader => ([], Finished)
      | Err (EMissingBytes _) => ([], Failed (DIo IoUnexpectedEof))
      | Err e => ([], Failed (DPkt e))
      | _ => ([], Crashed)
      end
  end.
Lemma decode_all_bytes c o fuel : forall r s, bytes_ok s -> delivers r s ->
  decode_all fuel c o r = decode_bytes fuel c o s.
Proof.
  induction fuel as [|f IH]; intros r s B D; [reflexivity|]. cbn [decode_all decode_bytes].
  destruct (next_delivers c o r s B D) as [E1 E2]. unfold next_spec in E1.
  destruct (next c o r) as [x r'] eqn:Nx. cbn [fst snd] in *. subst x.
  destruct (read_with c s (skip_hash o) (allow_private o)) as [[pkt rest]|e| |] eqn:R.
  - rewrite (IH r' rest); [reflexivity| |exact E2].
    destruct (read_with_rest _ _ _ _ _ _ R) as [n ->]. now apply bytes_ok_dropN.
  - destruct e; reflexivity.
  - reflexivity.
  - reflexivity.
Qed.

Lemma decode_bytes_packets c o (l : list (bytes * point)) : (forall x, lenN (hash c x) = 32) -> skip_hash o = false ->
  Forall (fun q => lenN (fst q) = 32 /\ point_ok (snd q) /\ signature_ok (hash c) (validate_signature c) (snd q) /\
                   (allow_private o = false -> ~ in_private_group (snd q))) l ->
  forall fuel rest, 
  decode_bytes (length l + fuel) c o (concat (map (fun q => packet (hash c) (fst q) (snd q)) l) ++ rest) =
  let (k, e) := decode_bytes fuel c o rest in
  (map (fun q => hopped o (packet (hash c) (fst q) (snd q))) l ++ k, e).
Proof.
  intros HL SK F. induction F as [|[nh p] l (Hn & Hp & Sg & Pr) _ IH]; intros fuel rest.
  - cbn. now destruct (decode_bytes fuel c o rest).
  - cbn [length Nat.add decode_bytes map concat fst snd app]. cbn [fst snd] in *.
    assert (R : read_with c ((packet (hash c) nh p ++ concat (map (fun q => packet (hash c) (fst q) (snd q)) l)) ++ rest) (skip_hash o) (allow_private o)
       = Ok (packet (hash c) nh p, concat (map (fun q => packet (hash c) (fst q) (snd q)) l) ++ rest)).
    { rewrite SK, <- app_assoc. change (read_with c ?x false ?a) with (lk_read c x a).
      rewrite lk_read_packet by assumption. destruct (allow_private o); [reflexivity|].
      rewrite (proj2 (check_private_iff _) (Pr eq_refl)). reflexivity. }
    rewrite R, IH. now destruct (decode_bytes fuel c o rest).
Qed.

(** ** The hop count *)
Lemma hop_header_len nh : lenN nh = 32 -> lenN (hop_header nh) = 32.
Proof.
  intros H. unfold hop_header. rewrite !lenN_app, lenN_takeN, lenN_dropN, lenN_be_encode, lenN_cons. change (lenN (@nil N)) with 0. lia.
Qed.
Lemma hop_header_fields nh : bytes_ok nh -> lenN nh = 32 -> hop_of nh (hop_header nh).
Proof.
  intros B H. destruct (cut 3 nh) as (a & r & -> & Ha); [lia|]. rewrite lenN_app in H.
  destruct (cut 1 r) as (f & r' & -> & Hf); [lia|]. rewrite lenN_app in H.
  destruct (cut 4 r') as (h & t & -> & Hh); [lia|]. rewrite lenN_app in H.
  destruct f as [|x [|y f]]; [discriminate Hf| |rewrite !lenN_cons in Hf; lia].
  exists a, x, h, t. split; [reflexivity|]. split; [assumption|]. split; [assumption|].
  unfold hop_header. rewrite takeN_app_exact by assumption.
  replace (nth 3 (a ++ [x] ++ h ++ t) 0) with x.
  2:{ assert (La : length a = 3%nat) by (unfold lenN in Ha; lia). rewrite app_nth2 by lia. rewrite La. reflexivity. }
  replace (sliceN 4 8 (a ++ [x] ++ h ++ t)) with h.
  2:{ symmetry. rewrite app_assoc. apply sliceN_mid; rewrite lenN_app; change (lenN [x]) with 1; lia. }
  replace (dropN 8 (a ++ [x] ++ h ++ t)) with t; [reflexivity|].
  symmetry. rewrite 2!app_assoc. apply dropN_app_exact. rewrite !lenN_app. lia.
Qed.
Lemma hopped_packet c o nh p : lenN nh = 32 ->
  hopped o (packet (hash c) nh p) = packet (hash c) (if hop o then hop_header nh else nh) p.
Proof.
  intros H. unfold hopped, packet. destruct (hop o); [|reflexivity].
  rewrite takeN_app_exact, dropN_app_exact by assumption. reflexivity.
Qed.
