(** Handshakes over streams, and the agreement of the parties. *)
From Verif Require Import Bytes ModelSpace SpecSpace ProofSpace ProofRooted ModelPkt SpecPkt ProofPkt ProofPkt2 ModelTree ModelStream SpecStream ProofStream PropsStream.
From Verif Require Import SpecPred ModelAbe ModelLns ModelHand SpecHand ProofHand.

Section Streams.
Variables (c : crypto) (o : decoder_opts).
Hypothesis C : crypto_ok c.
Hypothesis SK : skip_hash o = false.
Let HL : forall b, lenN (hash c b) = 32 := proj1 C.
Definition arrived (nh : bytes) : bytes := if hop o then hop_header nh else nh.

Lemma parts_of_packet nh p : lenN nh = 32 -> point_ok p -> parts_of_bytes (packet (hash c) nh p) = Ok (net_of c nh p).
Proof.
  intros N P. destruct (packet_fields c nh p [] HL N P) as (A & B & D). rewrite app_nil_r in *.
  unfold parts_of_bytes. rewrite A, B, D. reflexivity.
Qed.
Lemma arrived_len nh : lenN nh = 32 -> lenN (arrived nh) = 32.
Proof. intros H. unfold arrived. destruct (hop o); [now apply hop_header_len|exact H]. Qed.

Lemma read_one_ok r s P r' : bytes_ok s -> delivers r s -> read_one c o r = (Ok P, r') ->
  exists nh p rest, lenN nh = 32 /\ s = packet (hash c) nh p ++ rest /\ authentic c p /\ P = net_of c (arrived nh) p /\ delivers r' rest.
Proof.
  intros B D E. pose proof (C09_decoder_is_read c o r s C B D SK) as X. unfold read_one in E.
  destruct (lk_read c s (allow_private o)) as [[pkt rest]|e| |] eqn:R.
  - destruct X as (r2 & Nx & D2). rewrite Nx in E.
    apply lk_read_iff in R as (nh & p & Hn & Hp & Sg & _ & -> & ->); try assumption.
    assert (Hop : (if hop o then hop_header (takeN 32 (packet (hash c) nh p)) ++ dropN 32 (packet (hash c) nh p) else packet (hash c) nh p)
                  = packet (hash c) (arrived nh) p) by exact (hopped_packet c o nh p Hn).
    rewrite Hop, parts_of_packet in E by auto using arrived_len.
    exists nh, p, rest. split; [exact Hn|]. split; [reflexivity|]. split; [split; assumption|].
    split; [congruence|]. replace r' with r2 by congruence. exact D2.
  - assert (Y : forall x, fst (next c o r) = Some (Ok x) -> False) by (intros x Y; destruct e; congruence).
    destruct (next c o r) as [[[x|x| |]|] r2]; try discriminate. destruct (Y x eq_refl).
  - destruct (next c o r) as [[[x|x| |]|] r2]; try discriminate.
  - destruct X.
Qed.

Lemma read_one_packet r nh p rest : bytes_ok (packet (hash c) nh p ++ rest) -> delivers r (packet (hash c) nh p ++ rest) ->
  lenN nh = 32 -> authentic c p -> (allow_private o = false -> ~ in_private_group p) ->
  exists r', read_one c o r = (Ok (net_of c (arrived nh) p), r') /\ delivers r' rest.
Proof.
  intros B D Hn [Hp Sg] Pr. pose proof (C09_decoder_is_read c o r _ C B D SK) as X.
  assert (R : lk_read c (packet (hash c) nh p ++ rest) (allow_private o) = Ok (packet (hash c) nh p, rest)).
  { apply lk_read_iff; auto. exists nh, p. auto 10. }
  rewrite R in X. destruct X as (r' & Nx & D'). exists r'. split; [|exact D'].
  unfold read_one. rewrite Nx.
  assert (Hop : (if hop o then hop_header (takeN 32 (packet (hash c) nh p)) ++ dropN 32 (packet (hash c) nh p) else packet (hash c) nh p)
                  = packet (hash c) (arrived nh) p) by exact (hopped_packet c o nh p Hn).
  rewrite Hop, parts_of_packet by auto using arrived_len. reflexivity.
Qed.
End Streams.

Lemma hop_header_hops nh : bytes_ok nh -> lenN nh = 32 -> hops (hop_header nh) = N.min (hops nh + 1) (2 ^ 32 - 1).
Proof.
  intros B H. destruct (hop_header_fields nh B H) as (pre & fl & cnt & rest & -> & Lp & Lc & ->).
  assert (Pl : List.length pre = 3%nat) by (unfold lenN in Lp; lia).
  assert (Cl : List.length cnt = 4%nat) by (unfold lenN in Lc; lia).
  assert (X : forall f k, List.length k = 4%nat -> hops (pre ++ [f] ++ k ++ rest) = be_decode k).
  { intros f k K. unfold hops, nh_num. change (8 - 4)%nat with 4%nat.
    destruct pre as [|a [|b [|d [|e pre]]]]; try discriminate Pl. cbn [List.length app skipn].
    rewrite <- K. rewrite firstn_app, Nat.sub_diag, firstn_all, firstn_O, app_nil_r. reflexivity. }
  rewrite (X fl cnt Cl). rewrite X.
  - apply be_decode_encode. change (256 ^ N.of_nat 4) with (2 ^ 32). lia.
  - pose proof (lenN_be_encode 4 (N.min (be_decode cnt + 1) (2 ^ 32 - 1))) as L. unfold lenN in L. lia.
Qed.

(** ** What is signed *)
Lemma unsigned_key_inj g dm cc ls rs d pk sg g' dm' cc' ls' rs' d' pk' sg' :
  point_ok (PKey g dm cc ls rs d pk sg) -> point_ok (PKey g' dm' cc' ls' rs' d' pk' sg') ->
  unsigned_content (PKey g dm cc ls rs d pk sg) = unsigned_content (PKey g' dm' cc' ls' rs' d' pk' sg') ->
  (g, dm, cc, ls, rs, d) = (g', dm', cc', ls', rs', d').
Proof.
  intros P Q E.
  assert (P' : point_ok (PKey g' dm' cc' ls' rs' d' pk sg)).
  { destruct P as [_ P], Q as [Qs Q]. split; [exact Qs|]. tauto. }
  assert (E' : content (PKey g dm cc ls rs d pk sg) ++ [] = content (PKey g' dm' cc' ls' rs' d' pk sg) ++ []).
  { rewrite !app_nil_r. unfold content. f_equal. exact E. }
  apply content_inj_app in E' as [E' _]; try assumption. congruence.
Qed.
Lemma unsigned_type p q : unsigned_content p = unsigned_content q -> type_byte p = type_byte q.
Proof. unfold unsigned_content. cbn [app]. intros E. congruence. Qed.
(** Two points with one signature have the same fields. *)
Lemma same_fields p q pk pk' : point_ok p -> point_ok q -> signer p = Some pk -> signer q = Some pk' ->
  unsigned_content p = unsigned_content q ->
  point_group p = point_group q /\ domain_of p = domain_of q /\ created p = created q /\ links_of p = links_of q /\
  point_rspace p = point_rspace q /\ data_of p = data_of q.
Proof.
  intros P Q S S' E. destruct p; try discriminate. destruct q; try discriminate.
  pose proof (unsigned_key_inj _ _ _ _ _ _ _ _ _ _ _ _ _ _ _ _ P Q E) as X.
  cbn [point_group domain_of created links_of point_rspace data_of].
  assert (group = group0 /\ domain = domain0 /\ create = create0 /\ links = links0 /\ rspace = rspace0 /\ data = data0) as (-> & -> & -> & -> & -> & ->)
    by (repeat split; congruence).
  auto 10.
Qed.

Lemma len_auth : (List.length (str "auth") <= 16)%nat. Proof. cbn; lia. Qed.
Lemma len_signed : (List.length (str "signed") <= 16)%nat. Proof. cbn; lia. Qed.

(** ** Runs *)
Section Runs.
Variable c : crypto.
Hypothesis C : crypto_ok c.
Let HL : forall b, lenN (hash c b) = 32 := proj1 C.
Let KL : forall k, lenN (pubkey_of c k) = 32 := proj1 (proj2 C).

Lemma holds_net P nh p : holds c P nh p <-> lenN nh = 32 /\ point_ok p /\ P = net_of c nh p.
Proof.
  unfold holds. split.
  - intros (N & Hp & A & _). rewrite (parts_of_packet c C nh p N Hp) in A. split; [exact N|]. split; [exact Hp|]. congruence.
  - intros (N & Hp & ->). split; [exact N|]. split; [exact Hp|]. split; [apply (parts_of_packet c C nh p N Hp)|]. apply seg_net. apply Hp.
Qed.
Lemma net_inj nh p nh' p' : point_ok p -> point_ok p' -> net_of c nh p = net_of c nh' p' -> p = p'.
Proof.
  intros Hp Hp' E. apply (content_inj_app p p' [] []); auto. rewrite !app_nil_r.
  destruct Hp as [Hp _], Hp' as [Hp' _]. rewrite <- (seg_parts p Hp), <- (seg_parts p' Hp'). do 2 f_equal.
  exact (f_equal point_parts E).
Qed.
Lemma key_stamp g dm rs ls d cc k nh nh' p : Forall link_ok ls -> rooted_ok rs -> point_ok p ->
  or_panic (F := HandError) (try_keypoint c g dm rs ls d cc k nh) = Ok (net_of c nh' p) -> p = key_point c g dm cc ls rs d k.
Proof.
  intros L R Hp E. rewrite (try_keypoint_eval c g dm rs ls d cc k nh L R) in E.
  destruct (_ <=? 65024) eqn:Z; [|discriminate]. cbn [or_panic] in E. apply N.leb_le in Z.
  apply (fields_of_inj p). change (fields (parts_of p) = fields (parts_of (key_point c g dm cc ls rs d k))).
  assert (X : net_of c nh (key_point c g dm cc ls rs d k) = net_of c nh' p) by congruence.
  symmetry. exact (f_equal (fun z => fields (point_parts z)) X).
Qed.
(** What the steps make, without a bound on the clock. *)
Lemma ran0 k p : ran_phase0 c k p -> exists t, p = p0_of c k t.
Proof.
  intros [t nh P q E Hq]. apply holds_net in Hq as (_ & Hq & ->). exists t.
  apply (key_stamp _ _ _ _ _ _ _ _ _ _ (Forall_nil _) sentinal_ok Hq E).
Qed.
Lemma ran1 k theirs p : ran_phase1 c k theirs p -> exists t pk, signer theirs = Some pk /\ pk <> pubkey_of c k /\ point_ok theirs /\ p = p1_of c k pk t theirs.
Proof.
  intros [T nhT max tc t nh P q HT E Hq]. apply holds_net in Hq as (_ & Hq & ->). apply holds_net in HT as (_ & HT & ->).
  unfold phase1_server_signs in E. rewrite pkt_pubkey_net, stamp_net, hash_net in E.
  destruct (negb _); [discriminate|]. destruct (signer theirs) as [pk|] eqn:S; [|discriminate].
  pose proof (signer_len theirs pk HT S) as PL.
  destruct (valid_stamp_range _ _ _); try discriminate. cbn [obind] in E.
  apply ensure_ok in E as [G E]. exists t, pk. split; [reflexivity|].
  split; [|split; [exact HT|apply (key_stamp _ _ _ _ _ _ _ _ _ _ (one_link _ _ len_auth (HL _)) sentinal_ok Hq E)]].
  intros Y. apply (group_private pk (pubkey_of c k) PL (KL k)) in Y. rewrite Y in G. discriminate G.
Qed.
Lemma ran2 k mine theirs key p : ran_phase2 c k mine theirs key p ->
  exists t, point_ok mine /\ point_ok theirs /\ signer mine = Some (pubkey_of c k) /\ signer theirs = Some key /\ refers (hash c) theirs mine /\
    in_handshake (unicast_group (pubkey_of c k) key) theirs /\ p = p2_of c k key t theirs.
Proof.
  intros [M nhM T nhT max tc t nh P key' q HM HT E Hq]. apply holds_net in Hq as (_ & Hq & ->).
  apply holds_net in HM as (_ & HM & ->). apply holds_net in HT as (_ & HT & ->).
  unfold phase2_client_signs in E. apply ensure_ok in E as [I E]. rewrite pkt_pubkey_net in *. rewrite stamp_net, !hash_net, domain_net, group_net, rspace_net in E.
  destruct (negb _); [discriminate|]. destruct (signer theirs) as [pk|] eqn:S; [|discriminate].
  destruct (valid_stamp_range _ _ _); try discriminate. cbn [obind] in E.
  apply ensure_ok in E as [A E]. apply ensure_ok in E as [B E]. apply ensure_ok in E as [G E]. apply ensure_ok in E as [Sp E].
  apply opt_beqb_iff in I, G. apply domain_check in B. apply space_check in Sp. apply links_to_iff in A.
  destruct (keypoint_unwrap _ _ _ _ _ _) as [z| | |] eqn:K; try discriminate. cbn [obind] in E.
  assert (E1 : z = net_of c nh q) by congruence. assert (E2 : pk = key') by congruence. subst z pk.
  exists t. repeat (split; [assumption|]). split; [reflexivity|]. split; [exact A|]. split; [split; [exact G|split; [exact B|exact Sp]]|].
  apply (key_stamp _ _ _ _ _ _ _ _ _ _ (one_link _ _ len_signed (HL _)) sentinal_ok Hq K).
Qed.
End Runs.
Lemma ran0_ok c k p : ran_phase0 c k p -> point_ok p. Proof. intros [? ? ? ? _ (_ & H & _)]. exact H. Qed.
Lemma ran1_ok c k x p : ran_phase1 c k x p -> point_ok p. Proof. intros [? ? ? ? ? ? ? ? _ _ (_ & H & _)]. exact H. Qed.
Lemma ran2_ok c k x y z p : ran_phase2 c k x y z p -> point_ok p. Proof. intros [? ? ? ? ? ? ? ? ? ? ? _ _ _ (_ & H & _)]. exact H. Qed.
Lemma honest_ok c k q : crypto_ok c -> honest c k q -> point_ok q /\ exists pk, signer q = Some pk.
Proof.
  intros C [H|x H|x y z H|O S _].
  - split; [now apply ran0_ok in H|]. apply (ran0 c C) in H as [t ->]. eexists; reflexivity.
  - split; [now apply ran1_ok in H|]. apply (ran1 c C) in H as (t & pk & _ & _ & _ & ->). eexists; reflexivity.
  - split; [now apply ran2_ok in H|]. apply (ran2 c C) in H as (t & _ & _ & _ & _ & _ & _ & ->). eexists; reflexivity.
  - split; [exact O|eauto].
Qed.
