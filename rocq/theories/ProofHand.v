(** Proofs about the pairwise group and the handshake. *)
From Verif Require Import Bytes ModelSpace SpecSpace ProofSpace ProofRooted ModelPkt SpecPkt ProofPkt ProofPkt2 ModelTree ModelStream SpecStream ProofStream.
From Verif Require Import SpecPred ModelAbe ModelLns ModelHand SpecHand.

(** ** The group *)
Lemma xor_len a b : List.length a = List.length b -> List.length (xor_bytes a b) = List.length a.
Proof. revert b. induction a as [|x a IH]; intros [|y b] H; cbn in *; try lia. rewrite IH; lia. Qed.
Lemma xor_comm a b : xor_bytes a b = xor_bytes b a.
Proof. revert b. induction a as [|x a IH]; intros [|y b]; cbn [xor_bytes]; try reflexivity. now rewrite N.lxor_comm, IH. Qed.
Lemma xor_zero a b : List.length a = List.length b -> xor_bytes a b = repeat 0 (List.length a) -> a = b.
Proof.
  revert b. induction a as [|x a IH]; intros [|y b] H E; cbn in H; try lia; [reflexivity|].
  cbn [xor_bytes List.length repeat] in E.
  assert (E1 : N.lxor x y = 0) by congruence. assert (E2 : xor_bytes a b = repeat 0 (List.length a)) by congruence.
  apply N.lxor_eq in E1. subst y. f_equal. apply IH; [lia|assumption].
Qed.
Lemma xor_same a : xor_bytes a a = repeat 0 (List.length a).
Proof. induction a as [|x a IH]; cbn [xor_bytes List.length repeat]; [reflexivity|]. now rewrite N.lxor_nilpotent, IH. Qed.
Lemma xor_back a b : List.length a = List.length b -> xor_bytes a (xor_bytes a b) = b.
Proof.
  revert b. induction a as [|x a IH]; intros [|y b] H; cbn in H; try lia; [reflexivity|]. cbn [xor_bytes].
  rewrite <- N.lxor_assoc, N.lxor_nilpotent, N.lxor_0_l, IH by lia. reflexivity.
Qed.
Lemma xor_nth a b i : List.length a = List.length b -> nth i (xor_bytes a b) 0 = N.lxor (nth i a 0) (nth i b 0).
Proof.
  revert b i. induction a as [|x a IH]; intros [|y b] i H; cbn in H; try lia; [destruct i; reflexivity|].
  destruct i; cbn [xor_bytes nth]; [reflexivity|]. apply IH. lia.
Qed.
Lemma xor_lt x y : x < 256 -> y < 256 -> N.lxor x y < 256.
Proof.
  intros X Y. destruct (N.eq_dec (N.lxor x y) 0) as [->|Z]; [lia|].
  apply N.log2_lt_pow2 with (b := 8); [lia|].
  assert (L : N.log2 (N.lxor x y) <= N.max (N.log2 x) (N.log2 y)) by apply N.log2_lxor.
  assert (A : forall z, z < 256 -> N.log2 z < 8).
  { intros z H. destruct (N.eq_dec z 0) as [->|Hz]; [reflexivity|]. apply N.log2_lt_pow2; [lia|]. exact H. }
  pose proof (A x X). pose proof (A y Y). lia.
Qed.
Lemma xor_ok a b : bytes_ok a -> bytes_ok b -> bytes_ok (xor_bytes a b).
Proof.
  revert b. unfold bytes_ok. induction a as [|x a IH]; intros [|y b] A B; cbn [xor_bytes]; try constructor.
  - apply xor_lt; [now inversion A|now inversion B].
  - apply IH; [now inversion A|now inversion B].
Qed.
Lemma len_32 (a : bytes) : lenN a = 32 -> List.length a = 32%nat.
Proof. unfold lenN. lia. Qed.
Lemma group_len a b : lenN a = 32 -> lenN b = 32 -> lenN (unicast_group a b) = 32.
Proof. intros A B. unfold unicast_group, lenN. rewrite xor_len; [exact A|]. apply len_32 in A, B. lia. Qed.
Lemma group_pairwise a b : lenN a = 32 -> lenN b = 32 -> pairwise_group a b (unicast_group a b).
Proof.
  intros A B. split; [apply len_32; now apply group_len|]. intros i j. apply len_32 in A, B.
  unfold unicast_group. rewrite xor_nth by lia. apply N.lxor_spec.
Qed.
Lemma group_private a b : lenN a = 32 -> lenN b = 32 -> unicast_group a b = repeat 0 32 <-> a = b.
Proof.
  intros A B. apply len_32 in A, B. unfold unicast_group. split.
  - intros E. apply xor_zero; [lia|]. now rewrite A.
  - intros <-. rewrite xor_same. now rewrite A.
Qed.

(** ** Getters of packets *)
Lemma pkt_pubkey_net c nh p : pkt_pubkey (net_of c nh p) = signer p.
Proof. destruct p; reflexivity. Qed.
Lemma links_net c nh p : pkt_links (net_of c nh p) = links_of p.
Proof. destruct p; reflexivity. Qed.
Lemma stamp_net c nh p : get_create_stamp (pf (net_of c nh p)) = created p.
Proof. destruct p; reflexivity. Qed.
Lemma domain_net c nh p : opt_domain (net_of c nh p) = domain_of p.
Proof. destruct p; reflexivity. Qed.
Lemma group_net c nh p : opt_group (net_of c nh p) = point_group p.
Proof. destruct p; reflexivity. Qed.
Lemma rspace_net c nh p : get_rspace (net_of c nh p) = match point_rspace p with Some r => r | None => [] end.
Proof. destruct p; reflexivity. Qed.
Lemma hash_net c nh p : np_hash (net_of c nh p) = hash c (content p).
Proof. reflexivity. Qed.
Lemma hop_net c nh p : hop_count (net_of c nh p) = hops nh.
Proof. reflexivity. Qed.
Lemma opt_beqb_iff a b : opt_beqb a b = true <-> a = b.
Proof.
  destruct a, b; cbn [opt_beqb]; split; intros H; try congruence; try discriminate.
  - apply beqb_eq in H. congruence.
  - injection H as <-. apply beqb_refl.
Qed.
Lemma ensure_ok b e {A} (k : unit -> outcome HandError A) x : obind (ensure b e) k = Ok x <-> b = true /\ k tt = Ok x.
Proof. destruct b; cbn [ensure obind]; intuition congruence. Qed.
Lemma links_to_iff c nh p h : links_to (net_of c nh p) h = true <-> exists tag, In (tag, h) (links_of p).
Proof.
  unfold links_to. rewrite links_net, existsb_exists. split.
  - intros ((tag & q) & I & E). cbn [snd] in E. apply beqb_eq in E. subst. eauto.
  - intros (tag & I). eexists. split; [exact I|]. apply beqb_refl.
Qed.
Lemma range_ok now stamp max : valid_stamp_range now stamp max = Ok tt <-> within (tolerance max) now stamp.
Proof.
  unfold valid_stamp_range, within, tolerance, MAX_DIFF_SECONDS.
  set (d := 1000000 * _). clearbody d.
  destruct (N.ltb_spec now stamp).
  - destruct (N.ltb_spec (stamp - now) d); split; intros; try discriminate; try reflexivity; lia.
  - destruct (N.ltb_spec (now - stamp) d); split; intros; try discriminate; try reflexivity; lia.
Qed.
Lemma range_total now stamp max : valid_stamp_range now stamp max = Ok tt \/ exists e, valid_stamp_range now stamp max = Err e.
Proof. unfold valid_stamp_range. destruct (now <? stamp), (_ <? _); eauto. Qed.

(** ** Making points *)
Lemma sentinal_wire : ID_SENTINAL_SPACENAME = wire_rooted [str "sentinal"].
Proof. reflexivity. Qed.
Lemma sentinal_ok : rooted_ok ID_SENTINAL_SPACENAME.
Proof.
  right. exists 1, [str "sentinal"]. split; [|split; [cbn; lia|split; [reflexivity|reflexivity]]].
  split; [|cbn; lia]. constructor; [|constructor]. unfold component_ok. cbn. lia.
Qed.
Lemma sentinal_len : lenN ID_SENTINAL_SPACENAME = 17. Proof. reflexivity. Qed.
Lemma link_new_ok tag h : (List.length tag <= 16)%nat -> lenN h = 32 -> link_ok (link_new tag h).
Proof.
  intros T H. split; [|exact H]. cbn [link_new fst]. unfold lenN. rewrite app_length, repeat_length. lia.
Qed.
Definition hand_point (c : crypto) (g : bytes) (ls : list Link) (t : N) (k : skey c) : point :=
  key_point c g HANDSHAKE_D t ls ID_SENTINAL_SPACENAME [] k.
Lemma keypoint_ok c g ls t k nh : crypto_ok c -> lenN g = 32 -> Forall link_ok ls -> lenN ls <= 1 -> t < 2 ^ 64 ->
  keypoint_unwrap c g ls t k nh = Ok (net_of c nh (hand_point c g ls t k)) /\ point_ok (hand_point c g ls t k).
Proof.
  intros C G L N1 T. unfold keypoint_unwrap. rewrite (try_keypoint_eval c g HANDSHAKE_D ID_SENTINAL_SPACENAME ls [] t k nh L sentinal_ok).
  assert (Sz : 160 + 48 * lenN ls + lenN ID_SENTINAL_SPACENAME + lenN (@nil N) <= 65024).
  { rewrite sentinal_len. change (lenN (@nil N)) with 0. lia. }
  assert (Hp : point_ok (hand_point c g ls t k)).
  { apply key_point_ok; auto using sentinal_ok. }
  split; [|exact Hp]. fold (hand_point c g ls t k). destruct Hp as [Hs _].
  apply N.leb_le in Hs. rewrite Hs. reflexivity.
Qed.
Lemma hand_made c g ls t k to : crypto_ok c -> point_ok (hand_point c g ls t k) ->
  map snd ls = map (fun q => hash c (content q)) to -> made c k g t to (hand_point c g ls t k).
Proof.
  intros C P E. split; [split; [exact P|now apply key_point_sig]|]. split; [reflexivity|]. split; [reflexivity|].
  split; [split; [reflexivity|split; [reflexivity|exact (f_equal Some sentinal_wire)]]|]. split; [reflexivity|exact E].
Qed.

(** ** The phases, on packets with a correct hash *)
Section Phases.
Variable c : crypto.
Hypothesis C : crypto_ok c.
Let HL : forall b, lenN (hash c b) = 32 := proj1 C.
Let KL : forall k, lenN (pubkey_of c k) = 32 := proj1 (proj2 C).

Definition p0_of (k : skey c) (t : N) : point := hand_point c (pubkey_of c k) [] t k.
Definition p1_of (k : skey c) (pk : bytes) (t : N) (p0 : point) : point :=
  hand_point c (unicast_group pk (pubkey_of c k)) [link_new (str "auth") (hash c (content p0))] t k.
Definition p2_of (k : skey c) (pk : bytes) (t : N) (p1 : point) : point :=
  hand_point c (unicast_group (pubkey_of c k) pk) [link_new (str "signed") (hash c (content p1))] t k.

Lemma phase0_eval k t nh : t < 2 ^ 64 -> phase0_client_init c k t nh = Ok (net_of c nh (p0_of k t)) /\ point_ok (p0_of k t).
Proof. intros T. apply keypoint_ok; auto. change (lenN (@nil Link)) with 0. lia. Qed.
Lemma one_link tag h : (List.length tag <= 16)%nat -> lenN h = 32 -> Forall link_ok [link_new tag h].
Proof. intros. constructor; [now apply link_new_ok|constructor]. Qed.
Lemma len_one {A} (x : A) : lenN [x] <= 1. Proof. unfold lenN; cbn; lia. Qed.
Lemma p1_point k pk t p0 nh : lenN pk = 32 -> t < 2 ^ 64 ->
  keypoint_unwrap c (unicast_group pk (pubkey_of c k)) [link_new (str "auth") (hash c (content p0))] t k nh = Ok (net_of c nh (p1_of k pk t p0)) /\
  point_ok (p1_of k pk t p0).
Proof. intros P T. apply keypoint_ok; auto using group_len, len_one. apply one_link; [cbn; lia|apply HL]. Qed.
Lemma p2_point k pk t p1 nh : lenN pk = 32 -> t < 2 ^ 64 ->
  keypoint_unwrap c (unicast_group (pubkey_of c k) pk) [link_new (str "signed") (hash c (content p1))] t k nh = Ok (net_of c nh (p2_of k pk t p1)) /\
  point_ok (p2_of k pk t p1).
Proof. intros P T. apply keypoint_ok; auto using group_len, len_one. apply one_link; [cbn; lia|apply HL]. Qed.
Lemma signer_len p pk : point_ok p -> signer p = Some pk -> lenN pk = 32.
Proof. intros [_ H] E. destruct p; try discriminate. cbn [signer] in E. assert (pubkey = pk) by congruence. subst. tauto. Qed.

Lemma phase1_ok nh0 p0 k max tc t nh q : point_ok p0 -> t < 2 ^ 64 ->
  phase1_server_signs c (net_of c nh0 p0) k max tc t nh = Ok q <->
  0 < hops nh0 /\ exists pk, signer p0 = Some pk /\ within (tolerance max) tc (created p0) /\ pk <> pubkey_of c k /\
    q = net_of c nh (p1_of k pk t p0).
Proof.
  intros P T. unfold phase1_server_signs. rewrite hop_net, pkt_pubkey_net, stamp_net, hash_net.
  destruct (N.ltb_spec 0 (hops nh0)) as [Hh|Hh]; cbn [negb]; [|split; [discriminate|intros [X _]; lia]].
  destruct (signer p0) as [pk|] eqn:S; [|split; [discriminate|intros (_ & pk & X & _); discriminate]].
  pose proof (signer_len p0 pk P S) as PL.
  destruct (range_total tc (created p0) max) as [R|[e R]]; rewrite R; cbn [obind].
  - rewrite (proj1 (p1_point k pk t p0 nh PL T)).
    destruct (beqb (unicast_group pk (pubkey_of c k)) PRIVATE) eqn:G; cbn [negb ensure obind].
    + apply beqb_eq in G. unfold PRIVATE in G. apply (proj1 (group_private _ _ PL (KL k))) in G.
      split; [discriminate|]. intros (_ & pk' & X & _ & D & _). congruence.
    + apply beqb_neq in G. unfold PRIVATE in G. split.
      * intros X. split; [exact Hh|]. exists pk. split; [reflexivity|]. split; [now apply range_ok|].
        split; [intros Y; apply G; now apply group_private|congruence].
      * intros (_ & pk' & X & _ & _ & ->). now injection X as <-.
  - split; [discriminate|]. intros (_ & pk' & _ & W & _). apply range_ok in W. congruence.
Qed.

Lemma space_check p : beqb (match point_rspace p with Some r => r | None => [] end) ID_SENTINAL_SPACENAME = true <->
  point_rspace p = Some (wire_rooted [str "sentinal"]).
Proof.
  rewrite <- sentinal_wire. destruct (point_rspace p) as [r|].
  - split; intros H; [apply beqb_eq in H; now subst|injection H as ->; apply beqb_refl].
  - split; [intros H; discriminate H|discriminate].
Qed.
Lemma domain_check p : opt_beqb (domain_of p) (Some HANDSHAKE_D) = true <-> domain_of p = Some handshake_domain.
Proof. apply opt_beqb_iff. Qed.

Lemma phase2_ok nh0 p0 nh1 p1 k max tc t nh q key : point_ok p1 -> t < 2 ^ 64 ->
  phase2_client_signs c (net_of c nh0 p0) (net_of c nh1 p1) k max tc t nh = Ok (q, key) <->
  signer p0 = Some (pubkey_of c k) /\ 0 < hops nh1 /\ signer p1 = Some key /\ within (tolerance max) tc (created p1) /\
  refers (hash c) p1 p0 /\ in_handshake (unicast_group (pubkey_of c k) key) p1 /\ q = net_of c nh (p2_of k key t p1).
Proof.
  intros P T. unfold phase2_client_signs. rewrite ensure_ok, opt_beqb_iff, pkt_pubkey_net, hop_net, pkt_pubkey_net, stamp_net, !hash_net.
  rewrite domain_net, group_net, rspace_net.
  destruct (N.ltb_spec 0 (hops nh1)) as [Hh|Hh]; cbn [negb]; [|split; [intros [_ X]; discriminate|intros (_ & X & _); lia]].
  destruct (signer p1) as [pk|] eqn:S; [|split; [intros [_ X]; discriminate|intros (_ & _ & X & _); discriminate]].
  pose proof (signer_len p1 pk P S) as PL.
  destruct (range_total tc (created p1) max) as [R|[e R]]; rewrite R; cbn [obind].
  - rewrite !ensure_ok, links_to_iff, domain_check, opt_beqb_iff, space_check.
    rewrite (proj1 (p2_point k pk t p1 nh PL T)). cbn [obind]. split.
    + intros (A & B & D & G & Sp & X). assert (E1 : q = net_of c nh (p2_of k pk t p1)) by congruence. assert (E2 : pk = key) by congruence. subst pk.
      split; [exact A|]. split; [exact Hh|]. split; [reflexivity|]. split; [now apply range_ok|]. split; [exact B|].
      split; [split; [exact G|split; [exact D|exact Sp]]|exact E1].
    + intros (A & _ & E & _ & B & (G & D & Sp) & ->). assert (E2 : pk = key) by congruence. subst pk.
      repeat (split; [assumption|]). reflexivity.
  - split; [intros [_ X]; discriminate|]. intros (_ & _ & _ & W & _). apply range_ok in W. congruence.
Qed.

Lemma phase3_ok nh0 p0 nh1 p1 nh2 p2 k key :
  phase3_server_verify c (net_of c nh0 p0) (net_of c nh1 p1) (net_of c nh2 p2) k = Ok key <->
  signer p1 = Some (pubkey_of c k) /\ signer p2 = Some key /\ signer p0 = Some key /\ refers (hash c) p2 p1 /\
  in_handshake (unicast_group (pubkey_of c k) key) p2.
Proof.
  unfold phase3_server_verify. rewrite ensure_ok, opt_beqb_iff, !pkt_pubkey_net, !hash_net.
  rewrite domain_net, group_net, rspace_net.
  destruct (signer p2) as [pk|] eqn:S; cbn [obind]; [|split; [intros [_ X]; discriminate|intros (_ & X & _); discriminate]].
  destruct (opt_beqb (Some pk) (signer p0)) eqn:E; cbn [ensure obind].
  - apply opt_beqb_iff in E. rewrite !ensure_ok, links_to_iff, domain_check, opt_beqb_iff, space_check. split.
    + intros (A & B & Sp & D & G & X). assert (E2 : pk = key) by congruence. subst pk.
      split; [exact A|]. split; [reflexivity|]. split; [congruence|]. split; [exact B|]. split; [exact G|split; [exact D|exact Sp]].
    + intros (A & X & _ & B & G & D & Sp). assert (E2 : pk = key) by congruence. subst pk. repeat (split; [assumption|]). reflexivity.
  - split; [intros [_ X]; discriminate|]. intros (_ & X & Y & _). assert (E2 : Some pk = signer p0) by congruence.
    apply opt_beqb_iff in E2. congruence.
Qed.
End Phases.
