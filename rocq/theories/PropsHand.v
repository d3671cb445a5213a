(** C47: the pairwise group.  C48: the handshake. *)
From Verif Require Import Bytes ModelSpace SpecSpace ProofSpace ProofRooted ModelPkt SpecPkt ProofPkt ProofPkt2 ModelTree ModelStream SpecStream ProofStream PropsStream.
From Verif Require Import SpecPred ModelAbe ModelLns ModelHand SpecHand ProofHand ProofHand2 PropsPkt.

(** ** C47 *)
(** The group of two keys is the bitwise exclusive or, whoever computes it. *)
Theorem C47_symmetric : forall a b, lenN a = 32 -> lenN b = 32 ->
  unicast_group a b = unicast_group b a /\ pairwise_group a b (unicast_group a b) /\
  (bytes_ok a -> bytes_ok b -> bytes_ok (unicast_group a b)).
Proof. intros a b A B. split; [apply xor_comm|]. split; [now apply group_pairwise|]. intros X Y. now apply xor_ok. Qed.
Print Assumptions C47_symmetric.
(** It is the private group exactly for oneself. *)
Theorem C47_private_iff : forall a b, lenN a = 32 -> lenN b = 32 -> unicast_group a b = repeat 0 32 <-> a = b.
Proof. exact group_private. Qed.
Print Assumptions C47_private_iff.
(** The partner can be computed back from the group, so different partners give different groups. *)
Theorem C47_partner : forall a b, lenN a = 32 -> lenN b = 32 ->
  unicast_group a (unicast_group a b) = b /\ forall b', lenN b' = 32 -> unicast_group a b = unicast_group a b' -> b = b'.
Proof.
  intros a b A B. apply len_32 in A, B. split; [apply xor_back; lia|]. intros b' B' E. apply len_32 in B'.
  unfold unicast_group in E. rewrite <- (xor_back a b), <- (xor_back a b') by lia. now rewrite E.
Qed.
Print Assumptions C47_partner.
Example C47_ex : let a := repeat 7 32 in let b := repeat 9 31 ++ [255] in
  unicast_group a b = repeat 14 31 ++ [248] /\ unicast_group a b <> repeat 0 32 /\ unicast_group a a = repeat 0 32.
Proof. vm_compute. repeat split; discriminate. Qed.
(** F78: two other keys can have the same group: any key has a partner for any group. *)
Theorem F78_group_shared : forall a b d, lenN a = 32 -> lenN b = 32 -> lenN d = 32 ->
  exists e, lenN e = 32 /\ unicast_group d e = unicast_group a b.
Proof.
  intros a b d A B D. exists (unicast_group d (unicast_group a b)). pose proof (group_len a b A B) as G.
  split; [now apply group_len|]. apply len_32 in D, G. apply xor_back. lia.
Qed.
Print Assumptions F78_group_shared.

(** ** C48: the steps, exactly *)
Section Steps.
Variable c : crypto.
Hypothesis C : crypto_ok c.

(** The client's first message. *)
Theorem C48_phase0 : forall k t nh, lenN nh = 32 -> t < 2 ^ 64 ->
  exists P p, phase0_client_init c k t nh = Ok P /\ holds c P nh p /\ made c k (pubkey_of c k) t [] p.
Proof.
  intros k t nh N T. destruct (phase0_eval c C k t nh T) as [E P]. exists (net_of c nh (p0_of c k t)), (p0_of c k t).
  split; [exact E|]. split; [apply holds_net; auto|]. now apply hand_made.
Qed.
(** The server answers exactly the packets that came over at least one hop, are signed by someone
    else and are recent; the answer is in the pairwise group and links to the packet. *)
Theorem C48_phase1 : forall P nh p k max tc t nh', holds c P nh p -> lenN nh' = 32 -> t < 2 ^ 64 ->
  ((exists Q, phase1_server_signs c P k max tc t nh' = Ok Q) <->
   0 < hops nh /\ within (tolerance max) tc (created p) /\ exists pk, signer p = Some pk /\ pk <> pubkey_of c k) /\
  forall Q, phase1_server_signs c P k max tc t nh' = Ok Q ->
  exists q pk g, holds c Q nh' q /\ signer p = Some pk /\ pairwise_group pk (pubkey_of c k) g /\ made c k g t [p] q.
Proof.
  intros P nh p k max tc t nh' HP N' T. apply (holds_net c C) in HP as (N & Hp & ->). split.
  - split.
    + intros (Q & E). apply (phase1_ok c C) in E as (Hh & pk & S & W & D & _); auto. eauto 10.
    + intros (Hh & W & pk & S & D). exists (net_of c nh' (p1_of c k pk t p)). apply (phase1_ok c C); eauto 10.
  - intros Q E. apply (phase1_ok c C) in E as (_ & pk & S & _ & _ & ->); auto.
    pose proof (signer_len p pk Hp S) as PL. destruct (p1_point c C k pk t p nh' PL T) as [_ Hq].
    exists (p1_of c k pk t p), pk, (unicast_group pk (pubkey_of c k)). split; [apply holds_net; auto|]. split; [exact S|].
    split; [apply group_pairwise; [exact PL|apply C]|]. now apply hand_made.
Qed.
(** The client accepts exactly the answers that are signed, recent, in the pairwise group, and link
    to its first message. *)
Theorem C48_phase2 : forall P0 nh0 p0 P1 nh1 p1 k max tc t nh', holds c P0 nh0 p0 -> holds c P1 nh1 p1 -> lenN nh' = 32 -> t < 2 ^ 64 ->
  (forall key, (exists Q, phase2_client_signs c P0 P1 k max tc t nh' = Ok (Q, key)) <->
   signer p0 = Some (pubkey_of c k) /\ 0 < hops nh1 /\ within (tolerance max) tc (created p1) /\ signer p1 = Some key /\
   refers (hash c) p1 p0 /\ exists g, pairwise_group (pubkey_of c k) key g /\ in_handshake g p1) /\
  forall Q key, phase2_client_signs c P0 P1 k max tc t nh' = Ok (Q, key) ->
  exists q g, holds c Q nh' q /\ pairwise_group (pubkey_of c k) key g /\ made c k g t [p1] q.
Proof.
  intros P0 nh0 p0 P1 nh1 p1 k max tc t nh' HP0 HP1 N' T. apply (holds_net c C) in HP0 as (N0 & Hp0 & ->).
  apply (holds_net c C) in HP1 as (N1 & Hp1 & ->).
  assert (GU : forall key g, lenN key = 32 -> pairwise_group (pubkey_of c k) key g -> g = unicast_group (pubkey_of c k) key).
  { intros key g KL [L B]. destruct (group_pairwise (pubkey_of c k) key (proj1 (proj2 C) k) KL) as [L' B'].
    apply nth_ext with (d := 0) (d' := 0); [lia|]. intros i _. apply N.bits_inj. intros j. now rewrite B, B'. }
  split.
  - intros key. split.
    + intros (Q & E). apply (phase2_ok c C) in E as (A & Hh & S & W & R & H & _); auto.
      pose proof (signer_len p1 key Hp1 S) as PL. repeat (split; [assumption|]).
      eexists. split; [apply group_pairwise; [apply C|exact PL]|exact H].
    + intros (A & Hh & W & S & R & g & G & H). pose proof (signer_len p1 key Hp1 S) as PL. apply GU in G; [subst g|exact PL].
      exists (net_of c nh' (p2_of c k key t p1)). apply (phase2_ok c C); auto 10.
  - intros Q key E. apply (phase2_ok c C) in E as (_ & _ & S & _ & _ & _ & ->); auto.
    pose proof (signer_len p1 key Hp1 S) as PL. destruct (p2_point c C k key t p1 nh' PL T) as [_ Hq].
    exists (p2_of c k key t p1), (unicast_group (pubkey_of c k) key). split; [apply holds_net; auto|].
    split; [apply group_pairwise; [apply C|exact PL]|]. now apply hand_made.
Qed.
(** The server accepts exactly the packets signed with the key of the first message, in the pairwise
    group, that link to its own answer. *)
Theorem C48_phase3 : forall P0 nh0 p0 P1 nh1 p1 P2 nh2 p2 k key,
  holds c P0 nh0 p0 -> holds c P1 nh1 p1 -> holds c P2 nh2 p2 ->
  phase3_server_verify c P0 P1 P2 k = Ok key <->
  signer p1 = Some (pubkey_of c k) /\ signer p0 = Some key /\ signer p2 = Some key /\ refers (hash c) p2 p1 /\
  exists g, pairwise_group (pubkey_of c k) key g /\ in_handshake g p2.
Proof.
  intros P0 nh0 p0 P1 nh1 p1 P2 nh2 p2 k key HP0 HP1 HP2. apply (holds_net c C) in HP0 as (N0 & Hp0 & ->).
  apply (holds_net c C) in HP1 as (N1 & Hp1 & ->). apply (holds_net c C) in HP2 as (N2 & Hp2 & ->).
  rewrite phase3_ok by assumption. split.
  - intros (A & B & D & R & H). repeat (split; [assumption|]). pose proof (signer_len p2 key Hp2 B) as PL.
    eexists. split; [apply group_pairwise; [apply C|exact PL]|exact H].
  - intros (A & B & D & R & g & [L G] & H). repeat (split; [assumption|]). pose proof (signer_len p2 key Hp2 D) as PL.
    destruct (group_pairwise (pubkey_of c k) key (proj1 (proj2 C) k) PL) as [L' B'].
    replace (unicast_group (pubkey_of c k) key) with g; [exact H|].
    apply nth_ext with (d := 0) (d' := 0); [lia|]. intros i _. apply N.bits_inj. intros j. now rewrite G, B'.
Qed.
End Steps.
Print Assumptions C48_phase0.
Print Assumptions C48_phase1.
Print Assumptions C48_phase2.
Print Assumptions C48_phase3.

(** ** C48: whole runs over a connection *)
(** Whatever bytes arrive, in whatever chunks: if the server's run accepts a key then it read two
    authentic packets signed with that key, which is not its own; the first is recent; it wrote one
    packet, which links to the first; and the second links to what it wrote, in the group of the two
    keys. *)
Theorem C48_serve_sound : forall c o k max tc t nh r s outs key,
  crypto_ok c -> skip_hash o = false -> bytes_ok s -> delivers r s -> lenN nh = 32 -> t < 2 ^ 64 ->
  serve c o k max tc t nh r = (outs, Ok key) ->
  exists nh0 p0 nh2 p2 rest p1 g,
    s = packet (hash c) nh0 p0 ++ packet (hash c) nh2 p2 ++ rest /\ authentic c p0 /\ authentic c p2 /\
    signer p0 = Some key /\ signer p2 = Some key /\ key <> pubkey_of c k /\ within (tolerance max) tc (created p0) /\
    pairwise_group (pubkey_of c k) key g /\ outs = [packet (hash c) nh p1] /\ made c k g t [p0] p1 /\
    refers (hash c) p2 p1 /\ in_handshake g p2.
Proof.
  intros c o k max tc t nh r s outs key C SK B D N T E. unfold serve in E.
  destruct (read_one c o r) as [P0 r1] eqn:R0. destruct P0 as [P0| | |]; try discriminate. cbn [obind] in E.
  destruct (read_one_ok c o C SK r s P0 r1 B D R0) as (nh0 & p0 & rest0 & N0 & -> & A0 & -> & D1).
  destruct (phase1_server_signs _ _ _ _ _ _ _) as [P1| | |] eqn:F1; try discriminate. cbn [obind] in E.
  apply (phase1_ok c C) in F1 as (_ & pk & S & W & Dk & ->); [|apply A0|exact T].
  destruct (read_one c o r1) as [P2 r2] eqn:R2. cbn [fst] in E. destruct P2 as [P2| | |]; try discriminate.
  cbn [obind] in E.
  apply bytes_ok_app in B as [_ B1].
  destruct (read_one_ok c o C SK r1 rest0 P2 r2 B1 D1 R2) as (nh2 & p2 & rest & N2 & -> & A2 & -> & D2).
  destruct A0 as [O0 Sg0]. pose proof (signer_len p0 pk O0 S) as PL.
  destruct (p1_point c C k pk t p0 nh PL T) as [_ O1].
  assert (E1 : outs = [to_wire (net_of c nh (p1_of c k pk t p0))]) by congruence.
  assert (E3 : phase3_server_verify c (net_of c (arrived o nh0) p0) (net_of c nh (p1_of c k pk t p0)) (net_of c (arrived o nh2) p2) k = Ok key) by congruence.
  apply phase3_ok in E3 as (_ & S2 & S0 & R & H). assert (pk = key) by congruence. subst pk.
  exists nh0, p0, nh2, p2, rest, (p1_of c k key t p0), (unicast_group (pubkey_of c k) key).
  split; [reflexivity|]. split; [split; assumption|]. split; [exact A2|]. split; [exact S|]. split; [exact S2|]. split; [exact Dk|].
  split; [exact W|]. split; [apply group_pairwise; [apply C|exact PL]|].
  split; [rewrite E1; f_equal; apply seg_net, O1|].
  split; [|split; [exact R|exact H]]. unfold unicast_group at 1. rewrite xor_comm. now apply hand_made.
Qed.
Print Assumptions C48_serve_sound.
(** The same for the client. *)
Theorem C48_connect_sound : forall c o k max t0 tc t nh r s outs key,
  crypto_ok c -> skip_hash o = false -> bytes_ok s -> delivers r s -> lenN nh = 32 -> t0 < 2 ^ 64 -> t < 2 ^ 64 ->
  connect c o k max t0 tc t nh r = (outs, Ok key) ->
  exists nh1 p1 rest p0 p2 g,
    s = packet (hash c) nh1 p1 ++ rest /\ authentic c p1 /\ signer p1 = Some key /\ within (tolerance max) tc (created p1) /\
    pairwise_group (pubkey_of c k) key g /\ refers (hash c) p1 p0 /\ in_handshake g p1 /\
    outs = [packet (hash c) nh p0; packet (hash c) nh p2] /\ made c k (pubkey_of c k) t0 [] p0 /\ made c k g t [p1] p2.
Proof.
  intros c o k max t0 tc t nh r s outs key C SK B D N T0 T E. unfold connect in E.
  destruct (phase0_eval c C k t0 nh T0) as [F0 O0]. rewrite F0 in E.
  destruct (read_one c o r) as [P1 r1] eqn:R1. cbn [fst] in E. destruct P1 as [P1| | |]; try discriminate. cbn [obind] in E.
  destruct (read_one_ok c o C SK r s P1 r1 B D R1) as (nh1 & p1 & rest & N1 & -> & A1 & -> & D1).
  destruct (phase2_client_signs _ _ _ _ _ _ _ _) as [[P2 key']| | |] eqn:F2; try discriminate.
  assert (key' = key) by congruence. subst key'.
  apply (phase2_ok c C) in F2 as (_ & _ & S & W & R & H & ->); [|apply A1|exact T].
  pose proof (signer_len p1 key (proj1 A1) S) as PL. destruct (p2_point c C k key t p1 nh PL T) as [_ O2].
  exists nh1, p1, rest, (p0_of c k t0), (p2_of c k key t p1), (unicast_group (pubkey_of c k) key).
  split; [reflexivity|]. split; [exact A1|]. split; [exact S|]. split; [exact W|]. split; [apply group_pairwise; [apply C|exact PL]|].
  split; [exact R|]. split; [exact H|]. split; [|split; now apply hand_made].
  assert (E1 : outs = [to_wire (net_of c nh (p0_of c k t0)); to_wire (net_of c nh (p2_of c k key t p1))]) by congruence.
  rewrite E1. f_equal; [apply seg_net, O0|]. f_equal. apply seg_net, O2.
Qed.
Print Assumptions C48_connect_sound.

(** An honest exchange: two different keys, hops counted, clocks within the tolerance.  There are
    three messages such that each side, given the other's messages in any chunks and with anything
    after them, writes its own and accepts the other's key. *)
Theorem C48_honest : forall c oc os kc ks maxc maxs t0 ts t1 tc t2 nhc nhs,
  crypto_ok c -> (forall b, bytes_ok (hash c b)) -> (forall k, bytes_ok (pubkey_of c k)) -> (forall k b, bytes_ok (sign_hash c k (hash c b))) ->
  skip_hash oc = false -> skip_hash os = false -> hop oc = true -> hop os = true ->
  lenN nhc = 32 -> bytes_ok nhc -> lenN nhs = 32 -> bytes_ok nhs ->
  t0 < 2 ^ 64 -> t1 < 2 ^ 64 -> t2 < 2 ^ 64 ->
  pubkey_of c kc <> pubkey_of c ks -> pubkey_of c kc <> repeat 0 32 ->
  within (tolerance maxs) ts t0 -> within (tolerance maxc) tc t1 ->
  exists m0 m1 m2,
    (forall r rest, bytes_ok rest -> delivers r (m0 ++ m2 ++ rest) -> serve c os ks maxs ts t1 nhs r = ([m1], Ok (pubkey_of c kc))) /\
    (forall r rest, bytes_ok rest -> delivers r (m1 ++ rest) -> connect c oc kc maxc t0 tc t2 nhc r = ([m0; m2], Ok (pubkey_of c ks))).
Proof.
  intros c oc os kc ks maxc maxs t0 ts t1 tc t2 nhc nhs C HB KB SB SKc SKs Hc Hs Nc Bc Ns Bs T0 T1 T2 Dk Zk Ws Wc.
  set (p0 := p0_of c kc t0). set (p1 := p1_of c ks (pubkey_of c kc) t1 p0). set (p2 := p2_of c kc (pubkey_of c ks) t2 p1).
  pose proof (proj1 (proj2 C)) as KL.
  destruct (phase0_eval c C kc t0 nhc T0) as [F0 O0]. fold p0 in F0, O0.
  destruct (p1_point c C ks (pubkey_of c kc) t1 p0 nhs (KL kc) T1) as [_ O1]. fold p1 in O1.
  destruct (p2_point c C kc (pubkey_of c ks) t2 p1 nhc (KL ks) T2) as [_ O2]. fold p2 in O2.
  assert (A0 : authentic c p0) by (split; [exact O0|now apply key_point_sig]).
  assert (A1 : authentic c p1) by (split; [exact O1|now apply key_point_sig]).
  assert (A2 : authentic c p2) by (split; [exact O2|now apply key_point_sig]).
  assert (LB : forall tag h, bytes_ok tag -> bytes_ok h -> bytes_ok (flat_map link_bytes [link_new tag h])).
  { intros tag h Ht Hh. cbn [flat_map link_bytes link_new fst snd]. rewrite app_nil_r. apply bytes_ok_app. split; [|exact Hh].
    apply bytes_ok_app. split; [|exact Ht]. apply Forall_forall. intros x I. apply repeat_spec in I. subst. reflexivity. }
  assert (HPB : forall g ls t k, bytes_ok g -> bytes_ok (flat_map link_bytes ls) -> bytes_ok (content (hand_point c g ls t k))).
  { intros g ls t k G L. unfold content, unsigned_content, hand_point, key_point. cbn [point_body type_byte].
    rewrite !bytes_ok_app. repeat match goal with |- _ /\ _ => split end; auto using be_encode_ok.
    all: try (repeat (constructor; [reflexivity|]); constructor).
    unfold padding_bytes. apply Forall_forall. intros x I. apply repeat_spec in I. subst. reflexivity. }
  assert (B0 : bytes_ok (packet (hash c) nhc p0)).
  { unfold packet. rewrite !bytes_ok_app. split; [exact Bc|]. split; [apply HB|]. apply HPB; [apply KB|constructor]. }
  assert (B1 : bytes_ok (packet (hash c) nhs p1)).
  { unfold packet. rewrite !bytes_ok_app. split; [exact Bs|]. split; [apply HB|].
    apply HPB; [apply xor_ok; apply KB|]. apply LB; [repeat (constructor; [reflexivity|]); constructor|apply HB]. }
  assert (B2 : bytes_ok (packet (hash c) nhc p2)).
  { unfold packet. rewrite !bytes_ok_app. split; [exact Bc|]. split; [apply HB|].
    apply HPB; [apply xor_ok; apply KB|]. apply LB; [repeat (constructor; [reflexivity|]); constructor|apply HB]. }
  assert (GP : forall a b, lenN a = 32 -> lenN b = 32 -> a <> b -> unicast_group a b <> repeat 0 32).
  { intros a b La Lb X Y. apply X. now apply group_private. }
  assert (HopP : forall nh, bytes_ok nh -> lenN nh = 32 -> 0 < hops (hop_header nh)).
  { intros nh Bn Ln. rewrite hop_header_hops by assumption. lia. }
  exists (packet (hash c) nhc p0), (packet (hash c) nhs p1), (packet (hash c) nhc p2). split.
  - intros r rest Br Dl. unfold serve.
    destruct (read_one_packet c os C SKs r nhc p0 (packet (hash c) nhc p2 ++ rest)) as (r1 & R1 & D1); auto.
    { apply bytes_ok_app. split; [exact B0|]. apply bytes_ok_app. split; [exact B2|exact Br]. }
    { intros _ X. apply Zk. assert (Y : point_group p0 = Some (pubkey_of c kc)) by reflexivity. unfold in_private_group in X. congruence. }
    rewrite R1. cbn [obind].
    assert (F1 : phase1_server_signs c (net_of c (arrived os nhc) p0) ks maxs ts t1 nhs = Ok (net_of c nhs p1)).
    { apply (phase1_ok c C); [exact O0|exact T1|]. split; [unfold arrived; rewrite Hs; auto|]. exists (pubkey_of c kc). auto. }
    rewrite F1. cbn [obind].
    destruct (read_one_packet c os C SKs r1 nhc p2 rest) as (r2 & R2 & D2); auto.
    { apply bytes_ok_app. split; [exact B2|exact Br]. }
    { intros _ X. assert (Y : point_group p2 = Some (unicast_group (pubkey_of c kc) (pubkey_of c ks))) by reflexivity.
      unfold in_private_group in X. apply (GP (pubkey_of c kc) (pubkey_of c ks)); auto. congruence. }
    rewrite R2. cbn [fst obind]. f_equal; [f_equal; apply seg_net, O1|].
    apply phase3_ok. split; [reflexivity|]. split; [reflexivity|]. split; [reflexivity|].
    split; [exists (fst (link_new (str "signed") [])); left; reflexivity|].
    split; [unfold unicast_group; rewrite xor_comm; reflexivity|]. split; reflexivity.
  - intros r rest Br Dl. unfold connect. rewrite F0.
    destruct (read_one_packet c oc C SKc r nhs p1 rest) as (r1 & R1 & D1); auto.
    { apply bytes_ok_app. split; [exact B1|exact Br]. }
    { intros _ X. assert (Y : point_group p1 = Some (unicast_group (pubkey_of c kc) (pubkey_of c ks))) by reflexivity.
      unfold in_private_group in X. apply (GP (pubkey_of c kc) (pubkey_of c ks)); auto. congruence. }
    rewrite R1. cbn [fst obind].
    assert (F2 : phase2_client_signs c (net_of c nhc p0) (net_of c (arrived oc nhs) p1) kc maxc tc t2 nhc = Ok (net_of c nhc p2, pubkey_of c ks)).
    { apply (phase2_ok c C); [exact O1|exact T2|]. split; [reflexivity|]. split; [unfold arrived; rewrite Hc; auto|]. split; [reflexivity|].
      split; [exact Wc|]. split; [exists (fst (link_new (str "auth") [])); left; reflexivity|]. split; [split; [reflexivity|split; reflexivity]|reflexivity]. }
    rewrite F2. f_equal. f_equal; [apply seg_net, O0|]. f_equal. apply seg_net, O2.
Qed.
Print Assumptions C48_honest.
Lemma toy_bytes : (forall b, bytes_ok (hash toy b)) /\ (forall k, bytes_ok (pubkey_of toy k)) /\ (forall k b, bytes_ok (sign_hash toy k (hash toy b))).
Proof.
  assert (H : forall b, bytes_ok (toy_hash b)) by (intros b; unfold toy_hash; apply bytes_ok_app; split; apply be_encode_ok).
  split; [exact H|]. split; [intros k; apply be_encode_ok|]. intros k b. cbn [sign_hash hash toy]. apply bytes_ok_app. split; [apply be_encode_ok|].
  apply bytes_ok_takeN, bytes_ok_app. split; [apply H|]. apply Forall_forall. intros x I. apply repeat_spec in I. subst. reflexivity.
Qed.
Example C48_honest_ex : let o := {| allow_private := false; hop := true; skip_hash := false |} in let nh := [76; 75; 49] ++ repeat 0 29 in
  exists m0 m1 m2, serve toy o 5 None 20000000 30000000 nh [Chunk m0; Chunk m2] = ([m1], Ok (be_encode 32 4)) /\
    connect toy o 4 (Some 1) 10000000 29000001 31000000 nh [Chunk m1] = ([m0; m2], Ok (be_encode 32 5)) /\ m0 <> m2.
Proof.
  intros o nh.
  set (f := fun x : list bytes * outcome HandError bytes => fst x).
  set (m0 := nth 0 (f (connect toy o 4 (Some 1) 10000000 29000001 31000000 nh [])) []).
  set (m1 := nth 0 (f (serve toy o 5 None 20000000 30000000 nh [Chunk m0])) []).
  set (m2 := nth 1 (f (connect toy o 4 (Some 1) 10000000 29000001 31000000 nh [Chunk m1])) []).
  exists m0, m1, m2. split; [vm_compute; reflexivity|]. split; [vm_compute; reflexivity|]. vm_compute. discriminate.
Qed.
(** Its general hypotheses are met by these two parties. *)
Example C48_honest_hyps : crypto_ok toy /\ (forall b, bytes_ok (hash toy b)) /\ (forall k, bytes_ok (pubkey_of toy k)) /\
  (forall k b, bytes_ok (sign_hash toy k (hash toy b))) /\ pubkey_of toy 4 <> pubkey_of toy 5 /\ pubkey_of toy 4 <> repeat 0 32 /\
  within (tolerance None) 20000000 10000000 /\ within (tolerance (Some 1)) 29000001 30000000 /\ ~ within (tolerance (Some 1)) 29000000 30000000.
Proof.
  split; [exact toy_ok|]. destruct toy_bytes as (A & B & D). repeat (split; [assumption|]). split; [vm_compute; discriminate|]. split; [vm_compute; discriminate|].
  unfold within, tolerance. lia.
Qed.

(** ** C48: agreement *)
(** If the server's run with the answer [p1] to [p0] accepts [p2], and the signature in [p2] is one
    that the honest holder of the key made, then the holder has itself answered [p1]: as the client
    of the session started with [p0], accepting the server's key; or, and nothing else is excluded by
    the checks (F79), as the server of another session, taking [p1] for a first message. *)
Theorem C48_server_agreement : forall c kc ks P0 nh0 p0 P1 nh1 p1 P2 nh2 p2 max tc t q,
  crypto_ok c -> (forall a b, hash c a = hash c b -> a = b) ->
  holds c P0 nh0 p0 -> phase1_server_signs c P0 ks max tc t nh1 = Ok P1 -> holds c P1 nh1 p1 -> holds c P2 nh2 p2 ->
  phase3_server_verify c P0 P1 P2 ks = Ok (pubkey_of c kc) ->
  honest c kc q -> signed_as c p2 q ->
  ran_phase2 c kc p0 p1 (pubkey_of c ks) q \/ ran_phase1 c kc p1 q.
Proof.
  intros c kc ks P0 nh0 p0 P1 nh1 p1 P2 nh2 p2 max tc t q C I HP0 F1 HP1 HP2 F3 Hq Sq.
  assert (R1 : ran_phase1 c ks p0 p1) by (econstructor; eassumption).
  apply (ran1 c C) in R1 as (t1 & pk & S0 & Dk & O0 & E1).
  apply (C48_phase3 c C _ _ _ _ _ _ _ _ _ _ _ HP0 HP1 HP2) in F3 as (_ & S0' & S2 & Rf & g & _ & G & D & _).
  assert (pk = pubkey_of c kc) by congruence. subst pk.
  apply (holds_net c C) in HP2 as (_ & O2 & _). apply (holds_net c C) in HP1 as (_ & O1 & _).
  unfold signed_as in Sq. apply I in Sq.
  destruct (honest_ok c kc q C Hq) as [Oq (pkq & Sgq)].
  destruct (same_fields p2 q _ _ O2 Oq S2 Sgq Sq) as (_ & Dq & _ & Lq & _ & _).
  unfold refers in Rf. rewrite Lq in Rf. rewrite D in Dq.
  assert (CI : forall a b, point_ok a -> point_ok b -> hash c (content a) = hash c (content b) -> a = b).
  { intros a b Oa Ob E. apply I in E. apply (content_inj_app a b [] []); auto. now rewrite E. }
  destruct Hq as [H0'|theirs H1'|mine theirs key H2'|_ _ Ho].
  - exfalso. destruct (ran0 c C kc q H0') as [t' ->]. destruct Rf as (tag & []).
  - right. pose proof H1' as H1''. apply (ran1 c C) in H1'' as (t' & pk & _ & _ & Ot & ->). destruct Rf as (tag & [E|[]]).
    assert (theirs = p1) as <-; [|exact H1']. apply CI; auto. exact (f_equal snd E).
  - left. pose proof H2' as H2''. apply (ran2 c C) in H2'' as (t' & Om & Ot & _ & St & Rt & _ & ->). destruct Rf as (tag & [E|[]]).
    assert (theirs = p1) as ->. { apply CI; auto. exact (f_equal snd E). }
    rewrite E1 in Rt. destruct Rt as (tag' & [E'|[]]).
    assert (p0 = mine) as <-. { apply CI; auto. exact (f_equal snd E'). }
    assert (key = pubkey_of c ks) as <-; [|exact H2']. rewrite E1 in St. cbn in St. congruence.
  - exfalso. apply Ho. congruence.
Qed.
Print Assumptions C48_server_agreement.
(** If the client, having started with [p0], accepts [p1] under the key of an honest party, then that
    party has answered [p0] as a server. *)
Theorem C48_client_agreement : forall c kc ks P0 nh0 p0 t0 P1 nh1 p1 max tc t nh Q q,
  crypto_ok c -> (forall a b, hash c a = hash c b -> a = b) ->
  phase0_client_init c kc t0 nh0 = Ok P0 -> holds c P0 nh0 p0 -> holds c P1 nh1 p1 ->
  phase2_client_signs c P0 P1 kc max tc t nh = Ok (Q, pubkey_of c ks) -> t < 2 ^ 64 -> lenN nh = 32 ->
  honest c ks q -> signed_as c p1 q ->
  ran_phase1 c ks p0 q.
Proof.
  intros c kc ks P0 nh0 p0 t0 P1 nh1 p1 max tc t nh Q q C I F0 HP0 HP1 F2 T N Hq Sq.
  assert (R0 : ran_phase0 c kc p0) by (econstructor; eassumption). apply (ran0 c C) in R0 as (t0' & E0).
  assert (F2' : exists Q, phase2_client_signs c P0 P1 kc max tc t nh = Ok (Q, pubkey_of c ks)) by eauto.
  apply (proj1 (C48_phase2 c C _ _ _ _ _ _ kc max tc t nh HP0 HP1 N T)) in F2' as (_ & _ & _ & S1 & Rf & g & _ & G & D & _).
  apply (holds_net c C) in HP1 as (_ & O1 & _). apply (holds_net c C) in HP0 as (_ & O0 & _).
  unfold signed_as in Sq. apply I in Sq.
  destruct (honest_ok c ks q C Hq) as [Oq (pkq & Sgq)].
  destruct (same_fields p1 q _ _ O1 Oq S1 Sgq Sq) as (_ & Dq & _ & Lq & _ & _).
  unfold refers in Rf. rewrite Lq in Rf. rewrite D in Dq.
  assert (CI : forall a b, point_ok a -> point_ok b -> hash c (content a) = hash c (content b) -> a = b).
  { intros a b Oa Ob E. apply I in E. apply (content_inj_app a b [] []); auto. now rewrite E. }
  destruct Hq as [H0'|theirs H1'|mine theirs key H2'|_ _ Ho].
  - exfalso. destruct (ran0 c C ks q H0') as [t' ->]. destruct Rf as (tag & []).
  - pose proof H1' as H1''. apply (ran1 c C) in H1'' as (t' & pk & _ & _ & Ot & ->). destruct Rf as (tag & [E|[]]).
    assert (theirs = p0) as <-; [|exact H1']. apply CI; auto. exact (f_equal snd E).
  - exfalso. apply (ran2 c C) in H2' as (t' & Om & Ot & _ & _ & Rt & _ & ->). destruct Rf as (tag & [E|[]]).
    assert (theirs = p0) as ->. { apply CI; auto. exact (f_equal snd E). }
    rewrite E0 in Rt. destruct Rt as (tag' & []).
  - exfalso. apply Ho. congruence.
Qed.
Print Assumptions C48_client_agreement.
(** A scheme with an injective hash, for the example. *)
Fixpoint enc (l : bytes) : N := match l with [] => 0 | x :: r => 2 ^ x * (2 * enc r + 1) end.
Lemma enc_inj a b : enc a = enc b -> a = b.
Proof.
  revert b. induction a as [|x a IH]; intros [|y b] E; cbn [enc] in E; try reflexivity.
  - pose proof (N.pow_nonzero 2 y). nia.
  - pose proof (N.pow_nonzero 2 x). nia.
  - assert (forall x y a b, x < y -> 2 ^ x * (2 * a + 1) = 2 ^ y * (2 * b + 1) -> False) as X.
    { clear. intros x y a b L E. replace y with (x + (1 + (y - x - 1))) in E by lia. rewrite !N.pow_add_r, N.pow_1_r in E.
      pose proof (N.pow_nonzero 2 x ltac:(lia)). set (u := 2 ^ x) in *. set (v := 2 ^ (y - x - 1)) in *.
      assert (2 * a + 1 = 2 * (v * (2 * b + 1))) by nia. lia. }
    destruct (N.lt_trichotomy x y) as [L|[->|L]].
    + destruct (X _ _ _ _ L E).
    + f_equal. apply IH. pose proof (N.pow_nonzero 2 y ltac:(lia)). nia.
    + symmetry in E. destruct (X _ _ _ _ L E).
Qed.
Definition itoy : crypto := {| hash := fun b => enc b :: repeat 0 31; skey := N; pubkey_of := pubkey_of toy;
  sign_hash := sign_hash toy; validate_signature := validate_signature toy |}.
Lemma itoy_ok : crypto_ok itoy.
Proof. destruct toy_ok as (_ & B & D & E). split; [|split; [exact B|split; [exact D|exact E]]]. intros b. cbn [hash itoy]. rewrite lenN_cons, lenN_repeat. reflexivity. Qed.
Example C48_agreement_ex : exists P0 nh p0 P1 nh' p1 P2 p2,
  crypto_ok itoy /\ (forall a b, hash itoy a = hash itoy b -> a = b) /\
  phase0_client_init itoy 4 10 nh = Ok P0 /\ holds itoy P0 nh' p0 /\
  phase1_server_signs itoy P0 5 None 20 30 nh' = Ok P1 /\ holds itoy P1 nh' p1 /\
  phase2_client_signs itoy P0 P1 4 None 40 50 nh' = Ok (P2, pubkey_of itoy 5) /\ holds itoy P2 nh' p2 /\
  phase3_server_verify itoy P0 P1 P2 5 = Ok (pubkey_of itoy 4) /\ honest itoy 4 p2 /\ signed_as itoy p2 p2.
Proof.
  set (nh := repeat 1 32). set (p0 := p0_of itoy 4 10). set (p1 := p1_of itoy 5 (pubkey_of itoy 4) 30 p0). set (p2 := p2_of itoy 4 (pubkey_of itoy 5) 50 p1).
  pose proof itoy_ok as C.
  destruct (phase0_eval itoy C 4 10 nh eq_refl) as [F0 O0]. fold p0 in F0, O0.
  destruct (p1_point itoy C 5 (pubkey_of itoy 4) 30 p0 nh eq_refl eq_refl) as [_ O1]. fold p1 in O1.
  destruct (p2_point itoy C 4 (pubkey_of itoy 5) 50 p1 nh eq_refl eq_refl) as [_ O2]. fold p2 in O2.
  assert (H0 : holds itoy (net_of itoy nh p0) nh p0) by (apply holds_net; auto).
  assert (H1 : holds itoy (net_of itoy nh p1) nh p1) by (apply holds_net; auto).
  assert (H2 : holds itoy (net_of itoy nh p2) nh p2) by (apply holds_net; auto).
  assert (W : forall a b, a < 100 -> b < 100 -> within (tolerance None) a b) by (unfold within, tolerance; lia).
  assert (Dk : pubkey_of itoy 4 <> pubkey_of itoy 5) by (vm_compute; discriminate).
  assert (F1 : phase1_server_signs itoy (net_of itoy nh p0) 5 None 20 30 nh = Ok (net_of itoy nh p1)).
  { apply (phase1_ok itoy C); [exact O0|reflexivity|]. split; [reflexivity|]. exists (pubkey_of itoy 4). split; [reflexivity|]. split; [now apply W|]. split; [exact Dk|reflexivity]. }
  assert (F2 : phase2_client_signs itoy (net_of itoy nh p0) (net_of itoy nh p1) 4 None 40 50 nh = Ok (net_of itoy nh p2, pubkey_of itoy 5)).
  { apply (phase2_ok itoy C); [exact O1|reflexivity|]. split; [reflexivity|]. split; [reflexivity|]. split; [reflexivity|]. split; [now apply W|].
    split; [eexists; left; reflexivity|]. split; [split; [reflexivity|split; reflexivity]|reflexivity]. }
  exists (net_of itoy nh p0), nh, p0, (net_of itoy nh p1), nh, p1, (net_of itoy nh p2), p2.
  split; [exact C|]. split; [intros a b E; apply enc_inj; cbn [hash itoy] in E; congruence|].
  split; [exact F0|]. split; [exact H0|]. split; [exact F1|]. split; [exact H1|]. split; [exact F2|]. split; [exact H2|].
  split; [|split; [|reflexivity]].
  - apply phase3_ok. split; [reflexivity|]. split; [reflexivity|]. split; [reflexivity|]. split; [eexists; left; reflexivity|]. split; [reflexivity|split; reflexivity].
  - apply ByPhase2 with (mine := p0) (theirs := p1) (key := pubkey_of itoy 5). econstructor; [exact H0|exact H1|exact F2|exact H2].
Qed.

(** ** Findings *)
(** F79: the server's last check does not tell the client's answer from an answer that the same party
    made as a server.  Whoever has the packet [p1] forwarded to that party, as a first message, gets
    a packet that the server accepts: the party never was a client of this session. *)
Theorem F79_role_confusion : forall c kc ks P0 nh0 p0 P1 nh1 p1 nh1' P1' max tc t max' tc' t' nh' Q nh2 Q' q,
  crypto_ok c -> t < 2 ^ 64 -> t' < 2 ^ 64 ->
  holds c P0 nh0 p0 -> signer p0 = Some (pubkey_of c kc) ->
  phase1_server_signs c P0 ks max tc t nh1 = Ok P1 -> holds c P1 nh1 p1 ->
  holds c P1' nh1' p1 -> phase1_server_signs c P1' kc max' tc' t' nh' = Ok Q -> holds c Q nh' q -> holds c Q' nh2 q ->
  phase3_server_verify c P0 P1 Q' ks = Ok (pubkey_of c kc).
Proof.
  intros c kc ks P0 nh0 p0 P1 nh1 p1 nh1' P1' max tc t max' tc' t' nh' Q nh2 Q' q C T T' HP0 S0 F1 HP1 HP1' F1' HQ HQ'.
  apply (holds_net c C) in HP0 as (N0 & O0 & ->). apply (holds_net c C) in HP1 as (N1 & O1 & ->).
  apply (holds_net c C) in HP1' as (N1' & _ & ->). apply (holds_net c C) in HQ as (N2 & OQ & ->). apply (holds_net c C) in HQ' as (N3 & _ & ->).
  apply (phase1_ok c C) in F1 as (_ & pk & S & _ & Dk & E1); [|exact O0|exact T]. assert (pk = pubkey_of c kc) by congruence. subst pk.
  assert (P1o : point_ok (p1_of c ks (pubkey_of c kc) t p0)) by (apply (p1_point c C ks _ t p0 nh1 (proj1 (proj2 C) kc) T)).
  apply (net_inj c) in E1; [|exact O1|exact P1o].
  apply (phase1_ok c C) in F1' as (_ & pk & S' & _ & _ & E2); [|exact O1|exact T'].
  assert (pk = pubkey_of c ks) by (rewrite E1 in S'; cbn in S'; congruence). subst pk.
  assert (P2o : point_ok (p1_of c kc (pubkey_of c ks) t' p1)) by (apply (p1_point c C kc _ t' p1 nh1 (proj1 (proj2 C) ks) T')).
  apply (net_inj c) in E2; [|exact OQ|exact P2o].
  apply phase3_ok. rewrite E2. split; [rewrite E1; reflexivity|]. split; [reflexivity|]. split; [exact S0|].
  split; [eexists; left; reflexivity|]. split; [reflexivity|split; reflexivity].
Qed.
Print Assumptions F79_role_confusion.
Example F79_ex : let nh := repeat 1 32 in exists P0 P1 Q, phase0_client_init toy 4 10 nh = Ok P0 /\
  phase1_server_signs toy P0 5 None 20 30 nh = Ok P1 /\ phase1_server_signs toy P1 4 None 40 50 nh = Ok Q /\
  phase3_server_verify toy P0 P1 Q 5 = Ok (pubkey_of toy 4).
Proof. eexists _, _, _. split; [vm_compute; reflexivity|]. split; [vm_compute; reflexivity|]. split; [vm_compute; reflexivity|]. vm_compute. reflexivity. Qed.
(** F80: the server answers any recent packet signed by another key, in any domain, group and space. *)
Theorem F80_answers_any_keypoint : forall c P nh g dm cc ls rs d pk sg k max tc t nh', crypto_ok c -> t < 2 ^ 64 ->
  holds c P nh (PKey g dm cc ls rs d pk sg) -> 0 < hops nh -> within (tolerance max) tc cc -> pk <> pubkey_of c k -> lenN nh' = 32 ->
  exists Q, phase1_server_signs c P k max tc t nh' = Ok Q.
Proof.
  intros. apply (C48_phase1 c H P nh (PKey g dm cc ls rs d pk sg) k max tc t nh' H1 H5 H0). split; [assumption|]. split; [assumption|]. exists pk. split; [reflexivity|assumption].
Qed.
Print Assumptions F80_answers_any_keypoint.
(** F81: the last check has no clock: the stamp of the client's answer does not matter. *)
Theorem F81_no_stamp_check : forall c P0 P1 nh g dm cc cc' ls rs d pk sg sg' k,
  phase3_server_verify c P0 P1 (net_of c nh (PKey g dm cc ls rs d pk sg)) k =
  phase3_server_verify c P0 P1 (net_of c nh (PKey g dm cc' ls rs d pk sg')) k.
Proof. reflexivity. Qed.
Print Assumptions F81_no_stamp_check.
(** F82: a packet that was not counted as a hop is a panic, not an error. *)
Theorem F82_hop_panics : forall c P nh p k max tc t nh' M, crypto_ok c -> holds c P nh p -> hops nh = 0 ->
  phase1_server_signs c P k max tc t nh' = Panic /\
  (pkt_pubkey M = Some (pubkey_of c k) -> phase2_client_signs c M P k max tc t nh' = Panic).
Proof.
  intros c P nh p k max tc t nh' M C HP Z. apply (holds_net c C) in HP as (_ & _ & ->). unfold phase1_server_signs, phase2_client_signs.
  rewrite hop_net, Z. split; [reflexivity|]. intros ->. cbn [opt_beqb]. rewrite beqb_refl. reflexivity.
Qed.
Print Assumptions F82_hop_panics.
