(** C107: packets in other formats. *)
From Verif Require Import Bytes ModelSpace SpecSpace ProofSpace ProofRooted.
From Verif Require Import ModelPkt SpecPkt ProofPkt ProofPkt2 PropsPkt ModelStream SpecStream ProofStream ModelJs SpecJs PropsJs ModelSerde SpecSerde.

Lemma read_iff c b p : bytes_ok b -> crypto_ok c -> read_pkt c b false = Ok p <-> exists rest, sound_packet c p /\ b = p ++ rest.
Proof.
  intros B C. split.
  - intros R. assert (L : lk_read c b true = Ok (p, dropN (nptr_size p) b)) by (unfold lk_read; rewrite R; reflexivity).
    apply C04_read_exact in L as (nh & q & H1 & H2 & H3 & _ & H4 & H5); [|exact B|exact C]. exists (dropN (nptr_size p) b). split; [|exact H5]. exists nh, q. auto.
  - intros (rest & (nh & q & H1 & H2 & H3 & H4) & E).
    assert (L : lk_read c b true = Ok (p, rest)) by (apply C04_read_exact; [exact B|exact C|]; exists nh, q; split; [exact H1|split; [exact H2|split; [exact H3|split; [intros X; discriminate X|split; [exact H4|exact E]]]]]).
    unfold lk_read in L. destruct (read_pkt c b false) as [x| | |]; try discriminate. cbn [obind] in L. f_equal. now injection L.
Qed.
(** Only sound packets are read, whatever was written *)
Theorem C107_sound {T} c (f : Format T) x p : crypto_ok c -> (forall y b, f_read f y = Some b -> bytes_ok b) ->
  deserialize c f x = Ok p <-> exists b rest, f_read f x = Some b /\ sound_packet c p /\ b = p ++ rest.
Proof.
  intros C F. unfold deserialize. destruct (f_read f x) as [b|] eqn:R.
  - pose proof (read_iff c b p (F x b R) C) as I. split.
    + destruct (read_pkt c b false) as [q| | |]; try discriminate. intros [= ->]. destruct (proj1 I eq_refl) as (rest & S & E). now exists b, rest.
    + intros (b' & rest & [= <-] & S & E). rewrite (proj2 I); [reflexivity|]. now exists rest.
  - split; [discriminate|]. intros (b & rest & H & _). discriminate.
Qed.
(** Exactly the packet is written, whatever follows it in memory *)
Theorem C107_written {T} c (f : Format T) p rest : crypto_ok c -> bytes_ok (p ++ rest) -> sound_packet c p -> serialize f (p ++ rest) = f_write f p.
Proof.
  intros C B S. assert (R : read_pkt c (p ++ rest) false = Ok p) by (apply read_iff; [exact B|exact C|]; exists rest; split; [exact S|reflexivity]).
  unfold read_pkt in R. destruct (lenN (p ++ rest) <? MIN_NETPKT_SIZE); [discriminate|]. destruct (ph_check _) as [h| | |]; try discriminate. cbn [obind] in R. cbv zeta in R.
  destruct (lenN (p ++ rest) <? netpkt_size (ph_cast (nptr_point (p ++ rest)))); [discriminate|]. destruct (nptr_check c (p ++ rest) false); try discriminate. cbn [obind] in R.
  assert (X : takeN (netpkt_size (ph_cast (nptr_point (p ++ rest)))) (p ++ rest) = p) by congruence.
  unfold serialize. f_equal. exact X.
Qed.
(** What is written is read as the same packet, also one of the private group *)
Theorem C107_round_trip {T} c (f : Format T) p : crypto_ok c -> lends f -> bytes_ok p -> sound_packet c p -> deserialize c f (serialize f p) = Ok p.
Proof.
  intros C (W & F) B S. assert (N : serialize f p = f_write f p).
  { rewrite <- (app_nil_r p) at 1. apply (C107_written c); rewrite ?app_nil_r; assumption. }
  rewrite N. apply C107_sound; [exact C|exact F|]. exists p, []. rewrite (W p B), app_nil_r. auto.
Qed.
(** Bytes after the packet are dropped: more than one byte string is read as a packet *)
Theorem C107_trailing_refuted {T} c (f : Format T) p rest : crypto_ok c -> lends f -> bytes_ok (p ++ rest) -> sound_packet c p ->
  deserialize c f (f_write f (p ++ rest)) = Ok p.
Proof.
  intros C (W & F) B S. apply C107_sound; [exact C|exact F|]. exists (p ++ rest), rest. rewrite (W _ B). auto.
Qed.
(** A format that cannot lend bytes, such as JSON: what it writes is never read *)
Theorem C107_owned_refuted {T} c (f : Format T) p : (forall x, f_read f x = None) -> deserialize c f (serialize f p) = Err EFormat.
Proof. intros N. unfold deserialize. now rewrite N. Qed.
(** A format that lends: the bytes as they are *)
Definition raw : Format bytes := mkFormat _ (fun b => b) (fun b => if forallb (fun x => x <? 256) b then Some b else None).
Example C107_ex : lends raw /\
  deserialize toy raw (serialize raw (packet toy_hash ex_nh ex_private)) = Ok (packet toy_hash ex_nh ex_private) /\
  deserialize toy raw (packet toy_hash ex_nh ex_js ++ [1;2]) = Ok (packet toy_hash ex_nh ex_js) /\
  deserialize toy raw (claimed_packet ex_nh (repeat 9 32) (PData ex_data)) = Err (ECustom EHashMismatch).
Proof.
  split; [|repeat split; vm_compute; reflexivity]. split.
  - intros b B. cbn. assert (F : forallb (fun x => x <? 256) b = true); [|now rewrite F].
    apply forallb_forall. intros y Y. apply N.ltb_lt. now apply (proj1 (Forall_forall _ _) B).
  - intros x b. cbn. destruct (forallb _ x) eqn:F; [|discriminate]. intros [= <-].
    rewrite forallb_forall in F. apply Forall_forall. intros y Y. now apply N.ltb_lt, F.
Qed.
Print Assumptions C107_sound.
Print Assumptions C107_written.
Print Assumptions C107_round_trip.
Print Assumptions C107_trailing_refuted.
Print Assumptions C107_owned_refuted.
Print Assumptions C107_ex.
