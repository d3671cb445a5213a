(** Properties C09, C10 (decoder part), C59: decoding packets from a stream. *)
From Verif Require Import Bytes ModelSpace SpecSpace ProofSpace ProofRooted.
From Verif Require Import ModelPkt SpecPkt ProofPkt ProofPkt2 PropsPkt ModelStream SpecStream ProofStream.

(** * C09 *)

(** The result depends on the bytes delivered, not on how they are cut; for every byte
    string, valid or not. *)
Theorem C09_chunking_independent : forall c o fuel r1 r2 s,
  bytes_ok s -> delivers r1 s -> delivers r2 s ->
  decode_all fuel c o r1 = decode_all fuel c o r2.
Proof. intros c o fuel r1 r2 s B D1 D2. now rewrite (decode_all_bytes c o fuel r1 s), (decode_all_bytes c o fuel r2 s). Qed.
Example C09_chunking_ex : delivers [Chunk [1;2;3]; Chunk [4]] [1;2;3;4] /\ delivers [Chunk [1]; Chunk [2;3;4]] [1;2;3;4].
Proof.
  split; [exists [[1;2;3];[4]]|exists [[1];[2;3;4]]]; repeat split; repeat constructor; discriminate.
Qed.
Print Assumptions C09_chunking_independent.

(** Any list of packets, delivered in any chunks, is decoded to that list; each packet
    keeps its point and hash, and its network header gets one more hop. *)
Theorem C09_decodes_packets : forall c o l r fuel,
  crypto_ok c -> skip_hash o = false -> Forall (acceptable c (allow_private o)) l ->
  delivers r (concat (map (packet_of c) l)) -> (length l < fuel)%nat ->
  exists l', decode_all fuel c o r = (map (packet_of c) l', Finished) /\
    Forall2 (fun q q' => snd q' = snd q /\ if hop o then hop_of (fst q) (fst q') else fst q' = fst q) l l'.
Proof.
  intros c o l r fuel (HL & _) SK F D Hf.
  assert (B : bytes_ok (concat (map (packet_of c) l))).
  { clear - F. induction F as [|q l (_ & B & _) _ IH]; [constructor|]. cbn [map concat]. apply bytes_ok_app. split; assumption. }
  rewrite (decode_all_bytes c o fuel r _ B D).
  pose proof (decode_bytes_packets c o l HL SK) as X.
  replace fuel with (length l + S (fuel - length l - 1))%nat by lia.
  rewrite <- (app_nil_r (concat _)). unfold packet_of at 1. rewrite X.
  - cbn [decode_bytes]. exists (map (fun q => (if hop o then hop_header (fst q) else fst q, snd q)) l).
    change (read_with c [] (skip_hash o) (allow_private o)) with (@Err PktError (bytes * bytes) EMissingHeader).
    cbv beta iota. rewrite app_nil_r. split.
    + f_equal. rewrite map_map. apply map_ext_in. intros q Q.
      unfold packet_of. cbn [fst snd]. apply hopped_packet. rewrite Forall_forall in F. now apply F.
    + clear - F. induction F as [|q l (Hn & B & _) _ IH]; [constructor|]. cbn [map]. constructor; [|assumption].
      cbn [fst snd]. split; [reflexivity|]. destruct (hop o); [|reflexivity]. apply hop_header_fields; [|assumption].
      unfold packet in B. apply bytes_ok_app in B. tauto.
  - eapply Forall_impl; [|exact F]. intros q (Q1 & _ & Q2 & Q3 & Q4). tauto.
Qed.
Example C09_decodes_ex : Forall (acceptable toy false)
  [(ex_nh, PData ex_data); (ex_nh, PLink ex_group ex_domain 7 ex_links ex_rspace ex_data)].
Proof.
  pose proof C08_ex as X. apply Forall_forall. intros q Q. rewrite Forall_forall in X. specialize (X q Q).
  destruct X as (X1 & X2 & X3 & X4). split; [assumption|]. split; [|tauto].
  apply Forall_forall. intros x Hx. apply N.ltb_lt. revert x Hx. apply forallb_forall.
  destruct Q as [<-|[<-|[]]]; vm_compute; reflexivity.
Qed.
Print Assumptions C09_decodes_packets.

(** One step of the decoder is [lk_read] on everything still to come: same packets,
    same errors, same refusals; a missing header is the end of the stream and a
    missing body is an I/O error. *)
Theorem C09_decoder_is_read : forall c o r s,
  crypto_ok c -> bytes_ok s -> delivers r s -> skip_hash o = false ->
  match lk_read c s (allow_private o) with
  | Ok (pkt, rest) => exists r', next c o r = (Some (Ok (if hop o then hop_header (takeN 32 pkt) ++ dropN 32 pkt else pkt)), r') /\
                                 delivers r' rest
  | Err EMissingHeader => fst (next c o r) = None
  | Err (EMissingBytes _) => fst (next c o r) = Some (Err (DIo IoUnexpectedEof))
  | Err e => fst (next c o r) = Some (Err (DPkt e))
  | Panic => fst (next c o r) = Some Panic
  | OutOfFuel => False
  end.
Proof.
  intros c o r s (HL & _) B D SK. destruct (next_delivers c o r s B D) as [E1 E2]. unfold next_spec in E1. rewrite SK in *.
  change (read_with c s false (allow_private o)) with (lk_read c s (allow_private o)) in *.
  destruct (lk_read c s (allow_private o)) as [[pkt rest]|e| |] eqn:R.
  - destruct (next c o r) as [x r']. cbn [fst snd] in *. exists r'. subst x. split; [reflexivity|assumption].
  - destruct e; exact E1.
  - exact E1.
  - destruct (lk_read_total c s (allow_private o) B HL) as [_ X]. contradiction.
Qed.
Example C09_read_ex : exists w, lk_read toy (w ++ [9]) false = Ok (w, [9]) /\
  delivers [Chunk (takeN 10 w); Chunk (dropN 10 w); Chunk [9]] (w ++ [9]) /\
  fst (next toy {| allow_private := false; hop := false; skip_hash := false |} [Chunk (takeN 10 w); Chunk (dropN 10 w); Chunk [9]])
   = Some (Ok w).
Proof.
  exists (packet toy_hash ex_nh (PData ex_data)). split; [vm_compute; reflexivity|]. split; [|vm_compute; reflexivity].
  eexists [_; _; _]. split; [reflexivity|]. split; [repeat constructor; vm_compute; discriminate|vm_compute; reflexivity].
Qed.
Print Assumptions C09_decoder_is_read.

(** Interrupted and zero-length reads: interrupted reads in the middle of a body do
    not change the packet. *)
Theorem C09_interrupted_body : forall need acc r1 r2,
  read_exact need acc (r1 ++ Fail IoInterrupted :: r2) = read_exact need acc (r1 ++ r2) \/
  (exists b r', read_exact need acc (r1 ++ Fail IoInterrupted :: r2) = Full b (r' ++ Fail IoInterrupted :: r2) /\
                read_exact need acc (r1 ++ r2) = Full b (r' ++ r2)) \/
  (exists e r', read_exact need acc (r1 ++ Fail IoInterrupted :: r2) = IoFailed e (r' ++ Fail IoInterrupted :: r2) /\
                read_exact need acc (r1 ++ r2) = IoFailed e (r' ++ r2)).
Proof.
  intros need acc r1. revert need acc. induction r1 as [|ev r1 IH]; intros need acc r2; cbn [app].
  - cbn [read_exact]. destruct (N.eqb_spec need 0) as [->|Z]; [|now left].
    right; left. exists acc, []. split; [reflexivity|]. destruct r2; reflexivity.
  - cbn [read_exact]. destruct (need =? 0) eqn:Z; [right; left; exists acc, (ev :: r1); split; reflexivity|].
    destruct ev as [b|e].
    + destruct (lenN b =? 0); [right; right; eexists _, r1; split; reflexivity|].
      destruct (lenN b <=? need); [apply IH|].
      right; left. eexists _, (Chunk (dropN need b) :: r1). split; reflexivity.
    + destruct e; [right; right; eexists _, r1; split; reflexivity|apply IH|right; right; eexists _, r1; split; reflexivity].
Qed.
Example C09_interrupted_ex : read_exact 3 [] [Chunk [1]; Fail IoInterrupted; Chunk [2;3;4]] = Full [1;2;3] [Chunk [4]].
Proof. reflexivity. Qed.
Print Assumptions C09_interrupted_body.

(** * C10: the decoder never returns a private packet unless told to. *)
Theorem C10_decoder_private : forall c o r s pkt,
  crypto_ok c -> bytes_ok s -> delivers r s -> allow_private o = false -> skip_hash o = false ->
  In (Ok pkt) (match fst (next c o r) with Some x => [x] | None => [] end) ->
  exists nh p, lenN nh = 32 /\ pkt = packet (hash c) nh p /\ point_ok p /\ ~ in_private_group p.
Proof.
  intros c o r s pkt C B D AP SK I. pose proof C as (HL & _).
  pose proof (C09_decoder_is_read c o r s C B D SK) as X. rewrite AP in X.
  destruct (lk_read c s false) as [[pk rest]|e| |] eqn:R.
  - destruct X as (r' & E & _). rewrite E in I. cbn [fst] in I. destruct I as [I|[]]. injection I as I.
    apply lk_read_iff in R as (nh & p & Hn & Hp & _ & Pr & -> & _); try assumption.
    exists (if hop o then hop_header nh else nh), p. split; [destruct (hop o); [now apply hop_header_len|assumption]|].
    split; [|split; [assumption|now apply Pr]]. rewrite <- I. exact (hopped_packet c o nh p Hn).
  - destruct e; rewrite X in I; cbn in I; intuition discriminate.
  - rewrite X in I; cbn in I; intuition discriminate.
  - contradiction.
Qed.
(** All packets of a decoded stream. *)
Theorem C10_decoder_all_private : forall c o fuel r s,
  crypto_ok c -> bytes_ok s -> delivers r s -> allow_private o = false -> skip_hash o = false ->
  Forall (fun pkt => exists nh p, lenN nh = 32 /\ pkt = packet (hash c) nh p /\ point_ok p /\ ~ in_private_group p)
         (fst (decode_all fuel c o r)).
Proof.
  intros c o fuel r s C. revert r s. induction fuel as [|f IH]; intros r s B D AP SK; [constructor|].
  cbn [decode_all]. pose proof (C10_decoder_private c o r s) as P1.
  pose proof (C09_decoder_is_read c o r s C B D SK) as X.
  destruct (next c o r) as [[[pkt|e| |]|] r'] eqn:Nx; try constructor.
  destruct (lk_read c s (allow_private o)) as [[pk rest]|e| |] eqn:R.
  - destruct X as (r'' & E & D'). injection E as -> <-.
    destruct (decode_all f c o r') as [l en] eqn:Dl. cbn [fst] in *. constructor.
    + apply P1; try assumption. left. reflexivity.
    + specialize (IH r' rest). rewrite Dl in IH. apply IH; try assumption.
      destruct C as (HL & _). apply lk_read_iff in R as (nh & p & _ & _ & _ & _ & _ & ->); try assumption.
      apply bytes_ok_app in B. tauto.
  - destruct e; discriminate X.
  - discriminate X.
  - contradiction.
Qed.
Example C10_decoder_ex : 
  decode_all 9 toy {| allow_private := false; hop := true; skip_hash := false |}
    [Chunk (packet toy_hash ex_nh (PData ex_data)); Chunk (packet toy_hash ex_nh (PLink (repeat 0 32) ex_domain 7 [] [] ex_data))]
  = ([packet toy_hash (hop_header ex_nh) (PData ex_data)], Failed (DPkt EPrivateGroup)).
Proof. vm_compute. reflexivity. Qed.
Print Assumptions C10_decoder_private.
Print Assumptions C10_decoder_all_private.

(** * C59: truncated streams *)

(** A stream cut at least 68 bytes into a packet is reported as an error after the
    complete packets.  Missing for the full property: a cut inside the first 68 bytes. *)
Theorem C59_truncated_body_partial : forall c o l nh p x y r fuel,
  crypto_ok c -> skip_hash o = false -> Forall (acceptable c (allow_private o)) l ->
  lenN nh = 32 -> point_ok p -> bytes_ok (packet (hash c) nh p) ->
  packet (hash c) nh p = x ++ y -> y <> [] -> 68 <= lenN x ->
  delivers r (concat (map (packet_of c) l) ++ x) -> (length l < fuel)%nat ->
  exists l', length l' = length l /\ decode_all fuel c o r = (l', Failed (DIo IoUnexpectedEof)).
Proof.
  intros c o l nh p x y r fuel (HL & _) SK F Hn Hp Bp E Hy Lx D Hf.
  assert (B : bytes_ok (concat (map (packet_of c) l) ++ x)).
  { apply bytes_ok_app. split; [|rewrite E in Bp; apply bytes_ok_app in Bp; tauto].
    clear - F. induction F as [|q l (_ & B & _) _ IH]; [constructor|]. cbn [map concat]. apply bytes_ok_app. split; assumption. }
  rewrite (decode_all_bytes c o fuel r _ B D).
  replace fuel with (length l + S (fuel - length l - 1))%nat by lia.
  unfold packet_of. rewrite decode_bytes_packets; try assumption.
  - cbn [decode_bytes]. destruct (read_prefix c nh p x y (skip_hash o) HL Hn Hp E Hy) as (e & n & R & _ & _ & _ & P68 & _).
    assert (R2 : read_with c x (skip_hash o) (allow_private o) = Err e) by (unfold read_with; now rewrite R).
    rewrite R2. destruct (P68 Lx) as [_ ->].
    eexists. split; [|reflexivity]. rewrite app_nil_r, map_length. reflexivity.
  - eapply Forall_impl; [|exact F]. intros q (Q1 & _ & Q2 & Q3 & Q4). tauto.
Qed.
Print Assumptions C59_truncated_body_partial.
(** A stream cut inside the first 68 bytes of a packet ends exactly like a complete one:
    for every such stream, not only a witness. *)
Theorem C59_truncated_header_refuted : forall c o l nh p x y r fuel,
  crypto_ok c -> skip_hash o = false -> Forall (acceptable c (allow_private o)) l ->
  lenN nh = 32 -> point_ok p -> bytes_ok (packet (hash c) nh p) ->
  packet (hash c) nh p = x ++ y -> lenN x < 68 ->
  delivers r (concat (map (packet_of c) l) ++ x) -> (length l < fuel)%nat ->
  exists l', length l' = length l /\ decode_all fuel c o r = (l', Finished).
Proof.
  intros c o l nh p x y r fuel (HL & _) SK F Hn Hp Bp E Lx D Hf.
  assert (B : bytes_ok (concat (map (packet_of c) l) ++ x)).
  { apply bytes_ok_app. split; [|rewrite E in Bp; apply bytes_ok_app in Bp; tauto].
    clear - F. induction F as [|q l (_ & B & _) _ IH]; [constructor|]. cbn [map concat]. apply bytes_ok_app. split; assumption. }
  rewrite (decode_all_bytes c o fuel r _ B D).
  replace fuel with (length l + S (fuel - length l - 1))%nat by lia.
  unfold packet_of. rewrite decode_bytes_packets; try assumption.
  - cbn [decode_bytes]. unfold read_with, read_pkt, MIN_NETPKT_SIZE.
    destruct (N.ltb_spec (lenN x) 68); [|lia]. cbn [obind].
    eexists. split; [|reflexivity]. rewrite app_nil_r, map_length. reflexivity.
  - eapply Forall_impl; [|exact F]. intros q (Q1 & _ & Q2 & Q3 & Q4). tauto.
Qed.
Example C59_ex : let w := packet toy_hash ex_nh (PData ex_data) in
  decode_all 9 toy {| allow_private := false; hop := false; skip_hash := false |} [Chunk (w ++ takeN 67 w)] = ([w], Finished) /\
  decode_all 9 toy {| allow_private := false; hop := false; skip_hash := false |} [Chunk (w ++ takeN 68 w)] = ([w], Failed (DIo IoUnexpectedEof)).
Proof. split; vm_compute; reflexivity. Qed.
Print Assumptions C59_truncated_header_refuted.
