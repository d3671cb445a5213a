(** Properties C01-C08, C10, C11, C57, C58: the packet format. *)
From Verif Require Import Bytes ModelSpace SpecSpace ProofSpace ProofRooted.
From Verif Require Import ModelPkt SpecPkt ProofPkt ProofPkt2.

(** Used by the examples: a toy scheme that meets [crypto_ok] (the hash is the length
    and byte sum, the key is 32 bytes and a signature is the key then the hash), and
    some fields. *)
Definition toy_hash (b : bytes) : bytes := be_encode 16 (lenN b) ++ be_encode 16 (fold_right N.add 0 b).
Definition toy : crypto := {|
  hash := toy_hash; skey := N;
  pubkey_of := fun k => be_encode 32 k;
  sign_hash := fun k h => be_encode 32 k ++ takeN 32 (h ++ repeat 0 32);
  validate_signature := fun pk sg h => beqb sg (pk ++ takeN 32 (h ++ repeat 0 32)) |}.
Lemma toy_ok : crypto_ok toy.
Proof.
  split; [|split; [|split]]; intros; cbn [hash pubkey_of sign_hash validate_signature toy].
  - unfold toy_hash. rewrite lenN_app, !lenN_be_encode. reflexivity.
  - rewrite lenN_be_encode. reflexivity.
  - rewrite lenN_app, lenN_be_encode, lenN_takeN, lenN_app, lenN_repeat. lia.
  - apply beqb_refl.
Qed.
Definition ex_nh : bytes := [76;75;49;0] ++ repeat 0 28.
Definition ex_group : bytes := repeat 5 32.
Definition ex_domain : bytes := repeat 0 12 ++ [116;101;115;116].
Definition ex_links : list Link := [(repeat 1 16, repeat 2 32); (repeat 3 16, repeat 4 32)].
Definition ex_rspace : bytes := wire_rooted [[104;105]; [121;111]].
Definition ex_data : bytes := [100;97;116;97].

(** * C01: data and error points *)
Theorem C01_datapoint_round_trip : forall c d nh np allow w rest,
  crypto_ok c -> lenN nh = 32 ->
  try_datapoint c d nh = Ok np -> lk_write np allow = Ok w ->
  lk_read c (w ++ rest) allow = Ok (w, rest) /\
  nptr_header w = nh /\ nptr_hash w = np_hash np /\
  ptr_parts (nptr_point w) = Ok (point_parts np) /\ fields (point_parts np) = FData d /\
  point_type (pkt_header (point_parts np)) = 1.
Proof.
  intros c d nh np allow w rest C Hn E W. pose proof C as (HL & _).
  rewrite try_datapoint_eval in E. destruct (N.leb_spec (lenN d) 65020) as [L|]; [|discriminate].
  injection E as <-. assert (Hp : point_ok (PData d)) by (split; [cbn [point_size]; lia|exact I]).
  unfold lk_write in W. cbn [point_parts net_of parts_group fields parts_of fields_of] in W.
  assert (E : w = packet (hash c) nh (PData d)).
  { rewrite <- seg_net by apply Hp. destruct allow; cbn in W; now injection W as <-. }
  subst w. clear W. split.
  - rewrite lk_read_packet; auto; [|exact I]. destruct allow; reflexivity.
  - destruct (packet_fields c nh (PData d) [] HL Hn Hp) as (A & B & D). rewrite app_nil_r in A, B, D.
    rewrite A, B, D. repeat split.
Qed.
Theorem C01_errorpoint_round_trip : forall c d nh np allow w rest,
  crypto_ok c -> lenN nh = 32 ->
  errorpoint c d nh = Ok np -> lk_write np allow = Ok w ->
  lk_read c (w ++ rest) allow = Ok (w, rest) /\
  nptr_header w = nh /\ nptr_hash w = np_hash np /\
  ptr_parts (nptr_point w) = Ok (point_parts np) /\ fields (point_parts np) = FError d /\
  point_type (pkt_header (point_parts np)) = 128.
Proof.
  intros c d nh np allow w rest C Hn E W. pose proof C as (HL & _).
  rewrite errorpoint_eval in E. destruct (N.leb_spec (lenN d) 65020) as [L|]; [|discriminate].
  injection E as <-. assert (Hp : point_ok (PError d)) by (split; [cbn [point_size]; lia|exact I]).
  unfold lk_write in W. cbn [point_parts net_of parts_group fields parts_of fields_of] in W.
  assert (E : w = packet (hash c) nh (PError d)).
  { rewrite <- seg_net by apply Hp. destruct allow; cbn in W; now injection W as <-. }
  subst w. clear W. split.
  - rewrite lk_read_packet; auto; [|exact I]. destruct allow; reflexivity.
  - destruct (packet_fields c nh (PError d) [] HL Hn Hp) as (A & B & D). rewrite app_nil_r in A, B, D.
    rewrite A, B, D. repeat split.
Qed.
(** Writing a data or error point is never refused. *)
Theorem C01_write_total : forall c d nh np allow,
  try_datapoint c d nh = Ok np \/ errorpoint c d nh = Ok np -> exists w, lk_write np allow = Ok w.
Proof.
  intros c d nh np allow [E|E].
  - rewrite try_datapoint_eval in E. destruct (lenN d <=? 65020); [|discriminate]. injection E as <-.
    unfold lk_write. destruct allow; eexists; reflexivity.
  - rewrite errorpoint_eval in E. destruct (lenN d <=? 65020); [|discriminate]. injection E as <-.
    unfold lk_write. destruct allow; eexists; reflexivity.
Qed.
Example C01_ex : exists np w, try_datapoint toy ex_data ex_nh = Ok np /\ lk_write np false = Ok w /\ length w = 72%nat.
Proof. do 2 eexists. split; [reflexivity|]. split; reflexivity. Qed.
Example C01_error_ex : exists np w, errorpoint toy ex_data ex_nh = Ok np /\ lk_write np false = Ok w.
Proof. do 2 eexists. split; reflexivity. Qed.
Print Assumptions C01_datapoint_round_trip.
Print Assumptions C01_errorpoint_round_trip.
Print Assumptions C01_write_total.

(** * C02: linkpoints *)
Lemma linkpoint_inv c g dm rs ls d stamp nh np : Forall link_ok ls ->
  try_linkpoint c g dm rs ls d stamp nh = Ok np ->
  rooted_ok rs /\ 64 + 48 * lenN ls + lenN rs + lenN d <= 65024 /\ np = net_of c nh (PLink g dm stamp ls rs d).
Proof.
  intros Hl E. destruct (rs_check_ok_or rs) as [[R _]|[e R]].
  - rewrite try_linkpoint_eval in E by assumption. cbn [point_size] in E.
    destruct (N.leb_spec (64 + 48 * lenN ls + lenN rs + lenN d) 65024); [|discriminate]. injection E as <-. auto.
  - unfold try_linkpoint, linkp in E. rewrite R in E. discriminate.
Qed.
Theorem C02_linkpoint_round_trip : forall c g dm rs ls d stamp nh np allow w rest,
  crypto_ok c -> lenN nh = 32 -> lenN g = 32 -> lenN dm = 16 -> stamp < 2 ^ 64 -> Forall link_ok ls ->
  try_linkpoint c g dm rs ls d stamp nh = Ok np -> lk_write np allow = Ok w ->
  lk_read c (w ++ rest) allow = Ok (w, rest) /\
  nptr_header w = nh /\ nptr_hash w = np_hash np /\
  ptr_parts (nptr_point w) = Ok (point_parts np) /\
  (exists o1 o2, fields (point_parts np) = FLink (mkLinkPoint (mkLPH o1 o2 stamp g dm) (mkTail ls d rs))) /\
  point_type (pkt_header (point_parts np)) = 3.
Proof.
  intros c g dm rs ls d stamp nh np allow w rest C Hn Hg Hd Hs Hl E W. pose proof C as (HL & _).
  apply linkpoint_inv in E as (R & L & ->); [|assumption].
  set (p := PLink g dm stamp ls rs d) in *.
  assert (Hp : point_ok p) by (split; [cbn [p point_size]; lia|cbn; tauto]).
  unfold lk_write in W. change (parts_group (point_parts (net_of c nh p))) with (point_group p) in W.
  rewrite seg_net in W by apply Hp.
  split; [|split; [|split; [|split; [|split]]]].
  - destruct allow; cbn [obind] in W.
    + injection W as <-. rewrite lk_read_packet; auto; exact I.
    + destruct (check_private (point_group p)) eqn:Q; try discriminate. injection W as <-.
      rewrite lk_read_packet; auto; [|exact I]. now rewrite Q.
  - assert (w = packet (hash c) nh p) by (destruct allow; [|destruct (check_private (point_group p)); try discriminate];
      cbn [obind] in W; now injection W as <-). subst w.
    destruct (packet_fields c nh p [] HL Hn Hp) as (A & B & D). now rewrite app_nil_r in D.
  - assert (w = packet (hash c) nh p) by (destruct allow; [|destruct (check_private (point_group p)); try discriminate];
      cbn [obind] in W; now injection W as <-). subst w.
    destruct (packet_fields c nh p [] HL Hn Hp) as (A & B & D). now rewrite app_nil_r in B.
  - assert (w = packet (hash c) nh p) by (destruct allow; [|destruct (check_private (point_group p)); try discriminate];
      cbn [obind] in W; now injection W as <-). subst w.
    destruct (packet_fields c nh p [] HL Hn Hp) as (A & B & D). now rewrite app_nil_r in A.
  - do 2 eexists. reflexivity.
  - reflexivity.
Qed.
Example C02_ex : Forall link_ok ex_links /\
  exists np w, try_linkpoint toy ex_group ex_domain ex_rspace ex_links ex_data 77 ex_nh = Ok np /\ lk_write np false = Ok w.
Proof. split; [repeat constructor|]. do 2 eexists. split; reflexivity. Qed.
Print Assumptions C02_linkpoint_round_trip.

(** * C03: keypoints *)
Lemma keypoint_inv c g dm rs ls d stamp k nh np : Forall link_ok ls ->
  try_keypoint c g dm rs ls d stamp k nh = Ok np ->
  rooted_ok rs /\ 160 + 48 * lenN ls + lenN rs + lenN d <= 65024 /\ np = net_of c nh (key_point c g dm stamp ls rs d k).
Proof.
  intros Hl E. destruct (rs_check_ok_or rs) as [[R _]|[e R]].
  - rewrite try_keypoint_eval in E by assumption. unfold key_point in E at 1. cbn [point_size] in E.
    destruct (N.leb_spec (64 + 48 * lenN ls + lenN rs + lenN d + 96) 65024); [|discriminate]. injection E as <-.
    split; [assumption|]. split; [lia|reflexivity].
  - unfold try_keypoint, linkp in E. rewrite R in E. discriminate.
Qed.
Theorem C03_keypoint_round_trip : forall c g dm rs ls d stamp k nh np allow w rest,
  crypto_ok c -> lenN nh = 32 -> lenN g = 32 -> lenN dm = 16 -> stamp < 2 ^ 64 -> Forall link_ok ls ->
  try_keypoint c g dm rs ls d stamp k nh = Ok np -> lk_write np allow = Ok w ->
  lk_read c (w ++ rest) allow = Ok (w, rest) /\
  nptr_header w = nh /\ nptr_hash w = np_hash np /\
  ptr_parts (nptr_point w) = Ok (point_parts np) /\
  (exists o1 o2 sg, fields (point_parts np) =
     FKey (mkLinkPoint (mkLPH o1 o2 stamp g dm) (mkTail ls d rs)) (mkSigned (pubkey_of c k) sg)) /\
  point_type (pkt_header (point_parts np)) = 7.
Proof.
  intros c g dm rs ls d stamp k nh np allow w rest C Hn Hg Hd Hs Hl E W. pose proof C as (HL & _).
  apply keypoint_inv in E as (R & L & ->); [|assumption].
  assert (Hp : point_ok (key_point c g dm stamp ls rs d k)) by now apply key_point_ok.
  pose proof (key_point_sig c g dm stamp ls rs d k C) as Sg.
  assert (Fs : exists o1 o2 sg, fields_of (key_point c g dm stamp ls rs d k) =
     FKey (mkLinkPoint (mkLPH o1 o2 stamp g dm) (mkTail ls d rs)) (mkSigned (pubkey_of c k) sg))
    by (do 3 eexists; reflexivity).
  assert (T : type_byte (key_point c g dm stamp ls rs d k) = 7) by reflexivity.
  assert (G : parts_group (parts_of (key_point c g dm stamp ls rs d k)) = point_group (key_point c g dm stamp ls rs d k)) by reflexivity.
  revert Hp Sg Fs T G W. generalize (key_point c g dm stamp ls rs d k) as p. intros p Hp Sg Fs T G W.
  unfold lk_write in W. cbn [net_of point_parts] in W. rewrite G, seg_net in W by apply Hp.
  assert (w = packet (hash c) nh p) by (destruct allow; [|destruct (check_private (point_group p)); try discriminate];
      cbn [obind] in W; now injection W as <-). subst w.
  destruct (packet_fields c nh p [] HL Hn Hp) as (A & B & D). rewrite app_nil_r in A, B, D.
  split; [|auto 6].
  rewrite lk_read_packet by assumption. destruct allow; [reflexivity|].
  destruct (check_private (point_group p)) eqn:Q; try discriminate. reflexivity.
Qed.
Example C03_ex : crypto_ok toy /\
  exists np w, try_keypoint toy ex_group ex_domain ex_rspace ex_links ex_data 77 99 ex_nh = Ok np /\ lk_write np false = Ok w.
Proof. split; [exact toy_ok|]. do 2 eexists. split; reflexivity. Qed.
Print Assumptions C03_keypoint_round_trip.

(** * C04: what an accepted packet is *)

(** [lk_read] accepts exactly the packets of the specification, and returns the packet
    and the bytes after it. *)
Theorem C04_read_exact : forall c b allow pkt rest,
  bytes_ok b -> crypto_ok c ->
  lk_read c b allow = Ok (pkt, rest) <->
  exists nh p, lenN nh = 32 /\ point_ok p /\ signature_ok (hash c) (validate_signature c) p /\
    (allow = false -> ~ in_private_group p) /\ pkt = packet (hash c) nh p /\ b = pkt ++ rest.
Proof. intros c b allow pkt rest B (HL & _). now apply lk_read_iff. Qed.
(** The fields read from an accepted packet are those of the specification: links,
    space and data partition the content, the type is one of four, the hash is the
    hash of the content and the key is the one the signature was checked against. *)
Theorem C04_read_fields : forall c b allow pkt rest,
  bytes_ok b -> crypto_ok c -> lk_read c b allow = Ok (pkt, rest) ->
  exists h f p, ptr_parts (nptr_point pkt) = Ok (mkParts h f) /\ point_ok p /\
    signature_ok (hash c) (validate_signature c) p /\ nptr_point pkt = content p /\
    nptr_hash pkt = hash c (content p) /\ point_type h = type_byte p /\ uset_bytes h = point_size p /\
    match f with
    | FData d => p = PData d
    | FError d => p = PError d
    | FLink lp => p = PLink (group (head lp)) (domain (head lp)) (create_stamp (head lp))
                            (links (tail lp)) (rspace (tail lp)) (tdata (tail lp))
    | FKey lp s => p = PKey (group (head lp)) (domain (head lp)) (create_stamp (head lp))
                            (links (tail lp)) (rspace (tail lp)) (tdata (tail lp)) (s_pubkey s) (s_signature s)
    | FUnknown _ => False
    end.
Proof.
  intros c b allow pkt rest B C E. pose proof C as (HL & _).
  apply C04_read_exact in E as (nh & p & Hn & Hp & Sg & _ & -> & _); try assumption.
  destruct (packet_fields c nh p [] HL Hn Hp) as (X1 & X2 & _). rewrite app_nil_r in X1, X2.
  exists (header_of p), (fields_of p), p. split; [exact X1|]. split; [assumption|]. split; [assumption|].
  split. { pose proof (raw_point nh (hash c (content p)) p [] Hn (HL _)) as Q. now rewrite !app_nil_r in Q. }
  split; [assumption|]. split; [reflexivity|]. split; [reflexivity|]. destruct p; reflexivity.
Qed.
Example C04_ex : exists np w, try_keypoint toy ex_group ex_domain ex_rspace ex_links ex_data 77 99 ex_nh = Ok np /\
  lk_write np false = Ok w /\ lk_read toy (w ++ [1;2;3]) false = Ok (w, [1;2;3]) /\ Forall (fun x => x < 256) (w ++ [1;2;3]).
Proof.
  do 2 eexists. split; [reflexivity|]. split; [reflexivity|]. split; [vm_compute; reflexivity|].
  apply Forall_forall. intros x X. apply N.ltb_lt. revert x X. apply forallb_forall. vm_compute. reflexivity.
Qed.
Print Assumptions C04_read_exact.
Print Assumptions C04_read_fields.

(** * C05: no panic *)

(** [lk_read] panics on exactly these inputs: a data or error point whose declared
    size is below the four bytes of its own header.  On all others it returns a
    packet or an error.  Missing for the full property: those inputs. *)
Theorem C05_read_no_panic_partial : forall c b allow,
  bytes_ok b -> crypto_ok c ->
  (lk_read c b allow = Panic <->
     68 <= lenN b /\ nth 64 b 0 = 0 /\ (nth 65 b 0 = 1 \/ nth 65 b 0 = 128) /\ nth 66 b 0 = 0 /\
     (nth 67 b 0 = 0 \/ nth 67 b 0 < 4 /\ 72 <= lenN b)) /\
  lk_read c b allow <> OutOfFuel.
Proof. intros c b allow B (HL & _). now apply (lk_read_total c b allow B). Qed.
Theorem C05_read_panics_refuted : exists b,
  bytes_ok b /\ forall c allow, crypto_ok c -> lk_read c b allow = Panic.
Proof.
  set (b := repeat 0 64 ++ [0;1;0;3;255;255;255;255]).
  assert (B : bytes_ok b) by (unfold bytes_ok, byte_ok; vm_compute; repeat constructor).
  exists b. split; [exact B|]. intros c allow C. apply C05_read_no_panic_partial; [exact B|exact C|].
  split; [vm_compute; discriminate|]. split; [reflexivity|]. split; [left; reflexivity|]. split; [reflexivity|].
  right. split; [reflexivity|vm_compute; discriminate].
Qed.
Print Assumptions C05_read_no_panic_partial.
Print Assumptions C05_read_panics_refuted.

(** * C06: size limits *)
Theorem C06_datapoint_limit : forall c d nh,
  (lenN d <= 65020 -> exists np, try_datapoint c d nh = Ok np) /\
  (65020 < lenN d -> try_datapoint c d nh = Err EContentLen) /\
  (lenN d <= 65020 -> exists np, errorpoint c d nh = Ok np) /\ (65020 < lenN d -> errorpoint c d nh = Panic).
Proof.
  intros c d nh. rewrite try_datapoint_eval, errorpoint_eval. destruct (N.leb_spec (lenN d) 65020).
  - split; [eauto|]. split; [lia|]. split; [eauto|lia].
  - split; [lia|]. split; [reflexivity|]. split; [lia|reflexivity].
Qed.
Theorem C06_linkpoint_limit : forall c g dm rs ls d stamp nh,
  Forall link_ok ls -> rooted_ok rs ->
  (64 + 48 * lenN ls + lenN rs + lenN d <= 65024 -> exists np, try_linkpoint c g dm rs ls d stamp nh = Ok np) /\
  (65024 < 64 + 48 * lenN ls + lenN rs + lenN d -> try_linkpoint c g dm rs ls d stamp nh = Err EContentLen).
Proof.
  intros c g dm rs ls d stamp nh Hl R. rewrite try_linkpoint_eval by assumption. cbn [point_size].
  destruct (N.leb_spec (64 + 48 * lenN ls + lenN rs + lenN d) 65024).
  - split; [eauto|lia].
  - split; [lia|reflexivity].
Qed.
Theorem C06_keypoint_limit : forall c g dm rs ls d stamp k nh,
  Forall link_ok ls -> rooted_ok rs ->
  (160 + 48 * lenN ls + lenN rs + lenN d <= 65024 -> exists np, try_keypoint c g dm rs ls d stamp k nh = Ok np) /\
  (65024 < 160 + 48 * lenN ls + lenN rs + lenN d -> try_keypoint c g dm rs ls d stamp k nh = Err EContentLen).
Proof.
  intros c g dm rs ls d stamp k nh Hl R. rewrite try_keypoint_eval by assumption. unfold key_point at 1 3. cbn [point_size].
  destruct (N.leb_spec (64 + 48 * lenN ls + lenN rs + lenN d + 96) 65024).
  - split; [eauto|lia].
  - split; [lia|reflexivity].
Qed.
(** When a builder succeeds the declared size and offsets are the sizes of the parts,
    and the number of bytes written is the declared packet size. *)
Theorem C06_declared_sizes : forall c g dm rs ls d stamp k nh np,
  crypto_ok c -> lenN nh = 32 -> lenN g = 32 -> lenN dm = 16 -> stamp < 2 ^ 64 -> Forall link_ok ls ->
  try_point c g dm rs ls d stamp k nh = Ok np ->
  let h := pkt_header (point_parts np) in
  let signed := match k with Some _ => 96 | None => 0 end in
  uset_bytes h = 64 + 48 * lenN ls + lenN rs + lenN d + signed /\ uset_bytes h < 2 ^ 16 /\
  lenN (seg_bytes (np_byte_segments np)) = netpkt_size h /\
  netpkt_size h = 64 + 8 * ((uset_bytes h + 7) / 8) /\
  match fields (point_parts np) with
  | FLink lp | FKey lp _ => offset_rspace (head lp) = 64 + 48 * lenN ls /\
                            offset_data (head lp) = 64 + 48 * lenN ls + lenN rs
  | _ => False
  end.
Proof.
  intros c g dm rs ls d stamp k nh np C Hn Hg Hd Hs Hl E.
  assert (X : exists p, np = net_of c nh p /\ point_ok p /\
     point_size p = 64 + 48 * lenN ls + lenN rs + lenN d + match k with Some _ => 96 | None => 0 end /\
     match fields_of p with FLink lp | FKey lp _ => head lp = lph_of g dm stamp ls rs | _ => False end).
  { destruct k as [k|]; cbn [try_point] in E.
    - apply keypoint_inv in E as (R & L & ->); [|assumption]. exists (key_point c g dm stamp ls rs d k).
      split; [reflexivity|]. split; [now apply key_point_ok|]. split; reflexivity.
    - apply linkpoint_inv in E as (R & L & ->); [|assumption]. exists (PLink g dm stamp ls rs d).
      split; [reflexivity|]. split; [split; [cbn [point_size]; lia|tauto]|].
      split; [cbn [point_size]; lia|reflexivity]. }
  destruct X as (p & -> & Hp & S & F). cbn [net_of point_parts parts_of pkt_header fields].
  assert (U : uset_bytes (header_of p) = point_size p) by reflexivity.
  assert (B : point_size p <= 65024) by apply Hp.
  cbv zeta. rewrite U. split; [assumption|]. split; [change (2 ^ 16) with 65536; lia|].
  assert (NS : netpkt_size (header_of p) = padded_point_size (header_of p) + 64) by (apply netpkt_size_eq; rewrite U; lia).
  split.
  { rewrite seg_net by assumption. rewrite packet_raw, raw_len by (assumption || apply C).
    rewrite NS, content_len by assumption. lia. }
  split.
  { rewrite NS, padded_size by (rewrite U; lia). rewrite U. lia. }
  destruct (fields_of p); try contradiction; rewrite F; split; reflexivity.
Qed.
Example C06_ex : exists np, try_point toy ex_group ex_domain ex_rspace ex_links (repeat 7 100) 77 (Some 99) ex_nh = Ok np /\
  uset_bytes (pkt_header (point_parts np)) = 370.
Proof. eexists. split; vm_compute; reflexivity. Qed.
Print Assumptions C06_datapoint_limit.
Print Assumptions C06_linkpoint_limit.
Print Assumptions C06_keypoint_limit.
Print Assumptions C06_declared_sizes.

(** * C07: calc_free_space *)
Lemma wire_rooted_len cs : lenN (wire_rooted cs) = match wire_space cs with [] => 0 | sp => lenN sp + 8 end.
Proof.
  destruct cs as [|x cs]; [reflexivity|]. unfold wire_rooted. rewrite rooted_with_lenN.
  destruct (wire_space (x :: cs)) eqn:E; [discriminate E|]. lia.
Qed.
Lemma wire_rooted_ok cs : space_ok cs -> (length cs <= 8)%nat -> rooted_ok (wire_rooted cs).
Proof.
  intros S L. destruct cs as [|x cs]; [now left|]. right. exists (N.of_nat (length (x :: cs))), (x :: cs).
  split; [assumption|]. split; [assumption|]. split; reflexivity.
Qed.
Lemma calc_eval cs ls d signed :
  calc_free_space (wire_space cs) ls d signed =
  ((if signed then 64924 else 64960) - 48 * Z.of_N (lenN ls) - Z.of_N (lenN (wire_rooted cs)) - Z.of_N (lenN d))%Z.
Proof.
  unfold calc_free_space. rewrite wire_rooted_len.
  change (Z.of_N MAX_LINKPOINT_DATA_SIZE) with 64960%Z. change (Z.of_N MAX_KEYPOINT_DATA_SIZE) with 64924%Z.
  destruct (wire_space cs); destruct signed;
    change (Z.of_N MAX_LINKPOINT_DATA_SIZE) with 64960%Z; change (Z.of_N MAX_KEYPOINT_DATA_SIZE) with 64924%Z; lia.
Qed.
(** Unsigned points: non-negative exactly when the point can be built, and then it is
    the number of bytes of data that can still be added. *)
Theorem C07_free_space_linkpoint : forall c g dm cs ls d stamp nh,
  space_ok cs -> (length cs <= 8)%nat -> Forall link_ok ls ->
  let free := calc_free_space (wire_space cs) ls d false in
  ((exists np, try_linkpoint c g dm (wire_rooted cs) ls d stamp nh = Ok np) <-> (0 <= free)%Z) /\
  forall extra, (exists np, try_linkpoint c g dm (wire_rooted cs) ls (d ++ extra) stamp nh = Ok np) <->
                (Z.of_N (lenN extra) <= free)%Z.
Proof.
  intros c g dm cs ls d stamp nh S L Hl free. unfold free. rewrite calc_eval.
  pose proof (wire_rooted_ok cs S L) as R.
  assert (X : forall x, (exists np, try_linkpoint c g dm (wire_rooted cs) ls x stamp nh = Ok np) <->
     64 + 48 * lenN ls + lenN (wire_rooted cs) + lenN x <= 65024).
  { intros x. split.
    - intros [np E]. apply linkpoint_inv in E as (_ & Q & _); assumption.
    - apply C06_linkpoint_limit; assumption. }
  split; [rewrite X; lia|]. intros extra. rewrite X, lenN_app. lia.
Qed.
Example C07_ex : calc_free_space (wire_space [[104;105]]) ex_links ex_data false = 64849%Z.
Proof. reflexivity. Qed.
(** Signed points: the result is exactly 60 too large.  Missing for the full
    property: agreement within those 60 bytes. *)
Theorem C07_free_space_keypoint_partial : forall c g dm cs ls d stamp k nh,
  space_ok cs -> (length cs <= 8)%nat -> Forall link_ok ls ->
  let free := calc_free_space (wire_space cs) ls d true in
  ((exists np, try_keypoint c g dm (wire_rooted cs) ls d stamp k nh = Ok np) <-> (60 <= free)%Z) /\
  forall extra, (exists np, try_keypoint c g dm (wire_rooted cs) ls (d ++ extra) stamp k nh = Ok np) <->
                (Z.of_N (lenN extra) <= free - 60)%Z.
Proof.
  intros c g dm cs ls d stamp k nh S L Hl free. unfold free. rewrite calc_eval.
  pose proof (wire_rooted_ok cs S L) as R.
  assert (X : forall x, (exists np, try_keypoint c g dm (wire_rooted cs) ls x stamp k nh = Ok np) <->
     160 + 48 * lenN ls + lenN (wire_rooted cs) + lenN x <= 65024).
  { intros x. split.
    - intros [np E]. apply keypoint_inv in E as (_ & Q & _); assumption.
    - apply C06_keypoint_limit; assumption. }
  split; [rewrite X; lia|]. intros extra. rewrite X, lenN_app. lia.
Qed.
Theorem C07_free_space_keypoint_refuted : exists d,
  calc_free_space [] [] d true = 0%Z /\
  forall c g dm stamp k nh, try_keypoint c g dm [] [] d stamp k nh = Err EContentLen.
Proof.
  exists (repeat 0 (N.to_nat 64924)). split.
  - change (@nil N) with (wire_space []) at 1. rewrite calc_eval, lenN_repeat, N2Nat.id. reflexivity.
  - intros. apply C06_keypoint_limit; [constructor|now left|]. rewrite lenN_repeat, N2Nat.id. reflexivity.
Qed.
Print Assumptions C07_free_space_linkpoint.
Print Assumptions C07_free_space_keypoint_partial.
Print Assumptions C07_free_space_keypoint_refuted.

(** * C08: streams *)
Definition readable (c : crypto) (allow : bool) (q : bytes * point) : Prop :=
  lenN (fst q) = 32 /\ point_ok (snd q) /\ signature_ok (hash c) (validate_signature c) (snd q) /\
  (allow = false -> ~ in_private_group (snd q)).
Definition packet_of (c : crypto) (q : bytes * point) : bytes := packet (hash c) (fst q) (snd q).

(** Repeated [lk_read] on a concatenation gives the packets; [fuel] bounds the number
    of reads and any value at least the number of packets will do. *)
Theorem C08_stream_of_packets : forall c allow l fuel,
  crypto_ok c -> Forall (readable c allow) l -> (length l <= fuel)%nat ->
  lk_read_all fuel c (concat (map (packet_of c) l)) allow = Ok (map (packet_of c) l).
Proof. intros c allow l fuel (HL & _) H L. now apply lk_read_all_packets. Qed.
(** A strict prefix of a packet asks for more bytes, never more than the packet has;
    from 68 bytes on it asks for exactly the packet. *)
Theorem C08_prefix_requires_more : forall c allow nh p x y,
  crypto_ok c -> lenN nh = 32 -> point_ok p ->
  packet (hash c) nh p = x ++ y -> y <> [] ->
  exists e n, lk_read c x allow = Err e /\ requires_more e = Some n /\
    lenN x < n /\ n <= lenN (packet (hash c) nh p) /\ (68 <= lenN x -> n = lenN (packet (hash c) nh p)).
Proof.
  intros c allow nh p x y (HL & _) Hn Hp E Hy.
  destruct (read_prefix c nh p x y false HL Hn Hp E Hy) as (e & n & R & Q1 & Q2 & Q3 & Q4 & _). exists e, n.
  unfold lk_read. rewrite R. split; [reflexivity|]. repeat split; try assumption. intros H. now apply Q4.
Qed.
(** Complete input is never reported as needing more. *)
Theorem C08_complete_not_short : forall c allow nh p rest e,
  crypto_ok c -> lenN nh = 32 -> point_ok p -> signature_ok (hash c) (validate_signature c) p ->
  lk_read c (packet (hash c) nh p ++ rest) allow = Err e -> requires_more e = None.
Proof.
  intros c allow nh p rest e (HL & _) Hn Hp Sg E. rewrite lk_read_packet in E by assumption.
  destruct allow; [discriminate|]. destruct (check_private_cases (point_group p)) as [Q|[Q _]]; rewrite Q in E.
  - discriminate.
  - injection E as <-. reflexivity.
Qed.
(** Packets are prefix free: a buffer starts with at most one packet. *)
Theorem C08_prefix_free : forall c nh p r nh' p' r',
  crypto_ok c -> lenN nh = 32 -> lenN nh' = 32 -> point_ok p -> point_ok p' ->
  packet (hash c) nh p ++ r = packet (hash c) nh' p' ++ r' -> nh = nh' /\ p = p' /\ r = r'.
Proof.
  intros c nh p r nh' p' r' (HL & _) Hn Hn' Hp Hp' E. unfold packet in E. rewrite <- !app_assoc in E.
  apply app_eq_lenN in E as [-> E]; [|lia]. apply app_eq_lenN in E as [_ E]; [|now rewrite !HL].
  apply content_inj_app in E as [-> ->]; auto.
Qed.
Example C08_ex : Forall (readable toy false) [(ex_nh, PData ex_data); (ex_nh, PLink ex_group ex_domain 7 ex_links ex_rspace ex_data)].
Proof.
  constructor; [|constructor; [|constructor]]; unfold readable; cbn [fst snd].
  - split; [reflexivity|]. split; [split; [vm_compute; discriminate|exact I]|]. split; [exact I|].
    intros _ X; discriminate X.
  - split; [reflexivity|]. split.
    + split; [vm_compute; discriminate|]. split; [reflexivity|]. split; [reflexivity|]. split; [reflexivity|].
      split; [repeat constructor|]. apply wire_rooted_ok; [split; [repeat constructor; cbn; lia|vm_compute; discriminate]|cbn; lia].
    + split; [exact I|]. intros _ X; discriminate X.
Qed.
Print Assumptions C08_stream_of_packets.
Print Assumptions C08_prefix_requires_more.
Print Assumptions C08_complete_not_short.
Print Assumptions C08_prefix_free.

(** * C10: the private group *)
Theorem C10_read_private : forall c b pkt rest,
  bytes_ok b -> crypto_ok c -> lk_read c b false = Ok (pkt, rest) ->
  ptr_group (nptr_point pkt) <> Ok (Some (repeat 0 32)).
Proof.
  intros c b pkt rest B C E. pose proof C as (HL & _).
  apply lk_read_iff in E as (nh & p & Hn & Hp & _ & Pr & -> & _); try assumption.
  rewrite ptr_group_raw by assumption. intros X. injection X as X. exact (Pr eq_refl X).
Qed.
(** Refusing happens only for the private group: whatever is read with
    [allow_private] and is not private is read the same without it. *)
Theorem C10_read_others : forall c b pkt rest,
  bytes_ok b -> crypto_ok c -> lk_read c b true = Ok (pkt, rest) ->
  lk_read c b false = (if match ptr_group (nptr_point pkt) with Ok (Some g) => beqb g (repeat 0 32) | _ => false end
                       then Err EPrivateGroup else Ok (pkt, rest)).
Proof.
  intros c b pkt rest B C E. pose proof C as (HL & _).
  apply lk_read_iff in E as (nh & p & Hn & Hp & Sg & Pr & -> & ->); try assumption.
  rewrite ptr_group_raw by assumption. rewrite lk_read_packet by assumption.
  unfold check_private, PRIVATE. destruct (point_group p) as [g|]; [|reflexivity].
  destruct (beqb g (repeat 0 32)); reflexivity.
Qed.
Theorem C10_write_private : forall np w,
  lk_write np false = Ok w -> parts_group (point_parts np) <> Some (repeat 0 32).
Proof.
  intros np w E. unfold lk_write in E. intros X. rewrite X in E. unfold check_private, PRIVATE in E.
  rewrite beqb_refl in E. discriminate.
Qed.
Theorem C10_write_others : forall np,
  lk_write np false =
  (if match parts_group (point_parts np) with Some g => beqb g (repeat 0 32) | None => false end
   then Err EPrivateGroup else lk_write np true).
Proof.
  intros np. unfold lk_write, check_private, PRIVATE. destruct (parts_group (point_parts np)) as [g|]; [|reflexivity].
  destruct (beqb g (repeat 0 32)); reflexivity.
Qed.
(** The same for packets held as bytes (read from the network or the database). *)
Theorem C10_write_ptr : forall c nh p r,
  crypto_ok c -> lenN nh = 32 -> point_ok p ->
  lk_write_ptr (packet (hash c) nh p ++ r) true = Ok (packet (hash c) nh p) /\
  (in_private_group p -> lk_write_ptr (packet (hash c) nh p ++ r) false = Err EPrivateGroup) /\
  (~ in_private_group p -> lk_write_ptr (packet (hash c) nh p ++ r) false = Ok (packet (hash c) nh p)).
Proof.
  intros c nh p r (HL & _) Hn Hp. unfold lk_write_ptr.
  rewrite nptr_size_packet, takeN_app_exact by (reflexivity || assumption).
  pose proof (raw_point nh (hash c (content p)) p r Hn (HL _)) as Q. rewrite packet_raw, Q, ptr_group_content by assumption.
  cbn [obind]. split; [reflexivity|]. unfold in_private_group. split; intros G.
  - rewrite G. unfold check_private, PRIVATE. rewrite beqb_refl. reflexivity.
  - rewrite (proj2 (check_private_iff _) G). reflexivity.
Qed.
Example C10_ex : exists np w, try_linkpoint toy (repeat 0 32) ex_domain ex_rspace [] ex_data 77 ex_nh = Ok np /\
  lk_write np true = Ok w /\ lk_write np false = Err EPrivateGroup /\ lk_read toy w false = Err EPrivateGroup /\
  lk_read toy w true = Ok (w, []).
Proof. do 2 eexists. repeat split; vm_compute; reflexivity. Qed.
Print Assumptions C10_read_private.
Print Assumptions C10_read_others.
Print Assumptions C10_write_private.
Print Assumptions C10_write_others.
Print Assumptions C10_write_ptr.

(** * C11: content determines the fields *)
Theorem C11_content_determines_fields : forall c g dm rs ls d stamp k nh np g' dm' rs' ls' d' stamp' k' nh' np',
  crypto_ok c ->
  lenN g = 32 -> lenN dm = 16 -> stamp < 2 ^ 64 -> Forall link_ok ls ->
  lenN g' = 32 -> lenN dm' = 16 -> stamp' < 2 ^ 64 -> Forall link_ok ls' ->
  try_point c g dm rs ls d stamp k nh = Ok np ->
  try_point c g' dm' rs' ls' d' stamp' k' nh' = Ok np' ->
  seg_bytes (parts_segments (point_parts np)) = seg_bytes (parts_segments (point_parts np')) ->
  g = g' /\ dm = dm' /\ rs = rs' /\ ls = ls' /\ d = d' /\ stamp = stamp' /\
  option_map (pubkey_of c) k = option_map (pubkey_of c) k' /\ np_hash np = np_hash np'.
Proof.
  intros c g dm rs ls d stamp k nh np g' dm' rs' ls' d' stamp' k' nh' np' C H1 H2 H3 H4 H1' H2' H3' H4' E E' X.
  assert (F : forall g dm rs ls d stamp k nh np, lenN g = 32 -> lenN dm = 16 -> stamp < 2 ^ 64 -> Forall link_ok ls ->
     try_point c g dm rs ls d stamp k nh = Ok np ->
     let p := match k with Some k => key_point c g dm stamp ls rs d k | None => PLink g dm stamp ls rs d end in
     point_ok p /\ np = net_of c nh p).
  { clear - C. intros g dm rs ls d stamp k nh np H1 H2 H3 H4 E. destruct k as [k|]; cbn [try_point] in E.
    - apply keypoint_inv in E as (R & L & ->); [|assumption]. split; [now apply key_point_ok|reflexivity].
    - apply linkpoint_inv in E as (R & L & ->); [|assumption]. split; [|reflexivity].
      split; [cbn [point_size]; lia|tauto]. }
  apply F in E as [Hp ->]; try assumption. apply F in E' as [Hp' ->]; try assumption. clear F.
  cbn [net_of point_parts np_hash] in *.
  rewrite !seg_parts in X by (apply Hp || apply Hp').
  assert (Y : forall r : bytes, content (match k with Some k => key_point c g dm stamp ls rs d k | None => PLink g dm stamp ls rs d end) ++ r =
     content (match k' with Some k => key_point c g' dm' stamp' ls' rs' d' k | None => PLink g' dm' stamp' ls' rs' d' end) ++ r)
    by (intros r; now rewrite X).
  specialize (Y []).
  apply content_inj_app in Y as [Y _]; [|assumption|assumption].
  rewrite X. clear X Hp Hp'. destruct k as [k|], k' as [k'|]; cbn [option_map]; unfold key_point in Y;
    try discriminate Y; inversion Y; subst; repeat split; congruence.
Qed.
Example C11_ex : exists np np', try_point toy ex_group ex_domain ex_rspace ex_links ex_data 77 (Some 99) ex_nh = Ok np /\
  try_point toy ex_group ex_domain ex_rspace ex_links ex_data 77 (Some 99) (repeat 0 32) = Ok np' /\ np <> np' /\
  seg_bytes (parts_segments (point_parts np)) = seg_bytes (parts_segments (point_parts np')).
Proof. do 2 eexists. repeat split. intros X. apply (f_equal net_header) in X. discriminate X. Qed.
Print Assumptions C11_content_determines_fields.

(** * C57: rerouting *)

(** Changing the network header of a packet held as bytes changes nothing else. *)
Theorem C57_reroute_bytes : forall c nh nh' p rest,
  crypto_ok c -> lenN nh = 32 -> point_ok p ->
  reroute_ptr_bytes nh' (packet (hash c) nh p ++ rest) = packet (hash c) nh' p.
Proof. intros c nh nh' p rest (HL & _) Hn Hp. now apply reroute_ptr. Qed.
(** The same for a freshly built data, error or link point.  Missing: keypoints. *)
Theorem C57_reroute_built_partial : forall c nh nh' p np,
  crypto_ok c -> lenN nh = 32 -> point_ok p ->
  match p with
  | PData d => try_datapoint c d nh = Ok np
  | PError d => errorpoint c d nh = Ok np
  | PLink g dm stamp ls rs d => try_linkpoint c g dm rs ls d stamp nh = Ok np
  | PKey _ _ _ _ _ _ _ _ => False
  end ->
  seg_bytes (np_byte_segments np) = packet (hash c) nh p /\
  reroute_parts_bytes nh' np = packet (hash c) nh' p.
Proof.
  intros c nh nh' p np (HL & _) Hn Hp E.
  assert (X : np = net_of c nh p).
  { destruct p as [d|d|g dm st ls rs d|]; [| | |contradiction].
    - rewrite try_datapoint_eval in E. destruct (lenN d <=? 65020); [|discriminate]. now injection E as <-.
    - rewrite errorpoint_eval in E. destruct (lenN d <=? 65020); [|discriminate]. now injection E as <-.
    - apply linkpoint_inv in E as (_ & _ & E); [assumption|]. apply Hp. }
  subst np. split; [apply seg_net, Hp|]. apply reroute_parts; auto. now destruct p.
Qed.
(** A freshly built keypoint loses its key and signature: what is written is not a
    packet any more, and reading it back asks for more bytes. *)
Theorem C57_reroute_keypoint_refuted : forall c g dm rs ls d stamp k nh nh' np allow,
  crypto_ok c -> lenN nh = 32 -> lenN nh' = 32 -> lenN g = 32 -> lenN dm = 16 -> stamp < 2 ^ 64 -> Forall link_ok ls ->
  try_keypoint c g dm rs ls d stamp k nh = Ok np ->
  lenN (reroute_parts_bytes nh' np) + 96 = lenN (seg_bytes (np_byte_segments np)) /\
  exists e n, lk_read c (reroute_parts_bytes nh' np) allow = Err e /\ requires_more e = Some n.
Proof.
  intros c g dm rs ls d stamp k nh nh' np allow C Hn Hn' Hg Hd Hs Hl E. pose proof C as (HL & PL & SL & _).
  apply keypoint_inv in E as (R & L & ->); [|assumption].
  assert (Hp : point_ok (key_point c g dm stamp ls rs d k)) by now apply key_point_ok.
  rewrite seg_net by apply Hp. unfold key_point in *.
  match goal with |- context [PKey g dm stamp ls rs d ?a ?b] => set (pk := a) in *; set (sg := b) in * end.
  rewrite reroute_parts_key by assumption. set (p := PKey g dm stamp ls rs d pk sg) in *.
  assert (Cn : content p = unsigned_content p ++ (pk ++ sg)) by reflexivity.
  assert (Lk : lenN (pk ++ sg) = 96) by (unfold pk, sg; rewrite lenN_app, PL, SL; reflexivity).
  assert (Pk : packet (hash c) nh' p = (nh' ++ hash c (content p) ++ unsigned_content p) ++ (pk ++ sg)).
  { unfold packet. rewrite Cn, <- !app_assoc. reflexivity. }
  split.
  - change (lenN (nh' ++ hash c (content p) ++ unsigned_content p) + 96 = lenN (nh ++ hash c (content p) ++ content p)).
    rewrite !lenN_app, Cn, lenN_app, Lk, !HL. lia.
  - destruct (C08_prefix_requires_more c allow nh' p _ _ C Hn' Hp Pk) as (e & n & Q1 & Q2 & _).
    + intros X. rewrite X in Lk. discriminate Lk.
    + exists e, n. split; assumption.
Qed.
Example C57_ex : exists np, try_keypoint toy ex_group ex_domain ex_rspace ex_links ex_data 77 99 ex_nh = Ok np /\
  length (seg_bytes (np_byte_segments np)) = 344%nat /\ length (reroute_parts_bytes ex_nh np) = 248%nat.
Proof. eexists. repeat split. Qed.
Print Assumptions C57_reroute_bytes.
Print Assumptions C57_reroute_built_partial.
Print Assumptions C57_reroute_keypoint_refuted.

(** * C58: lk_read_unchecked *)

(** The documentation says the hash check is skipped.  In a debug build that is so:
    whatever has the layout of a packet is accepted, with any hash and signature. *)
Theorem C58_unchecked_debug : forall c nh h32 p rest,
  lenN nh = 32 -> lenN h32 = 32 -> point_ok p ->
  lk_read_unchecked true c (nh ++ h32 ++ content p ++ rest) true = Ok (nh ++ h32 ++ content p, rest).
Proof.
  intros c nh h32 p rest Hn Hh Hp. unfold lk_read_unchecked.
  change (nh ++ h32 ++ content p ++ rest) with (nh ++ h32 ++ content p ++ rest).
  replace (nh ++ h32 ++ content p ++ rest) with (raw_packet nh h32 p ++ rest)
    by (unfold raw_packet; now rewrite <- !app_assoc).
  rewrite read_raw by assumption. cbn [obind].
  pose proof (raw_size nh h32 p [] Hn Hh Hp) as E2. rewrite app_nil_r in E2. rewrite E2.
  rewrite dropN_app_exact by reflexivity. reflexivity.
Qed.
(** In a release build the flag is the other way round and nothing is skipped. *)
Theorem C58_unchecked_release : forall c b allow, lk_read_unchecked false c b allow = lk_read c b allow.
Proof. reflexivity. Qed.
Theorem C58_unchecked_skips_refuted : exists c b, crypto_ok c /\
  lk_read_unchecked false c b true = Err EHashMismatch /\ lk_read_unchecked true c b true = Ok (b, []).
Proof.
  exists toy, (ex_nh ++ repeat 9 32 ++ content (PData ex_data)). split; [exact toy_ok|]. split; vm_compute; reflexivity.
Qed.
Example C58_ex : point_ok (PData ex_data). Proof. split; [vm_compute; discriminate|exact I]. Qed.
Print Assumptions C58_unchecked_debug.
Print Assumptions C58_unchecked_release.
Print Assumptions C58_unchecked_skips_refuted.
