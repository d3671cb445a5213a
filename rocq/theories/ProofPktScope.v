From Coq Require Import Lia.
From Verif Require Import Bytes ModelSpace SpecSpace ProofSpace ProofRooted ModelPkt SpecPkt ProofPkt ProofPkt2 ModelTree SpecTree ProofTree.
From Verif Require Import ModelPred SpecPred ProofPred.
From Verif Require Import ModelAbe SpecAbe ProofAbe ProofAbe2 ModelFmt SpecFmt ProofFmt ModelEval ModelFn SpecEval ProofEval ProofEval2 ProofEval3 ModelLns ModelHtml.
From Verif Require Import PropsSpace PropsAbe PropsFmt PropsEval.
From Verif Require Import ProofQText7 ModelPktScope SpecPktScope.
#[global] Arguments N.pow : simpl never.

Definition name_charb (c : N) : bool := (48 <=? c) && (c <=? 57) || (97 <=? c) && (c <=? 122) || (c =? 95) || (c =? 45).
Lemma name_reads t : forallb name_charb t = true -> reads t t.
Proof.
  intros H. apply plain_reads. rewrite forallb_forall in H. apply Forall_forall. intros c I. specialize (H c I). unfold name_charb in H.
  rewrite !Bool.orb_true_iff, !Bool.andb_true_iff, !N.leb_le, !N.eqb_eq in H. split; [lia|]. cbn. lia.
Qed.

(** ** The parts of a packet *)
Lemma get_rspace_pt hash nh p : get_rspace (np_of hash nh p) = pt_rspace p. Proof. now destruct p. Qed.
Lemma get_data_pt hash nh p : get_data (pf (np_of hash nh p)) = pt_data p. Proof. now destruct p. Qed.
Lemma get_domain_pt hash nh p : get_domain (np_of hash nh p) = pt_domain p. Proof. now destruct p. Qed.
Lemma get_group_pt hash nh p : get_group (np_of hash nh p) = pt_group p. Proof. now destruct p. Qed.
Lemma get_links_pt hash nh p : pkt_links (np_of hash nh p) = pt_links p. Proof. now destruct p. Qed.
Lemma get_create_pt hash nh p : get_create_stamp (pf (np_of hash nh p)) = pt_create p. Proof. now destruct p. Qed.
Lemma get_pubkey_pt hash nh p : get_pubkey (np_of hash nh p) = pt_pubkey p. Proof. now destruct p. Qed.
Lemma get_signature_pt hash nh p : get_signature (np_of hash nh p) = pt_signature p. Proof. now destruct p. Qed.
Lemma get_depth_pt hash nh p : ModelHtml.get_depth (np_of hash nh p) = hd 0 (pt_rspace p).
Proof. destruct p as [d|d|g dm c ls rs d|g dm c ls rs d pk sg]; try reflexivity; now destruct rs. Qed.
Lemma nth3 (nh : bytes) : lenN nh = 32 -> [nth 3 nh 0] = part 3 1 nh.
Proof. intros L. do 4 (destruct nh as [|? nh]; [discriminate L|]). reflexivity. Qed.
Section Fields.
Variable hash : bytes -> bytes.
Hypothesis HL : forall x, lenN (hash x) = 32.
Variables (b nh : bytes) (p : point) (cs : list bytes).
Hypothesis PK : packet_of hash b nh p.
Hypothesis CS : pt_comps p cs.
Notation np := (np_of hash nh p).

Lemma part_slice i n : part i n nh = sliceN (N.of_nat i) (N.of_nat (i + n)) nh.
Proof. unfold part, sliceN, takeN, dropN. f_equal; [lia|]. now rewrite Nat2N.id. Qed.
Lemma size_pt : netpkt_size (pkt_header (point_parts np)) = lenN (packet hash nh p).
Proof.
  destruct PK as (_ & Ln & Hp & _). assert (point_size p <= 65024) as PS by apply Hp.
  change (pkt_header (point_parts np)) with (header_of p). rewrite netpkt_size_eq by exact PS. rewrite <- content_len by assumption.
  unfold packet. rewrite !lenN_app, HL, Ln. lia.
Qed.
Lemma comps_pt : or_panic (F := unit) (get_space np) = Ok (wire_space cs) /\ forall i, (i < 8)%nat -> or_panic (F := unit) (rs_comp (get_rspace np) (N.of_nat i)) = Ok (nth i cs []).
Proof.
  destruct CS as (S1 & S2 & [[R ->]|[d R]]).
  - unfold get_space. rewrite get_rspace_pt, R. split; [reflexivity|]. intros i I. rewrite rs_comp_empty by assumption. now destruct i.
  - unfold get_space. rewrite get_rspace_pt, R. split.
    + unfold rs_space. rewrite rs_fields_rooted. reflexivity.
    + intros i I. now rewrite rs_comp_rooted.
Qed.

Lemma part_len i n : (i + n <= 32)%nat -> lenN (part i n nh) = N.of_nat n.
Proof. intros H. destruct PK as (_ & Ln & _). unfold lenN in Ln. unfold part, lenN. rewrite firstn_length, skipn_length. lia. Qed.
Lemma pt_bytes : bytes_ok (pt_group p) /\ bytes_ok (pt_domain p) /\ bytes_ok (pt_rspace p) /\ bytes_ok (pt_data p) /\ bytes_ok (pt_pubkey p) /\ bytes_ok (pt_signature p) /\
  Forall (fun l => bytes_ok (fst l) /\ bytes_ok (snd l)) (pt_links p).
Proof.
  destruct (packet_bytes _ _ _ _ PK) as (_ & _ & Bc). clear - Bc. assert (forall n, bytes_ok (repeat 0 n)) as Z by (intros n; apply Forall_forall; intros x I; apply repeat_spec in I; subst; reflexivity).
  assert (bytes_ok []) as ZN by constructor. pose proof (Z 16%nat) as Z1. pose proof (Z 32%nat) as Z2. pose proof (Z 64%nat) as Z3.
  assert (forall ls, bytes_ok (flat_map link_bytes ls) -> Forall (fun l => bytes_ok (fst l) /\ bytes_ok (snd l)) ls) as LS.
  { induction ls as [|l ls IH]; [constructor|]. intros H. change (bytes_ok ((fst l ++ snd l) ++ flat_map link_bytes ls)) in H. rewrite !bytes_ok_app in H. constructor; tauto. }
  destruct p as [d|d|g dm c ls rs d|g dm c ls rs d pk sg]; unfold content, unsigned_content, point_body in Bc; rewrite !bytes_ok_app in Bc;
    cbn [pt_group pt_domain pt_rspace pt_data pt_pubkey pt_signature pt_links]; repeat (split; [tauto|]); try constructor; apply LS; tauto.
Qed.
Lemma pt_lens : lenN (pt_group p) = 32 /\ lenN (pt_domain p) = 16 /\ lenN (pt_rspace p) < 65536 /\ lenN (pt_data p) < 65536 /\ lenN (pt_pubkey p) = 32 /\ lenN (pt_signature p) = 64 /\ pt_create p < 2 ^ 64.
Proof.
  destruct PK as (_ & _ & (H & Q) & _). clear - H Q. assert (0 < 2 ^ 64) as Z by reflexivity. destruct p as [d|d|g dm c ls rs d|g dm c ls rs d pk sg]; cbn [point_size] in H; cbn [pt_group pt_domain pt_rspace pt_data pt_pubkey pt_signature pt_create];
    repeat (split; [tauto || reflexivity || (unfold lenN; cbn; lia) || lia|]); tauto.
Qed.
Lemma comps_bytes : bytes_ok (wire_space cs) /\ lenN (wire_space cs) < 65536 /\ forall i, bytes_ok (nth i cs []) /\ lenN (nth i cs []) < 256.
Proof.
  destruct pt_bytes as (_ & _ & B & _). destruct pt_lens as (_ & _ & L & _). destruct CS as (S1 & S2 & C).
  assert (bytes_ok (wire_space cs) /\ lenN (wire_space cs) < 65536) as [W1 W2].
  { destruct C as [[_ ->]|[d R]]; [split; [constructor|reflexivity]|]. rewrite R in *. unfold rooted_with in *. apply Forall_inv_tail in B. apply bytes_ok_app in B. rewrite lenN_cons, !lenN_app in L. split; [tauto|lia]. }
  split; [exact W1|]. split; [exact W2|]. intros i. apply wire_ok in W1. destruct (nth_in_or_default i cs []) as [I| ->]; [|split; [constructor|reflexivity]].
  rewrite Forall_forall in W1. split; [now apply W1|]. destruct S1 as [F _]. rewrite Forall_forall in F. specialize (F _ I). unfold component_ok in F. unfold lenN. lia.
Qed.
Lemma data_len : lenN (pt_data p) < 65536 /\ lenN (pt_links p) < 65536.
Proof.
  clear HL CS cs.
  destruct PK as (_ & _ & (H & _) & _). destruct p as [d|d|g dm c ls rs d|g dm c ls rs d pk sg]; cbn [point_size pt_data pt_links] in *; try (split; [lia|]); try lia; unfold lenN; cbn; lia.
Qed.
Definition form_of (f : Field) : form :=
  match f with
  | VarNetFlagsF => AsFlags | PktTypeF => AsType | PktHashF | GroupIDF | PubKeyF | SignatureF => AsCode
  | DomainF => AsDomain | SpaceNameF | RSpaceNameF => AsSpace | SpaceCompF _ | DataF => AsText | _ => AsNumber
  end.
Definition width_of (f : Field) : option nat :=
  match f with
  | VarNetFlagsF | PktTypeF | DepthF => Some 1%nat
  | SizeF | DataSizeF | LinksLenF => Some 2%nat
  | VarHopF | VarUBits0F | VarUBits1F | VarUBits2F | VarUBits3F => Some 4%nat
  | VarStampF | CreateF => Some 8%nat
  | _ => None
  end.
Definition row (e : bytes * form * bytes) (k : bytes * Field) : Prop :=
  let '(name, fm, v) := e in let '(name', f) := k in
  name = name' /\ fm = form_of f /\ field_bytes np f = Ok v /\ bytes_ok v /\ lenN v < 2 ^ 63 /\
  match width_of f with Some n => lenN v = N.of_nat n | None => True end.
Lemma rows : Forall2 row (fields_of_packet hash nh p cs) field_names.
Proof.
  destruct comps_pt as [SP CO]. destruct data_len as [D1 D2]. pose proof PK as (_ & Ln & Hp & _). destruct (packet_bytes _ _ _ _ PK) as (Bn & Bh & Bc).
  assert (forall i n, (i + n <= 32)%nat -> bytes_ok (part i n nh) /\ lenN (part i n nh) < 2 ^ 63 /\ lenN (part i n nh) = N.of_nat n) as P.
  { intros i n H. rewrite part_len by exact H. split; [rewrite part_slice; now apply bytes_ok_slice|]. split; [|reflexivity]. change (2 ^ 63) with 9223372036854775808. lia. }
  destruct pt_bytes as (B1 & B2 & B3 & B4 & B5 & B6 & _). destruct pt_lens as (L1 & L2 & L3 & L4 & L5 & L6 & _). destruct comps_bytes as (W1 & W2 & CB).
  assert (forall x : bytes, lenN x < 65536 -> lenN x < 2 ^ 63) as SM by (intros x H; change (2 ^ 63) with 9223372036854775808; lia).
  assert (forall i, lenN (nth i cs []) < 65536) as CB' by (intros i; destruct (CB i); lia).
  assert (forall k n, (k <= 8)%nat -> bytes_ok (be_encode k n) /\ lenN (be_encode k n) < 2 ^ 63 /\ lenN (be_encode k n) = N.of_nat k) as BE.
  { intros k n K. split; [apply be_encode_ok|]. rewrite lenN_be_encode. split; [change (2 ^ 63) with 9223372036854775808; lia|reflexivity]. }
  unfold fields_of_packet, field_names.
  repeat (constructor; [unfold row; split; [reflexivity|split; [reflexivity|]]|]); [..|constructor]; cbn [width_of].
  - split; [|exact (P 3%nat 1%nat ltac:(lia))]. cbn [field_bytes net_header np_of]. f_equal. now apply nth3.
  - split; [now rewrite part_slice|exact (P 4%nat 4%nat ltac:(lia))].
  - split; [now rewrite part_slice|exact (P 8%nat 8%nat ltac:(lia))].
  - split; [now rewrite part_slice|exact (P 16%nat 4%nat ltac:(lia))].
  - split; [now rewrite part_slice|exact (P 20%nat 4%nat ltac:(lia))].
  - split; [now rewrite part_slice|exact (P 24%nat 4%nat ltac:(lia))].
  - split; [now rewrite part_slice|exact (P 28%nat 4%nat ltac:(lia))].
  - split; [reflexivity|]. split; [exact Bh|]. split; [rewrite HL; reflexivity|exact Logic.I].
  - split; [now destruct p|]. split; [destruct p; repeat constructor|]. split; reflexivity.
  - split; [cbn [field_bytes]; now rewrite size_pt|apply BE; lia].
  - split; [cbn [field_bytes]; now rewrite get_pubkey_pt|]. split; [exact B5|]. split; [rewrite L5; reflexivity|exact Logic.I].
  - split; [cbn [field_bytes]; now rewrite get_signature_pt|]. split; [exact B6|]. split; [rewrite L6; reflexivity|exact Logic.I].
  - split; [cbn [field_bytes]; now rewrite get_group_pt|]. split; [exact B1|]. split; [rewrite L1; reflexivity|exact Logic.I].
  - split; [cbn [field_bytes]; now rewrite get_domain_pt|]. split; [exact B2|]. split; [rewrite L2; reflexivity|exact Logic.I].
  - split; [cbn [field_bytes]; now rewrite get_create_pt|apply BE; lia].
  - split; [cbn [field_bytes]; now rewrite get_depth_pt|]. split; [|split; reflexivity]. repeat constructor. destruct (pt_rspace p); [reflexivity|now inversion B3].
  - split; [cbn [field_bytes]; rewrite get_links_pt; unfold len_u16; now rewrite (proj2 (N.ltb_lt _ _) D2)|apply BE; lia].
  - split; [cbn [field_bytes]; rewrite get_data_pt; unfold len_u16; now rewrite (proj2 (N.ltb_lt _ _) D1)|apply BE; lia].
  - split; [exact SP|]. split; [exact W1|]. split; [now apply SM|exact Logic.I].
  - split; [cbn [field_bytes]; now rewrite get_rspace_pt|]. split; [exact B3|]. split; [now apply SM|exact Logic.I].
  - split; [exact (CO 0%nat ltac:(lia))|]. split; [apply CB|]. split; [apply SM, CB'|exact Logic.I].
  - split; [exact (CO 1%nat ltac:(lia))|]. split; [apply CB|]. split; [apply SM, CB'|exact Logic.I].
  - split; [exact (CO 2%nat ltac:(lia))|]. split; [apply CB|]. split; [apply SM, CB'|exact Logic.I].
  - split; [exact (CO 3%nat ltac:(lia))|]. split; [apply CB|]. split; [apply SM, CB'|exact Logic.I].
  - split; [exact (CO 4%nat ltac:(lia))|]. split; [apply CB|]. split; [apply SM, CB'|exact Logic.I].
  - split; [exact (CO 5%nat ltac:(lia))|]. split; [apply CB|]. split; [apply SM, CB'|exact Logic.I].
  - split; [exact (CO 6%nat ltac:(lia))|]. split; [apply CB|]. split; [apply SM, CB'|exact Logic.I].
  - split; [exact (CO 7%nat ltac:(lia))|]. split; [apply CB|]. split; [apply SM, CB'|exact Logic.I].
  - split; [cbn [field_bytes]; now rewrite get_data_pt|]. split; [exact B4|]. split; [now apply SM|exact Logic.I].
Qed.

(** ** The forms of a field *)
Lemma evaluates_printed s l v : normal l -> evaluates_abe s l v -> evaluates s (print_abe l) v.
Proof. intros N [n E]. exists l, n. split; [|exact E]. apply C42_print_parse; [now apply normal_ok|exact N]. Qed.
Lemma plain_ok t : Forall plain t -> bytes_ok t.
Proof. intros F. eapply Forall_impl; [|exact F]. intros c [C _]. unfold byte_ok. lia. Qed.
Lemma to_string_ok n : bytes_ok (to_string n).
Proof. apply reads_bytes_ok with (to_string n). apply to_string_reads. Qed.
Lemma uint_abe_evaluates o s k v : extends (core_scope o) s -> In k [1; 2; 4; 8]%nat -> bytes_ok v -> lenN v = N.of_nat k -> evaluates s (uint_abe_str k v) v.
Proof.
  intros X K O L. apply evaluates_printed; [|apply (C43_int_abe o); try assumption; cbn in K |- *; tauto].
  apply normal_lst; [|constructor]. apply normal_bytes; [destruct K as [<-|[<-|[<-|[<-|[]]]]]; discriminate|destruct K as [<-|[<-|[<-|[<-|[]]]]]; repeat constructor|exact Logic.I|].
  apply normal_ctr, normal_bytes; [apply to_string_ne|apply to_string_ok|exact Logic.I|constructor].
Qed.
Lemma bits_evaluates o s v : extends (core_scope o) s -> bytes_ok v -> lenN v = 1 -> evaluates s (abe_bits v) v.
Proof.
  intros X O L. destruct v as [|x [|y v]]; [discriminate| |rewrite !lenN_cons in L; lia].
  assert (evaluates s (str "[b2:" ++ flat_map (digits_of 2 8) [x] ++ str "]") [x]) as E.
  { apply item_evaluates, (enc_bin_evaluates o s 2 8 [x] []); [now apply extends_basic|now left|exact O| |reflexivity].
    destruct (N.eq_dec x 0) as [->|H]; [now left|right]. repeat split; [discriminate|exact H|vm_compute; discriminate]. }
  assert (abe_bits [x] = str "[b2:" ++ flat_map (digits_of 2 8) [x] ++ str "]") as ->; [|exact E].
  unfold abe_bits, print_abe. cbn [flat_map print1 app].
  assert (forall l, Forall (fun c => c = 48 \/ c = 49) l -> flat_map escape_default l = l) as ES.
  { intros l F. induction F as [|c l [-> | ->] F IH]; [reflexivity| |]; cbn [flat_map]; rewrite IH; reflexivity. }
  rewrite !app_nil_r. rewrite (ES (digits_of 2 8 x)); [reflexivity|].
  clear. generalize 8%nat as w. intros w. revert x. induction w as [|w IH]; intros x; [constructor|]. cbn [digits_of]. apply Forall_app. split; [apply IH|].
  constructor; [|constructor]. assert (x mod 2 = 0 \/ x mod 2 = 1) as [-> | ->] by (pose proof (N.mod_lt x 2 ltac:(lia)); lia); [now left|now right].
Qed.
Lemma data_evaluates s v : bytes_ok v -> evaluates s (str "[:" ++ ab_display v ++ str "]") v.
Proof.
  intros O. exists [ALst (ACtr CColon :: match v with [] => [] | _ => [ABytes v] end)], 2%nat. split.
  - apply parse_denotes. change (str "[:" ++ ab_display v ++ str "]") with (91 :: 58 :: as_abtxt v ++ 93 :: []). change (58 :: as_abtxt v ++ [93]) with ((58 :: as_abtxt v) ++ [93]).
    apply denotes_lst; [|constructor]. apply (denotes_ctr CColon). destruct v as [|x v]; [constructor|].
    rewrite <- (app_nil_r (as_abtxt _)). apply denotes_bytes; [discriminate|now apply abtxt_reads|exact Logic.I|constructor].
  - intros [|[|f]] L; [lia..|]. exists [(None, v)]. split; [|reflexivity]. destruct v as [|x v]; [reflexivity|]. cbn. now rewrite app_nil_r.
Qed.

Variables (recv : option N) (now : N) (lossy : bytes -> bytes) (flags_debug : N -> bytes) (public test : bytes).
Notation sc := (pkt_scope np recv now flags_debug lossy public test).

Lemma or_nones x r : or_else (or_else (or_else x (Ok None)) (or_else (Ok None) (Ok None))) r = or_else x r.
Proof. now destruct x as [[|]| | |]. Qed.
Ltac lookup := intros rest ctx i L; destruct i as [|x [|y i]]; [..|exfalso; rewrite !lenN_cons in L; lia];
  match goal with |- _ = or_else ?a ?r => exact (or_nones a r) end.
Lemma lookup name f : In (name, f) field_names -> name <> [] /\ reads name name /\
  forall rest ctx i, lenN i <= 1 -> sc_func (spair sc rest) ctx name i true = or_else (field_fn np flags_debug f i) (sc_func rest ctx name i true).
Proof.
  unfold field_names. cbn [In]. intros I.
  repeat (destruct I as [I|I]; [injection I as <- <-; split; [discriminate|split; [apply name_reads; vm_compute; reflexivity|lookup]]|]). contradiction.
Qed.
Lemma field_texts f v : bytes_ok v -> lenN v < 2 ^ 63 -> field_bytes np f = Ok v -> match width_of f with Some n => lenN v = N.of_nat n | None => True end ->
  (form_of f <> AsSpace -> exists t, field_display np flags_debug f = Ok t /\ text_of (form_of f) v t) /\
  (form_of f <> AsSpace -> exists t, field_abe np f = Ok t /\ forall o s, extends (core_scope o) s -> evaluates s t v).
Proof.
  intros O L B W. split; intros NS.
  - destruct f; try (exfalso; now apply NS); cbn [field_display form_of text_of]; try rewrite B; cbn [obind]; eexists; (split; [reflexivity|]);
      try exact Logic.I; try apply to_string_canonical; try (now apply C44_b64_print); try (now apply abtxt_reads).
    + cbn [field_bytes] in B. apply ok_inj in B as <-. eexists. split; [reflexivity|]. destruct p; cbn; tauto.
    + exists (cut_prefix_nulls v). split; [apply cut_trimmed|]. apply abtxt_reads. destruct (cut_trimmed 0 v) as [[n E] _]. rewrite E in O. unfold cut_prefix_nulls. now apply Forall_app in O.
  - destruct f; try (exfalso; now apply NS); cbn [field_abe]; rewrite B; cbn [obind]; eexists; (split; [reflexivity|]); intros o s X; cbn [width_of] in W;
      try (now apply (bits_evaluates o)); try (apply (uint_abe_evaluates o); try assumption; cbn; tauto); try (now apply (C43_b64_str o)); try (now apply (C43_ab_str o)).
    now apply data_evaluates.
Qed.
Lemma space_texts f : form_of f = AsSpace -> exists t, field_display np flags_debug f = Ok t /\
  forall o, exists n, forall fuel, (n <= fuel)%nat -> space_str fuel o t = Ok (wire_space cs).
Proof.
  intros F. exists (flat_map fmt_segm2 cs). destruct comps_pt as [SP _]. destruct comps_bytes as (W & _). destruct CS as (S1 & S2 & _). split.
  - assert (space_text_of np = Ok (flat_map fmt_segm2 cs)) as E.
    { unfold space_text_of. destruct (get_space np) as [sp| | |]; try discriminate. cbn [or_panic] in SP. apply ok_inj in SP as ->. cbn [obind]. rewrite display_wire by apply S1. reflexivity. }
    destruct f; try discriminate; exact E.
  - intros o. destruct (space_str_display o cs S1 (wire_ok cs W)) as [n E]. exists n. intros fuel H. rewrite E by exact H.
    assert (lenN cs <= 8) as L by (unfold lenN; lia). now rewrite (proj2 (N.leb_le _ _) L).
Qed.
End Fields.
