From Verif Require Import ProofSpace ProofRooted ProofPkt ProofPkt2 ProofTree ProofTestSet ProofStore.
From Verif Require Import Bytes ModelSpace SpecSpace ModelPkt SpecPkt ModelTree SpecTree ModelTestSet SpecTestSet ModelStore SpecStore ModelPred SpecPred ProofPred ProofPred2.
From Verif Require Import PropsPkt PropsTree PropsStore ModelQuery SpecQuery ProofQuery2 ProofQuery3 ModelAbe ModelEval.
From Verif Require Import ModelLns SpecLns ProofLns2 PropsLns ProofHand ModelKey SpecKey ProofKey PropsKey ModelLkKey SpecLkKey ProofLkKey.

(** ** Points made here *)
Lemma wire_bytes cs : space_ok cs -> Forall bytes_ok cs -> bytes_ok (wire_space cs).
Proof.
  intros [F _] B. clear -F B. induction B as [|x cs B0 B IH]; [constructor|]. inversion F as [|? ? C F']; subst. unfold wire_space in *. cbn [flat_map]. apply bytes_ok_app. split; [|now apply IH].
  constructor; [|exact B0]. unfold component_ok in C. unfold byte_ok. lia.
Qed.
Lemma rooted_bytes cs : space_ok cs -> (List.length cs <= 8)%nat -> Forall bytes_ok cs -> bytes_ok (wire_rooted cs).
Proof.
  intros SC L B. destruct cs as [|x cs]; [constructor|]. unfold wire_rooted, rooted_with. constructor; [unfold byte_ok; lia|]. apply bytes_ok_app. split; [|now apply wire_bytes].
  unfold offsets. apply Forall_forall. intros y Y. apply in_map_iff in Y as (i & <- & _). unfold offset.
  destruct SC as [_ W]. set (a := x :: cs) in *. assert (E : wire_space a = wire_space (firstn i a) ++ wire_space (skipn i a)) by (unfold wire_space; rewrite <- flat_map_app, firstn_skipn; reflexivity).
  rewrite E, app_length in W. unfold byte_ok. lia.
Qed.
Lemma link_bytes_ok g dm c ls cs d : bytes_ok g -> bytes_ok dm -> Forall (fun l => bytes_ok (fst l) /\ bytes_ok (snd l)) ls -> space_ok cs -> (List.length cs <= 8)%nat -> Forall bytes_ok cs -> bytes_ok d ->
  bytes_ok (content (PLink g dm c ls (wire_rooted cs) d)).
Proof.
  intros G D L SC L8 B DD. unfold content, unsigned_content, point_body. rewrite !bytes_ok_app. repeat (split || apply be_encode_ok); try assumption.
  - constructor; [unfold byte_ok; lia|]. constructor; [unfold byte_ok; cbn; lia|constructor].
  - clear -L. induction L as [|l ls [A B] L IH]; [constructor|]. cbn [flat_map]. unfold link_bytes at 1. rewrite !bytes_ok_app. auto.
  - now apply rooted_bytes.
  - unfold padding_bytes. apply bytes_ok_repeat. lia.
  - constructor.
Qed.
Lemma net_carries c nh p : point_ok p -> carries (hash c) (net_of c nh p) p.
Proof. intros P. split; [destruct p; reflexivity|]. split; [exact P|reflexivity]. Qed.
Lemma net_at c s nh p : (forall x, bytes_ok (hash c x)) -> lenN nh = 32 -> bytes_ok nh -> point_ok p -> bytes_ok (content p) -> s < 2 ^ 64 -> packet_at (hash c) (s, net_of c nh p) nh p.
Proof.
  intros HB NL NB P B S. split; [|split; [now apply net_carries|exact S]]. cbn [snd]. unfold np_bytes. rewrite seg_net by apply P. split; [reflexivity|]. split; [exact NL|]. split; [exact P|].
  unfold packet. rewrite !bytes_ok_app. auto.
Qed.
Lemma np_of_carries hash nh p : point_ok p -> carries hash (np_of hash nh p) p.
Proof. intros P. split; [destruct p; reflexivity|]. split; [exact P|reflexivity]. Qed.
Lemma wire_has_space cs : space_ok cs -> has_space (wire_rooted cs) cs.
Proof. intros S. split; [exact S|]. destruct cs as [|x cs]; [now right|left]. eexists. reflexivity. Qed.
Lemma wire_honest g dm c ls cs d : space_ok cs -> well_formed (PLink g dm c ls (wire_rooted cs) d).
Proof.
  intros S. split; [|exact Logic.I]. intros rs E. injection E as <-. exists cs. split; [now apply wire_has_space|]. destruct cs; reflexivity.
Qed.

(** The encrypted key is short. *)
Lemma enc_small c kl k pw t : crypto_ok c -> keylib_ok c kl -> lk_key_encrypt c kl k pw = Ok t -> lenN t <= 130 /\ bytes_ok t.
Proof.
  intros CO KO E.
  assert (exists co d, (co = DEFAULT_COST \/ co = INSECURE_COST) /\ argon2d kl pw (pubkey_of c k) co = Some d /\ t = encoded co (pubkey_of c k) (xor_bytes d (key_bytes kl k))) as (co & d & C & A & ->).
  { unfold lk_key_encrypt, encrypt in E. destruct pw as [|x pw].
    - destruct (try_encrypt c kl k [] INSECURE_COST) as [u|] eqn:T; [|discriminate]. injection E as <-. apply (try_encrypt_iff c kl KO) in T as (d & A & ->). exists INSECURE_COST, d. auto.
    - destruct (try_encrypt c kl k (x :: pw) DEFAULT_COST) as [u|] eqn:T; [|discriminate]. injection E as <-. apply (try_encrypt_iff c kl KO) in T as (d & A & ->). exists DEFAULT_COST, d. auto. }
  destruct (pk_ok c kl CO KO k) as [LP BP]. destruct KO as (_ & AO & KB). destruct (AO _ _ _ _ A) as [LD BD]. destruct (KB k) as (LK & BK & _).
  set (x := xor_bytes d (key_bytes kl k)) in *. assert (LX : lenN x = 32) by (unfold x; rewrite xor_len; congruence). assert (BX : bytes_ok x) by now apply xor_ok.
  split; [rewrite (encoded_len co _ x LP LX); destruct C as [-> | ->]; vm_compute; discriminate|].
  assert (AT : Forall (fun y => y < 128) (encoded co (pubkey_of c k) x)).
  { unfold encoded. rewrite !Forall_app. assert (S : forall u, forallb (fun y => y <? 128) u = true -> Forall (fun y => y < 128) u).
    { intros u H. apply Forall_forall. intros y Y. rewrite forallb_forall in H. now apply N.ltb_lt, H. }
    repeat (split; [first [apply ascii_dec|apply ascii_std; assumption|apply S; reflexivity]|]). now apply ascii_std. }
  eapply Forall_impl; [|exact AT]. intros y Y. cbn in Y. unfold byte_ok. lia.
Qed.
Lemma enc_pubkey c kl k pw t : crypto_ok c -> keylib_ok c kl -> lk_key_encrypt c kl k pw = Ok t -> pubkey t = Ok (pubkey_of c k).
Proof. intros CO KO E. exact (proj2 (C74_round_trip c kl k pw t CO KO (or_introl E))). Qed.

(** ** Lookup *)
Section Lookup.
Variable c : crypto.
Hypothesis HL : forall x, lenN (hash c x) = 32.
Variable nh : bytes.
Variable d : db.
Variable l : list stored.
Hypothesis HS : honest_store (hash c) d l.
Variable public_claim : db -> Name -> outcome KErr (option Claim).

Lemma claims_space cs : name_ok cs -> space_ok (claims_of cs) /\ (1 <= List.length (claims_of cs) <= 8)%nat.
Proof. intros NO. destruct (claim_comps_ok cs NO) as [A B]. split; [exact A|]. unfold claims_of. split; [cbn [List.length]; lia|exact B]. Qed.
Lemma private_claim cs n now : name_ok cs -> names cs n -> 2 <= now -> now < 2 ^ 64 ->
  exists n0, forall fuel, (n0 <= fuel)%nat ->
  (exists e nh' p, comes_first (hash c) l (claims_of cs) now e /\ packet_at (hash c) e nh' p /\ get_private_claim fuel d n now = Ok (Some (np_of (hash c) nh' p))) \/
  (nothing_at (hash c) l (claims_of cs) now /\ get_private_claim fuel d n now = Ok None).
Proof.
  intros NO NM N2 N64. destruct (claims_space cs NO) as [SC L8]. destruct (built_by (claims_of cs) now SC L8 ltac:(lia) N64) as (p0 & p1 & P & E1 & E2 & E3 & AS).
  destruct (found (hash c) HL d l HS (claims_of cs) now SC L8 N2 N64 _ _ (limited_asks P _ _ AS) (or_intror eq_refl)) as (n0 & F). exists n0. intros fuel FU. specialize (F fuel FU).
  assert (claim_preds n now = Ok (with_limit P QBranch (add 32 (set_default 32) Equal 0))) as CP.
  { unfold claim_preds. rewrite (claim_space_wire cs n NO NM). cbn [wrap obind]. change (claims_c :: rev cs) with (claims_of cs). rewrite (proj1 (rs_space_wire (claims_of cs))). cbn [or_panic obind].
    unfold from_gdp. rewrite E1. cbn [obind]. rewrite E2. cbn [or_panic wrap obind]. rewrite E3. reflexivity. }
  unfold get_private_claim. rewrite CP. cbn [obind]. exact F.
Qed.
Lemma made cs n tag ptr data : name_ok cs -> names cs n -> link_ok (tag, ptr) -> firstn 8 tag = repeat 0 8 \/ firstn 8 tag = STAMP_MAX -> lenN data <= 1000 ->
  let p := PLink (claim_group n) LNS 0 [(STAMP_MAX ++ skipn 8 tag, ptr)] (wire_rooted (claims_of cs)) data in
  point_ok p /\ claim_new c n STAMP_MAX [(tag, ptr)] data nh = Ok (mkClaim (net_of c nh p) n).
Proof.
  intros NO NM [LT LP] TG LD p. cbn [fst snd] in LT, LP. destruct (claims_space cs NO) as [SC L8].
  pose proof (wire_rooted_ok (claims_of cs) SC (proj2 L8)) as RO. pose proof (rooted_ok_len _ RO) as RL.
  assert (LO : Forall link_ok [(STAMP_MAX ++ skipn 8 tag, ptr)]). { constructor; [|constructor]. split; cbn [fst snd]; [|exact LP]. rewrite lenN_app. change (lenN STAMP_MAX) with 8. unfold lenN in *. rewrite skipn_length. lia. }
  assert (SZ : point_size p <= 65024) by (cbn [p point_size]; rewrite lenN_cons; change (lenN (@nil (bytes * bytes))) with 0; lia).
  assert (PO : point_ok p). { split; [exact SZ|]. cbn [p]. split; [unfold claim_group; destruct (n_type n); reflexivity|]. split; [reflexivity|]. split; [lia|]. split; [exact LO|exact RO]. }
  split; [exact PO|]. unfold claim_new. unfold as_stamp_tag. cbn [fst].
  assert (negb (beqb (firstn 8 tag) (repeat 0 8)) && negb (beqb (firstn 8 tag) STAMP_MAX) = false) as ->. { destruct TG as [-> | ->]; rewrite beqb_refl; [reflexivity|]. apply andb_false_r. }
  rewrite (claim_space_wire cs n NO NM). cbn [obind]. change (claims_c :: rev cs) with (claims_of cs).
  rewrite try_linkpoint_eval by assumption. fold p. apply N.leb_le in SZ. rewrite SZ. cbn [or_panic obind]. change (get_create_stamp (pf (net_of c nh p))) with 0. replace (0 <? be_decode STAMP_MAX) with true by (vm_compute; reflexivity). cbn [negb].
  apply (claim_from_iff (hash c) _ p); [now apply net_carries|]. split; [reflexivity|]. exists cs. split; [|exact NM].
  exists (claim_group n), 0, [(STAMP_MAX ++ skipn 8 tag, ptr)], (wire_rooted (claims_of cs)), data, (lenN (claims_of cs)). split; [reflexivity|]. split; [exact NO|]. split; [reflexivity|]. split; [discriminate|].
  destruct NM as [_ T]. unfold claim_group. split; intros H; [apply T in H; now rewrite H|]. destruct (n_type n); [reflexivity|exfalso; apply H, (proj1 T); reflexivity].
Qed.
(** What a local name means: the claim in the first point at its space. *)
Lemma lookup_local fuel0 cs n now : name_ok cs -> names cs n -> is_local cs -> 2 <= now -> now < 2 ^ 64 ->
  exists n0, (fuel0 <= n0)%nat /\ forall fuel, (n0 <= fuel)%nat ->
  (nothing_at (hash c) l (claims_of cs) now /\ lookup_claim c nh fuel public_claim d n now = Ok None) \/
  (exists e nh' p, comes_first (hash c) l (claims_of cs) now e /\ packet_at (hash c) e nh' p /\
    ((claim_point cs p /\ lookup_claim c nh fuel public_claim d n now = Ok (Some (mkClaim (np_of (hash c) nh' p) n))) \/
     (~ claim_point cs p /\ exists x, lookup_claim c nh fuel public_claim d n now = Err x))).
Proof.
  intros NO NM LO N2 N64. destruct (private_claim cs n now NO NM N2 N64) as (n0 & F). exists (fuel0 + n0)%nat. split; [lia|]. intros fuel FU. specialize (F fuel ltac:(lia)).
  assert (T : n_type n = Local) by now apply NM. unfold lookup_claim. rewrite T. destruct F as [(e & nh' & p & CF & PA & ->)|(NA & ->)]; cbn [obind]; [right|left].
  - exists e, nh', p. split; [exact CF|]. split; [exact PA|]. assert (CA : carries (hash c) (np_of (hash c) nh' p) p) by (apply np_of_carries, PA).
    assert (UN : forall cs' n', claim_point cs' p -> names cs' n' -> cs' = cs /\ n' = n). { intros cs' n' (g & c0 & ls & rs & dt & k & -> & NO' & -> & _) N'. destruct CF as (_ & (ix & (nx & px & PX & IX) & _ & _ & IS & _) & _). destruct (packet_at_inj (hash c) _ _ _ _ _ PA PX) as [<- <-].
      destruct IX as (c1 & HS1 & ->). cbn [i_space] in IS. subst c1. destruct (claims_space cs' NO') as [SC' _].
      assert (HS2 : has_space (rooted_with k (claims_of cs')) (claims_of cs')) by (split; [exact SC'|left; now exists k]). pose proof (has_space_inj _ _ _ HS1 HS2) as Q. injection Q as Q. apply (f_equal (@rev _)) in Q. rewrite !rev_involutive in Q. subst cs'. split; [reflexivity|].
      destruct NM as [M1 M2], N' as [M3 M4]. destruct n as [a b], n' as [a' b']. cbn in *. f_equal; [congruence|]. destruct b, b'; try reflexivity; exfalso; assert (X : Local = Local) by reflexivity; [apply M4, M2 in X|apply M2, M4 in X]; discriminate X. }
    destruct (proj2 (C49_claim_exact (hash c) _ p CA)) as [[cl E]|[x E]]; rewrite E; cbn [wrap obind].
    + left. apply (claim_from_iff _ _ _ _ CA) in E as (E & cs' & CP & N'). destruct (UN _ _ CP N') as [-> EN]. split; [exact CP|]. destruct cl as [q m]. cbn in E, EN. subst. reflexivity.
    + right. split; [|eauto]. intros CP. assert (X : claim_from (np_of (hash c) nh' p) = Ok (mkClaim (np_of (hash c) nh' p) n)) by (apply (claim_from_iff _ _ _ _ CA); split; [reflexivity|exists cs; auto]). congruence.
  - split; [exact NA|]. destruct (made cs n (repeat 255 16) (repeat 0 32) [] NO NM) as [_ E]; [split; reflexivity|now right|discriminate|]. rewrite E. reflexivity.
Qed.
Lemma enckey_local cs n now : name_ok cs -> names cs n -> is_local cs -> 2 <= now -> now < 2 ^ 64 ->
  exists n0, forall fuel, (n0 <= fuel)%nat ->
  (nothing_at (hash c) l (claims_of cs) now -> lookup_enckey c nh fuel public_claim d n now = Ok None /\ lookup_claim c nh fuel public_claim d n now = Ok None) /\
  (forall e nh' p r, comes_first (hash c) l (claims_of cs) now e -> packet_at (hash c) e nh' p -> claim_point cs p -> read_enckey (point_data p) = Ok r ->
    lookup_enckey c nh fuel public_claim d n now = Ok (Some r)) /\
  (forall e nh' p, comes_first (hash c) l (claims_of cs) now e -> packet_at (hash c) e nh' p -> ~ claim_point cs p -> exists x, lookup_enckey c nh fuel public_claim d n now = Err x).
Proof.
  intros NO NM LO N2 N64. destruct (lookup_local 0 cs n now NO NM LO N2 N64) as (n0 & _ & F). exists n0. intros fuel FU. destruct (claims_space cs NO) as [SC L8]. unfold lookup_enckey.
  destruct (F fuel FU) as [[NA E]|(e & nh' & p & CF & PA & E)].
  - rewrite E. cbn [obind]. split; [auto|]. split; intros e nh' p; [intros r|]; intros (IN & PR & _); destruct (NA e IN PR).
  - split; [intros NA; destruct CF as (IN & PR & _); destruct (NA e IN PR)|].
    assert (U : forall e2 nh2 p2, comes_first (hash c) l (claims_of cs) now e2 -> packet_at (hash c) e2 nh2 p2 -> p2 = p). { intros e2 nh2 p2 C2 P2. pose proof (first_unique (hash c) HL d l HS (claims_of cs) now e e2 CF C2) as <-. now destruct (packet_at_inj (hash c) _ _ _ _ _ PA P2) as [_ <-]. }
    destruct E as [[CP E]|[NC [x E]]]; rewrite E; cbn [obind cl_pkt].
    + split; [|intros e2 nh2 p2 C2 P2 NC; rewrite (U _ _ _ C2 P2) in NC; contradiction]. intros e2 nh2 p2 r C2 P2 _ R. rewrite (U _ _ _ C2 P2) in R.
      assert (D : get_data (pf (np_of (hash c) nh' p)) = point_data p) by (destruct p; reflexivity). rewrite D, R. reflexivity.
    + split; [intros e2 nh2 p2 r C2 P2 CP _; rewrite (U _ _ _ C2 P2) in CP; contradiction|]. eauto.
Qed.
End Lookup.

(** ** A new key *)
Lemma at_private hash e nh' cs0 t0 ls dt : packet_at hash e nh' (PLink (repeat 0 32) LNS t0 ls (wire_rooted cs0) dt) -> space_ok cs0 -> forall now, t0 < now -> private_at hash cs0 now e.
Proof. intros PA SC now LT. eexists. split; [eexists; eexists; split; [exact PA|]; exists cs0; split; [now apply wire_has_space|reflexivity]|]. repeat split. exact LT. Qed.
Lemma not_stored hash d l new cs0 t0 ls dt : honest_store hash d l -> never_at hash l cs0 -> space_ok cs0 -> no_collision hash l new -> In (PLink (repeat 0 32) LNS t0 ls (wire_rooted cs0) dt) new ->
  existsb (beqb (hash (content (PLink (repeat 0 32) LNS t0 ls (wire_rooted cs0) dt)))) (hashes l) = false.
Proof.
  set (q := PLink _ _ _ _ _ _). intros HS NA SC COL IQ. apply Bool.not_true_is_false. intros X. apply existsb_exists in X as (h & IN & B). apply beqb_eq in B. subst h.
  apply in_map_iff in IN as (e & E & IN). destruct (stored_honest hash d l HS e IN) as (nh' & p & PA & _). assert (X : p = q). { apply COL; [left; exists e, nh'; auto|right; exact IQ|]. destruct PA as (_ & (_ & _ & H) & _). rewrite <- H. exact E. }
  subst p. apply (NA (t0 + 1) e IN). apply (at_private hash e nh' cs0 t0 ls dt PA SC). lia.
Qed.
Lemma bb b : forallb (fun x => x <? 256) b = true -> bytes_ok b.
Proof. intros H. apply Forall_forall. intros x I. rewrite forallb_forall in H. apply N.ltb_lt. now apply H. Qed.
Lemma save_stamp f now d ps d' ps' a b : save f now d ps = (d', ps', Ok (a, b)) -> a = save_start now (log_t d).
Proof.
  unfold save. set (s := save_start now (log_t d)). destruct (hash_pass (f_hash f) 0 s (hash_t d) ps) as [ps1 [[h at1]| | |]]; try discriminate.
  destruct (_ =? 0); [congruence|]. destruct (log_pass _ _ _ _ _); try discriminate. destruct (tree_pass _ _ _ _ _) as [ps2 [[t at']| | |]]; try discriminate. destruct (f_commit f); try discriminate. congruence.
Qed.

Section New.
Variable c : crypto.
Variable kl : keylib c.
Hypothesis CO : crypto_ok c.
Hypothesis KO : keylib_ok c kl.
Hypothesis HB : forall x, bytes_ok (hash c x).
Variable nh : bytes.
Hypothesis NL : lenN nh = 32.
Hypothesis NB : bytes_ok nh.
Variable public_claim : db -> Name -> outcome KErr (option Claim).
Variable d : db.
Variable l : list stored.
Hypothesis HS : honest_store (hash c) d l.
Variable cs : list bytes.
Variable n : Name.
Hypothesis NO : name_ok cs.
Hypothesis NM : names cs n.
Hypothesis LO : is_local cs.
Hypothesis CB : Forall bytes_ok cs.
Variable k : skey c.
Variable pw enc : bytes.
Hypothesis EN : lk_key_encrypt c kl k pw = Ok enc.
Let pk := pubkey_of c k.
Let HL : forall x, lenN (hash c x) = 32 := proj1 CO.

Lemma claim_made : point_ok (key_claim cs pk enc) /\
  claim_new c n STAMP_MAX [(repeat 0 9 ++ PUBKEY_TAG, pk)] enc nh = Ok (mkClaim (net_of c nh (key_claim cs pk enc)) n).
Proof.
  destruct (enc_small c kl k pw enc CO KO EN) as [LE _]. destruct (pk_ok c kl CO KO k) as [LP _].
  pose proof (made c HL nh d public_claim cs n (repeat 0 9 ++ PUBKEY_TAG) pk enc NO NM) as M. cbn zeta in M.
  assert (G : claim_group n = repeat 0 32) by (unfold claim_group; now rewrite (proj2 (proj2 NM) LO)). rewrite G in M.
  apply M; [split; [reflexivity|exact LP]|now left|lia].
Qed.
Lemma entries_space : space_ok (entries_of pk) /\ (1 <= List.length (entries_of pk) <= 8)%nat /\ by_tag_space PUBKEY_TAG pk = Ok (wire_space (entries_of pk)) /\ Forall bytes_ok (entries_of pk).
Proof.
  destruct (pk_ok c kl CO KO k) as [LP BP]. fold pk in LP, BP. assert (LP' : List.length pk = 32%nat) by (unfold lenN in LP; lia).
  assert (CP : component_ok pk) by (unfold component_ok; lia).
  assert (W : wire_space (entries_of pk) = ((6 :: str "by-tag") ++ lenN PUBKEY_TAG :: PUBKEY_TAG) ++ lenN pk :: pk).
  { unfold entries_of, wire_space. cbn [flat_map]. rewrite app_nil_r. reflexivity. }
  split; [|split; [cbn; lia|split]].
  - split; [repeat (constructor; [unfold component_ok; vm_compute; split; discriminate|]); constructor; [exact CP|constructor]|]. rewrite W, app_length. cbn [List.length]. rewrite LP'. vm_compute. discriminate.
  - unfold by_tag_space. assert (E1 : try_push (6 :: str "by-tag") PUBKEY_TAG = Ok ((6 :: str "by-tag") ++ lenN PUBKEY_TAG :: PUBKEY_TAG)) by (vm_compute; reflexivity). rewrite E1. cbn [obind].
    assert (E2 : try_push ((6 :: str "by-tag") ++ lenN PUBKEY_TAG :: PUBKEY_TAG) pk = Ok (wire_space (entries_of pk))). { apply try_push_iff. split; [exact CP|]. split; [rewrite LP; vm_compute; discriminate|exact W]. }
    rewrite E2. reflexivity.
  - unfold entries_of, bytes_ok. repeat (constructor; [repeat (constructor; [reflexivity|]); constructor|]). constructor; [exact BP|constructor].
Qed.
Lemma entry_made now : now < 2 ^ 64 -> point_ok (key_entry (hash c) now cs pk enc) /\
  entry_point c nh now (PUBKEY_TAG, pk, [(repeat 255 8 ++ repeat 0 8, hash c (content (key_claim cs pk enc)))]) = Ok (net_of c nh (key_entry (hash c) now cs pk enc)).
Proof.
  intros NW. destruct entries_space as (SC & L8 & E & _). pose proof (wire_rooted_ok (entries_of pk) SC (proj2 L8)) as RO. pose proof (rooted_ok_len _ RO) as RL.
  assert (LK : Forall link_ok [(repeat 255 8 ++ repeat 0 8, hash c (content (key_claim cs pk enc)))]) by (constructor; [split; [reflexivity|apply HL]|constructor]).
  assert (SZ : point_size (key_entry (hash c) now cs pk enc) <= 65024) by (unfold key_entry; cbn [point_size]; rewrite lenN_cons; change (lenN (@nil (bytes * bytes))) with 0; change (lenN (@nil N)) with 0; lia).
  split; [split; [exact SZ|]; split; [reflexivity|]; split; [reflexivity|]; split; [exact NW|]; split; [exact LK|exact RO]|].
  unfold entry_point. rewrite E. cbn [wrap obind]. rewrite (try_into_rooted_wire _ SC), firstn_all2 by lia. cbn [or_panic obind].
  rewrite try_linkpoint_eval by assumption. match goal with |- context[?a <=? 65024] => replace (a <=? 65024) with true by (symmetry; apply N.leb_le; exact SZ) end. reflexivity.
Qed.
Lemma no_entry now : 2 <= now -> now < 2 ^ 64 -> never_at (hash c) l (entries_of pk) ->
  exists n0, forall fuel, (n0 <= fuel)%nat -> ptr_lookup_entry fuel d PUBKEY_TAG pk now = Ok None.
Proof.
  intros N2 N64 NA. destruct entries_space as (SC & L8 & E & _). destruct (built_by (entries_of pk) now SC L8 ltac:(lia) N64) as (p0 & p1 & P & E1 & E2 & E3 & AS).
  destruct (found (hash c) HL d l HS (entries_of pk) now SC L8 N2 N64 _ _ AS (or_introl eq_refl)) as (n0 & F). exists n0. intros fuel FU.
  unfold ptr_lookup_entry. rewrite E. cbn [wrap obind]. rewrite E1. cbn [wrap obind]. rewrite E2. cbn [wrap obind]. rewrite E3. cbn [or_panic obind].
  destruct (F fuel FU) as [(e & _ & _ & (IN & PR & _) & _)|[_ ->]]; [destruct (NA now e IN PR)|reflexivity].
Qed.

(** The points a new key is saved as. *)
Lemma points_made t : 2 <= t_old t -> t_old t < 2 ^ 64 -> 2 <= t_entry t -> t_entry t < 2 ^ 64 -> t_now t < 2 ^ 64 ->
  never_at (hash c) l (claims_of cs) -> never_at (hash c) l (entries_of pk) ->
  exists n0, forall fuel, (n0 <= fuel)%nat ->
  claim_points c nh fuel public_claim d (mkClaim (net_of c nh (key_claim cs pk enc)) n) t =
  Ok (Some [net_of c nh (key_claim cs pk enc); net_of c nh (key_entry (hash c) (t_now t) cs pk enc)]).
Proof.
  intros O1 O2 E1 E2 TN NC NE. destruct (enckey_local c HL nh d l HS public_claim cs n (t_old t) NO NM LO O1 O2) as (n1 & F1).
  destruct (no_entry (t_entry t) E1 E2 NE) as (n2 & F2). exists (n1 + n2)%nat. intros fuel FU.
  destruct (F1 fuel ltac:(lia)) as (A & _). destruct (A (NC (t_old t))) as [_ A2]. unfold claim_points. cbn [cl_name cl_pkt]. rewrite A2. cbn [obind].
  set (cl := mkClaim (net_of c nh (key_claim cs pk enc)) n).
  assert (G : claim_grp cl = None) by reflexivity. assert (K : claim_pubkey cl = Some pk) by reflexivity. rewrite G, K.
  change (wanted GROUP_TAG None None ++ wanted PUBKEY_TAG None (Some pk)) with [(PUBKEY_TAG, pk)]. cbn [omap]. rewrite (F2 fuel ltac:(lia)). cbn [obind].
  unfold saved_entries. cbn [option_map]. assert (U : claim_until cl = Ok (repeat 255 8)) by reflexivity. rewrite U, G, K. cbn [obind wrap].
  unfold entry_for. cbn [app]. unfold found_entry. cbn [find]. rewrite !beqb_refl. cbn [andb option_map]. unfold lookup_links. cbn [filter omap].
  change (stamp_tag (repeat 255 8) (repeat 0 8)) with (repeat 255 8 ++ repeat 0 8). change (np_hash (cl_pkt cl)) with (hash c (content (key_claim cs pk enc))).
  rewrite (proj2 (entry_made (t_now t) TN)). reflexivity.
Qed.

Lemma claim_bytes : bytes_ok (content (key_claim cs pk enc)).
Proof.
  destruct (pk_ok c kl CO KO k) as [_ BP]. destruct (enc_small c kl k pw enc CO KO EN) as [_ BE]. destruct (claim_comps_ok cs NO) as [SC L8].
  apply link_bytes_ok; try assumption; try lia.
  - now apply bytes_ok_repeat.
  - apply (bb LNS); reflexivity.
  - constructor; [|constructor]. split; [apply bb; reflexivity|exact BP].
  - unfold claims_of. constructor; [apply bb; reflexivity|]. apply Forall_rev, CB.
Qed.
Lemma entry_bytes now : bytes_ok (content (key_entry (hash c) now cs pk enc)).
Proof.
  destruct entries_space as (SC & L8 & _ & B). apply link_bytes_ok; try assumption; try lia.
  - now apply bytes_ok_repeat.
  - apply (bb LNS); reflexivity.
  - constructor; [|constructor]. split; [apply bb; reflexivity|apply HB].
  - constructor.
Qed.

Lemma created efuel s nm t : name_of_text efuel s (match nm with Some v => v | None => str "me:local" end) = Ok n -> (List.length cs <= 2)%nat ->
  sane (t_find t) -> sane (t_check t) -> sane (t_now t) -> sane (t_old t) -> sane (t_entry t) -> sane (t_save t) ->
  Forall (fun e => fst e < 2 ^ 63) l -> ~ In (t_save t) (map fst l) -> lenN l + 2 < 2 ^ 32 ->
  never_at (hash c) l (claims_of cs) -> never_at (hash c) l (entries_of pk) ->
  no_collision (hash c) l [key_claim cs pk enc; key_entry (hash c) (t_now t) cs pk enc] ->
  exists n0 d' a, (forall fuel, (n0 <= fuel)%nat -> lk_key c kl nh fuel public_claim no_faults efuel s d (Some pw) nm true k t = (d', Ok k)) /\
    t_save t <= a <= 2 ^ 63 /\
    honest_store (hash c) d' (l ++ number a [net_of c nh (key_claim cs pk enc); net_of c nh (key_entry (hash c) (t_now t) cs pk enc)]).
Proof.
  intros NT C2 SF SK SN SO SE SS LS TS LL NC NE COL.
  set (q1 := key_claim cs pk enc) in *. set (q2 := key_entry (hash c) (t_now t) cs pk enc) in *.
  destruct (enckey_local c HL nh d l HS public_claim cs n (t_find t) NO NM LO (proj1 SF) ltac:(unfold sane in *; lia)) as (n1 & F1).
  destruct (enckey_local c HL nh d l HS public_claim cs n (t_check t) NO NM LO (proj1 SK) ltac:(unfold sane in *; lia)) as (n2 & F2).
  destruct (points_made t (proj1 SO) ltac:(unfold sane in *; lia) (proj1 SE) ltac:(unfold sane in *; lia) ltac:(unfold sane in *; lia) NC NE) as (n3 & F3). fold q1 q2 in F3.
  destruct claim_made as [P1 M1]. fold q1 in P1, M1. destruct (entry_made (t_now t)) as [P2 _]; [unfold sane in *; lia|]. fold q2 in P2.
  pose proof HS as [(R & _ & V) W].
  set (items := map (fun p => (p, Pending)) [net_of c nh q1; net_of c nh q2]).
  assert (IV : items_valid (hash c) items) by (constructor; [eexists; now apply net_carries|constructor; [eexists; now apply net_carries|constructor]]).
  assert (NLast : log_last (log_t d) <> Some (t_save t)).
  { intros X. destruct R as (R1 & _ & R3 & _). apply log_last_max in X as [[b X] _]; [|rewrite R3, map_map; exact R1]. apply TS. rewrite R3 in X. apply in_map_iff in X as (e & E & IN). injection E as E _. rewrite <- E. now apply in_map. }
  destruct (save_total (hash c) (t_save t) d l items R IV NLast) as (d' & ps' & [a b] & SV).
  pose proof (save_stamp _ _ _ _ _ _ _ _ SV) as SA. pose proof (save_ok _ _ _ _ _ _ _ _ _ R SV) as (_ & GE & _ & R' & _).
  destruct (claim_comps_ok cs NO) as [SC L8]. change (claims_c :: rev cs) with (claims_of cs) in SC, L8. destruct entries_space as (SC2 & L82 & _ & _).
  assert (X1 : existsb (beqb (hash c (content q1))) (hashes l) = false) by (apply (not_stored (hash c) d l [q1; q2]); cbn; auto).
  assert (X2 : existsb (beqb (hash c (content q2))) (hashes l) = false) by (apply (not_stored (hash c) d l [q1; q2]); cbn; auto).
  assert (X3 : beqb (hash c (content q2)) (hash c (content q1)) = false).
  { apply Bool.not_true_is_false. intros X. apply beqb_eq in X. apply COL in X; [|right; cbn; auto..]. injection X as X _. unfold sane in SN. lia. }
  assert (EX : snd (expected (hashes l) items) = [net_of c nh q1; net_of c nh q2]).
  { unfold items. cbn [map expected]. change (np_hash (net_of c nh q1)) with (hash c (content q1)). change (np_hash (net_of c nh q2)) with (hash c (content q2)). rewrite X1. cbn [existsb]. rewrite X3, X2. reflexivity. }
  cbn zeta in R'. rewrite EX in R'.
  assert (AB : t_save t <= a <= 2 ^ 63).
  { split; [exact GE|]. rewrite SA. unfold save_start. destruct (log_last (log_t d)) as [x|] eqn:LX; [|unfold sane in SS; lia]. destruct R as (R1 & _ & R3 & _). apply log_last_max in LX as [[y LX] _]; [|rewrite R3, map_map; exact R1].
    rewrite R3 in LX. apply in_map_iff in LX as (e & E & IN). injection E as E _. rewrite Forall_forall in LS. specialize (LS e IN). unfold sane in SS. destruct (t_save t <? x); lia. }
  exists (n1 + n2 + n3)%nat, d', a. split; [|split; [exact AB|]].
  - intros fuel FU. unfold lk_key. rewrite NT. cbn [wrap]. destruct (F1 fuel ltac:(lia)) as (A1 & _). destruct (A1 (NC (t_find t))) as [-> _]. rewrite EN. cbn [wrap].
    unfold setup_special_keyclaim. assert (T : n_type n = Local) by now apply NM. rewrite T. destruct (F2 fuel ltac:(lia)) as (A2 & _). destruct (A2 (NC (t_check t))) as [_ ->].
    unfold new_claim. rewrite (enc_pubkey c kl k pw enc CO KO EN). cbn [wrap obind]. fold pk. rewrite M1. cbn [wrap obind cl_name]. rewrite (proj1 NM).
    assert (FC : Forall component_ok (rev cs)) by (apply Forall_rev, NO). rewrite to_array_wire by (try exact FC; rewrite rev_length; destruct NO as (_ & ? & _); lia). cbn [wrap obind].
    destruct (N.ltb_spec 2 (lenN (rev cs))) as [H|_]; [unfold lenN in H; rewrite rev_length in H; lia|].
    unfold save_private_claim. rewrite (F3 fuel ltac:(lia)). fold items. rewrite SV. reflexivity.
  - assert (PA1 : packet_at (hash c) (a, net_of c nh q1) nh q1) by (apply net_at; try assumption; [apply claim_bytes|unfold sane in *; lia]).
    assert (PA2 : packet_at (hash c) (a + 1, net_of c nh q2) nh q2) by (apply net_at; try assumption; [apply entry_bytes|unfold sane in *; lia]).
    split; [split; [exact R'|]; split|].
    + unfold lenN in LL |- *. rewrite app_length. cbn [number List.length]. lia.
    + apply Forall_app. split; [exact V|]. constructor; [eauto|]. constructor; [eauto|constructor].
    + apply Forall_app. split; [exact W|]. constructor; [exists nh, q1; split; [exact PA1|now apply wire_honest]|]. constructor; [exists nh, q2; split; [exact PA2|now apply wire_honest]|constructor].
Qed.
End New.
