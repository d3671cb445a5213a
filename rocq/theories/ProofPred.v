From Verif Require Import Bytes ModelSpace SpecSpace ProofSpace ProofRooted.
From Verif Require Import ModelPkt SpecPkt ProofPkt ProofPkt2 ModelTree SpecTree ProofTree.
From Verif Require Import ModelTestSet SpecTestSet ProofTestSet ModelPred SpecPred.
#[global] Arguments N.pow : simpl never.

Lemma width_gt f : 1 < field_width f. Proof. destruct f; now vm_compute. Qed.
Lemma width_lt f : field_width f < 2 ^ 32. Proof. destruct f; now vm_compute. Qed.
Lemma field_eqb_eq a b : field_eqb a b = true <-> a = b.
Proof. destruct a, b; cbn; split; intros H; try congruence; try discriminate. apply N.eqb_eq in H. congruence. injection H as ->. apply N.eqb_refl. Qed.
Lemma field_eqb_refl f : field_eqb f f = true. Proof. now apply field_eqb_eq. Qed.
Lemma qscope_eqb_eq a b : qscope_eqb a b = true <-> a = b. Proof. destruct a, b; cbn; split; congruence. Qed.

(** ** Packets as the tests see them *)
Definition np_of (hash : bytes -> bytes) (nh : bytes) (p : point) : NetPktParts := mkNetParts nh (hash (content p)) (parts_of p).
Definition V (hash : bytes -> bytes) (nh : bytes) (p : point) (f : Field) : N := field_val f (np_of hash nh p).

Lemma view_packet hash b nh p : (forall x, lenN (hash x) = 32) -> packet_of hash b nh p -> view b = Ok (np_of hash nh p).
Proof.
  intros HL (-> & Hn & Hp & _). pose (c := mkCrypto hash unit (fun _ => []) (fun _ _ => []) (fun _ _ _ => true)).
  destruct (packet_fields c nh p [] HL Hn Hp) as (A & B & C). change (ModelPkt.hash c) with hash in *.
  rewrite app_nil_r in *. unfold view. rewrite A, B, C. reflexivity.
Qed.

Lemma bytes_ok_app_inv a b : bytes_ok (a ++ b) -> bytes_ok a /\ bytes_ok b.
Proof. unfold bytes_ok. apply Forall_app. Qed.
Lemma packet_bytes hash b nh p : packet_of hash b nh p -> bytes_ok nh /\ bytes_ok (hash (content p)) /\ bytes_ok (content p).
Proof. intros (-> & _ & _ & B). unfold packet in B. apply bytes_ok_app_inv in B as [B1 B2]. apply bytes_ok_app_inv in B2 as [B2 B3]. auto. Qed.
Lemma be_lt k b : bytes_ok b -> lenN b <= k -> be_decode b < 2 ^ (8 * k).
Proof.
  intros B L. eapply N.lt_le_trans; [apply (be_decode_bound _ B)|]. change 256 with (2 ^ 8). rewrite <- N.pow_mul_r.
  apply N.pow_le_mono_r; lia.
Qed.
Lemma bytes_ok_slice i j b : bytes_ok b -> bytes_ok (sliceN i j b).
Proof. intros H. unfold sliceN. now apply bytes_ok_takeN, bytes_ok_dropN. Qed.
Lemma content_bytes p : bytes_ok (content p) ->
  match p with
  | PLink g dm _ _ rs _ => bytes_ok g /\ bytes_ok dm /\ bytes_ok rs
  | PKey g dm _ _ rs _ pk _ => bytes_ok g /\ bytes_ok dm /\ bytes_ok rs /\ bytes_ok pk
  | _ => True
  end.
Proof.
  destruct p as [d|d|g dm c ls rs d|g dm c ls rs d pk sg]; auto;
    unfold content, unsigned_content, point_body; rewrite !bytes_ok_app; tauto.
Qed.
Lemma nh_num_slice nh i j : nh_num nh i j = be_decode (sliceN (N.of_nat i) (N.of_nat j) nh).
Proof. unfold nh_num, sliceN, takeN, dropN. f_equal. f_equal; [lia|]. now rewrite Nat2N.id. Qed.
Lemma nth_slice nh : lenN nh = 32 -> nth 3 nh 0 = nh_num nh 3 4.
Proof.
  intros L. unfold nh_num. destruct nh as [|a [|b [|c [|d nh]]]]; try (vm_compute in L; discriminate). cbn. reflexivity.
Qed.


Section Pk.
Variable hash : bytes -> bytes.
Hypothesis HL : forall x, lenN (hash x) = 32.

Lemma zero_small w : 0 < 2 ^ w. Proof. apply pow2_pos. Qed.
Lemma V_small b nh p f : packet_of hash b nh p -> V hash nh p f < 2 ^ field_width f.
Proof.
  intros PK. destruct (packet_bytes _ _ _ _ PK) as (Bn & Bh & Bc). destruct PK as (_ & Ln & Hp & _).
  pose proof (content_bytes p Bc) as CB. pose proof (content_len_le p Hp) as CL.
  assert (forall i j, i <= j -> j <= 32 -> be_decode (sliceN i j nh) < 2 ^ (8 * (j - i))) as SL.
  { intros i j L1 L2. apply be_lt; [now apply bytes_ok_slice|]. rewrite lenN_sliceN; lia. }
  assert (point_size p <= 65024) as PS by apply Hp.
  unfold V. destruct f; cbn [field_val np_of net_header np_hash point_parts parts_of fields pkt_header field_width]; try apply zero_small.
  - rewrite nth_slice, nh_num_slice by assumption. exact (SL 3 4 ltac:(lia) ltac:(lia)).
  - exact (SL 4 8 ltac:(lia) ltac:(lia)).
  - exact (SL 8 16 ltac:(lia) ltac:(lia)).
  - exact (SL 16 20 ltac:(lia) ltac:(lia)).
  - exact (SL 20 24 ltac:(lia) ltac:(lia)).
  - exact (SL 24 28 ltac:(lia) ltac:(lia)).
  - exact (SL 28 32 ltac:(lia) ltac:(lia)).
  - apply (be_lt 32); [assumption|rewrite HL; lia].
  - destruct p; reflexivity.
  - rewrite netpkt_size_eq by exact PS. rewrite <- content_len by assumption. change (2 ^ 16) with 65536. lia.
  - destruct p as [d|d|g dm c ls rs d|g dm c ls rs d pk sg]; cbn [fields_of s_pubkey]; try apply zero_small.
    apply (be_lt 32); [tauto|]. destruct Hp as (_ & _ & _ & _ & _ & _ & -> & _). lia.
  - destruct p as [d|d|g dm c ls rs d|g dm c ls rs d pk sg]; cbn [fields_of parts_lph head lph_of group]; try apply zero_small.
    + apply (be_lt 32); [tauto|]. destruct Hp as (_ & -> & _). lia.
    + apply (be_lt 32); [tauto|]. destruct Hp as (_ & -> & _). lia.
  - destruct p as [d|d|g dm c ls rs d|g dm c ls rs d pk sg]; cbn [fields_of parts_lph head lph_of domain]; try apply zero_small.
    + apply (be_lt 16); [tauto|]. destruct Hp as (_ & _ & -> & _). lia.
    + apply (be_lt 16); [tauto|]. destruct Hp as (_ & _ & -> & _). lia.
  - destruct p as [d|d|g dm c ls rs d|g dm c ls rs d pk sg]; cbn [fields_of get_create_stamp head lph_of create_stamp]; try apply zero_small.
    + apply Hp.
    + apply Hp.
  - assert (forall rs, bytes_ok rs -> rs_depth rs < 2 ^ 8) as RD.
    { intros [|x rs] B; [apply zero_small|]. inversion B; subst. assumption. }
    destruct p as [d|d|g dm c ls rs d|g dm c ls rs d pk sg]; cbn [fields_of get_depth tail rspace]; try apply zero_small; apply RD; tauto.
  - change (2 ^ 16) with 65536. destruct p as [d|d|g dm c ls rs d|g dm c ls rs d pk sg]; cbn [fields_of get_links tail links point_size] in *; try (unfold lenN; cbn; lia); lia.
  - change (2 ^ 16) with 65536. destruct p as [d|d|g dm c ls rs d|g dm c ls rs d pk sg]; cbn [fields_of get_data tail tdata point_size] in *; lia.
Qed.

Lemma num_field_V nh p f : point_ok p -> lenN nh = 32 -> num_kind f ->
  num_field hash f nh p = if N.land (type_byte p) (field_pkts f) =? field_pkts f then Some (V hash nh p f) else None.
Proof.
  intros Hp Ln K. assert (point_size p <= 65024) as PS by apply Hp. unfold V.
  assert (netpkt_size (header_of p) = lenN (packet hash nh p)) as SZ.
  { rewrite netpkt_size_eq by exact PS. rewrite <- content_len by assumption. unfold packet. rewrite !lenN_app, HL, Ln. lia. }
  assert (forall rs, declared_depth rs = rs_depth rs) as DD by (intros [|? ?]; reflexivity).
  assert (forall i j k l, N.of_nat i = k -> N.of_nat j = l -> nh_num nh i j = be_decode (sliceN k l nh)) as NN by (intros; subst; apply nh_num_slice).
  destruct f; try contradiction; cbn [field_val np_of net_header np_hash point_parts parts_of fields pkt_header header_of point_type field_pkts num_field];
    try rewrite nth_slice by assumption;
    try (rewrite (NN 4%nat 8%nat 4 8) by reflexivity); try (rewrite (NN 8%nat 16%nat 8 16) by reflexivity);
    try (rewrite (NN 16%nat 20%nat 16 20) by reflexivity); try (rewrite (NN 20%nat 24%nat 20 24) by reflexivity);
    try (rewrite (NN 24%nat 28%nat 24 28) by reflexivity); try (rewrite (NN 28%nat 32%nat 28 32) by reflexivity);
    try rewrite SZ;
    destruct p as [d|d|g dm c ls rs d|g dm c ls rs d pk sg]; cbn [type_byte]; try reflexivity.
Qed.

(** ** Sets *)
Definition sets_ok (P : PktPredicates) : Prop :=
  (forall f, num_kind f -> set_ok (field_width f) (p_sets P f) /\ has_any (field_width f) (p_sets P f) = true) /\
  bound_ok 64 (p_recv P).
Definition acc (P : PktPredicates) (recv : N) (nh : bytes) (p : point) : Prop :=
  (forall f, num_kind f -> member (p_sets P f) (V hash nh p f) = true) /\ bound_test (p_recv P) recv = true.
Definition valid (recv : N) (nh : bytes) (p : point) : Prop := recv < 2 ^ 64 /\ exists b, packet_of hash b nh p.
Definition same_rest (P P' : PktPredicates) : Prop := p_limits P' = p_limits P /\ p_prefix P' = p_prefix P.
Definition shrinks (P P' : PktPredicates) : Prop :=
  forall f u, num_kind f -> u < 2 ^ field_width f -> member (p_sets P' f) u = true -> member (p_sets P f) u = true.
Definition step (P : PktPredicates) (o : outcome PredErr PktPredicates) (C : N -> bytes -> point -> Prop) : Prop :=
  match o with
  | Ok P' => sets_ok P' /\ same_rest P P' /\ shrinks P P' /\
             forall r nh p, valid r nh p -> (acc P' r nh p <-> acc P r nh p /\ C r nh p)
  | Err _ => forall r nh p, valid r nh p -> acc P r nh p -> ~ C r nh p
  | _ => False
  end.
Lemma step_bind P o C k D :
  step P o C -> (forall P', o = Ok P' -> sets_ok P' -> step P' (k P') D) ->
  step P (obind o k) (fun r nh p => C r nh p /\ D r nh p).
Proof.
  intros S1 S2. destruct o as [P'|e| |]; cbn [obind step] in *; try contradiction.
  - destruct S1 as (OK & (L & X) & H1 & S1). specialize (S2 P' eq_refl OK). destruct (k P') as [P2|e| |]; cbn [step] in *; try contradiction.
    + destruct S2 as (OK2 & (L2 & X2) & H2 & S2). split; [exact OK2|]. split; [split; congruence|]. split; [unfold shrinks in *; eauto|]. intros r nh p VA. rewrite S2, S1 by exact VA. tauto.
    + intros r nh p VA A [HC HD]. apply (S2 r nh p VA); [|exact HD]. apply S1; auto.
  - intros r nh p VA A [HC HD]. exact (S1 r nh p VA A HC).
Qed.
Lemma step_weaken P o (C D : N -> bytes -> point -> Prop) :
  step P o C -> (forall r nh p, valid r nh p -> (C r nh p <-> D r nh p)) -> step P o D.
Proof.
  intros S E. destruct o; cbn [step] in *; try contradiction.
  - destruct S as (A & B & H & S). split; [exact A|]. split; [exact B|]. split; [exact H|]. intros r nh p VA. rewrite S by exact VA. rewrite E by exact VA. reflexivity.
  - intros r nh p VA A X. apply (S r nh p VA A). now apply E.
Qed.

Lemma with_set_same P f s : p_sets (with_set P f s) f = s.
Proof. cbn. now rewrite field_eqb_refl. Qed.
Lemma with_set_other P f g s : g <> f -> p_sets (with_set P f s) g = p_sets P g.
Proof. intros H. cbn. destruct (field_eqb g f) eqn:E; [|reflexivity]. apply field_eqb_eq in E. contradiction. Qed.
Lemma valid_V r nh p f : valid r nh p -> V hash nh p f < 2 ^ field_width f.
Proof. intros (_ & b & PK). exact (V_small b nh p f PK). Qed.

Lemma try_add_spec w s op v : 1 < w -> w < 2 ^ 32 -> set_ok w s -> v < 2 ^ w ->
  match try_add w s op v with
  | Ok s' => s' = add w s op v /\ set_ok w s' /\ has_any w s' = true /\
             (forall u, u < 2 ^ w -> member s' u = member s u && uint_func op u v)
  | Err _ => forall u, u < 2 ^ w -> member s u && uint_func op u v = false
  | _ => False
  end.
Proof.
  intros W0 W1 S Hv. unfold try_add. pose proof (add_ok w s op v S Hv) as AO.
  destruct (has_any w (add w s op v)) eqn:H.
  - split; [reflexivity|]. split; [exact AO|]. split; [exact H|]. intros u U. apply member_add; try assumption. lia.
  - intros u U. rewrite <- (member_add w s op v u) by (assumption || lia).
    destruct (member (add w s op v) u) eqn:M; [|reflexivity].
    destruct (has_any_member w _ u W0 W1 AO U M) as (x & E & _). unfold has_any in H. rewrite E in H. discriminate.
Qed.
Lemma add_set_step P f op v : sets_ok P -> num_kind f -> v < 2 ^ field_width f ->
  step P (add_set P f op v) (fun r nh p => holds op (V hash nh p f) v).
Proof.
  intros [SO BO] K Hv. unfold add_set.
  pose proof (try_add_spec (field_width f) (p_sets P f) op v (width_gt f) (width_lt f) (proj1 (SO f K)) Hv) as T.
  destruct (try_add _ _ op v) as [s'|e| |]; cbn [incompat obind step]; try contradiction.
  - destruct T as (_ & S' & A' & M). split; [|split; [|split]].
    + split; [|exact BO]. intros g Kg. destruct (field_eqb g f) eqn:E.
      * apply field_eqb_eq in E. subst g. rewrite with_set_same. auto.
      * rewrite with_set_other by (intros ->; rewrite field_eqb_refl in E; discriminate). now apply SO.
    + split; reflexivity.
    + intros g u Kg U. destruct (field_eqb g f) eqn:E.
      * apply field_eqb_eq in E. subst g. rewrite with_set_same, M by exact U. intros H. now apply andb_prop in H as [H _].
      * rewrite with_set_other by (intros ->; rewrite field_eqb_refl in E; discriminate). auto.
    + intros r nh p VA. unfold acc. cbn [with_set p_recv]. split.
      * intros [A B]. pose proof (A f K) as Af. rewrite with_set_same in Af. rewrite M in Af by (eapply valid_V; exact VA).
        apply andb_prop in Af as [Af1 Af2]. split; [|now apply uint_func_holds]. split; [|exact B].
        intros g Kg. destruct (field_eqb g f) eqn:E.
        -- apply field_eqb_eq in E. now subst g.
        -- specialize (A g Kg). rewrite with_set_other in A by (intros ->; rewrite field_eqb_refl in E; discriminate). exact A.
      * intros [[A B] H]. split; [|exact B]. intros g Kg. destruct (field_eqb g f) eqn:E.
        -- apply field_eqb_eq in E. subst g. rewrite with_set_same, M by (eapply valid_V; exact VA).
           rewrite (A f K). cbn [andb]. now apply uint_func_holds.
        -- rewrite with_set_other by (intros ->; rewrite field_eqb_refl in E; discriminate). now apply A.
  - intros r nh p VA [A B] H. specialize (T (V hash nh p f) (valid_V r nh p f VA)). rewrite (A f K) in T. cbn [andb] in T.
    apply uint_func_holds in H. congruence.
Qed.

(** [check_space]. *)
Lemma has_any_low w s : 1 < w -> w < 2 ^ 32 -> set_ok w s -> has_any w s = true -> low (bound s) <= high (bound s).
Proof.
  intros W0 W1 [B M] H. unfold has_any, min_value in H. destruct (mask_in_set w (mask s) (low (bound s))) as [x|] eqn:E; [|discriminate].
  destruct (N.ltb_spec (high (bound s)) x) as [L|L]; [discriminate|].
  destruct (mask_test (mask s) (low (bound s))) eqn:T.
  - rewrite mask_in_set_member in E by (assumption || apply B). injection E as <-. exact L.
  - destruct (mask_in_set_gt _ _ _ _ W0 W1 M (proj1 B) T E). lia.
Qed.
Lemma info_total w s v : low (bound s) <= high (bound s) -> exists i, info w s v = Ok i.
Proof.
  intros L. unfold info, bound_cmp.
  destruct (N.compare_spec v (low (bound s))), (N.compare_spec v (high (bound s))); cbn [obind]; try lia;
    repeat match goal with |- context [match ?x with _ => _ end] => destruct x end; eauto.
Qed.
Definition depth_min (P : PktPredicates) (d : N) : Prop :=
  forall x, x < 2 ^ 8 -> member (p_sets P DepthF) x = true -> d <= x.
Lemma check_space_step P : sets_ok P -> rs_depth (p_prefix P) < 2 ^ 8 ->
  step P (check_space P) (fun r nh p => rs_depth (p_prefix P) <= V hash nh p DepthF) /\
  forall P', check_space P = Ok P' -> depth_min P' (rs_depth (p_prefix P)).
Proof.
  intros SO DB. unfold check_space. set (d := rs_depth (p_prefix P)) in *.
  assert (step P (if d =? 0 then Ok P else add_set P DepthF Greater (d - 1)) (fun r nh p => d <= V hash nh p DepthF) /\
          forall P', (if d =? 0 then Ok P else add_set P DepthF Greater (d - 1)) = Ok P' -> depth_min P' d) as [S1 DM].
  { destruct (N.eqb_spec d 0) as [E|E].
    - split; [|intros P' Q; injection Q as <-; intros x X M; lia].
      cbn [step]. split; [exact SO|]. split; [split; reflexivity|]. split; [intros ? ? ? ?; auto|]. intros r nh p VA. rewrite E. split; [intros A; split; [exact A|lia]|tauto].
    - split.
      + eapply step_weaken; [apply (add_set_step P DepthF Greater (d - 1) SO I); cbn [field_width]; lia|].
        intros r nh p VA. cbn [holds]. lia.
      + unfold add_set. intros P' Q.
        pose proof (try_add_spec 8 (p_sets P DepthF) Greater (d - 1) (width_gt DepthF) (width_lt DepthF) (proj1 (proj1 SO DepthF I)) ltac:(lia)) as T.
        change (field_width DepthF) with 8 in Q. destruct (try_add 8 _ _ _) as [s'|e| |]; cbn [incompat obind] in Q; try discriminate.
        injection Q as <-. destruct T as (_ & _ & _ & M). intros x X Hx. rewrite with_set_same, M in Hx by exact X.
        apply andb_prop in Hx as [_ Hx]. cbn [uint_func] in Hx. apply N.ltb_lt in Hx. lia. }
  destruct (if d =? 0 then Ok P else add_set P DepthF Greater (d - 1)) as [P1|e| |] eqn:E1; cbn [step obind] in *; try contradiction.
  2:{ split; [exact S1|discriminate]. }
  destruct S1 as (SO1 & R1 & H1 & S1). specialize (DM P1 eq_refl).
  destruct (SO1) as [SS BB]. destruct (SS DepthF I) as [SD AD]. change (field_width DepthF) with 8 in SD, AD.
  pose proof (has_any_low 8 _ (width_gt DepthF) (width_lt DepthF) SD AD) as LH.
  destruct (info_total 8 (p_sets P1 DepthF) d LH) as (i & Ei). rewrite Ei. cbn [incompat obind].
  destruct (sval i) as [y|] eqn:Si; cbn [step].
  - split; [split; [exact SO1|]; split; [exact R1|]; split; [exact H1|exact S1]|]. intros P' Q. injection Q as <-. exact DM.
  - split; [|discriminate]. intros r nh p VA A HC. pose proof (proj2 (S1 r nh p VA) (conj A HC)) as A1.
    destruct A1 as [A1 _]. specialize (A1 DepthF I). pose proof (valid_V r nh p DepthF VA) as VD. change (field_width DepthF) with 8 in VD.
    destruct (info_exact 8 (p_sets P1 DepthF) (V hash nh p DepthF) d (width_gt DepthF) (width_lt DepthF) SD VD A1 DB) as (i' & Ei' & _ & NM).
    rewrite Ei in Ei'. injection Ei' as <-. rewrite Si in NM. cbn [next_member] in NM. exact (NM _ HC VD A1).
Qed.

(** ** Spaces *)
Lemma has_space_inj rs a b : has_space rs a -> has_space rs b -> a = b.
Proof.
  intros [[Fa _] Ha] [[Fb _] Hb]. destruct Ha as [[d ->]|[-> ->]], Hb as [[d' E]|[E ->]]; try discriminate; try reflexivity.
  assert (wire_space a = wire_space b) as W by (apply (f_equal (skipn 8)) in E; exact E).
  now apply wire_space_inj in W.
Qed.
Lemma rooted_has_space rs : rooted_ok rs -> exists cs, has_space rs cs /\ rs_space rs = Ok (wire_space cs) /\ (length cs <= 8)%nat /\
  (declared_depth rs = lenN cs \/ length cs = 8%nat).
Proof.
  intros [->|(d & cs & SO & L & D & ->)].
  - exists []. split; [|split; [reflexivity|split; [cbn; lia|left; reflexivity]]]. split; [split; [constructor|cbn; lia]|right; auto].
  - exists cs. split; [split; [exact SO|left; eauto]|]. split; [unfold rs_space; now rewrite rs_fields_rooted|]. split; [exact L|].
    cbn [rooted_with declared_depth]. destruct (Nat.eq_dec (length cs) 8) as [E|E]; [now right|left]. apply D. lia.
Qed.
Lemma point_space p rs : point_ok p -> point_rspace p = Some rs -> rooted_ok rs.
Proof. intros [_ H] E. destruct p; try discriminate; injection E as <-; tauto. Qed.
Definition under (cs : list bytes) (p : point) : Prop :=
  cs = [] \/ exists rs more, point_rspace p = Some rs /\ has_space rs (cs ++ more).
Definition clear (ps : list Predicate) (p : point) : Prop :=
  depth_honest p \/ no_spacename ps.
Lemma V_depth nh p rs : point_rspace p = Some rs -> V hash nh p DepthF = declared_depth rs.
Proof. intros E. destruct p; try discriminate; injection E as <-; unfold V; cbn; destruct rspace; reflexivity. Qed.
Lemma V_type nh p : V hash nh p PktTypeF = type_byte p. Proof. reflexivity. Qed.
Lemma space_ok_prefix cs more : space_ok (cs ++ more) -> space_ok cs.
Proof.
  intros [F L]. apply Forall_app in F as [F _]. split; [exact F|]. unfold wire_space in *. rewrite flat_map_app, app_length in L. lia.
Qed.
Lemma nil_space : space_ok []. Proof. split; [constructor|cbn; lia]. Qed.
Lemma link_type nh p : holds Mask1 (V hash nh p PktTypeF) LINK_FLAG <-> exists rs, point_rspace p = Some rs.
Proof.
  rewrite V_type, <- uint_func_holds. destruct p; cbn; split; intros H; try discriminate; try (destruct H as [? ?]; discriminate); eauto.
Qed.
Lemma num_sat r nh p f op v : valid r nh p -> num_kind f ->
  ((exists x, num_field hash f nh p = Some x /\ holds op x v) <->
   holds Mask1 (V hash nh p PktTypeF) (field_pkts f) /\ holds op (V hash nh p f) v).
Proof.
  intros (_ & b & PK) K. destruct PK as (_ & Ln & Hp & _). rewrite num_field_V by assumption. rewrite V_type, <- (uint_func_holds Mask1). cbn [uint_func].
  destruct (N.land (type_byte p) (field_pkts f) =? field_pkts f).
  - split; [intros (x & E & H); injection E as <-; auto|]. intros [_ H]. eauto.
  - split; [intros (x & E & _); discriminate|]. intros [H _]. discriminate.
Qed.

(** ** The invariant of a query under construction *)
Definition Inv (P : PktPredicates) (cs : list bytes) (ps : list Predicate) : Prop :=
  sets_ok P /\ p_prefix P = wire_rooted cs /\ space_ok cs /\ (length cs <= 8)%nat /\ depth_min P (lenN cs) /\
  (forall q, set_ok 32 (p_limits P q)) /\
  (forall q n, n < 2 ^ 32 -> (member (p_limits P q) n = true <-> position_ok ps q n)) /\
  (forall r nh p, valid r nh p ->
     (Forall (satisfies hash r nh p) ps -> acc P r nh p /\ under cs p) /\
     (clear ps p -> acc P r nh p -> under cs p -> Forall (satisfies hash r nh p) ps)).
Lemma Inv_default : Inv preds_default [] [].
Proof.
  split; [|split; [reflexivity|split; [exact nil_space|split; [cbn; lia|split; [|split; [|split]]]]]].
  - split; [|split; [apply zero_small|apply umax_small]]. intros f K. cbn [preds_default p_sets]. split; [apply default_ok|].
    unfold has_any. destruct (has_any_member (field_width f) (set_default (field_width f)) 0 (width_gt f) (width_lt f) (default_ok _) (zero_small _) (member_default _ _ (zero_small _))) as (x & -> & _). reflexivity.
  - intros x X _. unfold lenN. cbn. lia.
  - intros q. apply default_ok.
  - intros q n Hn. cbn [preds_default p_limits]. rewrite member_default by exact Hn. split; [constructor|auto].
  - intros r nh p VA. split; [|constructor]. intros _. split; [|now left]. split.
    + intros f K. cbn [preds_default p_sets]. apply member_default. eapply valid_V; exact VA.
    + cbn [preds_default p_recv]. unfold bound_test, bound_default. cbn [low high]. rewrite umax_val. destruct VA as [VA _].
      apply andb_true_intro. split; apply N.leb_le; lia.
Qed.
Lemma clear_app ps r p : clear (ps ++ [r]) p -> clear ps p.
Proof. intros [H|H]; [now left|right]. now apply Forall_app in H as [H _]. Qed.
Lemma clear_space ps r p : clear (ps ++ [r]) p -> p_kind r = RField SpaceNameF -> depth_honest p.
Proof. intros [H|H] E; [exact H|]. apply Forall_app in H as [_ H]. inversion H. contradiction. Qed.
Lemma sat_app r nh p ps x : Forall (satisfies hash r nh p) (ps ++ [x]) <-> Forall (satisfies hash r nh p) ps /\ satisfies hash r nh p x.
Proof. rewrite Forall_app. split; intros [A B]; split; auto. now inversion B. Qed.
Definition no_limit (r : Predicate) : Prop :=
  match p_kind r, p_op r, p_val r with RLimit _, _, _ => False | RField PktHashF, Equal, _ => False | _, _, _ => True end.
Lemma position_app ps r q n : position_ok (ps ++ [r]) q n <-> position_ok ps q n /\ position_ok [r] q n.
Proof. apply Forall_app. Qed.
Lemma position_free ps r q n : no_limit r -> (position_ok (ps ++ [r]) q n <-> position_ok ps q n).
Proof.
  intros H. rewrite position_app. split; [tauto|]. intros A. split; [exact A|]. constructor; [|constructor].
  unfold no_limit in H. destruct (p_kind r) as [f| | |q'], (p_op r); try destruct f; tauto.
Qed.

(** Adding a predicate that leaves the prefix alone. *)
Lemma step_inv P cs ps r o (C : N -> bytes -> point -> Prop) :
  Inv P cs ps -> step P o C -> no_limit r ->
  (forall rc nh p, valid rc nh p -> acc P rc nh p -> under cs p -> (satisfies hash rc nh p r <-> C rc nh p)) ->
  match o with
  | Ok P' => Inv P' cs (ps ++ [r])
  | Err _ => forall rc nh p, valid rc nh p -> ~ Forall (satisfies hash rc nh p) (ps ++ [r])
  | _ => False
  end.
Proof.
  intros (SO & PX & SK & L8 & DM & LO & LP & AC) S NL E. destruct o as [P'|e| |]; cbn [step] in S; try contradiction.
  - destruct S as (SO' & (SL & SP) & SH & S). split; [exact SO'|]. split; [congruence|]. split; [exact SK|]. split; [exact L8|].
    split; [intros x X M; apply DM; [exact X|]; apply (SH DepthF x I X M)|].
    split; [intros q; rewrite SL; apply LO|]. split; [intros q n Hn; rewrite SL, position_free by exact NL; now apply LP|].
    intros rc nh p VA. destruct (AC rc nh p VA) as [A1 A2]. rewrite sat_app. split.
    + intros [F X]. destruct (A1 F) as [A U]. split; [|exact U]. apply S; [exact VA|]. split; [exact A|]. now apply E.
    + intros CL A U. apply S in A as [A HC]; [|exact VA]. split; [apply A2; auto; now apply clear_app in CL|]. now apply E.
  - intros rc nh p VA F. apply sat_app in F as [F X]. destruct (AC rc nh p VA) as [A1 _]. destruct (A1 F) as [A U].
    apply (S rc nh p VA A). now apply E.
Qed.

Lemma pkts_small f : field_pkts f < 2 ^ field_width PktTypeF. Proof. destruct f; now vm_compute. Qed.
Lemma firstn_le {A} n (l : list A) : (length l <= n)%nat -> firstn n l = l. Proof. apply firstn_all2. Qed.
Lemma depth8 (cs : list bytes) : (length cs <= 8)%nat -> rs_depth (wire_rooted cs) = lenN cs /\ lenN cs < 2 ^ 8.
Proof. intros L. split; [apply rs_space_wire|]. unfold lenN. change (2 ^ 8) with 256. lia. Qed.
Lemma field_step P f op v : sets_ok P -> num_kind f -> v < 2 ^ field_width f ->
  step P (obind (add_set P PktTypeF Mask1 (field_pkts f)) (fun p => add_set p f op v))
    (fun r nh p => holds Mask1 (V hash nh p PktTypeF) (field_pkts f) /\ holds op (V hash nh p f) v).
Proof.
  intros SO K Hv. apply step_bind; [apply add_set_step; [exact SO|exact I|apply pkts_small]|].
  intros P' _ SO'. now apply add_set_step.
Qed.
Lemma obind_assoc {E A B C} (o : outcome E A) (f : A -> outcome E B) (g : B -> outcome E C) :
  obind (obind o f) g = obind o (fun a => obind (f a) g).
Proof. destruct o; reflexivity. Qed.

(** Setting a longer prefix. *)
Lemma prefix_step P2 cs : sets_ok P2 -> space_ok cs -> (length cs <= 8)%nat ->
  match check_space (with_prefix P2 (wire_rooted cs)) with
  | Ok P' => sets_ok P' /\ p_limits P' = p_limits P2 /\ p_prefix P' = wire_rooted cs /\ depth_min P' (lenN cs) /\
             forall r nh p, valid r nh p -> (acc P' r nh p <-> acc P2 r nh p /\ lenN cs <= V hash nh p DepthF)
  | Err _ => forall r nh p, valid r nh p -> acc P2 r nh p -> ~ lenN cs <= V hash nh p DepthF
  | _ => False
  end.
Proof.
  intros SO SK L8. destruct (depth8 cs L8) as [D8 DB]. pose (P3 := with_prefix P2 (wire_rooted cs)).
  destruct (check_space_step P3 SO) as [S DM]; [cbn [P3 with_prefix p_prefix]; now rewrite D8|]. fold P3.
  cbn [P3 with_prefix p_prefix] in S, DM. rewrite D8 in *. fold P3 in S, DM.
  destruct (check_space P3) as [P'|e| |]; cbn [step] in S; try contradiction.
  - destruct S as (SO' & (SL & SP) & _ & S). split; [exact SO'|]. split; [exact SL|]. split; [exact SP|]. split; [now apply DM|]. exact S.
  - exact S.
Qed.
Definition and_res (ps : list Predicate) (r : Predicate) (o : outcome PredErr PktPredicates) : Prop :=
  match o with
  | Ok P' => exists cs, Inv P' cs (ps ++ [r])
  | Err _ => (forall rc nh p, valid rc nh p -> ~ Forall (satisfies hash rc nh p) (ps ++ [r])) \/ no_results (ps ++ [r])
  | _ => False
  end.
Lemma step_res P cs ps r o C : Inv P cs ps -> step P o C -> no_limit r ->
  (forall rc nh p, valid rc nh p -> acc P rc nh p -> under cs p -> (satisfies hash rc nh p r <-> C rc nh p)) ->
  and_res ps r o.
Proof. intros I S NL E. pose proof (step_inv P cs ps r o C I S NL E) as H. destruct o; cbn [and_res]; try contradiction; eauto. Qed.

Lemma prefix_and P cs ps r cs' P2 (C : N -> bytes -> point -> Prop) :
  Inv P cs ps -> no_limit r -> (exists more, cs' = cs ++ more) -> cs' <> [] -> space_ok cs' -> (length cs' <= 8)%nat ->
  sets_ok P2 -> p_limits P2 = p_limits P ->
  (forall rc nh p, valid rc nh p -> (acc P2 rc nh p <-> acc P rc nh p /\ C rc nh p)) ->
  (forall rc nh p, valid rc nh p -> satisfies hash rc nh p r -> C rc nh p /\ under cs' p /\ lenN cs' <= V hash nh p DepthF) ->
  (forall rc nh p, valid rc nh p -> clear (ps ++ [r]) p -> C rc nh p -> under cs' p -> lenN cs' <= V hash nh p DepthF -> satisfies hash rc nh p r) ->
  and_res ps r (check_space (with_prefix P2 (wire_rooted cs'))).
Proof.
  intros (SO & PX & SK & L8 & DM & LO & LP & AC) NL [more ->] NE SK' L8' SO2 PL2 A2 SA AS.
  pose proof (prefix_step P2 (cs ++ more) SO2 SK' L8') as S.
  destruct (check_space _) as [P'|e| |]; cbn [and_res]; try contradiction.
  - destruct S as (SO' & SL & SP & DM' & S). exists (cs ++ more). split; [exact SO'|]. split; [exact SP|]. split; [exact SK'|]. split; [exact L8'|].
    split; [exact DM'|]. split; [intros q; rewrite SL, PL2; apply LO|].
    split; [intros q n Hn; rewrite SL, PL2, position_free by exact NL; now apply LP|].
    intros rc nh p VA. destruct (AC rc nh p VA) as [B1 B2]. rewrite sat_app. split.
    + intros [F X]. destruct (B1 F) as [A _]. destruct (SA rc nh p VA X) as (HC & U & D). split; [|exact U]. apply S; [exact VA|]. split; [|exact D]. apply A2; auto.
    + intros CL A U. apply S in A as [A D]; [|exact VA]. apply A2 in A as [A HC]; [|exact VA]. split; [|now apply AS].
      apply B2; [now apply clear_app in CL|exact A|]. destruct U as [U|(rs & m & E & H)]; [contradiction|]. right. exists rs, (more ++ m). split; [exact E|].
      now rewrite app_assoc.
  - left. intros rc nh p VA F. apply sat_app in F as [F X]. destruct (AC rc nh p VA) as [B1 _]. destruct (B1 F) as [A _].
    destruct (SA rc nh p VA X) as (HC & U & D). apply (S rc nh p VA); [|exact D]. apply A2; auto.
Qed.

Lemma under_space cs p rs cs' : under cs p -> point_rspace p = Some rs -> has_space rs cs' -> exists more, cs' = cs ++ more.
Proof.
  intros [->|(rs' & more & E & H)] E' H'; [exists cs'; reflexivity|]. rewrite E in E'. injection E' as <-.
  exists more. exact (has_space_inj _ _ _ H' H).
Qed.
Lemma starts_cs a b : space_ok a -> space_ok b ->
  space_starts_with (wire_space a) (wire_space b) = true <-> exists r, a = b ++ r.
Proof. intros [A _] [B _]. now apply starts_with_wire. Qed.

Lemma and_spacename P cs ps cs' : Inv P cs ps -> space_ok cs' -> (length cs' <= 8)%nat ->
  and_res ps (mkPred (RField SpaceNameF) Equal (PSpace (wire_space cs'))) (and_ P (mkPred (RField SpaceNameF) Equal (PSpace (wire_space cs')))).
Proof.
  intros IV SK' L8'. set (r := mkPred (RField SpaceNameF) Equal (PSpace (wire_space cs'))).
  assert (IV2 := IV). destruct IV2 as (SO & PX & SK & L8 & DM & LO & LP & AC).
  destruct (depth8 cs' L8') as [D8 DB]. destruct (rs_space_wire cs') as [RS RD].
  unfold and_. cbn [p_kind r p_op p_val].
  assert (S12 : step P (obind (add_set P PktTypeF Mask1 (field_pkts SpaceNameF)) (fun p => add_set p DepthF Equal (lenN cs')))
     (fun rc nh p => holds Mask1 (V hash nh p PktTypeF) LINK_FLAG /\ holds Equal (V hash nh p DepthF) (lenN cs'))).
  { apply step_bind; [apply add_set_step; [exact SO|exact I|apply (pkts_small SpaceNameF)]|]. intros P' _ SO'. apply add_set_step; [exact SO'|exact I|exact DB]. }
  assert (TR : try_into_rooted (wire_space cs') = Ok (wire_rooted cs')) by (rewrite try_into_rooted_wire by exact SK'; now rewrite firstn_le).
  assert (SAT : forall rc nh p, satisfies hash rc nh p r -> exists rs, point_rspace p = Some rs /\ has_space rs cs' /\ declared_depth rs = lenN cs').
  { intros rc nh p (rs & cs2 & E & H & W & D). exists rs. split; [exact E|].
    apply wire_space_inj in W; [subst cs2|apply SK'|apply H]. split; [exact H|exact D]. }
  assert (SATC : forall rc nh p, satisfies hash rc nh p r ->
    holds Mask1 (V hash nh p PktTypeF) LINK_FLAG /\ holds Equal (V hash nh p DepthF) (lenN cs')).
  { intros rc nh p X. destruct (SAT rc nh p X) as (rs & E & H & D). split; [apply link_type; eauto|]. cbn [holds]. now rewrite (V_depth nh p rs E). }
  rewrite TR. cbn [in_space obind]. rewrite D8.
  destruct (add_set P PktTypeF Mask1 (field_pkts SpaceNameF)) as [P1|e| |] eqn:E1; cbn [obind] in S12 |- *; cbn [step] in S12; try contradiction.
  2:{ left. intros rc nh p VA F. apply sat_app in F as [F X]. destruct (AC rc nh p VA) as [B1 _]. apply (S12 rc nh p VA (proj1 (B1 F))). now apply SATC with rc. }
  destruct (add_set P1 DepthF Equal (lenN cs')) as [P2|e| |] eqn:E2; cbn [obind step] in S12 |- *; try contradiction.
  2:{ left. intros rc nh p VA F. apply sat_app in F as [F X]. destruct (AC rc nh p VA) as [B1 _]. apply (S12 rc nh p VA (proj1 (B1 F))). now apply SATC with rc. }
  destruct S12 as (SO2 & (SL2 & SP2) & _ & A2). rewrite SP2, PX. destruct (rs_space_wire cs) as [RS0 _]. rewrite RS0, RS. cbn [in_space obind].
  destruct (space_starts_with (wire_space cs') (wire_space cs)) eqn:SW.
  - apply starts_cs in SW; try assumption.
    destruct cs' as [|c0 cs'].
    + (* the empty space *)
      destruct SW as [more SW]. destruct cs; [|discriminate]. 
      pose proof (prefix_step P2 [] SO2 nil_space ltac:(cbn; lia)) as S.
      destruct (check_space _) as [P'|e| |]; cbn [and_res]; try contradiction.
      * destruct S as (SO' & SL & SP & DM' & S). exists []. split; [exact SO'|]. split; [exact SP|]. split; [exact nil_space|]. split; [cbn; lia|].
        split; [exact DM'|]. split; [intros q; rewrite SL, SL2; apply LO|].
        split; [intros q n Hn; rewrite SL, SL2, position_free by exact I; now apply LP|].
        intros rc nh p VA. destruct (AC rc nh p VA) as [B1 B2]. rewrite sat_app. split.
        -- intros [F X]. destruct (B1 F) as [A _]. split; [|now left]. apply S; [exact VA|]. split; [|change (lenN (@nil bytes)) with 0; lia]. apply A2; auto. split; [exact A|]. now apply SATC with rc.
        -- intros CL A U. apply S in A as [A D]; [|exact VA]. apply A2 in A as [A [HT HD]]; [|exact VA].
           split; [apply B2; [now apply clear_app in CL|exact A|now left]|]. apply link_type in HT as [rs E].
           assert (depth_honest p) as DH by (exact (clear_space ps r p CL eq_refl)).
           destruct (DH rs E) as (cs2 & H2 & D2). cbn [holds] in HD. rewrite (V_depth nh p rs E) in HD. rewrite HD in D2.
           exists rs, []. split; [exact E|]. assert (cs2 = []) as -> by (destruct cs2; [reflexivity|unfold lenN in D2; cbn in D2; lia]).
           split; [exact H2|]. split; [reflexivity|exact HD].
      * left. intros rc nh p VA F. apply sat_app in F as [F X]. destruct (AC rc nh p VA) as [B1 _]. destruct (B1 F) as [A _].
        apply (S rc nh p VA); [|change (lenN (@nil bytes)) with 0; lia]. apply A2; auto. split; [exact A|]. now apply SATC with rc.
    + eapply (prefix_and P cs ps r (c0 :: cs') P2 _ IV I SW); [discriminate|exact SK'|exact L8'|exact SO2|exact SL2|exact A2| |].
      * intros rc nh p VA X. split; [now apply SATC with rc|]. destruct (SAT rc nh p X) as (rs & E & H & D). split.
        -- right. exists rs, []. split; [exact E|]. now rewrite app_nil_r.
        -- rewrite (V_depth nh p rs E), D. lia.
      * intros rc nh p VA CL [HT HD] U D. cbn [holds] in HD. destruct U as [U|(rs & more & E & H)]; [discriminate|].
        assert (depth_honest p) as DH by (exact (clear_space ps r p CL eq_refl)).
        destruct (DH rs E) as (cs2 & H2 & D2). rewrite (V_depth nh p rs E) in HD. rewrite HD in D2.
        pose proof (has_space_inj _ _ _ H H2) as Q. assert (more = []) as ->.
        { rewrite <- Q in D2. unfold lenN in D2. rewrite app_length in D2. destruct more; [reflexivity|cbn in D2; lia]. }
        rewrite app_nil_r in H. exists rs, (c0 :: cs'). split; [exact E|]. split; [exact H|]. split; [reflexivity|exact HD].
  - cbn [and_res]. left. intros rc nh p VA F. apply sat_app in F as [F X]. destruct (AC rc nh p VA) as [B1 _]. destruct (B1 F) as [A U].
    destruct (SAT rc nh p X) as (rs & E & H & D). destruct (under_space cs p rs cs' U E H) as [more Q].
    assert (space_starts_with (wire_space cs') (wire_space cs) = true) by (apply starts_cs; eauto). congruence.
Qed.
Lemma app_eq_cases {A} (a b c d : list A) : a ++ b = c ++ d -> (exists k, c = a ++ k) \/ (exists k, a = c ++ k).
Proof.
  revert c. induction a as [|x a IH]; intros c E; [left; exists c; reflexivity|]. destruct c as [|y c]; [right; exists (x :: a); reflexivity|].
  cbn in E. injection E as -> E. destruct (IH c E) as [[k K]|[k K]]; [left|right]; exists k; cbn; congruence.
Qed.
Lemma and_prefix P cs ps cs' : Inv P cs ps -> space_ok cs' -> (length cs' <= 8)%nat ->
  and_res ps (mkPred RPrefix Equal (PSpace (wire_space cs'))) (and_ P (mkPred RPrefix Equal (PSpace (wire_space cs')))).
Proof.
  intros IV SK' L8'. set (r := mkPred RPrefix Equal (PSpace (wire_space cs'))).
  assert (IV2 := IV). destruct IV2 as (SO & PX & SK & L8 & DM & LO & LP & AC).
  destruct (depth8 cs' L8') as [D8 DB]. destruct (rs_space_wire cs') as [RS RD]. destruct (rs_space_wire cs) as [RS0 _].
  assert (SAT : cs' <> [] -> forall rc nh p, satisfies hash rc nh p r <-> exists rs more, point_rspace p = Some rs /\ has_space rs (cs' ++ more) /\ lenN cs' <= declared_depth rs).
  { intros NE rc nh p. split.
    - intros [Q|(rs & cs2 & more & E & H & W & D)]; [destruct cs'; [contradiction|discriminate Q]|]. exists rs, more. split; [exact E|].
      apply wire_space_inj in W; [subst cs2; auto|apply SK'|]. destruct H as [[F _] _]. now apply Forall_app in F as [F _].
    - intros (rs & more & E & H & D). right. exists rs, cs', more. auto. }
  unfold and_, prefix. cbn [p_kind r p_op p_val]. rewrite PX, RS0. cbn [in_space obind].
  destruct (space_starts_with (wire_space cs) (wire_space cs')) eqn:S1.
  - apply starts_cs in S1 as [more ->]; try assumption. eapply (step_res P (cs' ++ more) ps r (Ok P) (fun _ _ p => True)); [exact IV| |exact I|].
    + split; [exact SO|]. split; [split; reflexivity|]. split; [intros ? ? ? ?; auto|]. intros; tauto.
    + intros rc nh p VA A U. split; [auto|]. intros _. destruct cs' as [|c0 cs']; [left; reflexivity|]. apply SAT; [discriminate|].
      destruct U as [U|(rs & m & E & H)]; [discriminate|]. exists rs, (more ++ m). split; [exact E|]. rewrite app_assoc. split; [exact H|].
      destruct A as [A _]. specialize (A DepthF I). apply DM in A; [|exact (valid_V rc nh p DepthF VA)]. rewrite (V_depth nh p rs E) in A.
      etransitivity; [|exact A]. unfold lenN. rewrite app_length. lia.
  - destruct (space_starts_with (wire_space cs') (wire_space cs)) eqn:S2.
    + apply starts_cs in S2; try assumption. rewrite try_into_rooted_wire, firstn_le by assumption. cbn [in_space obind].
      assert (NE : cs' <> []) by (intros ->; cbn in S1; destruct (wire_space cs); discriminate).
      eapply (prefix_and P cs ps r cs' P (fun _ _ _ => True) IV I S2 NE SK' L8' SO eq_refl); [intros; tauto| |].
      * intros rc nh p VA X. apply (SAT NE) in X as (rs & more & E & H & D). split; [exact I|]. split; [right; eauto|]. now rewrite (V_depth nh p rs E).
      * intros rc nh p VA CL _ U D. apply (SAT NE). destruct U as [U|(rs & more & E & H)]; [contradiction|]. exists rs, more. rewrite (V_depth nh p rs E) in D. auto.
    + cbn [and_res]. left. intros rc nh p VA F. apply sat_app in F as [F X]. destruct (AC rc nh p VA) as [B1 _]. destruct (B1 F) as [A U].
      assert (NE : cs' <> []) by (intros ->; cbn in S1; destruct (wire_space cs); discriminate).
      apply (SAT NE) in X as (rs & more & E & H & D). destruct (under_space cs p rs _ U E H) as [m Q].
      (* one of the two is a prefix of the other *)
      destruct (app_eq_cases cs' more cs m Q) as [[k K]|[k K]].
      * assert (space_starts_with (wire_space cs) (wire_space cs') = true) by (apply starts_cs; eauto). congruence.
      * assert (space_starts_with (wire_space cs') (wire_space cs) = true) by (apply starts_cs; eauto). congruence.
Qed.

Lemma try_recv_spec b op v : bound_ok 64 b -> v < 2 ^ 64 -> match op with Mask0 | Mask1 => False | _ => True end ->
  match bound_try_add 64 b op v with
  | Ok b' => bound_ok 64 b' /\ forall u, u < 2 ^ 64 -> bound_test b' u = bound_test b u && uint_func op u v
  | Err _ => forall u, u < 2 ^ 64 -> bound_test b u && uint_func op u v = false
  | _ => False
  end.
Proof.
  intros BO Hv NM. unfold bound_try_add.
  assert (BT : forall u, u < 2 ^ 64 -> bound_test (bound_add 64 b op v) u = bound_test b u && uint_func op u v).
  { intros u U. rewrite bound_add_test by (assumption || lia). destruct op; cbn [uint_func]; try contradiction; reflexivity. }
  destruct (bound_has_any (bound_add 64 b op v)) eqn:HA.
  - split; [|exact BT]. pose proof (add_ok 64 (mkSet b (mask_default 64)) op v) as AO. cbn [add bound mask] in AO.
    apply AO; [|exact Hv]. split; [exact BO|]. apply default_ok.
  - intros u U. rewrite <- BT by exact U. unfold bound_has_any in HA. apply N.leb_gt in HA. unfold bound_test.
    destruct (N.leb_spec u (high (bound_add 64 b op v))), (N.leb_spec (low (bound_add 64 b op v)) u); try reflexivity. lia.
Qed.
Lemma and_recv P cs ps op v : Inv P cs ps -> pred_ok (mkPred RRecv op (PNum v)) ->
  and_res ps (mkPred RRecv op (PNum v)) (and_ P (mkPred RRecv op (PNum v))).
Proof.
  intros IV [Hv NM]. assert (IV2 := IV). destruct IV2 as ((SO & BO) & _). cbn [p_op] in NM.
  eapply (step_res P cs ps _ _ (fun rc _ _ => holds op rc v) IV); [|exact I|intros; cbn; tauto].
  unfold and_. cbn [p_kind p_op p_val]. pose proof (try_recv_spec (p_recv P) op v BO Hv NM) as T.
  destruct (bound_try_add 64 (p_recv P) op v) as [b'|e| |]; cbn [incompat obind step]; try contradiction.
  - destruct T as [BO' T]. split; [split; [exact SO|exact BO']|]. split; [split; reflexivity|]. split; [intros ? ? ? ?; auto|].
    intros r nh p VA. unfold acc. cbn [with_recv p_sets p_recv]. rewrite T by apply VA. rewrite andb_true_iff, uint_func_holds. tauto.
  - intros r nh p VA [_ A] H. specialize (T r (proj1 VA)). rewrite A in T. cbn [andb] in T. apply uint_func_holds in H. congruence.
Qed.

Lemma limit_member P q op v n : set_ok 32 (p_limits P q) -> v < 2 ^ 32 -> n < 2 ^ 32 ->
  (member (add 32 (p_limits P q) op v) n = true <-> member (p_limits P q) n = true /\ holds op n v).
Proof. intros S Hv Hn. rewrite member_add by (assumption || lia). rewrite andb_true_iff, uint_func_holds. reflexivity. Qed.
Lemma has_any_none w s P : 1 < w -> w < 2 ^ 32 -> set_ok w s -> has_any w s = false -> (forall n, n < 2 ^ w -> (member s n = true <-> P n)) ->
  forall n, n < 2 ^ w -> ~ P n.
Proof.
  intros W0 W1 S H E n Hn X. apply E in X; [|exact Hn]. destruct (has_any_member w s n W0 W1 S Hn X) as (y & Y & _).
  unfold has_any in H. rewrite Y in H. discriminate.
Qed.
Lemma and_limit P cs ps q op v : Inv P cs ps -> v < 2 ^ 32 ->
  and_res ps (mkPred (RLimit q) op (PNum v)) (and_ P (mkPred (RLimit q) op (PNum v))).
Proof.
  intros (SO & PX & SK & L8 & DM & LO & LP & AC) Hv. unfold and_. cbn [p_kind p_op p_val]. set (r := mkPred (RLimit q) op (PNum v)).
  set (P' := with_limit P q _).
  assert (LO' : forall q', set_ok 32 (p_limits P' q')).
  { intros q'. cbn [P' with_limit p_limits]. destruct (qscope_eqb q' q); [|apply LO]. apply add_ok; [apply LO|exact Hv]. }
  assert (LP' : forall q' n, n < 2 ^ 32 -> (member (p_limits P' q') n = true <-> position_ok (ps ++ [r]) q' n)).
  { intros q' n Hn. rewrite position_app. cbn [P' with_limit p_limits]. assert (position_ok [r] q' n <-> (q = q' -> holds op n v)) as PO.
    { unfold position_ok. split; [intros X; inversion X; auto|]. intros X. constructor; [exact X|constructor]. }
    rewrite PO. destruct (qscope_eqb q' q) eqn:E.
    - apply qscope_eqb_eq in E. subst q'. rewrite limit_member by (apply LO || assumption). rewrite LP by exact Hn. tauto.
    - rewrite LP by exact Hn. split; [|tauto]. intros X. split; [exact X|]. intros <-. destruct q; discriminate. }
  destruct (is_valid P') eqn:VD; cbn [and_res].
  - exists cs. split; [exact SO|]. split; [exact PX|]. split; [exact SK|]. split; [exact L8|]. split; [exact DM|]. split; [exact LO'|]. split; [exact LP'|].
    intros rc nh p VA. destruct (AC rc nh p VA) as [B1 B2]. rewrite sat_app. split.
    + intros [F _]. exact (B1 F).
    + intros CL A U. split; [apply B2; auto; now apply clear_app in CL|exact I].
  - right. assert (NP : forall q', has_any 32 (p_limits P' q') = false -> no_positions (ps ++ [r]) q').
    { intros q' H. unfold no_positions. exact (has_any_none 32 _ _ eq_refl eq_refl (LO' q') H (LP' q')). }
    unfold is_valid in VD. unfold no_results.
    destruct (has_any 32 (p_limits P' QQuery)) eqn:HQ; [|left; auto]. destruct (has_any 32 (p_limits P' QNew)) eqn:HN; [discriminate|].
    right. split; [auto|]. destruct (has_any 32 (p_limits P' QIndex)) eqn:HI; [|left; auto]. destruct (has_any 32 (p_limits P' QBranch)) eqn:HB; [discriminate|]. right; auto.
Qed.

Lemma and_num P cs ps f op v : Inv P cs ps -> num_kind f -> f <> DepthF -> f <> PktHashF -> v < 2 ^ field_width f ->
  and_res ps (mkPred (RField f) op (PNum v)) (and_ P (mkPred (RField f) op (PNum v))).
Proof.
  intros IV K ND NH Hv.
  assert (and_ P (mkPred (RField f) op (PNum v)) = obind (add_set P PktTypeF Mask1 (field_pkts f)) (fun p => add_set p f op v)) as ->
    by (destruct f; try contradiction; try congruence; reflexivity).
  eapply step_res; [exact IV|apply field_step; [apply IV|exact K|exact Hv]| |].
  - destruct f; try contradiction; try congruence; exact I.
  - intros rc nh p VA _ _. rewrite <- (num_sat rc nh p f op v VA K). destruct f; try contradiction; reflexivity.
Qed.
Lemma and_depth P cs ps op v : Inv P cs ps -> v < 2 ^ 8 ->
  and_res ps (mkPred (RField DepthF) op (PNum v)) (and_ P (mkPred (RField DepthF) op (PNum v))).
Proof.
  intros IV Hv. assert (IV2 := IV). destruct IV2 as (SO & PX & SK & L8 & DM & _). destruct (depth8 cs L8) as [D8 DB].
  unfold and_. cbn [p_kind p_op p_val]. rewrite <- obind_assoc.
  set (D := fun (_ : N) (nh : bytes) (p : point) => lenN cs <= V hash nh p DepthF).
  assert (S : step P (obind (obind (add_set P PktTypeF Mask1 (field_pkts DepthF)) (fun p => add_set p DepthF op v)) check_space)
    (fun r nh p => (holds Mask1 (V hash nh p PktTypeF) (field_pkts DepthF) /\ holds op (V hash nh p DepthF) v) /\ D r nh p)).
  { eapply step_bind; [apply (field_step P DepthF op v SO I Hv)|]. intros P' E SO'.
    pose proof (field_step P DepthF op v SO I Hv) as FS. rewrite E in FS. destruct FS as (_ & (_ & SP) & _).
    assert (QD : rs_depth (p_prefix P') = lenN cs) by (rewrite SP, PX; exact D8).
    assert (QB : rs_depth (p_prefix P') < 2 ^ 8) by (rewrite QD; exact DB).
    pose proof (proj1 (check_space_step P' SO' QB)) as CS. rewrite QD in CS. exact CS. }
  refine (step_res P cs ps (mkPred (RField DepthF) op (PNum v)) _ _ IV S I _).
  intros rc nh p VA A U. rewrite <- (num_sat rc nh p DepthF op v VA I). cbn [satisfies p_kind p_val p_op].
  split; [|tauto]. intros X. split; [exact X|]. unfold D. destruct A as [A _]. apply DM; [exact (valid_V rc nh p DepthF VA)|]. exact (A DepthF I).
Qed.
Lemma and_hash P cs ps op v : Inv P cs ps -> v < 2 ^ 256 ->
  and_res ps (mkPred (RField PktHashF) op (PNum v)) (and_ P (mkPred (RField PktHashF) op (PNum v))).
Proof.
  intros IV Hv. set (r := mkPred (RField PktHashF) op (PNum v)). assert (IV2 := IV). destruct IV2 as (SO & PX & SK & L8 & DM & LO & LP & AC).
  pose proof (field_step P PktHashF op v SO I Hv) as FS.
  assert (SAT : forall rc nh p, valid rc nh p -> (satisfies hash rc nh p r <->
     holds Mask1 (V hash nh p PktTypeF) (field_pkts PktHashF) /\ holds op (V hash nh p PktHashF) v)).
  { intros rc nh p VA. rewrite <- (num_sat rc nh p PktHashF op v VA I). reflexivity. }
  unfold and_. cbn [r p_kind p_op p_val]. rewrite <- obind_assoc.
  destruct (obind (add_set P PktTypeF Mask1 (field_pkts PktHashF)) (fun p => add_set p PktHashF op v)) as [P1|e| |] eqn:E1; cbn [step obind] in *; try contradiction.
  2:{ left. intros rc nh p VA F. apply sat_app in F as [F X]. destruct (AC rc nh p VA) as [B1 _]. apply (FS rc nh p VA (proj1 (B1 F))). now apply SAT with rc. }
  destruct FS as (SO1 & (SL & SP) & SH & S1).
  assert (REST : forall P', p_sets P' = p_sets P1 -> p_recv P' = p_recv P1 -> p_prefix P' = p_prefix P1 ->
     (forall q, set_ok 32 (p_limits P' q)) -> (forall q n, n < 2 ^ 32 -> (member (p_limits P' q) n = true <-> position_ok (ps ++ [r]) q n)) ->
     Inv P' cs (ps ++ [r])).
  { intros P' E2 E3 E4 LO' LP'. assert (forall rc nh p, acc P' rc nh p <-> acc P1 rc nh p) as AE by (intros; unfold acc; rewrite E2, E3; reflexivity).
    split; [unfold sets_ok; rewrite E2, E3; exact SO1|]. split; [congruence|]. split; [exact SK|]. split; [exact L8|].
    split; [intros x X M; rewrite E2 in M; apply DM; [exact X|]; exact (SH DepthF x I X M)|]. split; [exact LO'|]. split; [exact LP'|].
    intros rc nh p VA. destruct (AC rc nh p VA) as [B1 B2]. rewrite sat_app, AE. split.
    - intros [F X]. destruct (B1 F) as [A U]. split; [|exact U]. apply S1; [exact VA|]. split; [exact A|]. now apply SAT with rc.
    - intros CL A U. apply S1 in A as [A HC]; [|exact VA]. split; [apply B2; auto; now apply clear_app in CL|]. now apply SAT. }
  destruct op; cbn [and_res]; try (exists cs; apply REST; try reflexivity; [intros q; rewrite SL; apply LO|intros q n Hn; rewrite SL, position_free by exact I; now apply LP]).
  rewrite SL. pose proof (try_add_spec 32 (p_limits P QQuery) Equal 0 eq_refl eq_refl (LO QQuery) eq_refl) as T.
  destruct (try_add 32 (p_limits P QQuery) Equal 0) as [s'|e| |]; cbn [incompat obind and_res]; try contradiction.
  - destruct T as (_ & SO' & _ & M). exists cs. apply REST; try reflexivity.
    + intros q. cbn [with_limit p_limits]. rewrite SL. destruct (qscope_eqb q QQuery); [exact SO'|apply LO].
    + intros q n Hn. cbn [with_limit p_limits]. rewrite SL, position_app.
      assert (position_ok [r] q n <-> (q = QQuery -> n = 0)) as PO.
      { unfold position_ok. split; [intros X; inversion X; auto|]. intros X. constructor; [exact X|constructor]. }
      rewrite PO. destruct (qscope_eqb q QQuery) eqn:E.
      * apply qscope_eqb_eq in E. subst q. rewrite M by exact Hn. rewrite andb_true_iff, LP by exact Hn. cbn [uint_func]. rewrite N.eqb_eq. tauto.
      * rewrite LP by exact Hn. split; [|tauto]. intros X. split; [exact X|]. intros ->. discriminate.
  - right. left. intros n Hn X. apply position_app in X as [X1 X2]. inversion X2 as [|? ? X3 _]; subst. specialize (X3 eq_refl). subst n.
    apply LP in X1; [|exact Hn]. specialize (T 0 Hn). rewrite X1 in T. discriminate.
Qed.

Lemma and_inv P cs ps r : Inv P cs ps -> pred_ok r -> and_res ps r (and_ P r).
Proof.
  intros IV OK. destruct r as [k op v]. destruct k as [f| | |q]; unfold pred_ok in OK; cbn [p_kind p_val p_op] in OK.
  - destruct v as [n|sp].
    + destruct f; try contradiction; try (now destruct OK as [[] _]); try (destruct OK as [K Hv]; apply (and_num P cs ps); solve [assumption | discriminate]).
      * apply (and_hash P cs ps op n IV), OK.
      * apply (and_depth P cs ps op n IV), OK.
    + destruct f; try contradiction. destruct OK as (-> & cs' & SK & L8 & ->). now apply (and_spacename P cs).
  - destruct v as [n|sp]; [|contradiction]. now apply (and_recv P cs).
  - destruct v as [n|sp]; [contradiction|]. destruct OK as (-> & cs' & SK & L8 & ->). now apply (and_prefix P cs).
  - destruct v as [n|sp]; [|contradiction]. now apply (and_limit P cs).
Qed.
Lemma position_mono ps rs q n : position_ok (ps ++ rs) q n -> position_ok ps q n.
Proof. intros H. now apply Forall_app in H as [H _]. Qed.
Lemma no_positions_mono ps rs q : no_positions ps q -> no_positions (ps ++ rs) q.
Proof. intros H n Hn X. exact (H n Hn (position_mono _ _ _ _ X)). Qed.
Lemma no_results_mono ps rs : no_results ps -> no_results (ps ++ rs).
Proof. unfold no_results. intros [H|[H [H2|H2]]]; auto using no_positions_mono. Qed.
Lemma add_all_inv rs : forall P cs ps, Inv P cs ps -> Forall pred_ok rs ->
  match add_all P rs with
  | Ok P' => exists cs', Inv P' cs' (ps ++ rs)
  | Err _ => (forall rc nh p, valid rc nh p -> ~ Forall (satisfies hash rc nh p) (ps ++ rs)) \/ no_results (ps ++ rs)
  | _ => False
  end.
Proof.
  induction rs as [|r rs IH]; intros P cs ps IV OK; cbn [add_all].
  - exists cs. now rewrite app_nil_r.
  - inversion OK as [|? ? O1 O2]; subst. pose proof (and_inv P cs ps r IV O1) as S.
    destruct (and_ P r) as [P'|e| |]; cbn [obind and_res] in *; try contradiction.
    + destruct S as [cs' IV']. specialize (IH P' cs' (ps ++ [r]) IV' O2). rewrite <- app_assoc in IH. exact IH.
    + replace (ps ++ r :: rs) with ((ps ++ [r]) ++ rs) by (rewrite <- app_assoc; reflexivity).
      destruct S as [S|S]; [left|right; now apply no_results_mono].
      intros rc nh p VA F. apply (S rc nh p VA). now apply Forall_app in F as [F _].
Qed.

(** ** Compiled tests *)
Lemma rs_space_np nh p rs : point_rspace p = Some rs -> exists h k, common_idx (fields (point_parts (np_of hash nh p))) = Some (h, rs, k).
Proof. intros E. destruct p; try discriminate; injection E as <-; cbn; eauto. Qed.
Lemma no_space_np nh p : point_rspace p = None -> common_idx (fields (point_parts (np_of hash nh p))) = None.
Proof. destruct p; try discriminate; reflexivity. Qed.
Lemma compiled_field P f r nh p : sets_ok P -> num_kind f -> valid r nh p ->
  forallb (run_test (np_of hash nh p)) (into_tests P f) = member (p_sets P f) (V hash nh p f).
Proof.
  intros [SO _] K VA. destruct (SO f K) as [S A]. unfold into_tests.
  pose proof (compile_exact (field_width f) (p_sets P f) (V hash nh p f) (width_gt f) (width_lt f) S A (valid_V r nh p f VA)) as CE.
  destruct (compile_stest (field_width f) (p_sets P f)) as [ts|]; cbn [forallb run_test compiled_test] in *; [|exact CE].
  rewrite andb_true_r. exact CE.
Qed.
Lemma forallb_flat_map {A B} (g : B -> bool) (h : A -> list B) l : forallb g (flat_map h l) = forallb (fun a => forallb g (h a)) l.
Proof. induction l as [|a l IH]; cbn; [reflexivity|]. now rewrite forallb_app_, IH. Qed.
Lemma compiled_num f : In f compiled_fields <-> num_kind f.
Proof. split; [intros H; cbn in H; repeat (destruct H as [<-|H]; [exact I|]); contradiction|]. destruct f; cbn; tauto. Qed.
Lemma prefix_test cs nh p : point_ok p -> space_ok cs -> cs <> [] ->
  (run_test (np_of hash nh p) (TPrefix (wire_space cs)) = true <-> under cs p).
Proof.
  intros Hp SK NE. cbn [run_test]. destruct (point_rspace p) as [rs|] eqn:E.
  - destruct (rs_space_np nh p rs E) as (h & k & ->). destruct (rooted_has_space rs (point_space p rs Hp E)) as (cs0 & H0 & R0 & L0 & _).
    rewrite R0, starts_cs by (apply H0 || assumption). split.
    + intros [more ->]. right. eauto.
    + intros U. exact (under_space cs p rs cs0 U E H0).
  - rewrite no_space_np by exact E. split; [discriminate|]. intros [U|(rs & more & E' & _)]; [contradiction|congruence].
Qed.
Lemma compile_acc P cs ps r nh p : Inv P cs ps -> valid r nh p ->
  (run_tests (compile_predicates P) (np_of hash nh p) = true /\ bound_test (p_recv P) r = true <-> acc P r nh p /\ under cs p).
Proof.
  intros (SO & PX & SK & L8 & _) VA. unfold run_tests, compile_predicates. rewrite forallb_app_, forallb_flat_map, andb_true_iff, forallb_forall.
  assert (Hp : point_ok p) by (destruct VA as (_ & b & _ & _ & H & _); exact H).
  assert ((forallb (run_test (np_of hash nh p)) match p_prefix P with [] => [] | _ => match rs_space (p_prefix P) with Ok sp => [TPrefix sp] | _ => [] end end = true) <-> under cs p) as PT.
  { rewrite PX. destruct cs as [|c cs]; [cbn; split; [intros _; now left|auto]|].
    rewrite (proj1 (rs_space_wire (c :: cs))). cbn [wire_rooted rooted_with forallb]. rewrite andb_true_r. apply prefix_test; auto. discriminate. }
  unfold acc. assert ((forall x, In x compiled_fields -> forallb (run_test (np_of hash nh p)) (into_tests P x) = true) <->
    (forall f, num_kind f -> member (p_sets P f) (V hash nh p f) = true)) as FT.
  { split; intros H f K; [rewrite <- (compiled_field P f r nh p SO K VA); apply H; now apply compiled_num|]. apply compiled_num in K.
    rewrite (compiled_field P f r nh p SO K VA). now apply H. }
  rewrite FT. destruct (p_prefix P) as [|x l] eqn:EX; rewrite PT; tauto.
Qed.
End Pk.
