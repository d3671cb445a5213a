From Coq Require Import Sorting.Sorted.
From Verif Require Import ProofSpace ProofRooted ProofPkt ProofTree ProofTestSet ProofStore.
From Verif Require Import Bytes ModelSpace SpecSpace ModelPkt SpecPkt ModelTree SpecTree ModelTestSet SpecTestSet ModelStore SpecStore ModelPred SpecPred ProofPred ProofPred2.
From Verif Require Import PropsTree ModelQuery SpecQuery ProofQuery ProofWalk.

(** ** Lists *)
Lemma picks_all {A} (Q : N -> Prop) i (l : list A) r : (forall j, i <= j -> j < i + lenN l -> Q j) -> picks Q i l r -> r = l.
Proof.
  intros H P. induction P as [i|i a l r HQ P IH|i a l r HQ P IH]; [reflexivity| |].
  - f_equal. apply IH. intros j J1 J2. apply H; rewrite ?lenN_cons; lia.
  - exfalso. apply HQ, H; rewrite ?lenN_cons; lia.
Qed.
Lemma picks_sorted {A} (R : A -> A -> Prop) Q i l r : @picks A Q i l r -> StronglySorted R l -> StronglySorted R r /\ incl r l.
Proof.
  induction 1 as [i|i a l r HQ P IH|i a l r HQ P IH]; intros S; [split; [constructor|intros ? []]| |]; inversion S as [|? ? S1 S2]; subst; destruct (IH S1) as [A1 A2].
  - split; [constructor; [exact A1|]|].
    + apply Forall_forall. intros y Y. rewrite Forall_forall in S2. auto.
    + intros y [<-|Y]; [now left|right; auto].
  - split; [exact A1|]. intros y Y. right. auto.
Qed.
Lemma picks_ext {A} (Q Q' : N -> Prop) i (l : list A) r : (forall j, i <= j -> j < i + lenN l -> (Q j <-> Q' j)) -> picks Q i l r -> picks Q' i l r.
Proof.
  intros H P. induction P as [i|i a l r HQ P IH|i a l r HQ P IH]; [constructor| |].
  - apply picks_in; [apply H; rewrite ?lenN_cons; lia || assumption|]. apply IH. intros j J1 J2. apply H; rewrite ?lenN_cons; lia.
  - apply picks_out; [rewrite <- H; [assumption|lia|rewrite lenN_cons; lia]|]. apply IH. intros j J1 J2. apply H; rewrite ?lenN_cons; lia.
Qed.
Lemma zip_sub {A} (R : A -> A -> Prop) s at_ l : StronglySorted R l -> StronglySorted R (zip_members 32 s at_ l) /\ incl (zip_members 32 s at_ l) l.
Proof.
  revert at_. induction l as [|a l IH]; intros at_ S; [split; [constructor|intros ? []]|]. inversion S as [|? ? S1 S2]; subst. cbn [zip_members].
  destruct (member_next 32 s at_) as [[[]|] nt].
  - destruct (IH nt S1) as [A1 A2]. split; [constructor; [exact A1|apply Forall_forall; intros y Y; rewrite Forall_forall in S2; auto]|].
    intros y [<-|Y]; [now left|right; auto].
  - destruct (IH nt S1) as [A1 A2]. split; [exact A1|]. intros y Y. right. auto.
  - split; [constructor|intros ? []].
Qed.
Lemma picks_len {A} Q i (l : list A) r : picks Q i l r -> lenN r <= lenN l.
Proof. induction 1; rewrite ?lenN_cons; lia. Qed.
Lemma filter_len {A} (f : A -> bool) l : lenN (filter f l) <= lenN l.
Proof. induction l as [|a l IH]; [reflexivity|]. cbn [filter]. destruct (f a); rewrite ?lenN_cons; lia. Qed.

Section Hash.
Variable hash : bytes -> bytes.
Hypothesis HL : forall x, lenN (hash x) = 32.
Notation V := (V hash).

(** ** Stored packets *)
Lemma packet_view e nh p : packet_at hash e nh p -> view (np_bytes (snd e)) = Ok (np_of hash nh p).
Proof. intros (PK & _). now apply view_packet. Qed.
Lemma packet_valid e nh p : packet_at hash e nh p -> valid hash (fst e) nh p.
Proof. intros (PK & _ & S). split; [exact S|]. now exists (np_bytes (snd e)). Qed.
Lemma carries_inj np p p' : carries hash np p -> carries hash np p' -> p = p'.
Proof.
  intros (F & _) (F' & _). unfold has_fields in *. destruct (fields (point_parts np)); try contradiction; congruence.
Qed.
Lemma packet_at_inj e nh p nh' p' : packet_at hash e nh p -> packet_at hash e nh' p' -> nh = nh' /\ p = p'.
Proof.
  intros ((B & L & _) & C & _) ((B' & L' & _) & C' & _). split; [|exact (carries_inj _ _ _ C C')].
  rewrite B' in B. unfold packet in B. assert (takeN 32 (nh' ++ hash (content p') ++ content p') = takeN 32 (nh ++ hash (content p) ++ content p)) as T by now rewrite B.
  rewrite !takeN_app_exact in T by congruence. now symmetry.
Qed.
Lemma matches_iff rs e nh p : packet_at hash e nh p -> (matches hash rs e <-> Forall (satisfies hash (fst e) nh p) rs).
Proof.
  intros PA. split; [|intros F; exists nh, p; auto]. intros (nh' & p' & PA' & F). destruct (packet_at_inj _ _ _ _ _ PA PA') as [-> ->]. exact F.
Qed.

(** ** The tree entry of an honest packet *)
Definition nk_of (nh : bytes) (p : point) (cs : list bytes) : nkey := mkNk (V nh p GroupIDF) (V nh p DomainF) cs (V nh p PubKeyF).
Lemma sizes_small p : point_ok p -> lenN (point_links p) < 65536 /\ lenN (point_data p) < 65536.
Proof.
  intros [PS _]. destruct p as [d|d|g dm c ls rs d|g dm c ls rs d pk sg]; unfold point_size in PS; cbn [point_links point_data]; try (change (lenN (@nil (bytes * bytes))) with 0); lia.
Qed.
Lemma nil_zero : be_decode (repeat 0 32) = 0. Proof. reflexivity. Qed.
Lemma ff_decode pk : bytes_ok pk -> lenN pk = 32 -> pk <> repeat 255 32 -> be_decode pk < 2 ^ 256 - 1.
Proof.
  intros B L NE. pose proof (be_lt 32 pk B ltac:(lia)) as H. change (8 * 32) with 256 in H.
  destruct (N.eq_dec (be_decode pk) (2 ^ 256 - 1)) as [E|E]; [|lia]. exfalso. apply NE.
  apply be_decode_inj; [unfold lenN in L; rewrite repeat_length; lia|exact B|apply Forall_forall; intros x X; apply repeat_spec in X; subst; reflexivity|].
  rewrite E. reflexivity.
Qed.
Lemma index_entry e nh p ix : packet_at hash e nh p -> well_formed p -> index_of hash p ix ->
  indexed_ok ix /\ nk_ok (nk_of nh p (i_space ix)) /\ ix_key ix = nk_key (nk_of nh p (i_space ix)) /\
  (exists rs, point_rspace p = Some rs /\ has_space rs (i_space ix)) /\ lenN (i_space ix) = V nh p DepthF /\
  i_create ix = V nh p CreateF /\ be_decode (i_hash ix) = V nh p PktHashF /\ i_hash ix = np_hash (snd e) /\
  tree_entry (fst e) (snd e) = Ok (Some (ix_key ix, tree_value (i_create ix) (i_hash ix) (fst e) (lenN (point_links p)) (lenN (point_data p)))).
Proof.
  intros (PK & (F & Hp & H) & S) [DH NF] IX. destruct (packet_bytes _ _ _ _ PK) as (_ & _ & Bc). pose proof (content_bytes p Bc) as CB.
  assert (V nh p GroupIDF < 2 ^ 256) as V1 by exact (V_small hash HL _ nh p GroupIDF PK).
  assert (V nh p DomainF < 2 ^ 128) as V2 by exact (V_small hash HL _ nh p DomainF PK).
  assert (exists rs, point_rspace p = Some rs /\ has_space rs (i_space ix)) as (rs & ER & HS).
  { destruct p; try contradiction; destruct IX as (cs & HS & ->); eexists; (split; [reflexivity|exact HS]). }
  destruct (rooted_has_space rs (point_space p rs Hp ER)) as (cs0 & HS0 & RS & L8 & _). assert (cs0 = i_space ix) as -> by exact (has_space_inj _ _ _ HS0 HS).
  destruct (DH rs ER) as (cs1 & HS1 & DD). assert (cs1 = i_space ix) as -> by exact (has_space_inj _ _ _ HS1 HS).
  assert (lenN (i_space ix) = V nh p DepthF) as DV by (rewrite (V_depth hash nh p rs ER); now rewrite DD).
  assert (rs_depth rs = lenN (i_space ix)) as RD by (unfold lenN; rewrite <- DD; destruct rs; reflexivity).
  assert (exists pk, lenN pk = 32 /\ bytes_ok pk /\ i_pubkey ix = pk /\ be_decode pk = V nh p PubKeyF /\ be_decode pk < 2 ^ 256 - 1) as (pk & P1 & P2 & P3 & P4 & P5).
  { destruct p as [d|d|g dm c ls r d|g dm c ls r d pk sg]; try contradiction; destruct IX as (cs & _ & ->).
    - exists (repeat 0 32). split; [reflexivity|]. split; [apply Forall_forall; intros x X; apply repeat_spec in X; subst; reflexivity|]. repeat split.
    - exists pk. assert (lenN pk = 32) as LP by apply Hp. assert (bytes_ok pk) as BP by apply CB. split; [exact LP|]. split; [exact BP|]. split; [reflexivity|]. split; [reflexivity|].
      now apply ff_decode. }
  assert (lenN (i_group ix) = 32 /\ bytes_ok (i_group ix) /\ be_decode (i_group ix) = V nh p GroupIDF) as (G1 & G2 & G3).
  { destruct p; try contradiction; destruct IX as (cs & _ & ->); (split; [apply Hp|split; [apply CB|reflexivity]]). }
  assert (lenN (i_domain ix) = 16 /\ bytes_ok (i_domain ix) /\ be_decode (i_domain ix) = V nh p DomainF) as (D1 & D2 & D3).
  { destruct p; try contradiction; destruct IX as (cs & _ & ->); (split; [apply Hp|split; [apply CB|reflexivity]]). }
  assert (i_create ix = V nh p CreateF /\ i_create ix < 2 ^ 64) as [C1 C2].
  { destruct p; try contradiction; destruct IX as (cs & _ & ->); (split; [reflexivity|apply Hp]). }
  assert (i_hash ix = hash (content p)) as HX by (destruct p; try contradiction; destruct IX as (cs & _ & ->); reflexivity).
  assert (forall k b, lenN b = N.of_nat k -> bytes_ok b -> be_encode k (be_decode b) = b) as ED.
  { intros k b LB BB. replace k with (length b) by (unfold lenN in LB; lia). now apply be_encode_decode. }
  split; [unfold indexed_ok; rewrite P3, HX; repeat split; try assumption; try apply HS; apply HL|].
  split; [unfold nk_ok, nk_of; cbn [kg kd kc kp]; rewrite <- P4; repeat split; try assumption; [apply HS|unfold lenN; lia]|].
  split.
  { unfold ix_key, tree_key, nk_key, hkey, nk_of. cbn [kg kd kc kp]. rewrite P3, <- G3, <- D3, <- P4, !ED by (assumption || reflexivity). reflexivity. }
  split; [now exists rs|]. split; [exact DV|]. split; [exact C1|]. split; [rewrite HX; reflexivity|]. split; [congruence|].
  unfold tree_entry, has_fields in *. destruct (fields (point_parts (snd e))) as [d|lp|lp s|d|d]; cbn [common_idx]; try (subst p; contradiction); try contradiction;
    subst p; injection ER as ER; destruct IX as (cs & _ & IX); rewrite IX in *; cbn [i_create i_hash i_space i_group i_domain i_pubkey get_create_stamp get_links get_data point_links point_data] in *; subst rs; rewrite RS, RD, H; reflexivity.
Qed.
Lemma index_exists p : point_ok p -> (exists ix, index_of hash p ix) <-> point_rspace p <> None.
Proof.
  intros Hp. destruct (point_rspace p) as [rs|] eqn:E.
  - split; [discriminate|]. intros _. destruct (rooted_has_space rs (point_space p rs Hp E)) as (cs & HS & _).
    destruct p; try discriminate; injection E as <-; eexists; exists cs; (split; [exact HS|reflexivity]).
  - split; [|congruence]. intros [ix IX]. destruct p; try discriminate; contradiction.
Qed.
Lemma entry_index e nh p en : packet_at hash e nh p -> tree_entry (fst e) (snd e) = Ok (Some en) -> exists ix, index_of hash p ix.
Proof.
  intros (_ & C & _) E. pose proof C as (F & Hp & _). apply index_exists; [exact Hp|].
  destruct (point_rspace p) eqn:R; [discriminate|]. exfalso. assert (tree_entry (fst e) (snd e) = Ok None) as N; [|congruence].
  apply (entry_none _ p _ hash C). destruct p; try discriminate; exact I.
Qed.
Lemma index_inj p ix ix' : index_of hash p ix -> index_of hash p ix' -> ix = ix'.
Proof.
  destruct p; try contradiction; intros (cs & HS & ->) (cs' & HS' & ->); now rewrite (has_space_inj _ _ _ HS HS').
Qed.

(** ** Tests *)
Lemma forallb_filter {A} (f g : A -> bool) l : forallb f (filter g l) = forallb (fun x => negb (g x) || f x) l.
Proof. induction l as [|a l IH]; [reflexivity|]. cbn [filter forallb]. destruct (g a); cbn [negb orb forallb]; now rewrite IH. Qed.
(** The tests of the fields [g] selects (and the prefix, if it does). *)
Lemma filtered_tests P cs ps e nh p g : Inv hash P cs ps -> packet_at hash e nh p ->
  (pkt_test (filter (fun t => g (test_rule t)) (compile_predicates P)) (answer e) = true <->
   (forall f, num_kind f -> g (RField f) = true -> member (p_sets P f) (V nh p f) = true) /\ (g RPrefix = true -> under cs p)).
Proof.
  intros (SO & PX & SK & L8 & _) PA. pose proof (packet_valid e nh p PA) as VA. unfold pkt_test, answer. cbn [snd]. rewrite (packet_view e nh p PA).
  assert (Hp : point_ok p) by (destruct VA as (_ & b & _ & _ & H & _); exact H).
  unfold run_tests, compile_predicates. rewrite filter_app, forallb_app_, andb_true_iff.
  assert (forallb (run_test (np_of hash nh p)) (filter (fun t => g (test_rule t)) (flat_map (into_tests P) compiled_fields)) = true <->
    (forall f, num_kind f -> g (RField f) = true -> member (p_sets P f) (V nh p f) = true)) as FT.
  { rewrite forallb_filter, forallb_flat_map, forallb_forall. split.
    - intros H f K G. rewrite <- (compiled_field hash HL P f (fst e) nh p SO K VA). specialize (H f (proj2 (compiled_num f) K)).
      rewrite forallb_forall in H |- *. intros x X. specialize (H x X). unfold into_tests in X. destruct (compile_stest _ _); [|destruct X]. destruct X as [<-|[]]. cbn [test_rule] in H. now rewrite G in H.
    - intros H f K. apply compiled_num in K. apply forallb_forall. intros x X. destruct (g (test_rule x)) eqn:G; [cbn [negb orb]|reflexivity].
      assert (test_rule x = RField f) as R by (unfold into_tests in X; destruct (compile_stest _ _); [|destruct X]; destruct X as [<-|[]]; reflexivity). rewrite R in G.
      specialize (H f K G). rewrite <- (compiled_field hash HL P f (fst e) nh p SO K VA), forallb_forall in H. now apply H. }
  rewrite FT. apply and_iff_compat_l.
  assert (match p_prefix P with [] => [] | r => match rs_space r with Ok sp => [TPrefix sp] | _ => [] end end = match cs with [] => [] | _ => [TPrefix (wire_space cs)] end) as ->.
  { rewrite PX. destruct cs as [|c cs]; [reflexivity|]. pose proof (proj1 (rs_space_wire (c :: cs))) as R. destruct (wire_rooted (c :: cs)) eqn:W; [discriminate|]. now rewrite R. }
  destruct cs as [|c cs].
  - cbn. split; [intros _ _; now left|reflexivity].
  - cbn [filter test_rule]. destruct (g RPrefix).
    + cbn [forallb]. rewrite andb_true_r, (prefix_test hash (c :: cs) nh p) by (assumption || discriminate). tauto.
    + cbn [forallb]. split; [discriminate|reflexivity].
Qed.
End Hash.
