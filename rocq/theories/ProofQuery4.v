From Coq Require Import Sorting.Sorted.
From Verif Require Import ProofSpace ProofRooted ProofPkt ProofTree ProofTestSet ProofStore.
From Verif Require Import Bytes ModelSpace SpecSpace ModelPkt SpecPkt ModelTree SpecTree ModelTestSet SpecTestSet ModelStore SpecStore ModelPred SpecPred ProofPred ProofPred2.
From Verif Require Import PropsTree ModelQuery SpecQuery ProofQuery ProofWalk ProofQuery2 ProofQuery3.

(** ** The bounds on the receive stamp *)
Lemma add_set_recv p f op v p' : add_set p f op v = Ok p' -> p_recv p' = p_recv p.
Proof. unfold add_set. destruct (incompat _); cbn [obind]; intros E; try discriminate. now injection E as <-. Qed.
Lemma check_space_recv p p' : check_space p = Ok p' -> p_recv p' = p_recv p.
Proof.
  unfold check_space. destruct (if _ =? 0 then _ else _) as [q| | |] eqn:E; cbn [obind]; try discriminate. intros H.
  destruct (incompat _) as [i| | |]; cbn [obind] in H; try discriminate. destruct (sval i); [|discriminate]. injection H as <-.
  destruct (rs_depth (p_prefix p) =? 0); [now injection E as <-|now apply add_set_recv in E].
Qed.
Lemma and_recv p r p' : and_ p r = Ok p' -> p_kind r <> RRecv -> p_recv p' = p_recv p.
Proof.
  destruct r as [k op v]. unfold and_. cbn [p_kind p_op p_val]. intros H NR. destruct k as [f| | |q]; [|congruence| |].
  - destruct (add_set p PktTypeF Mask1 (field_pkts f)) as [p1| | |] eqn:E1; cbn [obind] in H; try discriminate. apply add_set_recv in E1. rewrite <- E1.
    destruct f, v as [n|sp]; try discriminate; try (now apply add_set_recv in H).
    + destruct (add_set p1 PktHashF op n) as [p2| | |] eqn:E2; cbn [obind] in H; try discriminate. apply add_set_recv in E2. rewrite <- E2.
      destruct op; try (injection H as <-; reflexivity). destruct (incompat _); cbn [obind] in H; try discriminate. now injection H as <-.
    + destruct (add_set p1 DepthF op n) as [p2| | |] eqn:E2; cbn [obind] in H; try discriminate. apply add_set_recv in E2. rewrite <- E2. now apply check_space_recv.
    + destruct op; try discriminate. destruct (in_space (try_into_rooted sp)) as [rs| | |]; cbn [obind] in H; try discriminate.
      destruct (add_set p1 DepthF Equal (rs_depth rs)) as [p2| | |] eqn:E2; cbn [obind] in H; try discriminate. apply add_set_recv in E2. rewrite <- E2.
      destruct (in_space (rs_space (p_prefix p2))); cbn [obind] in H; try discriminate. destruct (in_space (rs_space rs)); cbn [obind] in H; try discriminate.
      destruct (space_starts_with _ _); [|discriminate]. apply check_space_recv in H. rewrite H. reflexivity.
  - destruct op; try discriminate. destruct v as [n|sp]; try discriminate. unfold prefix in H. destruct (in_space _); cbn [obind] in H; try discriminate.
    destruct (space_starts_with _ sp); [now injection H as <-|]. destruct (space_starts_with sp _); [|discriminate].
    destruct (in_space _); cbn [obind] in H; try discriminate. apply check_space_recv in H. rewrite H. reflexivity.
  - destruct v as [n|sp]; try discriminate. destruct (is_valid _); [|discriminate]. now injection H as <-.
Qed.
Definition recv_upto (rs : list Predicate) (u : N) : Prop :=
  Forall (fun r => match p_kind r, p_val r, p_op r with RRecv, PNum v, Less => u < v | RRecv, PNum v, Equal => u <= v | _, _, _ => True end) rs.
Lemma recv_effect rs : forall P P', low (p_recv P) <= high (p_recv P) -> Forall pred_ok rs -> add_all P rs = Ok P' ->
  low (p_recv P') <= high (p_recv P') /\
  (forall u, low (p_recv P') <= u <-> low (p_recv P) <= u /\ recv_from rs u) /\ (forall u, u <= high (p_recv P') <-> u <= high (p_recv P) /\ recv_upto rs u).
Proof.
  induction rs as [|r rs IH]; intros P P' LH OK E; cbn [add_all] in E.
  - injection E as <-. split; [exact LH|]. split; intros u; (split; [intros X; split; [exact X|constructor]|tauto]).
  - inversion OK as [|? ? O1 O2]; subst. destruct (and_ P r) as [P1| | |] eqn:E1; cbn [obind] in E; try discriminate.
    assert (low (p_recv P1) <= high (p_recv P1) /\ (forall u, low (p_recv P1) <= u <-> low (p_recv P) <= u /\ recv_from [r] u) /\ (forall u, u <= high (p_recv P1) <-> u <= high (p_recv P) /\ recv_upto [r] u)) as (L1 & F1 & G1).
    { assert (SI : forall Q : Predicate -> Prop, Forall Q [r] <-> Q r) by (intros Q; split; [intros X; now inversion X|intros X; now repeat constructor]).
      unfold recv_from, recv_upto. destruct r as [k op v]. destruct k as [f| | |q].
      1,3,4: rewrite (and_recv _ _ _ E1) by discriminate; split; [exact LH|]; split; intros u; rewrite SI; cbn [p_kind p_val p_op]; destruct v; tauto.
      unfold and_ in E1. cbn [p_kind p_op p_val] in *. destruct v as [v|]; [|discriminate]. unfold bound_try_add in E1.
      destruct (bound_has_any (bound_add 64 (p_recv P) op v)) eqn:HA; cbn [incompat obind] in E1; try discriminate. injection E1 as <-. cbn [with_recv p_recv].
      unfold bound_has_any in HA. apply N.leb_le in HA. split; [exact HA|].
      destruct op; cbn [bound_add] in *.
      - split; intros u; rewrite SI; cbn [p_kind p_val p_op]; tauto.
      - cbn [low high] in *. split; intros u; rewrite SI; cbn [p_kind p_val p_op]; lia.
      - unfold decr in *. destruct (N.eqb_spec v 0); [exfalso; revert HA; vm_compute; intros X; now apply X|]. cbn [low high] in *. split; intros u; rewrite SI; cbn [p_kind p_val p_op]; intuition lia.
      - unfold inc in *. destruct (N.ltb_spec (v + 1) (2 ^ 64)); [|exfalso; revert HA; vm_compute; intros X; now apply X]. cbn [low high] in *. split; intros u; rewrite SI; cbn [p_kind p_val p_op]; intuition lia.
      - split; intros u; rewrite SI; cbn [p_kind p_val p_op]; tauto.
      - split; intros u; rewrite SI; cbn [p_kind p_val p_op]; tauto. }
    destruct (IH P1 P' L1 O2 E) as (L2 & F2 & G2). split; [exact L2|]. unfold recv_from, recv_upto in *.
    split; intros u; [rewrite F2, F1|rewrite G2, G1]; (split; [intros [[A B] C]; inversion B; subst; split; [exact A|now constructor]|intros [A B]; inversion B; subst; repeat split; auto]).
Qed.
Lemma recv_split rs u : Forall pred_ok rs -> (recv_allowed rs u <-> recv_from rs u /\ recv_upto rs u).
Proof.
  unfold recv_allowed, recv_from, recv_upto. rewrite !Forall_forall. intros OK.
  assert (forall r, In r rs -> ((match p_kind r, p_val r with RRecv, PNum v => holds (p_op r) u v | _, _ => True end) <->
    (match p_kind r, p_val r, p_op r with RRecv, PNum v, Greater => v < u | RRecv, PNum v, Equal => v <= u | _, _, _ => True end) /\
    (match p_kind r, p_val r, p_op r with RRecv, PNum v, Less => u < v | RRecv, PNum v, Equal => u <= v | _, _, _ => True end))) as H.
  { intros r IN. specialize (OK r IN). unfold pred_ok in OK. destruct (p_kind r), (p_val r); try tauto. destruct (p_op r); cbn [holds] in *; try lia; tauto. }
  split.
  - intros A. split; intros r IN; destruct (proj1 (H r IN) (A r IN)) as [X Y]; [exact X|exact Y].
  - intros [A B] r IN. exact (proj2 (H r IN) (conj (A r IN) (B r IN))).
Qed.

Section Hash.
Variable hash : bytes -> bytes.
Hypothesis HL : forall x, lenN (hash x) = 32.
Notation V := (V hash).
Variable d : db.
Variable l : list stored.
Hypothesis VS : valid_store hash d l.
Variable rs : list Predicate.
Hypothesis OK : Forall pred_ok rs.
Hypothesis SC : spaces_clear hash l rs.
Variable P : PktPredicates.
Hypothesis AD : add_all preds_default rs = Ok P.

Lemma the_inv : exists cs, Inv hash P cs rs.
Proof. destruct (preds_effect hash HL rs P OK AD) as (cs & IV & _). eauto. Qed.
Lemma clear_at e nh p : In e l -> packet_at hash e nh p -> clear rs p.
Proof. intros IN PA. destruct SC as [S|S]; [now right|left]. rewrite Forall_forall in S. eauto. Qed.
Lemma default_recv : low (p_recv preds_default) = 0 /\ high (p_recv preds_default) = 2 ^ 64 - 1. Proof. split; reflexivity. Qed.
Lemma the_recv : low (p_recv P) <= high (p_recv P) /\ high (p_recv P) < 2 ^ 64 /\ (forall u, low (p_recv P) <= u <-> recv_from rs u) /\ (forall u, u < 2 ^ 64 -> (bound_test (p_recv P) u = true <-> recv_allowed rs u)).
Proof.
  destruct default_recv as [D1 D2]. destruct (recv_effect rs preds_default P ltac:(rewrite D1; apply N.le_0_l) OK AD) as (A & B & C). rewrite D1, D2 in *.
  assert (high (p_recv P) < 2 ^ 64) as HS by (pose proof (proj1 (C (high (p_recv P))) (N.le_refl _)); lia).
  split; [exact A|]. split; [exact HS|]. split; [intros u; rewrite B; intuition lia|].
  intros u U. rewrite (recv_split rs u OK). unfold bound_test. rewrite andb_true_iff, !N.leb_le, B, C. intuition lia.
Qed.

(** ** Queries by hash *)
Definition hashed (e : stored) (h : bytes * N) : Prop := In e l /\ fst e = snd h /\ np_hash (snd e) = fst h.
Lemma hash_owner h : In h (hash_t d) <-> exists e, hashed e h.
Proof.
  destruct VS as ((_ & _ & _ & _ & R & _) & _). destruct h as [h s]. rewrite R. split.
  - intros (p & IN & E). exists (s, p). repeat split; assumption.
  - intros ([s' p] & IN & E1 & E2). cbn [fst snd] in *. subst s'. exists p. auto.
Qed.
Lemma hash_value e nh p : packet_at hash e nh p -> lenN (np_hash (snd e)) = 32 /\ bytes_ok (np_hash (snd e)) /\ be_decode (np_hash (snd e)) = V nh p PktHashF.
Proof.
  intros PA. pose proof PA as ((B & Ln & Hp & BO) & (_ & _ & ->) & _). split; [apply HL|]. split; [|reflexivity].
  rewrite B in BO. unfold packet in BO. unfold bytes_ok in *. apply Forall_app in BO as [_ BO]. now apply Forall_app in BO as [BO _].
Qed.
Lemma key_le_num n h : n < 2 ^ 256 -> lenN h = 32 -> bytes_ok h -> key_le (be_encode 32 n) h = (n <=? be_decode h).
Proof.
  intros Hn L B. rewrite <- (be_encode_decode h B) at 1. assert (length h = 32%nat) as -> by (unfold lenN in L; lia).
  pose proof (be_decode_bound h B) as U. rewrite L in U. unfold key_le. rewrite (be_compare 32 n (be_decode h) 256 eq_refl Hn); [|exact U].
  destruct (N.compare_spec n (be_decode h)), (N.leb_spec n (be_decode h)); (reflexivity || lia).
Qed.
Lemma take_while_filter {A} (R : A -> A -> Prop) (f : A -> bool) m : StronglySorted R m -> (forall a b, In a m -> In b m -> R a b -> f a = false -> f b = false) -> take_while f m = filter f m.
Proof.
  induction 1 as [|a m S IH F]; intros H; [reflexivity|]. cbn [take_while filter]. destruct (f a) eqn:FA; [f_equal; apply IH; intros; eapply H; eauto; now right|].
  assert (forall b, In b m -> f b = false) as Z by (intros b B; rewrite Forall_forall in F; apply (H a b); auto using in_eq, in_cons).
  clear - Z. induction m as [|b m IH]; [reflexivity|]. cbn [filter]. rewrite (Z b (or_introl eq_refl)). apply IH. intros x X. apply Z. now right.
Qed.
Lemma sorted_len (R : stored -> stored -> Prop) ms : (forall e, ~ R e e) -> StronglySorted R ms -> incl ms l -> lenN ms <= lenN l.
Proof. exact (sub_len l R ms). Qed.

Lemma hash_all : exists ms, exactly l (matches hash rs) hash_before ms /\ lenN ms <= lenN l /\
  forall fuel stale, query_all fuel d THash true P stale = Ok (zip_members 32 (p_limits P QIndex) 0 (map answer ms)).
Proof.
  destruct the_inv as [cs IV]. pose proof IV as (SO & _ & _ & _ & _ & _ & _ & AC). pose proof VS as ((R1 & R2 & R3 & R4 & _) & L32 & _).
  set (s := p_sets P PktHashF). destruct (proj1 SO PktHashF Logic.I) as [SK _]. fold s in SK. pose proof SK as ((SL & _) & _). cbn [field_width] in SL.
  assert (HV : forall h, In h (hash_t d) -> exists e nh p, hashed e h /\ packet_at hash e nh p /\ lenN (fst h) = 32 /\ bytes_ok (fst h) /\ be_decode (fst h) = V nh p PktHashF).
  { intros h IN. apply hash_owner in IN as (e & O). pose proof O as (IN & E1 & E2). destruct (store_packet hash d l VS e IN) as (nh & p & PA). exists e, nh, p. rewrite <- E2. split; [exact O|]. split; [exact PA|]. exact (hash_value e nh p PA). }
  set (from := filter (fun e => key_le (be_encode 32 (low (bound s))) (fst e)) (hash_t d)).
  assert (FS : StronglySorted (fun a b => hash_cmp a b = Lt) from) by now apply sorted_filter.
  assert (FI : forall h, In h from <-> In h (hash_t d) /\ low (bound s) <= be_decode (fst h)).
  { intros h. unfold from. rewrite filter_In. split; intros [A B]; (split; [exact A|]); destruct (HV h A) as (_ & _ & _ & _ & _ & L & B' & _); rewrite key_le_num in *; try assumption; now apply N.leb_le. }
  assert (TW : take_while (fun e => be_decode (fst e) <=? high (bound s)) from = filter (fun e => be_decode (fst e) <=? high (bound s)) from).
  { apply (take_while_filter (fun a b => hash_cmp a b = Lt)); [exact FS|].
 intros a b A B L. apply FI in A as [A _], B as [B _]. destruct (HV a A) as (_ & _ & _ & _ & _ & LA & BA & _). destruct (HV b B) as (_ & _ & _ & _ & _ & LB & BB & _).
      unfold hash_cmp in L. assert (be_decode (fst a) < be_decode (fst b)).
      { pose proof (be_decode_bound _ BA) as UA. pose proof (be_decode_bound _ BB) as UB. rewrite LA in UA. rewrite LB in UB.
        rewrite <- (be_encode_decode _ BA), <- (be_encode_decode _ BB) in L. assert (length (fst a) = 32%nat) as EA by (unfold lenN in LA; lia). assert (length (fst b) = 32%nat) as EB by (unfold lenN in LB; lia).
        rewrite EA, EB, (be_compare 32 _ _ 256 eq_refl UA UB) in L. exact L. }
      rewrite !N.leb_gt. lia. }
  set (hs := filter (fun e => bound_test (p_recv P) (snd e) && mask_test (mask s) (be_decode (fst e))) (filter (fun e => be_decode (fst e) <=? high (bound s)) from)).
  assert (HI : forall h, In h hs <-> In h (hash_t d) /\ member s (be_decode (fst h)) = true /\ bound_test (p_recv P) (snd h) = true).
  { intros h. unfold hs. rewrite !filter_In, FI. unfold member. unfold bound_test at 2. rewrite !andb_true_iff, !N.leb_le. tauto. }
  assert (HS : StronglySorted (fun a b => hash_cmp a b = Lt) hs) by (now apply sorted_filter, sorted_filter).
  destruct (forall2_choice hashed hs) as [ms0 F2]. { intros h IN. apply hash_owner. now apply HI. }
  set (ts := filter not_hash (compile_predicates P)). set (ms := filter (fun e => pkt_test ts (answer e)) ms0).
  assert (S0 : StronglySorted hash_before ms0).
  { apply (forall2_sorted hashed _ hash_before ms0 hs F2 HS). intros a b a' b' _ _ _ _ (_ & _ & H1) (_ & _ & H2) L. unfold hash_before. rewrite H1, H2. exact L. }
  assert (MI : forall e, In e ms0 -> In e l) by (intros e IN; destruct (forall2_in_l _ _ _ F2 e IN) as (h & _ & O & _); exact O).
  assert (LM : lenN ms <= lenN l).
  { etransitivity; [apply filter_len|]. apply (sorted_len hash_before); [|exact S0|exact MI]. intros e E. unfold hash_before in E. rewrite lex_refl in E. discriminate. }
  exists ms. split; [|split].
  - split; [now apply sorted_filter|].
    assert (ACC : forall e h, hashed e h -> (In h hs /\ pkt_test ts (answer e) = true <-> matches hash rs e)).
    { intros e h O. pose proof O as (IN & E1 & E2). destruct (store_packet hash d l VS e IN) as (nh & p & PA). pose proof (packet_valid hash e nh p PA) as VA.
      rewrite (matches_iff hash rs e nh p PA). destruct (AC (fst e) nh p VA) as [A1 A2].
      assert (Forall (satisfies hash (fst e) nh p) rs <-> acc hash P (fst e) nh p /\ under cs p) as -> by (split; [exact A1|intros [X Y]; apply A2; auto; now apply (clear_at e nh)]).
      rewrite HI. rewrite <- E1, <- E2. destruct (hash_value e nh p PA) as (_ & _ & ->). unfold ts, not_hash.
      rewrite (filtered_tests hash HL P cs rs e nh p (fun t => match t with RField PktHashF => false | _ => true end) IV PA). unfold acc.
      assert (In h (hash_t d)) as IH by (apply hash_owner; eauto). split.
      - intros ((_ & A & B) & C & D). split; [|now apply D]. split; [|exact B]. intros f K. destruct f; try (now apply C). exact A.
      - intros ((A & B) & U). split; [split; [exact IH|split; [exact (A PktHashF Logic.I)|exact B]]|]. split; [intros f K _; now apply A|auto]. }
    intros e. unfold ms. rewrite filter_In. split.
    + intros [IN PT]. destruct (forall2_in_l _ _ _ F2 e IN) as (h & HI' & O). split; [now apply MI|]. apply (ACC e h O). auto.
    + intros [IN M]. assert (O : hashed e (np_hash (snd e), fst e)) by (repeat split; assumption). apply (ACC e _ O) in M as [HI' PT]. split; [|exact PT].
      destruct (forall2_in_r _ _ _ F2 _ HI') as (e' & IE & IN' & _ & E2). cbn [fst snd] in E2. rewrite <- (stored_hash hash d l VS e' e IN' IN E2). exact IE.
  - exact LM.
  - intros fuel stale. unfold query_all, query_hash, query_hash_entries. fold s. fold from.
    rewrite TW. fold hs. cbn [obind].
    rewrite (omap_forall2 _ answer ms0 (map snd hs)).
    + cbn [obind]. fold ts. now rewrite filter_map.
    + clear - F2 VS. induction F2 as [|e h m k (IN & E1 & E2) F IH]; cbn [map]; constructor; [|exact IH]. rewrite <- E1. exact (read_stored hash d l VS e IN).
Qed.
Lemma hash_main nth_ : nth_ + lenN l <= 2 ^ 32 -> exists ms out, exactly l (matches hash rs) hash_before ms /\ answers rs nth_ ms out /\
  forall fuel stale, query fuel d THash true P stale nth_ = Ok out.
Proof.
  intros NL. destruct hash_all as (ms & EM & LM & Q). destruct the_inv as [cs IV]. pose proof VS as (_ & L32 & _).
  exists ms, (zip_members 32 (p_limits P QQuery) nth_ (zip_members 32 (p_limits P QIndex) 0 (map answer ms))). split; [exact EM|]. split.
  - apply (answers_intro hash P cs rs); [exact IV|lia|lia|reflexivity].
  - intros fuel stale. unfold query. now rewrite Q.
Qed.

(** ** Queries on the log *)
Lemma log_accept cs e : Inv hash P cs rs -> In e l -> (pkt_test (compile_predicates P) (answer e) = true <-> matches_but_recv hash rs e).
Proof.
  intros IV IN. pose proof IV as (_ & _ & _ & _ & _ & _ & _ & AC). destruct (store_packet hash d l VS e IN) as (nh & p & PA). pose proof (packet_valid hash e nh p PA) as VA.
  assert (compile_predicates P = filter (fun t => (fun _ => true) (test_rule t)) (compile_predicates P)) as -> by (induction (compile_predicates P) as [|t m IH]; [reflexivity|cbn [filter]; now rewrite <- IH]).
  rewrite (filtered_tests hash HL P cs rs e nh p (fun _ => true) IV PA). split.
  - intros [A B]. exists nh, p. split; [exact PA|]. destruct the_recv as (LH & HH & _ & RA).
    assert (valid hash (low (p_recv P)) nh p) as VL by (split; [lia|apply VA]). destruct (AC (low (p_recv P)) nh p VL) as [_ A2].
    assert (Forall (satisfies hash (low (p_recv P)) nh p) rs) as F.
    { apply A2; [now apply (clear_at e nh)| |now apply B]. split; [intros f K; now apply A|]. unfold bound_test. rewrite andb_true_iff, !N.leb_le. lia. }
    rewrite Forall_forall in *. intros r R NR. specialize (F r R). unfold satisfies in *. destruct (p_kind r); try exact F; congruence.
  - intros (nh' & p' & PA' & F). destruct (packet_at_inj hash _ _ _ _ _ PA PA') as [<- <-]. destruct the_recv as (LH & HH & _ & RA).
    assert (valid hash (low (p_recv P)) nh p) as VL by (split; [lia|apply VA]). destruct (AC (low (p_recv P)) nh p VL) as [A1 _].
    assert (bound_test (p_recv P) (low (p_recv P)) = true) as BT by (unfold bound_test; rewrite andb_true_iff, !N.leb_le; lia).
    apply RA in BT; [|lia]. destruct A1 as [[A1 _] A3].
    + rewrite Forall_forall in *. intros r R. specialize (F r R). unfold recv_allowed in BT. rewrite Forall_forall in BT. specialize (BT r R). specialize (OK r R). unfold pred_ok in OK. unfold satisfies in *.
      destruct (p_kind r); try (apply F; discriminate). destruct (p_val r); [exact BT|destruct OK].
    + split; [intros f K _; now apply A1|auto].
Qed.
Lemma filter_ext_on {A} (f g : A -> bool) m : (forall a, In a m -> f a = g a) -> filter f m = filter g m.
Proof. induction m as [|a m IH]; intros H; [reflexivity|]. cbn [filter]. rewrite (H a (or_introl eq_refl)), IH; [reflexivity|]. intros; apply H; now right. Qed.
Lemma sorted_stamps : StronglySorted (recv_before true) l.
Proof.
  destruct VS as ((R1 & _) & _). unfold increasing in R1. clear VS SC. induction l as [|a m IH]; [constructor|]. cbn [map] in R1. inversion R1 as [|? ? S F]; subst. constructor; [now apply IH|].
  apply Forall_forall. intros x X. rewrite Forall_forall in F. apply F. now apply in_map.
Qed.
Lemma log_main asc nth_ : no_pred (RLimit QBranch) rs -> asc = true \/ recv_wide rs -> nth_ + lenN l <= 2 ^ 32 ->
  exists ms out, exactly l (fun e => matches_but_recv hash rs e /\ (asc = true -> recv_from rs (fst e))) (recv_before asc) ms /\ answers rs nth_ ms out /\
  forall fuel stale, query fuel d TLog asc P stale nth_ = Ok out.
Proof.
  intros NB DIR NL. destruct the_inv as [cs IV]. pose proof IV as (_ & _ & _ & _ & _ & LO & _). pose proof VS as ((R1 & R2 & R3 & R4 & _) & L32 & _).
  destruct the_recv as (LH & HH & RF & RA).
  set (l0 := if asc then filter (fun e => low (p_recv P) <=? fst e) l else rev l).
  assert (LR : log_range d (stamp_range (p_recv P) asc) = map answer l0).
  { unfold log_range, stamp_range. rewrite R3. change (fun e : N * NetPktParts => (fst e, np_bytes (snd e))) with answer. unfold l0. destruct asc; cbn [sr_start sr_end].
    - destruct (N.leb_spec (low (p_recv P)) (high (p_recv P))); [|lia]. now rewrite filter_map.
    - destruct DIR as [DIR|(a & b & AB & B & A1 & B1)]; [discriminate|]. apply RA in A1, B1; [|lia|lia]. unfold bound_test in A1, B1. rewrite andb_true_iff, !N.leb_le in A1, B1.
      destruct (N.leb_spec (high (p_recv P)) (low (p_recv P))); [lia|]. now rewrite map_rev. }
  assert (L0 : StronglySorted (recv_before asc) l0).
  { unfold l0. destruct asc; [apply sorted_filter, sorted_stamps|]. eapply sorted_weaken; [|apply sorted_rev, sorted_stamps]. intros x y _ _ H. exact H. }
  assert (I0 : forall e, In e l0 <-> In e l /\ (asc = true -> recv_from rs (fst e))).
  { intros e. unfold l0. destruct asc; [rewrite filter_In, N.leb_le, RF; tauto|]. rewrite <- in_rev. intuition discriminate. }
  set (ms := filter (fun e => pkt_test (compile_predicates P) (answer e)) l0).
  assert (LM : lenN ms <= lenN l).
  { etransitivity; [apply filter_len|]. apply (sorted_len (recv_before asc)); [|exact L0|intros e IN; now apply I0]. intros e E. unfold recv_before in E. destruct asc; lia. }
  exists ms, (zip_members 32 (p_limits P QQuery) nth_ (zip_members 32 (p_limits P QIndex) 0 (map answer ms))). split; [|split].
  - split; [now apply sorted_filter|]. intros e. unfold ms. rewrite filter_In, I0. split.
    + intros ((A & B) & C). apply (log_accept cs e IV A) in C. auto.
    + intros (A & B & C). repeat split; auto. now apply (log_accept cs e IV A).
  - apply (answers_intro hash P cs rs); [exact IV|lia|lia|reflexivity].
  - intros fuel stale. unfold query, query_all, query_log. rewrite LR. rewrite (zip_unlimited (p_limits P QBranch) _ (LO QBranch) (no_branch_limit hash rs P cs IV NB) 0 ltac:(lia)). now rewrite filter_map.
Qed.
End Hash.
