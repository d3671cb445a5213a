From Coq Require Import Sorting.Sorted.
From Verif Require Import ProofSpace ProofRooted ProofPkt ProofTree ProofTestSet ProofStore.
From Verif Require Import Bytes ModelSpace SpecSpace ModelPkt SpecPkt ModelTree SpecTree ModelTestSet SpecTestSet ModelStore SpecStore ModelPred SpecPred ProofPred ProofPred2.
From Verif Require Import PropsTree ModelQuery SpecQuery ProofQuery ProofWalk ProofQuery2.

(** Lists related to a list of entries. *)
Lemma forall2_choice {A B} (R : A -> B -> Prop) (l : list B) : (forall b, In b l -> exists a, R a b) -> exists m, Forall2 R m l.
Proof.
  induction l as [|b l IH]; intros H; [exists []; constructor|]. destruct (H b (or_introl eq_refl)) as [a Ha].
  destruct IH as [m Hm]; [intros; apply H; now right|]. exists (a :: m). now constructor.
Qed.
Lemma forall2_in_l {A B} (R : A -> B -> Prop) m l : Forall2 R m l -> forall a, In a m -> exists b, In b l /\ R a b.
Proof. induction 1 as [|a b m l H F IH]; intros x X; [destruct X|]. destruct X as [<-|X]; [exists b; split; [now left|exact H]|]. destruct (IH x X) as (y & Y & Q). exists y. split; [now right|exact Q]. Qed.
Lemma forall2_in_r {A B} (R : A -> B -> Prop) m l : Forall2 R m l -> forall b, In b l -> exists a, In a m /\ R a b.
Proof. induction 1 as [|a b m l H F IH]; intros x X; [destruct X|]. destruct X as [<-|X]; [exists a; split; [now left|exact H]|]. destruct (IH x X) as (y & Y & Q). exists y. split; [now right|exact Q]. Qed.
Lemma forall2_sorted {A B} (R : A -> B -> Prop) (S : B -> B -> Prop) (T : A -> A -> Prop) m l : Forall2 R m l -> StronglySorted S l ->
  (forall a b a' b', In a m -> In a' m -> In b l -> In b' l -> R a b -> R a' b' -> S b b' -> T a a') -> StronglySorted T m.
Proof.
  induction 1 as [|a b m l H F IH]; intros SS HT; [constructor|]. inversion SS as [|? ? S1 S2]; subst. constructor.
  - apply IH; [exact S1|]. intros x y x' y' X X' Y Y'. apply HT; now right.
  - apply Forall_forall. intros x X. destruct (forall2_in_l _ _ _ F x X) as (y & Y & Q). rewrite Forall_forall in S2.
    apply (HT a b x y); try assumption; [now left|now right|now left|now right|now apply S2].
Qed.
Lemma omap_forall2 {E A B C} (f : B -> outcome E C) (g : A -> C) m l : Forall2 (fun a b => f b = Ok (g a)) m l -> omap f l = Ok (map g m).
Proof. induction 1 as [|a b m l H F IH]; [reflexivity|]. cbn [omap map]. rewrite H. cbn [obind]. rewrite IH. reflexivity. Qed.
Lemma filter_map {A B} (g : A -> B) (f : B -> bool) l : filter f (map g l) = map g (filter (fun a => f (g a)) l).
Proof. induction l as [|a l IH]; [reflexivity|]. cbn [map filter]. destruct (f (g a)); cbn [map]; now rewrite IH. Qed.
Lemma sorted_map {A B} (R : B -> B -> Prop) (g : A -> B) l : StronglySorted (fun a b => R (g a) (g b)) l -> StronglySorted R (map g l).
Proof.
  induction 1 as [|a l S IH F]; cbn [map]; constructor; [exact IH|]. apply Forall_forall. intros y Y. apply in_map_iff in Y as (x & <- & X).
  rewrite Forall_forall in F. auto.
Qed.
Lemma sorted_flat_map {A B} (R : A -> A -> Prop) (S : B -> B -> Prop) (f : A -> list B) l : StronglySorted R l ->
  (forall a, In a l -> StronglySorted S (f a)) -> (forall a b x y, In a l -> In b l -> R a b -> In x (f a) -> In y (f b) -> S x y) -> StronglySorted S (flat_map f l).
Proof.
  induction 1 as [|a l SS IH F]; intros H1 H2; [constructor|]. cbn [flat_map]. apply sorted_app. rewrite Forall_forall in F.
  split; [apply H1; now left|]. split.
  - apply IH; [intros; apply H1; now right|]. intros x y u v X Y. apply H2; now right.
  - intros x y X Y. apply in_flat_map in Y as (b & BI & Y). apply (H2 a b x y); try assumption; [now left|now right|now apply F].
Qed.

Lemma forall_iff {A} (F G : A -> Prop) : (forall a, F a <-> G a) -> ((forall a, F a) <-> (forall a, G a)).
Proof. intros H. split; intros X a; apply H, X. Qed.
Lemma forall2_impl {A B} (F G : A -> B -> Prop) : (forall a b, F a b -> G a b) -> forall x y, Forall2 F x y -> Forall2 G x y.
Proof. intros H x y. induction 1; constructor; auto. Qed.
Lemma components_refl a : components_compare a a = Eq.
Proof. induction a as [|x a IH]; [reflexivity|]. cbn [components_compare]. unfold component_compare. now rewrite N.compare_refl, lex_refl. Qed.

Lemma unlimited s y : set_ok 32 s -> (forall y, y < 2 ^ 32 -> member s y = true) -> y < 2 ^ 32 -> exists y', member_next 32 s y = (Some true, y') /\ y' < 2 ^ 32.
Proof.
  intros S H Y. pose proof (H y Y) as M. assert (test 32 s y = true) as T by (rewrite test_member; [exact M|lia|lia|exact S|exact Y]).
  unfold member in M. apply andb_prop in M as [M _]. unfold bound_test in M. apply andb_prop in M as [M _]. apply N.leb_le in M.
  unfold member_next. destruct (N.ltb_spec (high (bound s)) y); [lia|]. rewrite T. unfold inc. destruct (N.ltb_spec (y + 1) (2 ^ 32)); eauto.
Qed.
Lemma zip_unlimited {A} s (m : list A) : set_ok 32 s -> (forall y, y < 2 ^ 32 -> member s y = true) -> forall y, y < 2 ^ 32 -> zip_members 32 s y m = m.
Proof.
  intros S H. induction m as [|a m IH]; intros y Y; [reflexivity|]. cbn [zip_members]. destruct (unlimited s y S H Y) as (y' & -> & Y'). now rewrite IH.
Qed.


Lemma forall2_len {A B} (R : A -> B -> Prop) x y : Forall2 R x y -> lenN x = lenN y.
Proof. induction 1 as [|a b x y H F IH]; [reflexivity|]. now rewrite !lenN_cons, IH. Qed.
Lemma picks_mid {A} (Q : N -> Prop) i (a : list A) x b r : picks Q i (a ++ x :: b) r -> ~ In x a -> ~ In x b -> (In x r <-> Q (i + lenN a)).
Proof.
  assert (SUB : forall i (l r : list A), picks Q i l r -> incl r l).
  { induction 1 as [|j y l s H P IH|j y l s H P IH]; intros z Z; [destruct Z| |right; now apply IH]. destruct Z as [<-|Z]; [now left|right; now apply IH]. }
  revert i r. induction a as [|y a IH]; intros i r P NA NB.
  - change (lenN (@nil A)) with 0. rewrite N.add_0_r. cbn [app] in P. inversion P as [|? ? ? ? H P'|? ? ? ? H P']; subst; [split; [auto|intros _; now left]|].
    split; [|intros X; contradiction]. intros X. exfalso. apply NB. exact (SUB _ _ _ P' x X).
  - rewrite lenN_cons. replace (i + (1 + lenN a)) with (i + 1 + lenN a) by lia. cbn [app] in P.
    assert (NA' : ~ In x a) by (intros X; apply NA; now right). inversion P as [|? ? ? ? H P'|? ? ? ? H P']; subst; rewrite <- (IH _ _ P' NA' NB); [|reflexivity].
    split; [intros [->|X]; [exfalso; apply NA; now left|exact X]|intros X; now right].
Qed.

Section Hash.
Variable hash : bytes -> bytes.
Hypothesis HL : forall x, lenN (hash x) = 32.
Notation V := (V hash).

Lemma answers_intro P cs rs nth_ (ms : list stored) out : Inv hash P cs rs -> lenN ms < 2 ^ 32 -> nth_ + lenN ms <= 2 ^ 32 ->
  zip_members 32 (p_limits P QQuery) nth_ (zip_members 32 (p_limits P QIndex) 0 (map answer ms)) = out -> answers rs nth_ ms out.
Proof.
  intros (_ & _ & _ & _ & _ & LO & LP & _) L1 L2 E. assert (lenN (map answer ms) = lenN ms) as LM by (unfold lenN; now rewrite map_length).
  pose proof (zip_members_picks 32 (p_limits P QIndex) (map answer ms) 0 ltac:(lia) ltac:(lia) (LO QIndex) ltac:(lia)) as P1.
  set (mid := zip_members 32 (p_limits P QIndex) 0 (map answer ms)) in *. pose proof (picks_len _ _ _ _ P1) as L3.
  pose proof (zip_members_picks 32 (p_limits P QQuery) mid nth_ ltac:(lia) ltac:(lia) (LO QQuery) ltac:(lia)) as P2. rewrite E in P2.
  exists mid. split; [eapply picks_ext; [|exact P1]|eapply picks_ext; [|exact P2]]; intros j J1 J2; apply LP; lia.
Qed.

Section Store.
Variable d : db.
Variable l : list stored.
Hypothesis VS : valid_store hash d l.

Lemma store_packet e : In e l -> exists nh p, packet_at hash e nh p.
Proof. intros I. destruct VS as (_ & _ & F). rewrite Forall_forall in F. auto. Qed.
Lemma read_stored e : In e l -> read_unwrap d (fst e) = Ok (answer e).
Proof.
  intros I. destruct VS as ((R1 & _ & R3 & _) & _). unfold read_unwrap, read_at. rewrite R3. change (map _ l) with (logged l).
  rewrite (proj2 (log_get_iff l (fst e) (np_bytes (snd e)) R1)); [reflexivity|]. exists (snd e). split; [now destruct e|reflexivity].
Qed.
Lemma stored_stamp e e' : In e l -> In e' l -> fst e = fst e' -> e = e'.
Proof.
  intros I I' E. destruct VS as ((R1 & _) & _). destruct e as [s a], e' as [s' b]. cbn [fst] in E. subst s'. f_equal. exact (increasing_unique l s a b R1 I I').
Qed.
Lemma stored_hash e e' : In e l -> In e' l -> np_hash (snd e) = np_hash (snd e') -> e = e'.
Proof.
  intros I I' E. destruct VS as ((_ & N & _) & _). clear VS. revert I I' N. induction l as [|x m IH]; [intros []|]. cbn [map]. intros I I' N.
  inversion N as [|? ? N1 N2]; subst. destruct I as [->|I], I' as [->|I']; [reflexivity| | |auto].
  - exfalso. apply N1. rewrite E. now apply (in_map (fun e => np_hash (snd e))).
  - exfalso. apply N1. rewrite <- E. now apply (in_map (fun e => np_hash (snd e))).
Qed.
Lemma sub_len (R : stored -> stored -> Prop) ms : (forall e, ~ R e e) -> StronglySorted R ms -> incl ms l -> lenN ms <= lenN l.
Proof.
  intros IR S IC. assert (NoDup ms) as N.
  { clear IC. induction S as [|a m S IH F]; constructor; [|exact IH]. intros I. rewrite Forall_forall in F. exact (IR a (F a I)). }
  pose proof (NoDup_incl_length N IC). unfold lenN. lia.
Qed.
End Store.

(** ** Queries on the tree *)
Section Tree.
Variable d : db.
Variable l : list stored.
Hypothesis HS : honest_store hash d l.
Variable rs : list Predicate.
Variable P : PktPredicates.
Variable cs : list bytes.
Hypothesis IV : Inv hash P cs rs.
Hypothesis ME : forall f u, num_kind f -> f <> PktTypeF -> u < 2 ^ field_width f -> (member (p_sets P f) u = true <-> Forall (fun r => allows r f u) rs).
Variable asc : bool.

Lemma tree_vs : valid_store hash d l. Proof. apply HS. Qed.
Lemma honest e : In e l -> exists nh p, packet_at hash e nh p /\ well_formed p.
Proof. intros I. destruct HS as [_ F]. rewrite Forall_forall in F. auto. Qed.

Definition keys : TreeKeys := mkTreeKeys (p_sets P DomainF) (p_sets P GroupIDF) (wire_space cs) (from_rules (p_sets P DepthF)) (p_sets P PubKeyF)
  (stamp_range (bound (p_sets P CreateF)) asc).
Lemma keys_compiled : compile_tree_keys P asc = Ok keys.
Proof. destruct IV as (_ & PX & _). unfold compile_tree_keys. rewrite PX, (proj1 (rs_space_wire cs)). reflexivity. Qed.
Lemma set_field f : num_kind f -> set_ok (field_width f) (p_sets P f) /\ has_any (field_width f) (p_sets P f) = true.
Proof. destruct IV as ((SO & _) & _). apply SO. Qed.
Lemma depth_bits n : bit_contains (from_rules (p_sets P DepthF)) n = true <-> n <= 8 /\ member (p_sets P DepthF) n = true.
Proof.
  rewrite from_rules_spec, andb_true_iff, N.leb_le. split; intros [A B]; (split; [exact A|]).
  - rewrite test_member in B; [exact B|lia|lia|exact (proj1 (set_field DepthF I))|lia].
  - rewrite test_member; [exact B|lia|lia|exact (proj1 (set_field DepthF I))|lia].
Qed.
Lemma create_bound : low (bound (p_sets P CreateF)) <= high (bound (p_sets P CreateF)).
Proof. destruct (set_field CreateF I) as [A B]. exact (has_any_low 64 _ (width_gt CreateF) (width_lt CreateF) A B). Qed.

(** The tree entry of a stored packet. *)
Definition owns (e : stored) (en : entry) : Prop := In e l /\ tree_entry (fst e) (snd e) = Ok (Some en).
Lemma owner en : In en (tree_t d) <-> exists e, owns e en.
Proof.
  destruct tree_vs as ((_ & _ & _ & _ & _ & _ & R) & _). rewrite R. split.
  - intros (s & p & I & E). exists (s, p). split; assumption.
  - intros ([s p] & I & E). exists s, p. split; assumption.
Qed.
Lemma owned e en : owns e en -> exists nh p ix, packet_at hash e nh p /\ well_formed p /\ index_of hash p ix /\
  en = (ix_key ix, tree_value (i_create ix) (i_hash ix) (fst e) (lenN (point_links p)) (lenN (point_data p))).
Proof.
  intros [I E]. destruct (honest e I) as (nh & p & PA & WF). destruct (entry_index hash e nh p en PA E) as [ix IX].
  destruct (index_entry hash HL e nh p ix PA WF IX) as (_ & _ & _ & _ & _ & _ & _ & _ & T). exists nh, p, ix.
  split; [exact PA|]. split; [exact WF|]. split; [exact IX|]. congruence.
Qed.
Definition the_tests : list PktTest := filter (fun t => negb (treekey_checked (test_rule t))) (compile_predicates P).
(** The tests on the value of an entry. *)
Lemma entry_ok_iff e nh p ix : packet_at hash e nh p -> well_formed p -> index_of hash p ix ->
  (entry_ok P (ix_key ix, tree_value (i_create ix) (i_hash ix) (fst e) (lenN (point_links p)) (lenN (point_data p))) = true <->
    member (p_sets P CreateF) (V nh p CreateF) = true /\ bound_test (p_recv P) (fst e) = true /\ member (p_sets P PktHashF) (V nh p PktHashF) = true /\
    member (p_sets P LinksLenF) (V nh p LinksLenF) = true /\ member (p_sets P DataSizeF) (V nh p DataSizeF) = true).
Proof.
  intros PA WF IX.
  destruct (index_entry hash HL e nh p ix PA WF IX) as (IO & NO & KE & (rsp & ER & SP) & DV & CV & HV & _ & _).
  pose proof (packet_valid hash e nh p PA) as VA. assert (Hp : point_ok p) by (destruct VA as (_ & b & _ & _ & H & _); exact H).
  pose proof PA as (_ & _ & ST). destruct (sizes_small hash HL p Hp) as [Z1 Z2].
  unfold entry_ok. cbn [snd]. destruct IO as (_ & _ & _ & _ & I5 & I6).
    destruct (C18_value_fields (i_create ix) (i_hash ix) (fst e) (lenN (point_links p)) (lenN (point_data p)) I5 I6 ST) as (-> & -> & -> & X1 & X2).
    rewrite (X1 Z1), (X2 Z2), CV, HV.
    assert (forall f, num_kind f -> test (field_width f) (p_sets P f) (V nh p f) = member (p_sets P f) (V nh p f)) as TM.
    { intros f K. apply test_member; [apply width_gt|apply width_lt|exact (proj1 (set_field f K))|exact (valid_V hash HL _ nh p f VA)]. }
    pose proof (TM CreateF I) as T1. pose proof (TM PktHashF I) as T2. pose proof (TM LinksLenF I) as T3. pose proof (TM DataSizeF I) as T4. cbn [field_width] in T1, T2, T3, T4.
    assert (V nh p LinksLenF = lenN (point_links p) /\ V nh p DataSizeF = lenN (point_data p)) as [Q1 Q2] by (destruct p; try contradiction; split; reflexivity).
    rewrite Q1 in T3 |- *. rewrite Q2 in T4 |- *. rewrite T1, T2, T3, T4, !andb_true_iff. tauto.
Qed.
(** Which packets pass the tests on the tree and on the packet. *)
Lemma tree_accept e en : owns e en ->
  (good keys cs (fst en) /\ entry_ok P en = true /\ pkt_test the_tests (answer e) = true <-> matches hash rs e).
Proof.
  intros O. destruct (owned e en O) as (nh & p & ix & PA & WF & IX & ->).
  destruct (index_entry hash HL e nh p ix PA WF IX) as (IO & NO & KE & (rsp & ER & SP) & DV & CV & HV & _ & _).
  pose proof (packet_valid hash e nh p PA) as VA. assert (Hp : point_ok p) by (destruct VA as (_ & b & _ & _ & H & _); exact H).
  pose proof PA as (_ & _ & ST). destruct (sizes_small hash HL p Hp) as [Z1 Z2].
  rewrite (matches_iff hash rs e nh p PA). pose proof IV as (SO & _ & _ & _ & _ & _ & _ & AC). destruct (AC (fst e) nh p VA) as [A1 A2].
  assert (Forall (satisfies hash (fst e) nh p) rs <-> acc hash P (fst e) nh p /\ under cs p) as -> by (split; [exact A1|intros [X Y]; apply A2; auto; left; apply WF]).
  unfold the_tests. rewrite (filtered_tests hash HL P cs rs e nh p (fun t => negb (treekey_checked t)) IV PA).
  assert (good keys cs (fst (ix_key ix, tree_value (i_create ix) (i_hash ix) (fst e) (lenN (point_links p)) (lenN (point_data p)))) <->
    member (p_sets P GroupIDF) (V nh p GroupIDF) = true /\ member (p_sets P DomainF) (V nh p DomainF) = true /\
    member (p_sets P DepthF) (V nh p DepthF) = true /\ under cs p /\ member (p_sets P PubKeyF) (V nh p PubKeyF) = true) as ->.
  { cbn [fst]. rewrite KE. assert (good keys cs (nk_key (nk_of hash nh p (i_space ix))) <-> key_ok keys cs (nk_of hash nh p (i_space ix))) as ->.
    { split; [|intros H; exists (nk_of hash nh p (i_space ix)); auto]. intros (a & A & E & K). apply nk_inj in E; [now subst a|exact NO|exact A]. }
    unfold key_ok, nk_of, keys. cbn [tk_group tk_domain tk_depth tk_pubkey kg kd kc kp]. rewrite depth_bits, DV.
    assert ((exists r, i_space ix = cs ++ r) <-> under cs p) as ->.
    { split; [intros [r R]; right; exists rsp, r; rewrite <- R; auto|]. intros U. exact (under_space cs p rsp (i_space ix) U ER SP). }
    destruct NO as (_ & _ & _ & L8 & _). unfold nk_of in L8. cbn [kc] in L8. rewrite DV in L8. tauto. }
  rewrite (entry_ok_iff e nh p ix PA WF IX).
  unfold acc. split.
  - intros ((B1 & B2 & B3 & B4 & B5) & (B6 & B7 & B8 & B9 & B10) & B11 & _). split; [|exact B4]. split; [|exact B7]. intros f K. destruct (treekey_checked (RField f)) eqn:C; [|apply B11; [exact K|now rewrite C]].
    destruct f; try discriminate C; assumption.
  - intros ((A & B) & U). repeat split; try (apply A; exact I); try assumption; [intros f K _; now apply A|discriminate].
Qed.
Lemma entry_in_range en : (exists e, owns e en) -> entry_ok P en = true -> inw keys en = true.
Proof.
  intros [e O] E. destruct (owned e en O) as (nh & p & ix & PA & WF & IX & ->).
  unfold entry_ok in E. rewrite !andb_true_iff in E. destruct E as ((((E & _) & _) & _) & _).
  unfold inw, keys. cbn [tk_stamp]. rewrite contains_range by exact create_bound.
  destruct (index_entry hash HL e nh p ix PA WF IX) as ((_ & _ & _ & _ & I5 & I6) & _). pose proof PA as (_ & _ & ST). cbn [snd] in *.
  destruct (C18_value_fields (i_create ix) (i_hash ix) (fst e) (lenN (point_links p)) (lenN (point_data p)) I5 I6 ST) as (-> & _).
  rewrite test_member in E by (lia || exact (proj1 (set_field CreateF I)) || (destruct (C18_value_fields (i_create ix) (i_hash ix) (fst e) (lenN (point_links p)) (lenN (point_data p)) I5 I6 ST) as (-> & _); exact I5)).
  destruct (C18_value_fields (i_create ix) (i_hash ix) (fst e) (lenN (point_links p)) (lenN (point_data p)) I5 I6 ST) as (V1 & _). rewrite V1 in E.
  unfold member in E. now apply andb_prop in E as [E _].
Qed.

(** ** What the predicates say about the sets *)
Lemma member_allowed f u : num_kind f -> f <> PktTypeF -> f <> DepthF -> u < 2 ^ field_width f -> (member (p_sets P f) u = true <-> field_allowed rs f u).
Proof.
  intros K N1 N2 U. rewrite (ME f u K N1 U). unfold field_allowed. rewrite !Forall_forall. apply forall_iff. intros r. apply forall_iff. intros _. unfold allows.
  destruct (p_kind r) as [g| | |q], (p_val r) as [v|sp]; try destruct g; intuition congruence.
Qed.
Lemma member_depth u : u < 2 ^ 8 -> (member (p_sets P DepthF) u = true <-> depth_allowed rs u).
Proof.
  intros U. rewrite (ME DepthF u I ltac:(discriminate) U). unfold depth_allowed. rewrite !Forall_forall. apply forall_iff. intros r. apply forall_iff. intros _. unfold allows.
  destruct (p_kind r) as [g| | |q], (p_val r) as [v|sp]; try destruct g; intuition congruence.
Qed.
Lemma depth_bit n : bit_contains (tk_depth keys) n = true <-> n <= 8 /\ depth_allowed rs n.
Proof. unfold keys. cbn [tk_depth]. rewrite depth_bits. split; intros [A B]; (split; [exact A|]); apply member_depth; (assumption || lia). Qed.

Lemma possible_bounds : possible rs -> exists b, bounds_ok keys b /\ lower_bound keys = Ok (bkey cs b).
Proof.
  intros ((n & N1 & N2) & (g & G1 & G2) & (dm & D1 & D2) & (pk & K1 & K2)).
  apply (lower_bound_ok keys cs eq_refl g dm n pk).
  - exact (proj1 (set_field GroupIDF I)).
  - split; [exact G1|]. now apply (member_allowed GroupIDF g I ltac:(discriminate) ltac:(discriminate) G1).
  - exact (proj1 (set_field DomainF I)).
  - split; [exact D1|]. now apply (member_allowed DomainF dm I ltac:(discriminate) ltac:(discriminate) D1).
  - apply from_rules_small.
  - now apply depth_bit.
  - intros x X. now apply depth_bit in X.
  - exact (proj1 (set_field PubKeyF I)).
  - split; [exact K1|]. now apply (member_allowed PubKeyF pk I ltac:(discriminate) ltac:(discriminate) K1).
Qed.
Lemma tree_keys_ok en : In en (tree_t d) -> exists a, nk_ok a /\ fst en = nk_key a.
Proof.
  intros IN. apply owner in IN as [e O]. destruct (owned e en O) as (nh & p & ix & PA & WF & IX & ->).
  destruct (index_entry hash HL e nh p ix PA WF IX) as (_ & NO & KE & _). eauto.
Qed.
Lemma tree_values_ok en : In en (tree_t d) -> exists c x, c < 2 ^ 64 /\ snd en = be_encode 8 c ++ x.
Proof.
  intros IN. apply owner in IN as [e O]. destruct (owned e en O) as (nh & p & ix & PA & WF & IX & ->).
  destruct (index_entry hash HL e nh p ix PA WF IX) as ((_ & _ & _ & _ & I5 & _) & _). cbn [snd]. unfold tree_value. eauto.
Qed.
Lemma tree_order : ordered_by tree_cmp (tree_t d). Proof. destruct tree_vs as ((_ & _ & _ & _ & _ & R & _) & _). exact R. Qed.

Lemma fixed_group f : fixes f rs -> num_kind f -> f <> PktTypeF -> f <> DepthF -> forall x y, x < 2 ^ field_width f -> y < 2 ^ field_width f ->
  member (p_sets P f) x = true -> member (p_sets P f) y = true -> x = y.
Proof.
  intros [v F] K N1 N2 x y X Y MX MY. apply (member_allowed f x K N1 N2 X) in MX. apply (member_allowed f y K N1 N2 Y) in MY.
  unfold field_allowed in *. rewrite Forall_forall in MX, MY. specialize (MX _ F eq_refl). specialize (MY _ F eq_refl). cbn [p_op holds] in *. congruence.
Qed.
Lemma cover_ok b : possible rs -> Forall pred_ok rs -> unskipped rs ->
  (no_pred RPrefix rs -> no_pred (RField SpaceNameF) rs -> cs = []) ->
  (forall c u, In (mkPred (RField SpaceNameF) Equal (PSpace (wire_space c))) rs -> space_ok c -> u < 2 ^ 8 -> member (p_sets P DepthF) u = true -> cs = c) ->
  bounds_ok keys b -> cover keys cs b.
Proof.
  intros PS OK UN CN CSN (_ & _ & (BN1 & BN2) & BP1 & BP2 & BP3).
  assert (DA : forall n r, depth_allowed rs n -> In r rs -> match p_kind r, p_val r with RField DepthF, PNum v => holds (p_op r) n v | _, _ => True end).
  { intros n r D IN. unfold depth_allowed in D. rewrite Forall_forall in D. specialize (D r IN). destruct (p_kind r) as [g| | |]; [destruct g|..]; try exact I; exact D. }
  assert (ND : forall n, no_pred RPrefix rs -> no_pred (RField SpaceNameF) rs ->
    (forall r v, In r rs -> p_kind r = RField DepthF -> p_val r = PNum v -> holds (p_op r) n v) -> depth_allowed rs n).
  { intros n N1 N2 H. unfold depth_allowed. apply Forall_forall. intros r IN. unfold no_pred in N1, N2. rewrite Forall_forall in N1, N2. specialize (N1 r IN). specialize (N2 r IN).
    destruct (p_kind r) as [g| | |] eqn:KR; [destruct g|..]; destruct (p_val r) as [v|sp] eqn:VR; try exact I; try congruence. now apply H. }
  unfold cover. destruct UN as [(N1 & N2 & DO)|(FG & FD & UN)].
  - rewrite (CN N1 N2). assert (LT : forall x y, y <= x -> bit_contains (tk_depth keys) x = true -> bit_contains (tk_depth keys) y = true).
    { intros x y L X. apply depth_bit in X as [X1 X2]. apply depth_bit. split; [lia|]. apply ND; try assumption. intros r v IN KR VR.
      pose proof (DA x r X2 IN) as H. rewrite KR, VR in H. unfold depth_ops in DO. rewrite Forall_forall in DO. specialize (DO r IN KR). rewrite DO in H |- *. cbn [holds] in H |- *. lia. }
    assert (bn b = 0) as B0. { pose proof (BN2 0 (LT (bn b) 0 (N.le_0_l _) BN1)). lia. }
    split; [intros x y z L1 L2 _ Z; exact (LT z y L2 Z)|]. split; [left; exact B0|]. split; [right; split; [reflexivity|exact B0]|now left].
  - assert (SG : (forall x y, x < 2 ^ 256 -> y < 2 ^ 256 -> member (tk_group keys) x = true -> member (tk_group keys) y = true -> x = y) /\
                 (forall x y, x < 2 ^ 128 -> y < 2 ^ 128 -> member (tk_domain keys) x = true -> member (tk_domain keys) y = true -> x = y)).
    { split; [exact (fixed_group GroupIDF FG I ltac:(discriminate) ltac:(discriminate))|exact (fixed_group DomainF FD I ltac:(discriminate) ltac:(discriminate))]. }
    destruct UN as [(sp & FS)|(NP & UN)].
    + rewrite Forall_forall in OK. pose proof (OK _ FS) as OKS. unfold pred_ok in OKS. cbn [p_kind p_val p_op] in OKS. destruct OKS as (_ & c & SC & LC & ->).
      assert (S1 : forall n, bit_contains (tk_depth keys) n = true -> n = lenN c).
      { intros n N. apply depth_bit in N as [_ N]. unfold depth_allowed in N. rewrite Forall_forall in N. specialize (N _ FS). cbn [p_kind p_val] in N.
        destruct N as (c' & SC' & W & ->). apply wire_space_inj in W; [now subst|apply SC|apply SC']. }
      assert (cs = c) as ->.
      { apply depth_bit in BN1 as [B1 B2]. apply (CSN c (bn b) FS SC ltac:(lia)). apply member_depth; [lia|exact B2]. }
      split; [intros x y z L1 L2 X Z; apply S1 in X as X1; apply S1 in Z as Z1; replace y with x by lia; exact X|].
      split; [left; now apply S1|]. split; [left; exact SG|]. right. intros x y X Y. now rewrite (S1 x X), (S1 y Y).
    + assert (bp b = 0) as B0.
      { assert (member (tk_pubkey keys) 0 = true) as M0.
        { apply (member_allowed PubKeyF 0 I ltac:(discriminate) ltac:(discriminate)); [reflexivity|]. unfold field_allowed. apply Forall_forall. intros r IN.
          unfold no_pred in NP. rewrite Forall_forall in NP. specialize (NP r IN). destruct (p_kind r) as [g| | |] eqn:KR, (p_val r); try exact I. intros <-. congruence. }
        pose proof (BP3 0 eq_refl M0). lia. }
      destruct UN as [(v & FDp)|(N1 & N2 & DO)].
      * assert (S1 : forall n, bit_contains (tk_depth keys) n = true -> n = v).
        { intros n N. apply depth_bit in N as [_ N]. exact (DA n _ N FDp). }
        split; [intros x y z L1 L2 X Z; apply S1 in X as X1; apply S1 in Z as Z1; replace y with x by lia; exact X|].
        split; [now right|]. split; [left; exact SG|]. right. intros x y X Y. now rewrite (S1 x X), (S1 y Y).
      * rewrite (CN N1 N2). split; [|split; [now right|split; [left; exact SG|now left]]].
        intros x y z L1 L2 X Z. apply depth_bit in X as [_ X], Z as [Z1 Z]. apply depth_bit. split; [lia|]. apply ND; try assumption. intros r v IN KR VR.
        pose proof (DA x r X IN) as HX. pose proof (DA z r Z IN) as HZ. rewrite KR, VR in HX, HZ. unfold depth_ops in DO. rewrite Forall_forall in DO. specialize (DO r IN KR).
        unfold interval_op in DO. destruct (p_op r); try contradiction; cbn [holds] in *; lia.
Qed.

(** Without limits on the branches everything of a branch is kept. *)
Lemma no_branch_limit : no_pred (RLimit QBranch) rs -> forall y, y < 2 ^ 32 -> member (p_limits P QBranch) y = true.
Proof.
  intros NB y Y. destruct IV as (_ & _ & _ & _ & _ & _ & LP & _). apply LP; [exact Y|]. unfold position_ok. apply Forall_forall. intros r IN.
  unfold no_pred in NB. rewrite Forall_forall in NB. specialize (NB r IN). destruct (p_kind r) as [g| | |q] eqn:KR; try exact I.
  - destruct g; try exact I. destruct (p_op r); try exact I. discriminate.
  - destruct (p_val r); [|exact I]. intros ->. congruence.
Qed.
Lemma owns_inj e e' en : owns e en -> owns e' en -> e = e'.
Proof.
  intros O O'. destruct (owned e en O) as (nh & p & ix & PA & WF & IX & E). destruct (owned e' en O') as (nh2 & p2 & ix2 & PA2 & WF2 & IX2 & E2).
  destruct (index_entry hash HL e' nh2 p2 ix2 PA2 WF2 IX2) as ((_ & _ & _ & _ & J5 & J6) & _).
  destruct (index_entry hash HL e nh p ix PA WF IX) as ((_ & _ & _ & _ & I5 & I6) & _). pose proof PA as (_ & _ & S64). pose proof PA2 as (_ & _ & S64').
  destruct (C18_value_fields (i_create ix) (i_hash ix) (fst e) (lenN (point_links p)) (lenN (point_data p)) I5 I6 S64) as (_ & _ & V1 & _).
  destruct (C18_value_fields (i_create ix2) (i_hash ix2) (fst e') (lenN (point_links p2)) (lenN (point_data p2)) J5 J6 S64') as (_ & _ & V2 & _).
  apply (stored_stamp d l tree_vs); [apply O|apply O'|]. rewrite E in E2. apply (f_equal snd) in E2. cbn [snd] in E2. congruence.
Qed.
Lemma irr e : ~ tree_before hash asc e e.
Proof.
  intros (ia & ib_ & (nh & p & PA & IA) & (nh' & p' & PA' & IB) & C).
  destruct (packet_at_inj hash _ _ _ _ _ PA PA') as [<- <-]. rewrite (index_inj hash p ia ib_ IA IB) in C. unfold leaf_compare in C.
  destruct C as [C|[_ C]]; [|rewrite N.compare_refl, lex_refl in C; destruct asc; discriminate C].
  unfold branch_compare in C. rewrite !lex_refl, N.compare_refl in C. rewrite components_refl in C. cbn [thenc] in C. discriminate.
Qed.
Lemma asym a u b v : owns a u -> owns b v -> fst u = fst v -> tree_before hash asc a b -> ~ tree_before hash asc b a.
Proof.
  intros OA OB UV (ia & ib_ & (n1 & p1 & P1 & I1) & (n2 & p2 & P2 & I2) & C) (jb & ja & (n3 & p3 & P3 & I3) & (n4 & p4 & P4 & I4) & D).
  destruct (packet_at_inj hash _ _ _ _ _ P1 P4) as [<- <-]. destruct (packet_at_inj hash _ _ _ _ _ P2 P3) as [<- <-].
  rewrite (index_inj hash p1 ja ia I4 I1), (index_inj hash p2 jb ib_ I3 I2) in D.
  destruct (owned a u OA) as (nh & p & ix & PA & WF & IX & EU). destruct (owned b v OB) as (nh' & p' & ix' & PA' & WF' & IX' & EV).
  destruct (packet_at_inj hash _ _ _ _ _ P1 PA) as [<- <-]. destruct (packet_at_inj hash _ _ _ _ _ P2 PA') as [<- <-].
  rewrite (index_inj hash p1 ia ix I1 IX), (index_inj hash p2 ib_ ix' I2 IX') in C, D.
  destruct (index_entry hash HL a n1 p1 ix PA WF IX) as (IO & _). destruct (index_entry hash HL b n2 p2 ix' PA' WF' IX') as (IO' & _).
  rewrite <- (ix_key_compare ix ix' IO IO') in C. rewrite <- (ix_key_compare ix' ix IO' IO) in D. rewrite EU, EV in UV. cbn [fst] in UV. rewrite UV, lex_refl in C, D.
  destruct C as [C|[_ C]]; [discriminate|]. destruct D as [D|[_ D]]; [discriminate|]. unfold leaf_compare in C, D.
  destruct (N.compare_spec (i_create ix) (i_create ix')) as [E|E|E], (N.compare_spec (i_create ix') (i_create ix)) as [F|F|F]; try lia; cbn [thenc] in C, D; try (destruct asc; discriminate).
  destruct asc; [apply lex_gt in C|apply lex_gt in D]; congruence.
Qed.
Definition elt (a b : entry) : Prop := lex (fst a) (fst b) = Lt \/ fst a = fst b /\ vlt asc a b.
Lemma tree_main stale nth_ : possible rs -> Forall pred_ok rs ->
  (no_pred RPrefix rs -> no_pred (RField SpaceNameF) rs -> cs = []) ->
  (forall c u, In (mkPred (RField SpaceNameF) Equal (PSpace (wire_space c))) rs -> space_ok c -> u < 2 ^ 8 -> member (p_sets P DepthF) u = true -> cs = c) ->
  stale = None \/ no_pred (RLimit QBranch) rs -> nth_ + lenN l <= 2 ^ 32 ->
  exists n0 ms out, StronglySorted (tree_before hash asc) ms /\ (forall e, In e ms -> In e l /\ tree_matches hash rs e) /\ answers rs nth_ ms out /\
  (forall fuel, (n0 <= fuel)%nat -> query fuel d TTree asc P stale nth_ = Ok out) /\
  (asc = true \/ create_wide rs -> unskipped rs -> forall e, In e l -> tree_matches hash rs e ->
   exists fs, NoDup fs /\ lenN fs <= lenN l /\ (forall f, In f fs <-> In f l /\ same_branch hash f e /\ tree_before hash asc f e /\ exists en, owns f en /\ entry_ok P en = true) /\
   (In e ms <-> position_ok rs QBranch (lenN fs))).
Proof.
  intros PS OK CN CSN ST NL. destruct (possible_bounds PS) as (b & BO & LB). pose proof PS as (_ & (g & G1 & G2) & (dm & D1 & D2) & (pk & K1 & K2)).
  pose proof IV as (_ & _ & SC & _ & _ & LO & _).
  assert (MG : g < 2 ^ 256 /\ member (tk_group keys) g = true) by (split; [exact G1|exact (proj2 (member_allowed GroupIDF g I ltac:(discriminate) ltac:(discriminate) G1) G2)]).
  assert (MD : dm < 2 ^ 128 /\ member (tk_domain keys) dm = true) by (split; [exact D1|exact (proj2 (member_allowed DomainF dm I ltac:(discriminate) ltac:(discriminate) D1) D2)]).
  assert (MK : pk < 2 ^ 256 /\ member (tk_pubkey keys) pk = true) by (split; [exact K1|exact (proj2 (member_allowed PubKeyF pk I ltac:(discriminate) ltac:(discriminate) K1) K2)]).
  pose proof (fun n H => proj1 (proj1 (depth_bit n) H)) as M8.
  assert (ST' : stale = None \/ forall y, y < 2 ^ 32 -> member_next 32 (ib P) y <> (None, y)).
  { destruct ST as [ST|ST]; [now left|right]. intros y Y. destruct (unlimited (p_limits P QBranch) y (LO QBranch) (no_branch_limit ST) Y) as (y' & E & _). unfold ib. rewrite E. discriminate. }
  destruct (tree_entries (tree_t d) asc tree_order tree_keys_ok tree_values_ok keys cs (proj1 SC) eq_refl g dm pk
    (proj1 (set_field GroupIDF I)) MG (proj1 (set_field DomainF I)) MD (from_rules_small _) M8 (proj1 (set_field PubKeyF I)) MK
    (bound (p_sets P CreateF)) create_bound eq_refl b BO P stale ST' keys_compiled LB) as (ks & n0 & KS & KG & KC & Q).
  set (es := flat_map (branch_results (tree_t d) asc keys P) ks) in *.
  assert (SEG : forall key, StronglySorted (vlt asc) (seg (tree_t d) asc keys key) /\ forall e, In e (seg (tree_t d) asc keys key) -> In e (tree_t d) /\ fst e = key /\ inw keys e = true).
  { intros key. exact (seg_sound (tree_t d) asc tree_order keys g dm pk MG MD MK key). }
  assert (BR : forall key, StronglySorted (vlt asc) (branch_results (tree_t d) asc keys P key) /\ incl (branch_results (tree_t d) asc keys P key) (filter (entry_ok P) (seg (tree_t d) asc keys key))).
  { intros key. unfold branch_results. apply zip_sub, sorted_filter, SEG. }
  assert (ES : forall en, In en es -> In en (tree_t d) /\ good keys cs (fst en) /\ entry_ok P en = true).
  { intros en IN. apply in_flat_map in IN as (key & KI & IN). apply BR in IN. apply filter_In in IN as [IN EO]. apply SEG in IN as (IT & <- & _).
    rewrite Forall_forall in KG. split; [exact IT|]. split; [apply (KG _ KI)|exact EO]. }
  assert (SS : StronglySorted elt es).
  { apply (sorted_flat_map _ elt _ _ KS).
    - intros key _. eapply sorted_weaken; [|apply BR]. intros x y X Y L. right. split; [|exact L].
      apply BR in X, Y. apply filter_In in X as [X _], Y as [Y _]. apply SEG in X as (_ & -> & _), Y as (_ & -> & _). reflexivity.
    - intros x y u v _ _ L U W. left. apply BR in U, W. apply filter_In in U as [U _], W as [W _]. apply SEG in U as (_ & -> & _), W as (_ & -> & _). exact L. }
  destruct (forall2_choice owns es) as [ms0 F2]. { intros en IN. apply owner. now apply ES. }
  assert (TB : forall x u y v, owns x u -> owns y v -> elt u v -> tree_before hash asc x y).
  { intros x u y v OX OY L. destruct (owned x u OX) as (nh & p & ix & PA & WF & IX & Eu). destruct (owned y v OY) as (nh' & p' & ix' & PA' & WF' & IX' & Ev).
    destruct (index_entry hash HL x nh p ix PA WF IX) as (IO & _ & _ & _ & _ & _ & _ & HX & _). destruct (index_entry hash HL y nh' p' ix' PA' WF' IX') as (IO' & _ & _ & _ & _ & _ & _ & HY & _).
    exists ix, ix'. split; [exists nh, p; auto|]. split; [exists nh', p'; auto|].
    rewrite <- (ix_key_compare ix ix' IO IO'). rewrite Eu, Ev in L. unfold elt, vlt in L. cbn [fst snd] in L. destruct L as [L|[L1 L2]]; [now left|right]. split; [now apply lex_eq|].
    assert (NE : i_create ix = i_create ix' -> i_hash ix = i_hash ix' -> False).
    { intros _ EH. assert (x = y) as EXY by (apply (stored_hash d l tree_vs); [apply OX|apply OY|congruence]). destruct OX as [_ TX], OY as [_ TY]. rewrite EXY, TY in TX. injection TX as TX. rewrite Eu, Ev in TX. apply (f_equal snd) in TX. cbn [snd] in TX.
      rewrite TX in L2. rewrite lex_refl in L2. destruct asc; discriminate. }
    destruct IO as (_ & _ & _ & _ & C1 & H1). destruct IO' as (_ & _ & _ & _ & C2 & H2). unfold leaf_compare.
    assert (TVL : forall c h q n m c' h' q' n' m', c < 2 ^ 64 -> c' < 2 ^ 64 -> lenN h = 32 -> lenN h' = 32 -> (c = c' -> h = h' -> False) ->
      lex (tree_value c h q n m) (tree_value c' h' q' n' m') = thenc (c ?= c') (lex h h')).
    { intros c h q n m c' h' q' n' m' A1 A2 A3 A4 NEQ. unfold tree_value. rewrite lex_fixed by now rewrite !lenN_be_encode. rewrite (be_compare 8 c c' 64) by (reflexivity || assumption).
      destruct (N.compare_spec c c') as [EC|EC|EC]; cbn [thenc]; try reflexivity. rewrite lex_fixed by congruence. destruct (lex h h') eqn:EL; try reflexivity. exfalso. apply NEQ; [exact EC|now apply lex_eq]. }
    destruct asc.
    - rewrite TVL in L2 by assumption. exact L2.
    - rewrite TVL in L2 by (try assumption; intros A1 A2; apply NE; congruence). destruct (N.compare_spec (i_create ix) (i_create ix')) as [EC|EC|EC], (N.compare_spec (i_create ix') (i_create ix)) as [EC'|EC'|EC']; try lia; cbn [thenc] in *; try congruence.
      now apply lex_gt. }
  set (ms := filter (fun e => pkt_test (the_tests) (answer e)) ms0).
  assert (MI : forall e, In e ms0 -> In e l). { intros e IN. destruct (forall2_in_l _ _ _ F2 e IN) as (en & _ & O & _). exact O. }
  assert (S0 : StronglySorted (tree_before hash asc) ms0).
  { apply (forall2_sorted owns elt (tree_before hash asc) ms0 es F2 SS). intros x u y v _ _ _ _ OX OY. now apply TB. }
  assert (LM0 : lenN ms0 <= lenN l).
  { apply (sub_len l (tree_before hash asc)); [exact irr|exact S0|exact MI]. }
  assert (LM : lenN ms <= lenN l) by (pose proof (filter_len (fun e => pkt_test the_tests (answer e)) ms0); fold ms in H; lia).
  pose proof tree_vs as (_ & L32 & _).
  exists n0, ms, (zip_members 32 (p_limits P QQuery) nth_ (zip_members 32 (p_limits P QIndex) 0 (map answer ms))).
  split; [now apply sorted_filter|]. split; [|split; [|split]].
  - intros e IN. apply filter_In in IN as [IN PT]. split; [now apply MI|]. destruct (forall2_in_l _ _ _ F2 e IN) as (en & EI & O). destruct (ES en EI) as (_ & GK & EO). split.
    + apply (tree_accept e en O). auto.
    + destruct (owned e en O) as (nh & p & ix & PA & _ & IX & _). exists ix, nh, p. auto.
  - apply (answers_intro P cs rs); [exact IV|lia|lia|reflexivity].
  - intros fuel FL. unfold query, query_all, query_tree. rewrite (Q fuel FL). cbn [obind]. fold es.
    rewrite (omap_forall2 _ answer ms0 es).
    + cbn [obind]. fold the_tests. now rewrite filter_map.
    + eapply forall2_impl; [|exact F2]. intros e en O. destruct (owned e en O) as (nh & p & ix & PA & WF & IX & ->). destruct (index_entry hash HL e nh p ix PA WF IX) as ((_ & _ & _ & _ & I5 & I6) & _).
      pose proof PA as (_ & _ & S64). cbn [snd]. destruct (C18_value_fields (i_create ix) (i_hash ix) (fst e) (lenN (point_links p)) (lenN (point_data p)) I5 I6 S64) as (_ & _ & -> & _).
      apply (read_stored d l tree_vs). apply O.
  - intros DIR UN e IN (MT & ix & nh & p & PA & IX). destruct (honest e IN) as (nh1 & p1 & PA1 & WF1). destruct (packet_at_inj hash _ _ _ _ _ PA PA1) as [<- <-].
    destruct (index_entry hash HL e nh p ix PA WF1 IX) as (_ & _ & _ & _ & _ & _ & _ & _ & TE). set (en := (ix_key ix, _)) in TE. assert (O : owns e en) by (split; assumption).
    destruct (proj2 (tree_accept e en O) MT) as (GK & EO & PT).
    assert (SF : forall u, In u (tree_t d) -> entry_ok P u = true -> In u (filter (entry_ok P) (seg (tree_t d) asc keys (fst u)))).
    { intros u IU EU. apply filter_In. split; [|exact EU]. rewrite (seg_filter (tree_t d) asc tree_order tree_keys_ok tree_values_ok keys g dm pk MG MD M8 MK (bound (p_sets P CreateF)) create_bound eq_refl).
      - apply filter_In. split; [now apply in_dups|]. apply entry_in_range; [now apply owner|exact EU].
      - destruct DIR as [DIR|(x & y & XY & Y & AX & AY)]; [now left|right].
        apply (member_allowed CreateF x I ltac:(discriminate) ltac:(discriminate)) in AX; [|cbn [field_width]; lia]. apply (member_allowed CreateF y I ltac:(discriminate) ltac:(discriminate)) in AY; [|exact Y].
        unfold member, bound_test in AX, AY. rewrite !andb_true_iff, !N.leb_le in AX, AY. lia. }
    assert (IT : In en (tree_t d)) by (apply owner; now exists e). pose proof (SF en IT EO) as LI.
    assert (KI : In (fst en) ks).
    { apply KC; [now apply cover_ok|exact IT|exact GK|]. intros SE. rewrite SE in LI. destruct LI. }
    set (key := fst en) in *. set (L := filter (entry_ok P) (seg (tree_t d) asc keys key)) in *.
    assert (LS : StronglySorted (vlt asc) L) by (apply sorted_filter, SEG).
    assert (LK : forall u, In u L -> In u (tree_t d) /\ fst u = key /\ entry_ok P u = true).
    { intros u U. apply filter_In in U as [U EU]. apply SEG in U as (U1 & U2 & _). auto. }
    assert (LE : StronglySorted elt L). { eapply sorted_weaken; [|exact LS]. intros x y X Y W. right. split; [|exact W]. destruct (LK x X) as (_ & -> & _), (LK y Y) as (_ & -> & _). reflexivity. }
    destruct (forall2_choice owns L) as [lo FL]. { intros u U. apply owner. now apply LK. }
    assert (LOS : StronglySorted (tree_before hash asc) lo). { apply (forall2_sorted owns elt (tree_before hash asc) lo L FL LE). intros x u y v _ _ _ _ OX OY. now apply TB. }
    assert (LOL : incl lo l). { intros x X. destruct (forall2_in_l _ _ _ FL x X) as (u & _ & OX & _). exact OX. }
    assert (LLO : lenN lo <= lenN l) by (apply (sub_len l (tree_before hash asc)); [exact irr|exact LOS|exact LOL]).
    assert (LL : lenN L = lenN lo) by (symmetry; exact (forall2_len _ _ _ FL)).
    assert (FN : forall x y, owns x y -> owns x en -> y = en) by (intros x y [_ T1] [_ T2]; congruence).
    destruct (in_split en L LI) as (A & B & SPL). rewrite SPL in FL. apply Forall2_app_inv_r in FL as (fs & more & FA & FB & ELO).
    inversion FB as [|e0 en0 bs B0 OE FB' E1 E2]; subst more. assert (e0 = e) as -> by (exact (owns_inj e0 e en OE O)). clear FB.
    rewrite ELO in LOS. pose proof LOS as LOS'. apply sorted_app in LOS' as (SA & SB & SAB). rewrite SPL in LE. pose proof LE as LE'. apply sorted_app in LE' as (_ & LB' & LAB).
    assert (NDF : NoDup fs). { pose proof irr as IR. clear - SA IR. induction SA as [|a m S IH F]; constructor; [|exact IH]. intros X. rewrite Forall_forall in F. exact (IR a (F a X)). }
    assert (NA : ~ In en A /\ ~ In en B).
    { assert (EI : ~ elt en en) by (intros [X|[_ X]]; [rewrite lex_refl in X; discriminate|unfold vlt in X; rewrite lex_refl in X; destruct asc; discriminate]).
      split; intros X; apply EI; [apply LAB; [exact X|now left]|]. inversion LB' as [|? ? _ F]; subst. rewrite Forall_forall in F. now apply F. }
    assert (LFA : lenN fs = lenN A) by (exact (forall2_len _ _ _ FA)).
    exists fs. split; [exact NDF|]. split; [rewrite ELO, lenN_app in LLO; lia|]. split.
    + intros f. split.
      * intros FI. destruct (forall2_in_l _ _ _ FA f FI) as (u & U & OF). assert (UL : In u L) by (rewrite SPL; apply in_app_iff; now left). destruct (LK u UL) as (UT & UK & UE).
        assert (FE : tree_before hash asc f e) by (apply SAB; [exact FI|now left]).
        split; [apply OF|]. split; [|split; [exact FE|exists u; auto]]. destruct FE as (ia & ib_ & IA & IB & C). exists ia, ib_. split; [exact IA|]. split; [exact IB|].
        destruct (owned f u OF) as (nf & pf & xf & PF & WF & XF & EU). destruct IA as (nf' & pf' & PF' & XF'). destruct (packet_at_inj hash _ _ _ _ _ PF PF') as [<- <-]. rewrite (index_inj hash pf ia xf XF' XF).
        destruct IB as (nb & pb & PB & XB). destruct (packet_at_inj hash _ _ _ _ _ PA PB) as [<- <-]. rewrite (index_inj hash p ib_ ix XB IX).
        destruct (index_entry hash HL f nf pf xf PF WF XF) as (IO & _). destruct (index_entry hash HL e nh p ix PA WF1 IX) as (IO' & _).
        rewrite <- (ix_key_compare xf ix IO IO'). rewrite EU in UK. cbn [fst] in UK. rewrite UK. unfold key, en. cbn [fst]. apply lex_refl.
      * intros (FI & SB' & FE & u & OF & UE).
        assert (UK : fst u = key).
        { destruct SB' as (ia & ib_ & IA & IB & C). destruct (owned f u OF) as (nf & pf & xf & PF & WF & XF & EU). destruct IA as (nf' & pf' & PF' & XF'). destruct (packet_at_inj hash _ _ _ _ _ PF PF') as [<- <-]. rewrite (index_inj hash pf ia xf XF' XF) in C.
          destruct IB as (nb & pb & PB & XB). destruct (packet_at_inj hash _ _ _ _ _ PA PB) as [<- <-]. rewrite (index_inj hash p ib_ ix XB IX) in C.
          destruct (index_entry hash HL f nf pf xf PF WF XF) as (IO & _). destruct (index_entry hash HL e nh p ix PA WF1 IX) as (IO' & _).
          rewrite <- (ix_key_compare xf ix IO IO') in C. apply lex_eq in C. rewrite EU. exact C. }
        assert (UL : In u L). { unfold L. rewrite <- UK. apply SF; [apply owner; now exists f|exact UE]. }
        assert (UNE : u <> en). { intros ->. apply (irr f). rewrite (owns_inj f e en OF O) at 2. exact FE. }
        rewrite SPL in UL. apply in_app_iff in UL as [UL|[UL|UL]]; [|congruence|].
        -- destruct (forall2_in_r _ _ _ FA u UL) as (f' & F' & OF'). now rewrite (owns_inj f f' u OF OF').
        -- exfalso. inversion LB' as [|? ? _ F]; subst. rewrite Forall_forall in F. apply (asym f u e en OF O UK FE). apply (TB e en f u O OF). now apply F.
    + assert (BRE : In en (branch_results (tree_t d) asc keys P key) <-> position_ok rs QBranch (lenN fs)).
      { assert (L3 : 0 + lenN L <= 2 ^ 32) by (rewrite LL; lia). unfold branch_results. fold L. pose proof (zip_members_picks 32 (p_limits P QBranch) L 0 ltac:(lia) ltac:(lia) (LO QBranch) L3) as PK. fold (ib P) in PK |- *. rewrite SPL in PK |- *.
        rewrite (picks_mid _ _ _ _ _ _ PK (proj1 NA) (proj2 NA)). rewrite LFA. destruct IV as (_ & _ & _ & _ & _ & _ & LP & _). unfold ib. rewrite N.add_0_l. apply LP. rewrite <- LFA. rewrite ELO, lenN_app in LLO. lia. }
      rewrite <- BRE. split.
      * intros EM. apply filter_In in EM as [EM _]. destruct (forall2_in_l _ _ _ F2 e EM) as (u & UI & OU). rewrite (FN e u OU O) in UI. apply in_flat_map in UI as (k' & _ & UI).
        pose proof UI as UI'. apply BR in UI'. apply filter_In in UI' as [UI' _]. apply SEG in UI' as (_ & <- & _). exact UI.
      * intros EB. assert (EI : In en es) by (apply in_flat_map; exists key; auto). destruct (forall2_in_r _ _ _ F2 en EI) as (e' & IE & O'). rewrite (owns_inj e' e en O' O) in IE. apply filter_In. auto.
Qed.
End Tree.
End Hash.
