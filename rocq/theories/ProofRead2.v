(** Proofs about ModelRead: the query of [read]. *)
From Coq Require Import Lia Sorting.Sorted.
From Verif Require Import ProofSpace ProofRooted ProofPkt ProofTree ProofTestSet ProofStore.
From Verif Require Import Bytes ModelSpace SpecSpace ModelPkt SpecPkt ModelTree SpecTree ModelTestSet SpecTestSet ModelStore SpecStore ModelPred SpecPred ProofPred ProofPred2.
From Verif Require Import PropsTree ModelQuery SpecQuery ProofQuery ProofWalk ProofQuery2 ProofQuery3 ModelRead SpecRead.
#[global] Arguments N.pow : simpl never.
Local Open Scope N_scope.

Lemma equal_ok w v : 0 < w -> v < 2 ^ w -> set_ok w (add w (set_default w) Equal v) /\ forall u, u < 2 ^ w -> (member (add w (set_default w) Equal v) u = true <-> u = v).
Proof.
  intros W V. split; [apply add_ok; [apply default_ok|exact V]|]. intros u U. rewrite member_add by (assumption || apply default_ok). rewrite (member_default w u U). cbn [andb uint_func]. apply N.eqb_eq.
Qed.
Definition dsets (dom grp key : bytes) (f : Field) : TestSet :=
  match f with
  | DomainF => add 128 (set_default 128) Equal (be_decode dom)
  | GroupIDF => add 256 (set_default 256) Equal (be_decode grp)
  | PubKeyF => add 256 (set_default 256) Equal (be_decode key)
  | _ => set_default (field_width f)
  end.
Lemma dgsk_sets dom grp sp key f : p_sets (dgsk dom grp sp key) f = dsets dom grp key f.
Proof. destruct f; reflexivity. Qed.
(** No test is left for the packets. *)
Lemma default_tests f : compile_stest (field_width f) (set_default (field_width f)) = None.
Proof. destruct f; vm_compute; reflexivity. Qed.
Lemma dgsk_tests dom grp cs key : filter (fun t => negb (treekey_checked (test_rule t))) (compile_predicates (dgsk dom grp (wire_rooted cs) key)) = [].
Proof.
  unfold compile_predicates. rewrite filter_app.
  assert (forall A (f : A -> bool) l, (forall x, In x l -> f x = false) -> filter f l = []) as FN.
  { intros A f l. induction l as [|a l IH]; intros H; [reflexivity|]. cbn [filter]. rewrite (H a) by now left. apply IH. intros x X. apply H. now right. }
  rewrite !FN; [reflexivity|..].
  - intros x X. change (p_prefix (dgsk dom grp (wire_rooted cs) key)) with (wire_rooted cs) in X. destruct (wire_rooted cs) as [|n r]; [destruct X|]. destruct (rs_space (n :: r)); [destruct X as [<-|[]]; reflexivity|destruct X..].
  - intros x X. apply in_flat_map in X as (f & _ & X). unfold into_tests in X. rewrite dgsk_sets in X.
    destruct (treekey_checked (RField f)) eqn:T.
    + destruct (compile_stest _ _) in X; [destruct X as [<-|[]]|destruct X]. cbn [test_rule]. now rewrite T.
    + exfalso. assert (dsets dom grp key f = set_default (field_width f)) as E by (destruct f; try discriminate T; reflexivity). rewrite E, default_tests in X. exact X.
Qed.

Lemma filter_all {A} (f : A -> bool) l : (forall x, In x l -> f x = true) -> filter f l = l.
Proof. induction l as [|a l IH]; intros H; [reflexivity|]. cbn [filter]. rewrite (H a) by now left. f_equal. apply IH. intros x X. apply H. now right. Qed.
Section Hash.
Variable hash : bytes -> bytes.
Hypothesis HL : forall x, lenN (hash x) = 32.
Variable d : db.
Variable l : list stored.
Hypothesis HS : honest_store hash d l.
Variables dom grp key : bytes.
Variable cs : list bytes.
Hypothesis DOK : bytes_ok dom /\ lenN dom = 16.
Hypothesis GOK : bytes_ok grp /\ lenN grp = 32.
Hypothesis KOK : bytes_ok key /\ lenN key = 32.
Hypothesis COK : space_ok cs.
Notation P := (dgsk dom grp (wire_rooted cs) key).
Notation KS := (keys P cs false).
Notation t := (tree_t d).

Lemma vals_small : be_decode dom < 2 ^ 128 /\ be_decode grp < 2 ^ 256 /\ be_decode key < 2 ^ 256.
Proof.
  split; [|split].
  - exact (be_lt 16 dom (proj1 DOK) (N.eq_le_incl _ _ (proj2 DOK))).
  - exact (be_lt 32 grp (proj1 GOK) (N.eq_le_incl _ _ (proj2 GOK))).
  - exact (be_lt 32 key (proj1 KOK) (N.eq_le_incl _ _ (proj2 KOK))).
Qed.
Lemma depth_all n : bit_contains (tk_depth KS) n = true <-> n <= 8.
Proof.
  cbn [keys tk_depth]. rewrite dgsk_sets. cbn [dsets field_width]. rewrite from_rules_spec, andb_true_iff, N.leb_le. split; [tauto|]. intros L. split; [exact L|].
  rewrite test_member; [apply member_default; lia|lia|lia|apply default_ok|lia].
Qed.
Lemma all_entries en : In en t -> entry_ok P en = true.
Proof.
  intros IN. apply (owner hash d l HS) in IN as [e O]. destruct (owned hash HL d l HS e en O) as (nh & p & ix & PA & WF & IX & ->).
  destruct (index_entry hash HL e nh p ix PA WF IX) as ((_ & _ & _ & _ & I5 & I6) & _ & _ & _ & _ & _ & HV & _ & _).
  pose proof (packet_valid hash e nh p PA) as VA. assert (Hp : point_ok p) by (destruct VA as (_ & b & _ & _ & H & _); exact H).
  pose proof PA as (_ & _ & ST). destruct (sizes_small hash HL p Hp) as [Z1 Z2].
  unfold entry_ok. cbn [snd].
  destruct (C18_value_fields (i_create ix) (i_hash ix) (fst e) (lenN (point_links p)) (lenN (point_data p)) I5 I6 ST) as (-> & -> & -> & X1 & X2).
  rewrite (X1 Z1), (X2 Z2), HV, !dgsk_sets. cbn [dsets field_width].
  pose proof (valid_V hash HL _ nh p PktHashF VA) as VH. cbn [field_width] in VH.
  change (p_recv P) with (bound_default 64). unfold bound_test, bound_default. cbn [low high]. rewrite umax_val.
  rewrite !test_member by (lia || apply default_ok). rewrite !member_default by assumption. rewrite !andb_true_iff, !N.leb_le. lia.
Qed.
Lemma all_in_range en : In en t -> inw KS en = true.
Proof.
  intros IN. pose proof (all_entries en IN) as E. unfold entry_ok in E. rewrite !andb_true_iff in E. destruct E as ((((E & _) & _) & _) & _).
  destruct (tree_values_ok hash HL d l HS en IN) as (c & x & C & EX). assert (CV : val_create (snd en) = c).
  { unfold val_create. rewrite EX, sliceN_front by apply lenN_be_encode. now apply be_decode_encode. }
  unfold inw. cbn [keys tk_stamp]. rewrite dgsk_sets. cbn [dsets field_width]. rewrite contains_range by (cbn; lia). rewrite CV. unfold bound_test, set_default, bound_default. cbn [bound low high]. rewrite umax_val.
  rewrite andb_true_iff, !N.leb_le. lia.
Qed.

(** The fields in the index are those of the packet. *)
Lemma ix_vals e nh p ix : packet_at hash e nh p -> index_of hash p ix ->
  (V hash nh p GroupIDF = be_decode (i_group ix) /\ V hash nh p DomainF = be_decode (i_domain ix) /\ V hash nh p PubKeyF = be_decode (i_pubkey ix)) /\
  bytes_ok (i_group ix) /\ bytes_ok (i_domain ix) /\ bytes_ok (i_pubkey ix).
Proof.
  intros PA IX. pose proof PA as (PK & (_ & Hp & _) & _). destruct (packet_bytes _ _ _ _ PK) as (_ & _ & Bc). pose proof (content_bytes p Bc) as CB.
  destruct p as [x|x|g dm c ls rs x|g dm c ls rs x pk sg]; try contradiction; destruct IX as (sp & _ & ->); cbn [i_group i_domain i_pubkey]; (split; [split; [reflexivity|split; reflexivity]|]).
  - destruct CB as (B1 & B2 & _). split; [exact B1|]. split; [exact B2|]. repeat constructor.
  - destruct CB as (B1 & B2 & B3). tauto.
Qed.
(** The place of an entry of the tree. *)
Lemma good_place e en : owns l e en -> good KS cs (fst en) -> exists more, located hash dom grp key (cs ++ more) e.
Proof.
  intros O (a & NA & EA & (K1 & K2 & _ & (r & K4) & K5)). destruct (owned hash HL d l HS e en O) as (nh & p & ix & PA & WF & IX & EN).
  destruct (index_entry hash HL e nh p ix PA WF IX) as (IO & NO & KX & _). rewrite EN in EA. cbn [fst] in EA. rewrite KX in EA. apply nk_inj in EA; [|assumption..]. subst a.
  cbn [nk_of kg kd kc kp] in *. cbn [keys tk_group tk_domain tk_pubkey] in K1, K2, K5. rewrite dgsk_sets in K1, K2, K5. cbn [dsets] in K1, K2, K5.
  destruct NO as (N1 & N2 & _ & _ & N5). cbn [nk_of kg kd kc kp] in *. destruct vals_small as (S1 & S2 & S3).
  apply (proj2 (equal_ok 256 (be_decode grp) eq_refl S2) _ N1) in K1. apply (proj2 (equal_ok 128 (be_decode dom) eq_refl S1) _ N2) in K2.
  apply (proj2 (equal_ok 256 (be_decode key) eq_refl S3)) in K5; [|lia].
  destruct IO as (L1 & L2 & _ & L4 & _). exists r, ix. split; [exists nh, p; auto|]. destruct (ix_vals e nh p ix PA IX) as ((E1 & E2 & E3) & B1 & B2 & B3).
  split; [|split; [|split]]; [..|exact K4].
  - apply be_decode_inj; [|exact B2|apply DOK|congruence]. destruct DOK as [_ D]. unfold lenN in *. lia.
  - apply be_decode_inj; [|exact B1|apply GOK|congruence]. destruct GOK as [_ D]. unfold lenN in *. lia.
  - apply be_decode_inj; [|exact B3|apply KOK|congruence]. destruct KOK as [_ D]. unfold lenN in *. lia.
Qed.
(** A packet with a place has an entry in the tree. *)
Lemma place_entry e sp : In e l -> located hash dom grp key sp e -> exists en ix nh p, owns l e en /\ packet_at hash e nh p /\ well_formed p /\ index_of hash p ix /\
  en = (ix_key ix, tree_value (i_create ix) (i_hash ix) (fst e) (lenN (point_links p)) (lenN (point_data p))) /\
  i_domain ix = dom /\ i_group ix = grp /\ i_pubkey ix = key /\ i_space ix = sp.
Proof.
  intros I (ix & (nh & p & PA & IX) & R). destruct (honest hash d l HS e I) as (nh' & p' & PA' & WF). destruct (packet_at_inj hash _ _ _ _ _ PA' PA) as [-> ->].
  destruct (index_entry hash HL e nh p ix PA WF IX) as (_ & _ & _ & _ & _ & _ & _ & _ & TE). eexists. exists ix, nh, p. split; [split; [exact I|exact TE]|]. auto.
Qed.
Lemma place_good e en more : owns l e en -> located hash dom grp key (cs ++ more) e -> good KS cs (fst en).
Proof.
  intros O LO. destruct (place_entry e _ (proj1 O) LO) as (en' & ix & nh & p & O' & PA & WF & IX & EN & R1 & R2 & R3 & R4).
  assert (en = en') as -> by (destruct O as [_ T], O' as [_ T']; congruence). destruct (index_entry hash HL e nh p ix PA WF IX) as (IO & NO & KX & _).
  destruct (ix_vals e nh p ix PA IX) as ((E1 & E2 & E3) & _). exists (nk_of hash nh p (i_space ix)). split; [exact NO|]. rewrite EN. cbn [fst]. split; [exact KX|].
  unfold key_ok. cbn [nk_of kg kd kc kp]. destruct NO as (_ & _ & _ & L8 & _). cbn [nk_of kc] in L8. destruct vals_small as (S1 & S2 & S3).
  split; [|split; [|split; [now apply depth_all|split; [exists more; exact R4|]]]]; cbn [keys tk_group tk_domain tk_pubkey]; rewrite dgsk_sets; cbn [dsets].
  - rewrite E1, R2. now apply (proj2 (equal_ok 256 (be_decode grp) eq_refl S2)).
  - rewrite E2, R1. now apply (proj2 (equal_ok 128 (be_decode dom) eq_refl S1)).
  - rewrite E3, R3. now apply (proj2 (equal_ok 256 (be_decode key) eq_refl S3)).
Qed.

Lemma read_query stale : exists n0 ks, StronglySorted (fun x y => lex x y = Lt) ks /\ Forall (fun x => good KS cs x /\ dups t false x <> []) ks /\
  (cs = [] -> forall en, In en t -> good KS cs (fst en) -> In (fst en) ks) /\
  exists ms, Forall2 (owns l) ms (flat_map (dups t false) ks) /\ forall fuel, (n0 <= fuel)%nat -> query_tree fuel d false P stale = Ok (map answer ms).
Proof.
  destruct vals_small as (S1 & S2 & S3).
  destruct (equal_ok 256 (be_decode grp) eq_refl S2) as [GO GM]. destruct (equal_ok 128 (be_decode dom) eq_refl S1) as [DO DM]. destruct (equal_ok 256 (be_decode key) eq_refl S3) as [KO KM].
  assert (G0 : be_decode grp < 2 ^ 256 /\ member (tk_group KS) (be_decode grp) = true) by (split; [exact S2|now apply GM]).
  assert (D0 : be_decode dom < 2 ^ 128 /\ member (tk_domain KS) (be_decode dom) = true) by (split; [exact S1|now apply DM]).
  assert (K0 : be_decode key < 2 ^ 256 /\ member (tk_pubkey KS) (be_decode key) = true) by (split; [exact S3|now apply KM]).
  assert (NS : depth_set (tk_depth KS)) by apply from_rules_small.
  assert (N8 : forall n, bit_contains (tk_depth KS) n = true -> n <= 8) by (intros n H; now apply depth_all).
  assert (N0 : bit_contains (tk_depth KS) 0 = true) by (apply depth_all; lia).
  destruct (lower_bound_ok KS cs eq_refl (be_decode grp) (be_decode dom) 0 (be_decode key) GO G0 DO D0 NS N0 N8 KO K0) as (b & BO & LB).
  assert (CK : compile_tree_keys P false = Ok KS).
  { unfold compile_tree_keys. change (p_prefix P) with (wire_rooted cs). rewrite (proj1 (rs_space_wire cs)). reflexivity. }
  assert (UL : forall y, y < 2 ^ 32 -> member (p_limits P QBranch) y = true) by (intros y Y; now apply member_default).
  assert (ST : stale = None \/ forall y, y < 2 ^ 32 -> member_next 32 (ib P) y <> (None, y)).
  { right. intros y Y. destruct (unlimited (p_limits P QBranch) y (default_ok 32) UL Y) as (y' & E & _). unfold ib. rewrite E. discriminate. }
  assert (SB : low (bound (p_sets P CreateF)) < high (bound (p_sets P CreateF))) by reflexivity.
  destruct (tree_entries t false (tree_order hash d l HS) (tree_keys_ok hash HL d l HS) (tree_values_ok hash HL d l HS) KS cs (proj1 COK) eq_refl
    (be_decode grp) (be_decode dom) (be_decode key) GO G0 DO D0 NS N8 KO K0 (bound (p_sets P CreateF)) (N.lt_le_incl _ _ SB) eq_refl b BO P stale ST CK LB) as (ks & n0 & SK & KG & KC & Q).
  assert (SEG : forall k, seg t false KS k = dups t false k).
  { intros k. rewrite (seg_filter t false (tree_order hash d l HS) (tree_keys_ok hash HL d l HS) (tree_values_ok hash HL d l HS) KS
      (be_decode grp) (be_decode dom) (be_decode key) G0 D0 N8 K0 (bound (p_sets P CreateF)) (N.lt_le_incl _ _ SB) eq_refl k (or_intror SB)).
    apply filter_all. intros en I. apply in_dups in I as [I _]. now apply all_in_range. }
  assert (BR : forall k, branch_results t false KS P k = dups t false k).
  { intros k. unfold branch_results. rewrite SEG. rewrite filter_all by (intros en I; apply in_dups in I as [I _]; now apply all_entries).
    apply zip_unlimited; [apply default_ok|exact UL|lia]. }
  exists n0, ks. split; [exact SK|]. split.
  { eapply Forall_impl; [|exact KG]. cbv beta. intros x. now rewrite SEG. }
  split.
  { intros E en I G. apply KC; [|exact I|exact G|].
    - assert (LC : lenN cs = 0) by (rewrite E; reflexivity). unfold cover. split; [intros x y z L1 L2 _ Z; apply depth_all; apply depth_all in Z; lia|]. split; [left; destruct BO as (_ & _ & (_ & M) & _); specialize (M 0 N0); lia|].
      split; [left; split; intros x y X Y MX MY; [apply GM in MX, MY; congruence|apply DM in MX, MY; congruence]|left; exact E].
    - rewrite SEG. intros N. assert (In en (dups t false (fst en))) as IN by (now apply in_dups). rewrite N in IN. destruct IN. }
  destruct (forall2_choice (owns l) (flat_map (dups t false) ks)) as [ms F2].
  { intros en I. apply in_flat_map in I as (k & _ & I). apply in_dups in I as [I _]. now apply (owner hash d l HS). }
  exists ms. split; [exact F2|]. intros fuel FU. unfold query_tree. rewrite dgsk_tests, (Q fuel FU). cbn [obind].
  assert (flat_map (branch_results t false KS P) ks = flat_map (dups t false) ks) as -> by (apply flat_map_ext; exact BR).
  rewrite (omap_forall2 _ answer ms (flat_map (dups t false) ks)).
  - cbn [obind]. rewrite filter_all.
    + f_equal. apply zip_unlimited; [apply default_ok|intros y Y; now apply member_default|lia].
    + intros r R. apply in_map_iff in R as (e & <- & IE). destruct (forall2_in_l _ _ _ F2 e IE) as (en & _ & O). destruct (owned hash HL d l HS e en O) as (nh & p & ix & ((PK & _) & _ & _)).
      unfold pkt_test, answer. cbn [snd]. now rewrite (view_packet hash _ nh p HL PK).
  - eapply forall2_impl; [|exact F2]. intros e en O. destruct (owned hash HL d l HS e en O) as (nh & p & ix & PA & WF & IX & ->). destruct (index_entry hash HL e nh p ix PA WF IX) as ((_ & _ & _ & _ & I5 & I6) & _).
    pose proof PA as (_ & _ & S64). cbn [snd]. destruct (C18_value_fields (i_create ix) (i_hash ix) (fst e) (lenN (point_links p)) (lenN (point_data p)) I5 I6 S64) as (_ & _ & -> & _).
    apply (read_stored hash d l (proj1 HS)). apply O.
Qed.

(** What is first: the latest of the first place that is found. *)
Lemma read_first stale : exists n0 out, (forall fuel, (n0 <= fuel)%nat -> query_tree fuel d false P stale = Ok out) /\
  match out with
  | [] => cs = [] -> forall e more, In e l -> ~ located hash dom grp key more e
  | r :: _ => exists e more, r = answer e /\ latest hash l dom grp key (cs ++ more) e /\
      (cs = [] -> forall f sp, In f l -> located hash dom grp key sp f -> lenN more <= lenN sp)
  end.
Proof.
  destruct (read_query stale) as (n0 & ks & SK & KG & KC & ms & F2 & Q). exists n0, (map answer ms). split; [exact Q|].
  destruct ks as [|k0 ks].
  - inversion F2; subst. cbn [map]. intros E e more I LO. destruct (place_entry e more I LO) as (en & _ & _ & _ & O & _).
    assert (In en t) as IT by (apply (owner hash d l HS); now exists e). rewrite <- (app_nil_l more) in LO. rewrite <- E in LO at 1. apply (KC E en IT (place_good e en more O LO)).
  - apply Forall_cons_iff in KG as [[G0 N0] KG]. pose proof (dups_sorted t false (tree_order hash d l HS) k0) as DS. cbn [flat_map] in F2.
    destruct (dups t false k0) as [|en0 rest] eqn:ED; [contradiction|]. cbn [app] in F2. inversion F2 as [|e en1 ms' es O F2' E1 E2]; subst. cbn [map].
    assert (In en0 (dups t false k0)) as I0 by (rewrite ED; now left). apply in_dups in I0 as [I0 K0]. subst k0. destruct (good_place e en0 O G0) as (more & LO).
    exists e, more. split; [reflexivity|]. destruct (place_entry e _ (proj1 O) LO) as (en' & ix & nh & p & O' & PA & WF & IX & EN & R1 & R2 & R3 & R4).
    assert (en0 = en') as <- by (destruct O as [_ T], O' as [_ T']; congruence). destruct (index_entry hash HL e nh p ix PA WF IX) as (IO & _).
    split; [split; [apply O|split; [exact LO|]]|].
    + intros f IF LF. destruct (place_entry f _ IF LF) as (enf & ixf & nhf & pf & OF & PF & WFf & IXf & ENf & F1 & F3 & F4 & F5).
      assert (KE : fst enf = fst en0). { rewrite ENf, EN. cbn [fst]. unfold ix_key. congruence. }
      exists ixf, ix. split; [exists nhf, pf; auto|]. split; [exists nh, p; auto|]. destruct (index_entry hash HL f nhf pf ixf PF WFf IXf) as (IOf & _).
      assert (IE : In enf (dups t false (fst en0))). { apply in_dups. split; [apply (owner hash d l HS); now exists f|exact KE]. }
      rewrite ED in IE. assert (LE : enf = en0 \/ lex (snd enf) (snd en0) = Lt). { destruct IE as [IE|IE]; [now left|right]. exact (sorted_hd _ _ _ DS enf IE). }
      destruct IO as (_ & _ & _ & _ & C1 & H1), IOf as (_ & _ & _ & _ & C2 & H2). destruct LE as [LE|LE].
      * assert (f = e) as -> by (rewrite LE in OF; exact (owns_inj hash HL d l HS f e en0 OF O)). destruct (packet_at_inj hash _ _ _ _ _ PA PF) as [<- <-]. rewrite (index_inj hash p ixf ix IXf IX).
        right. split; [reflexivity|]. rewrite lex_refl. discriminate.
      * rewrite EN, ENf in LE. cbn [snd] in LE. unfold tree_value in LE. rewrite lex_fixed in LE by now rewrite !lenN_be_encode. rewrite (be_compare 8 _ _ 64) in LE by (reflexivity || assumption).
        destruct (N.compare_spec (i_create ixf) (i_create ix)) as [EC|EC|EC]; cbn [thenc] in LE; [right|left; exact EC|discriminate]. split; [exact EC|].
        rewrite lex_fixed in LE by congruence. intros GT. rewrite GT in LE. discriminate.
    + intros E f sp IF LF. destruct (place_entry f _ IF LF) as (enf & ixf & nhf & pf & OF & PF & WFf & IXf & ENf & F1 & F3 & F4 & F5).
      assert (ITf : In enf t) by (apply (owner hash d l HS); now exists f). assert (GF : good KS cs (fst enf)). { apply (place_good f enf sp OF). rewrite E. exact LF. }
      pose proof (KC E enf ITf GF) as IK. assert (LE : lex (fst en0) (fst enf) <> Gt).
      { destruct IK as [IK|IK]; [rewrite IK, lex_refl; discriminate|]. pose proof (sorted_hd _ _ _ SK _ IK) as L. cbv beta in L. rewrite L. discriminate. }
      destruct (index_entry hash HL f nhf pf ixf PF WFf IXf) as (IOf & _). rewrite EN, ENf in LE. cbn [fst] in LE. rewrite (ix_key_compare ix ixf IO IOf) in LE.
      unfold branch_compare in LE. rewrite R1, R2, F1, F3, !lex_refl in LE. cbn [thenc] in LE. rewrite R4, F5, E in LE. cbn [app] in LE.
      destruct (N.compare_spec (lenN more) (lenN sp)) as [C|C|C]; cbn [thenc] in LE; [lia|lia|contradiction].
Qed.
End Hash.
