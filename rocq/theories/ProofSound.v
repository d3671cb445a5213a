(** What a tree query returns, whatever depths the stored packets declare. *)
From Coq Require Import Sorting.Sorted.
From Verif Require Import ProofSpace ProofRooted ProofPkt ProofTree ProofTestSet ProofStore.
From Verif Require Import Bytes ModelSpace SpecSpace ModelPkt SpecPkt ModelTree SpecTree ModelTestSet SpecTestSet ModelStore SpecStore ModelPred SpecPred ProofPred ProofPred2.
From Verif Require Import PropsTree ModelQuery SpecQuery ProofQuery ProofWalk ProofQuery2 ProofQuery3.

Lemma ok_inj {E A} (a b : A) : @Ok E A a = Ok b -> a = b.
Proof. intros H. now injection H. Qed.
Lemma pair_eq {A B} (a a' : A) (b b' : B) : (a, b) = (a', b') -> a = a' /\ b = b'.
Proof. intros H. now injection H. Qed.
(** ** The entries the search stops at *)
Section Search.
Variable t : list entry.
Variable asc : bool.
Variable k : TreeKeys.
Variable lb : bytes.
Definition okkey (key : bytes) : Prop := exists s, key_status k key = Ok s /\ all_in_set s = true.
Definition oke (e : entry) : Prop := In e t /\ okkey (fst e).
Definition okc (c : option entry) : Prop := forall e, c = Some e -> oke e.

Lemma okc_none : okc None. Proof. intros e E. discriminate. Qed.
Lemma dups_in key x : In x (dups t asc key) -> In x t /\ fst x = key.
Proof.
  unfold dups. intros I. assert (In x (filter (fun e => beqb (fst e) key) t)) as J by (destruct asc; [exact I|now apply in_rev]).
  apply filter_In in J as [A B]. split; [exact A|]. now apply beqb_eq.
Qed.
Lemma after_in e m x : In x (after e m) -> In x m.
Proof. induction m as [|a m IH]; [intros []|]. cbn [after]. destruct (entry_eqb a e); intros I; [now right|right; auto]. Qed.
Lemma hd_in {A} (m : list A) x : hd_error m = Some x -> In x m.
Proof. destruct m; [discriminate|]. intros H. injection H as ->. now left. Qed.
Lemma set_range_in key x : set_range t asc key = Some x -> In x t.
Proof. unfold set_range. match goal with |- context [find ?g t] => destruct (find g t) end; [|discriminate]. intros H. apply hd_in, dups_in in H. apply H. Qed.
Lemma next_range_in key x : get_next_range t asc key = Some x -> In x t.
Proof. unfold get_next_range. match goal with |- context [find ?g t] => destruct (find g t) end; [|discriminate]. intros H. apply hd_in, dups_in in H. apply H. Qed.
Lemma stamp_in r rest : forall a x, next_stamp_match r a rest = Some x -> x = a \/ In x rest.
Proof.
  induction rest as [|b rest IH]; intros a x; cbn [next_stamp_match]; destruct (iter_cmp r (val_create (snd a))); try discriminate; intros H;
    try (injection H as ->; now left). destruct (IH _ _ H) as [->|I]; right; [now left|now right].
Qed.
Lemma pointer_ok fuel : forall a x, In a t -> set_pointer_at_match fuel t asc k lb a = Ok (Some x) -> oke x.
Proof.
  induction fuel as [|fuel IH]; intros a x IA H; [discriminate|]. cbn [set_pointer_at_match] in H.
  destruct (key_status k (fst a)) as [s| | |] eqn:KS; try discriminate. cbn [obind] in H. destruct (all_in_set s) eqn:AS.
  - destruct (next_stamp_match _ a _) as [x'|] eqn:NS.
    + injection H as ->. destruct (stamp_in _ _ _ _ NS) as [->|I]; [split; [exact IA|now exists s]|].
      apply after_in, dups_in in I as [I E]. split; [exact I|]. rewrite E. now exists s.
    + destruct (set_range t asc _) as [n|] eqn:SR; [|discriminate]. exact (IH _ _ (set_range_in _ _ SR) H).
  - destruct (jump_key k lb s) as [j| | |]; try discriminate. cbn [obind] in H. destruct j as [j|]; [|discriminate].
    destruct (set_range t asc j) as [n|] eqn:SR; [|discriminate]. exact (IH _ _ (set_range_in _ _ SR) H).
Qed.
Lemma scope_ok fuel c r : next_scope fuel t asc k lb c = Ok r -> okc r.
Proof.
  unfold next_scope. intros H x ->. destruct c as [e|]; [|discriminate]. destruct (get_next_range t asc (fst e)) as [n|] eqn:NR; [|discriminate].
  exact (pointer_ok fuel n x (next_range_in _ _ NR) H).
Qed.
Lemma entry_step c item c' : okc c -> next_entry t asc k None c = (item, c') -> okc item /\ okc c'.
Proof.
  unfold next_entry. intros OC H. destruct c as [e|]; [|apply pair_eq in H as [<- <-]; split; intros x X; discriminate].
  destruct (get_next_entry t asc e) as [x|] eqn:NE.
  - unfold get_next_entry in NE. apply hd_in, after_in, dups_in in NE as [I E]. destruct (OC e eq_refl) as [_ OK].
    assert (oke x) as OX by (split; [exact I|rewrite E; exact OK]). apply pair_eq in H as [<- <-].
    split; [destruct (sr_contains _ _)|]; intros y Y; try discriminate; injection Y as <-; exact OX.
  - apply pair_eq in H as [<- <-]. split; [intros y Y; discriminate|exact OC].
Qed.
Lemma walk_ok fuel p n : forall ptr c y es, okc ptr -> okc c -> walk fuel t asc k lb p None n ptr c y = Ok es -> forall e, In e es -> oke e /\ entry_ok p e = true.
Proof.
  induction n as [|n IH]; intros ptr c y es OP OC H; [discriminate|]. cbn [walk] in H.
  match type of H with (let '(_, _) := ?m in _) = _ => destruct m as [item c1] eqn:EI end.
  assert (okc item /\ okc c1) as [OI O1].
  { destruct ptr as [e|]; [apply pair_eq in EI as [<- <-]; split; [exact OP|exact OC]|]. exact (entry_step _ _ _ OC EI). }
  destruct item as [e|].
  - destruct (entry_ok p e) eqn:EK; [|exact (IH None _ _ _ okc_none O1 H)].
    destruct (member_next 32 (p_limits p QBranch) y) as [[[|]|] y'].
    + match type of H with (let '(_, _) := ?m in _) = _ => destruct m as [ptr2 c2] eqn:E2 end.
      assert (okc ptr2 /\ okc c2) as [O2 O3].
      { destruct (member_peek 32 (p_limits p QBranch) y'); [apply pair_eq in E2 as [<- <-]; split; [intros x X; discriminate|exact O1]|]. exact (entry_step _ _ _ O1 E2). }
      destruct (walk fuel t asc k lb p None n ptr2 c2 y') as [r| | |] eqn:W; try discriminate. cbn [obind] in H. injection H as <-.
      intros x [<-|X]; [split; [exact (OI e eq_refl)|exact EK]|]. exact (IH _ _ _ _ O2 O3 W x X).
    + exact (IH None _ _ _ okc_none O1 H).
    + destruct (next_scope fuel t asc k lb c1) as [r| | |] eqn:NS; try discriminate. cbn [obind] in H. pose proof (scope_ok _ _ _ NS) as OR. exact (IH _ _ _ _ OR OR H).
  - destruct (next_scope fuel t asc k lb c1) as [r| | |] eqn:NS; try discriminate. cbn [obind] in H. pose proof (scope_ok _ _ _ NS) as OR.
    destruct r as [e|]; [exact (IH _ _ _ _ OR OR H)|]. injection H as <-. intros x [].
Qed.
End Search.
Lemma entries_ok fuel t asc p es : query_tree_entries fuel t asc p None = Ok es ->
  exists k, compile_tree_keys p asc = Ok k /\ forall e, In e es -> oke t k e /\ entry_ok p e = true.
Proof.
  unfold query_tree_entries. destruct (member_peek 32 (p_limits p QBranch) 0); [|discriminate]. destruct (compile_tree_keys p asc) as [k| | |]; try discriminate. cbn [obind].
  destruct (lower_bound k) as [lb| | |]; try discriminate. cbn [obind]. intros H. exists k. split; [reflexivity|].
  destruct (set_range t asc lb) as [a|] eqn:SR; [|injection H as <-; intros e []].
  destruct (set_pointer_at_match fuel t asc k lb a) as [[r|]| | |] eqn:SP; try discriminate; cbn [obind] in H; [|injection H as <-; intros e []].
  pose proof (pointer_ok _ _ _ _ _ _ _ (set_range_in _ _ _ _ SR) SP) as OR.
  assert (okc t k (Some r)) as OC by (intros x X; injection X as <-; exact OR).
  exact (walk_ok _ _ _ _ _ _ _ _ _ _ _ OC OC H).
Qed.
Lemma omap_in {E A B} (f : A -> outcome E B) l : forall r, omap f l = Ok r -> forall b, In b r -> exists a, In a l /\ f a = Ok b.
Proof.
  induction l as [|a l IH]; intros r H; [injection H as <-; intros b []|]. cbn [omap] in H. destruct (f a) as [b0| | |] eqn:F; try discriminate. cbn [obind] in H.
  destruct (omap f l) as [bs| | |]; try discriminate. cbn [obind] in H. injection H as <-. intros b [<-|I]; [exists a; split; [now left|exact F]|].
  destruct (IH _ eq_refl b I) as (x & X & Y). exists x. split; [now right|exact Y].
Qed.
Lemma zip_incl {A} s y (l : list A) : incl (zip_members 32 s y l) l.
Proof.
  revert y. induction l as [|a l IH]; intros y; [intros x []|]. cbn [zip_members]. destruct (member_next 32 s y) as [[[]|] nt].
  - intros x [<-|X]; [now left|right; exact (IH _ x X)].
  - intros x X. right. exact (IH _ x X).
  - intros x [].
Qed.

Lemma ok_some {E A} (a b : A) : @Ok E _ (Some a) = Ok (Some b) -> b = a.
Proof. intros H. now injection H. Qed.
Section Hash.
Variable hash : bytes -> bytes.
Hypothesis HL : forall x, lenN (hash x) = 32.
Notation V := (V hash).
(** The key and the value of the tree entry of a packet, of whatever declared depth. *)
Lemma entry_of e nh p en : packet_at hash e nh p -> tree_entry (fst e) (snd e) = Ok (Some en) ->
  exists rs cs g dm pk c, point_rspace p = Some rs /\ has_space rs cs /\ lenN g = 32 /\ lenN dm = 16 /\ lenN pk = 32 /\ c < 2 ^ 64 /\
  be_decode g = V nh p GroupIDF /\ be_decode dm = V nh p DomainF /\ be_decode pk = V nh p PubKeyF /\ c = V nh p CreateF /\
  (rs_depth rs : N) = V nh p DepthF /\
  key_fields (fst en) = Ok (g, dm, rs_depth rs, wire_space cs, pk) /\
  snd en = tree_value c (hash (content p)) (fst e) (lenN (point_links p)) (lenN (point_data p)).
Proof.
  intros (PK & C & S) E. pose proof C as (F & Hp & H). unfold tree_entry, has_fields in *.
  destruct (fields (point_parts (snd e))) as [d|lp|lp s|d|d]; cbn [common_idx] in E; try discriminate; subst p.
  - destruct (rooted_has_space (rspace (tail lp)) (point_space _ (rspace (tail lp)) Hp eq_refl)) as (cs & HS & RS & _).
    rewrite RS in E. cbn [obind] in E. apply ok_some in E. subst en.
    exists (rspace (tail lp)), cs, (group (head lp)), (domain (head lp)), (repeat 0 32), (create_stamp (head lp)).
    split; [reflexivity|]. split; [exact HS|]. assert (lenN (group (head lp)) = 32) as G by apply Hp. assert (lenN (domain (head lp)) = 16) as D by apply Hp.
    split; [exact G|]. split; [exact D|]. split; [reflexivity|]. split; [apply Hp|]. do 4 (split; [reflexivity|]).
    split; [erewrite V_depth by reflexivity; destruct (rspace (tail lp)); reflexivity|]. cbn [fst snd].
    split; [exact (proj2 (C18_key_fields _ _ _ _ (repeat 0 32) G D eq_refl))|]. rewrite H. reflexivity.
  - destruct (rooted_has_space (rspace (tail lp)) (point_space _ (rspace (tail lp)) Hp eq_refl)) as (cs & HS & RS & _).
    rewrite RS in E. cbn [obind] in E. apply ok_some in E. subst en.
    exists (rspace (tail lp)), cs, (group (head lp)), (domain (head lp)), (s_pubkey s), (create_stamp (head lp)).
    split; [reflexivity|]. split; [exact HS|]. assert (lenN (group (head lp)) = 32) as G by apply Hp. assert (lenN (domain (head lp)) = 16) as D by apply Hp.
    assert (lenN (s_pubkey s) = 32) as K by apply Hp.
    split; [exact G|]. split; [exact D|]. split; [exact K|]. split; [apply Hp|]. do 4 (split; [reflexivity|]).
    split; [erewrite V_depth by reflexivity; destruct (rspace (tail lp)); reflexivity|]. cbn [fst snd].
    split; [exact (proj1 (C18_key_fields _ _ _ _ (s_pubkey s) G D K))|]. rewrite H. reflexivity.
Qed.

Lemma entry_at e nh p en : packet_at hash e nh p -> tree_entry (fst e) (snd e) = Ok (Some en) -> exists ix, index_at hash e ix.
Proof. intros PA TE. destruct (entry_index hash e nh p en PA TE) as [ix IX]. exists ix, nh, p. auto. Qed.
Section Store.
Variable d : db.
Variable l : list stored.
Hypothesis VS : valid_store hash d l.
Variable rs : list Predicate.
Variable P : PktPredicates.
Variable cs : list bytes.
Hypothesis IV : Inv hash P cs rs.
Hypothesis SC : spaces_clear hash l rs.
Variable asc : bool.
Lemma sets f : num_kind f -> set_ok (field_width f) (p_sets P f) /\ has_any (field_width f) (p_sets P f) = true.
Proof. destruct IV as ((SO & _) & _). apply SO. Qed.
Hypothesis ME : forall f u, num_kind f -> f <> PktTypeF -> u < 2 ^ field_width f -> (member (p_sets P f) u = true <-> Forall (fun r => allows r f u) rs).
Hypothesis PS : possible rs.
Lemma info_member f u v i : num_kind f -> u < 2 ^ field_width f -> member (p_sets P f) u = true -> v < 2 ^ field_width f ->
  crash (info (field_width f) (p_sets P f) v) = Ok i -> in_set i = true -> member (p_sets P f) v = true.
Proof.
  intros K U M L E I. destruct (sets f K) as [S _]. destruct (info_exact _ _ u v (width_gt f) (width_lt f) S U M L) as (j & EJ & IJ & _).
  rewrite EJ in E. cbn [crash] in E. injection E as ->. congruence.
Qed.
Lemma some_member f u : num_kind f -> f <> PktTypeF -> f <> DepthF -> u < 2 ^ field_width f -> field_allowed rs f u -> member (p_sets P f) u = true.
Proof. intros K N D U F. now apply (member_allowed rs P ME f u K N D U). Qed.
(** Every result is a stored point of the tree that matches. *)
Lemma returned fuel out : query_tree fuel d asc P None = Ok out -> forall a, In a out -> exists e, In e l /\ a = answer e /\ tree_matches hash rs e.
Proof.
  unfold query_tree. destruct (query_tree_entries fuel (tree_t d) asc P None) as [es| | |] eqn:QE; try discriminate. cbn [obind].
  match goal with |- context [omap ?g es] => destruct (omap g es) as [rd| | |] eqn:OM end; try discriminate. cbn [obind]. intros H a IA. apply ok_inj in H. subst out.
  apply zip_incl, filter_In in IA as [IA TA]. destruct (omap_in _ _ _ OM a IA) as (en & IE & RE). cbn beta in RE.
  destruct (entries_ok _ _ _ _ _ QE) as (k & CK & OK). destruct (OK en IE) as [[IT (s & KS & AS)] EK]. clear OK QE OM.
  rewrite (keys_compiled hash rs P cs IV asc) in CK. apply ok_inj in CK. subst k.
  destruct VS as (R & LL & F). pose proof R as (_ & _ & _ & _ & _ & _ & RT). apply RT in IT as (st & np & IL & TE).
  set (e := (st, np)) in *. change (tree_entry (fst e) (snd e) = Ok (Some en)) in TE.
  assert (exists nh p, packet_at hash e nh p) as (nh & p & PA) by (rewrite Forall_forall in F; auto).
  destruct (entry_of e nh p en PA TE) as (rsp & sc & g & dm & pk & c & ER & SP & LG & LD & LP & LC & VG & VD & VK & VC & VE & KF & VV).
  pose proof (packet_valid hash e nh p PA) as VA. assert (Hp : point_ok p) by (destruct VA as (_ & b & _ & _ & X & _); exact X).
  pose proof PA as (_ & _ & ST). destruct (sizes_small hash HL p Hp) as [Z1 Z2].
  destruct (C18_value_fields c (hash (content p)) (fst e) (lenN (point_links p)) (lenN (point_data p)) LC (HL _) ST) as (X3 & X4 & X5 & X1 & X2).
  specialize (X1 Z1). specialize (X2 Z2). rewrite <- VV in X1, X2, X3, X4, X5.
  rewrite X5, (read_stored hash d l (conj R (conj LL F)) e IL) in RE. apply ok_inj in RE. subst a.
  exists e. split; [exact IL|]. split; [reflexivity|]. split; [|exact (entry_at e nh p en PA TE)].
  rewrite (matches_iff hash rs e nh p PA). pose proof IV as (SO & _ & _ & _ & _ & _ & _ & AC). destruct (AC (fst e) nh p VA) as [_ A2].
  unfold key_status in KS. rewrite KF in KS. cbn [crash obind] in KS.
  destruct (crash (info 256 (tk_group _) _)) as [gi| | |] eqn:EG; try discriminate. cbn [obind] in KS.
  destruct (crash (info 128 (tk_domain _) _)) as [di| | |] eqn:ED; try discriminate. cbn [obind] in KS.
  destruct (crash (info 256 (tk_pubkey _) _)) as [ki| | |] eqn:EP; try discriminate. cbn [obind] in KS.
  apply ok_inj in KS. subst s. unfold all_in_set in AS. cbn [ks_group ks_domain ks_depth ks_key ks_prefix] in AS.
  rewrite !andb_true_iff in AS. destruct AS as ((((I4 & I3) & I5) & I2) & I1). unfold bit_info in I3. cbn [in_set] in I3.
  unfold keys in EG, ED, EP, I3, I5. cbn [tk_group tk_domain tk_depth tk_pubkey tk_space] in EG, ED, EP, I3, I5.
  apply (depth_bits hash rs P cs IV ME) in I3 as [_ I3]. rewrite VE in I3. rewrite VG in EG. rewrite VD in ED. rewrite VK in EP.
  destruct PS as (_ & (ug & G1 & G2) & (ud & D1 & D2) & (uk & K1 & K2)).
  pose proof (info_member GroupIDF ug _ gi I G1 (some_member GroupIDF ug I ltac:(discriminate) ltac:(discriminate) G1 G2) (valid_V hash HL _ nh p GroupIDF VA) EG I1) as M1.
  pose proof (info_member DomainF ud _ di I D1 (some_member DomainF ud I ltac:(discriminate) ltac:(discriminate) D1 D2) (valid_V hash HL _ nh p DomainF VA) ED I2) as M2.
  pose proof (info_member PubKeyF uk _ ki I K1 (some_member PubKeyF uk I ltac:(discriminate) ltac:(discriminate) K1 K2) (valid_V hash HL _ nh p PubKeyF VA) EP I4) as M4.
  assert (under cs p) as U.
  { apply (starts_with_wire sc (proj1 (proj1 SP)) cs) in I5; [|apply IV]. destruct I5 as [r Rr]. right. exists rsp, r. rewrite <- Rr. auto. }
  unfold entry_ok in EK. rewrite X1, X2, X3, X4, X5 in EK. rewrite !andb_true_iff in EK. destruct EK as ((((B1 & B2) & B3) & B4) & B5).
  assert (forall f, num_kind f -> test (field_width f) (p_sets P f) (V nh p f) = member (p_sets P f) (V nh p f)) as TM.
  { intros f K. apply test_member; [apply width_gt|apply width_lt|exact (proj1 (sets f K))|exact (valid_V hash HL _ nh p f VA)]. }
  pose proof (TM CreateF I) as T1. pose proof (TM PktHashF I) as T2. pose proof (TM LinksLenF I) as T3. pose proof (TM DataSizeF I) as T4. cbn [field_width] in T1, T2, T3, T4.
  assert (V nh p LinksLenF = lenN (point_links p) /\ V nh p DataSizeF = lenN (point_data p) /\ V nh p PktHashF = be_decode (hash (content p))) as (Q1 & Q2 & Q3) by (destruct p; try discriminate ER; repeat split; reflexivity).
  rewrite VC, T1 in B1. rewrite <- Q3, T2 in B3. rewrite <- Q1, T3 in B4. rewrite <- Q2, T4 in B5.
  apply (filtered_tests hash HL P cs rs e nh p (fun t => negb (treekey_checked t)) IV PA) in TA as [TA _].
  apply A2; [|split; [|exact B2]|exact U].
  - destruct SC as [N|D]; [now right|left]. rewrite Forall_forall in D. exact (D e IL nh p PA).
  - intros f K. destruct (treekey_checked (RField f)) eqn:C; [|apply TA; [exact K|now rewrite C]]. destruct f; try discriminate C; assumption.
Qed.
End Store.
End Hash.
