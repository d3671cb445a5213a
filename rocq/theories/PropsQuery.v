(** Properties of database queries: C30-C34. *)
From Coq Require Import Sorting.Sorted.
From Verif Require Import ProofSpace ProofRooted ProofPkt ProofPkt2 ProofTree ProofTestSet ProofStore PropsPkt PropsStore PropsPred.
From Verif Require Import Bytes ModelSpace SpecSpace ModelPkt SpecPkt ModelTree SpecTree ModelTestSet SpecTestSet ModelStore SpecStore ModelPred SpecPred ProofPred ProofPred2.
From Verif Require Import ModelQuery SpecQuery ProofQuery ProofWalk ProofQuery2 ProofQuery3 ProofQuery4 ProofFuel ExStore.

(** The query [rs] is accepted and compiles to [P]. *)
Definition accepted (rs : list Predicate) (P : PktPredicates) : Prop := Forall pred_ok rs /\ add_all preds_default rs = Ok P.

(** ** Examples: a store with spaces of depth 0 to 2, in the order of their stamps *)
Definition sp (x : N) : bytes := [x].
Definition p_root := lnk 10 [] [1].
Definition p_a := lnk 11 [sp 97] [2;2].
Definition p_ax := lnk 12 [sp 97; sp 120] [3;3;3].
Definition p_bx := lnk 13 [sp 98; sp 120] [4;4;4;4].
Definition p_bx' := lnk 14 [sp 98; sp 120] (repeat 5 60).
Definition key200 : bytes := repeat 200 32.
Definition p_bk := kpt 15 [sp 98; sp 120] [6] key200.
Definition ex_points : list point := [p_bx; PData [1;2;3]; p_root; p_ax; p_bx'; p_a; p_bk].
Definition ex_db : db := store_all 100 ex_points.
Definition ex_list : list stored := stored_list 100 ex_points.
Definition is_group : Predicate := mkPred (RField GroupIDF) Equal (PNum (be_decode ex_group)).
Definition is_domain : Predicate := mkPred (RField DomainF) Equal (PNum (be_decode ex_domain)).
Definition under_b : Predicate := mkPred RPrefix Equal (PSpace (wire_space [sp 98])).
Definition no_key : Predicate := mkPred (RField PubKeyF) Equal (PNum 0).
Definition compiled (rs : list Predicate) : PktPredicates := ok_or preds_default (add_all preds_default rs).
Definition acceptedb (rs : list Predicate) : bool := match add_all preds_default rs with Ok _ => true | _ => false end.
Lemma accepted_by rs : Forall pred_ok rs -> acceptedb rs = true -> accepted rs (compiled rs).
Proof. intros OK A. split; [exact OK|]. unfold acceptedb, compiled in *. destruct (add_all preds_default rs); try discriminate. reflexivity. Qed.
Lemma ex_good : Forall well_point [p_bx; p_root; p_ax; p_bx'; p_a; p_bk].
Proof.
  apply Forall_cons; [good_link|]. apply Forall_cons; [good_link|]. apply Forall_cons; [good_link|]. apply Forall_cons; [good_link|].
  apply Forall_cons; [good_link|]. apply Forall_cons; [good_key|apply Forall_nil].
Qed.
Lemma ex_data_good : well_point (PData [1;2;3]).
Proof.
  split; [split; [split; [vm_compute; discriminate|exact I]|apply bytes_okb; vm_compute; reflexivity]|]. split; [|exact I]. intros rs E. discriminate.
Qed.
Lemma ex_well p : In p ex_points -> well_point p.
Proof.
  pose proof ex_good as G. rewrite Forall_forall in G. cbn [In ex_points]. intros [H|[H|H]]; [subst p; apply G; now left|subst p; exact ex_data_good|].
  apply G. now right.
Qed.
Lemma ex_honest : honest_store toy_hash ex_db ex_list.
Proof.
  apply store_all_honest; [vm_compute; reflexivity|vm_compute; reflexivity|]. apply Forall_forall. exact ex_well.
Qed.
(** The stamps of the results of a query on the example. *)
Definition run (tb : Table) (asc : bool) (rs : list Predicate) : list N :=
  match query 100 ex_db tb asc (compiled rs) None 0 with Ok out => map fst out | _ => [0] end.
Lemma depth_clear l rs : (exists d, honest_store toy_hash d l) -> spaces_clear toy_hash l rs.
Proof.
  intros (d & _ & F). right. rewrite Forall_forall in *. intros e IN nh p PA. destruct (F e IN) as (nh' & p' & PA' & WF). destruct (packet_at_inj toy_hash _ _ _ _ _ PA PA') as [<- <-]. apply WF.
Qed.

(** C30: a hash query returns exactly the matching packets, in the order of their hashes;
    of these, those at the positions the index predicates allow. *)
Theorem C30_hash_query_exact hash d l rs P nth_ : hash32 hash -> valid_store hash d l -> accepted rs P -> spaces_clear hash l rs ->
  nth_ + lenN l <= 2 ^ 32 ->
  exists ms out, exactly l (matches hash rs) hash_before ms /\ answers rs nth_ ms out /\
  forall fuel stale, query fuel d THash true P stale nth_ = Ok out.
Proof. intros HL VS [OK AD] SC NL. exact (hash_main hash HL d l VS rs OK SC P AD nth_ NL). Qed.
(** The descending order of hashes can be asked for, but aborts the process. *)
Theorem C30_descending_refuted fuel d P stale nth_ : query fuel d THash false P stale nth_ = Panic.
Proof. reflexivity. Qed.
Example C30_ex : valid_store toy_hash ex_db ex_list /\ accepted [is_group] (compiled [is_group]) /\ spaces_clear toy_hash ex_list [is_group] /\
  run THash true [is_group] = [102; 100; 103; 105; 104; 106] /\
  run THash true [is_group; mkPred (RLimit QIndex) Greater (PNum 0); mkPred (RLimit QQuery) Less (PNum 2)] = [100; 103].
Proof.
  split; [apply ex_honest|]. split; [apply accepted_by; [constructor; [split; [exact I|vm_compute; reflexivity]|constructor]|vm_compute; reflexivity]|].
  split; [apply depth_clear; exists ex_db; exact ex_honest|]. split; vm_compute; reflexivity.
Qed.
Print Assumptions C30_hash_query_exact.
Print Assumptions C30_descending_refuted.

(** C31: queries on the log.  Not exact: the upper bound on the receive stamp is ignored,
    and both bounds are when descending. *)
Theorem C31_log_query_partial hash d l rs P asc nth_ : hash32 hash -> valid_store hash d l -> accepted rs P -> spaces_clear hash l rs ->
  no_pred (RLimit QBranch) rs -> asc = true \/ recv_wide rs -> nth_ + lenN l <= 2 ^ 32 ->
  exists ms out,
    exactly l (fun e => matches_but_recv hash rs e /\ (asc = true -> recv_from rs (fst e))) (recv_before asc) ms /\
    answers rs nth_ ms out /\ forall fuel stale, query fuel d TLog asc P stale nth_ = Ok out.
Proof. intros HL VS [OK AD] SC NB DIR NL. exact (log_main hash HL d l VS rs OK SC P AD asc nth_ NB DIR NL). Qed.
(** Exact without predicates on the receive stamp, or ascending from a stamp. *)
Theorem C31_log_query_exact_partial hash d l rs P asc nth_ : hash32 hash -> valid_store hash d l -> accepted rs P -> spaces_clear hash l rs ->
  no_pred (RLimit QBranch) rs ->
  Forall (fun r => p_kind r = RRecv -> asc = true /\ p_op r = Greater) rs -> nth_ + lenN l <= 2 ^ 32 ->
  exists ms out, exactly l (matches hash rs) (recv_before asc) ms /\ answers rs nth_ ms out /\
  forall fuel stale, query fuel d TLog asc P stale nth_ = Ok out.
Proof.
  intros HL VS AC SC NB RG NL.
  assert (asc = true \/ recv_wide rs) as DIR.
  { destruct asc; [now left|right]. exists 0, 1. split; [lia|]. split; [lia|]. unfold recv_allowed. rewrite !Forall_forall in *.
    split; intros r IN; specialize (RG r IN); destruct (p_kind r); try exact I; destruct (RG eq_refl); discriminate. }
  destruct (C31_log_query_partial hash d l rs P asc nth_ HL VS AC SC NB DIR NL) as (ms & out & [S E] & A & Q). exists ms, out. split; [|auto]. split; [exact S|].
  intros e. rewrite E. apply and_iff_compat_l. destruct AC as [OK _]. split.
  - intros [(nh & p & PA & F) RF]. exists nh, p. split; [exact PA|]. unfold recv_from in RF. rewrite Forall_forall in *. intros r IN. specialize (F r IN).
    destruct (p_kind r) as [f| | |q] eqn:K; try (apply F; discriminate). destruct (RG r IN K) as [AS OP]. specialize (RF AS r IN). specialize (OK r IN).
    unfold satisfies, pred_ok in *. rewrite K, OP in *. destruct (p_val r); [now apply N.lt_gt|destruct OK].
  - intros (nh & p & PA & F). split; [exists nh, p; split; [exact PA|]; rewrite Forall_forall in *; auto|]. intros _. unfold recv_from. rewrite Forall_forall in *. intros r IN. specialize (F r IN). unfold satisfies in F.
    destruct (p_kind r) as [f| | |q] eqn:K; try exact I. destruct (RG r IN K) as [AS OP]. rewrite OP in *. destruct (p_val r); [now apply N.gt_lt|exact I].
Qed.
Definition recv_lt : list Predicate := [mkPred RRecv Less (PNum 103)].
Definition recv_eq : list Predicate := [mkPred RRecv Equal (PNum 103)].
(** Witnesses: [recv:<:103] returns packets received later, in both directions, and
    [recv:=:103] returns them in the wrong order when descending. *)
Theorem C31_recv_refuted : exists d l, valid_store toy_hash d l /\ exists e, In e l /\
  (accepted recv_lt (compiled recv_lt) /\ ~ matches toy_hash recv_lt e /\
   forall asc, exists fuel out, query fuel d TLog asc (compiled recv_lt) None 0 = Ok out /\ In (answer e) out) /\
  (accepted recv_eq (compiled recv_eq) /\ exists fuel out, query fuel d TLog false (compiled recv_eq) None 0 = Ok out /\ map fst out = [103; 104; 105; 106]).
Proof.
  exists ex_db, ex_list. split; [apply ex_honest|]. exists (106, net_pkt p_bk). split; [do 6 right; left; vm_compute; reflexivity|]. split; [split; [|split]|split].
  - apply accepted_by; [constructor; [split; [vm_compute; reflexivity|exact I]|constructor]|vm_compute; reflexivity].
  - intros (nh & p & _ & F). inversion F as [|? ? S _]; subst. cbn in S. lia.
  - intros [|]; exists 0%nat; eexists; (split; [vm_compute; reflexivity|]); vm_compute; tauto.
  - apply accepted_by; [constructor; [split; [vm_compute; reflexivity|exact I]|constructor]|vm_compute; reflexivity].
  - exists 0%nat. eexists. split; vm_compute; reflexivity.
Qed.
(** Limits on branches count the entries of the log before any test: with [i_branch:<:2]
    only the first two packets are looked at. *)
Definition branch2 : list Predicate := [is_group; mkPred (RLimit QBranch) Less (PNum 2)].
Theorem C31_branch_limit_refuted : exists d l e, valid_store toy_hash d l /\ accepted branch2 (compiled branch2) /\ In e l /\ matches toy_hash branch2 e /\
  exists fuel out, query fuel d TLog true (compiled branch2) None 0 = Ok out /\ ~ In (answer e) out.
Proof.
  exists ex_db, ex_list, (102, net_pkt p_root). split; [apply ex_honest|]. split; [|split; [right; right; left; vm_compute; reflexivity|split]].
  - apply accepted_by; [|vm_compute; reflexivity]. constructor; [split; [exact I|vm_compute; reflexivity]|]. constructor; [vm_compute; reflexivity|constructor].
  - exists ex_nh, p_root. split; [apply at_point; [apply ex_well; right; right; now left|reflexivity]|]. constructor; [exists (be_decode ex_group); split; [reflexivity|reflexivity]|]. constructor; [exact I|constructor].
  - exists 0%nat. eexists. split; [vm_compute; reflexivity|]. cbn [In]. intros [H|[]]. apply (f_equal fst) in H. vm_compute in H. discriminate.
Qed.
Definition recv_after : list Predicate := [is_group; mkPred RRecv Greater (PNum 102)].
Example C31_ex : valid_store toy_hash ex_db ex_list /\ accepted recv_after (compiled recv_after) /\ spaces_clear toy_hash ex_list recv_after /\
  no_pred (RLimit QBranch) recv_after /\ Forall (fun r => p_kind r = RRecv -> true = true /\ p_op r = Greater) recv_after /\
  run TLog true recv_after = [103; 104; 105; 106] /\ run TLog false [is_group] = [106; 105; 104; 103; 102; 100].
Proof.
  split; [apply ex_honest|]. split.
  { apply accepted_by; [|vm_compute; reflexivity]. constructor; [split; [exact I|vm_compute; reflexivity]|]. constructor; [split; [reflexivity|exact I]|constructor]. }
  split; [apply depth_clear; exists ex_db; exact ex_honest|]. split; [repeat (constructor; [discriminate|]); constructor|].
  split; [constructor; [discriminate|constructor; [auto|constructor]]|]. split; vm_compute; reflexivity.
Qed.
Print Assumptions C31_log_query_partial.
Print Assumptions C31_log_query_exact_partial.
Print Assumptions C31_recv_refuted.
Print Assumptions C31_branch_limit_refuted.

(** ** Queries on the tree *)
Lemma entry_counted hash rs P e nh p ix : hash32 hash -> accepted rs P -> packet_at hash e nh p -> well_formed p -> index_of hash p ix ->
  (entry_ok P (ix_key ix, tree_value (i_create ix) (i_hash ix) (fst e) (lenN (point_links p)) (lenN (point_data p))) = true <-> counted hash rs e).
Proof.
  intros HL [OK AD] PA WF IX. destruct (preds_effect hash HL rs P OK AD) as (cs & IV & ME & _ & _).
  rewrite (entry_ok_iff hash HL rs P cs IV e nh p ix PA WF IX). destruct (the_recv rs OK P AD) as (_ & _ & _ & RV). pose proof PA as (_ & _ & ST). rewrite (RV (fst e) ST).
  pose proof (packet_valid hash e nh p PA) as VA. assert (Hp : point_ok p) by (destruct VA as (_ & b & _ & _ & H & _); exact H).
  assert (ME' : forall f u, num_kind f -> f <> PktTypeF -> u < 2 ^ field_width f -> (member (p_sets P f) u = true <-> Forall (fun r => allows r f u) rs)).
  { intros f u K N U. rewrite (ME f u K U), !Forall_forall. apply forall_iff. intros r. apply forall_iff. intros _. unfold typed. destruct (p_kind r); intuition congruence. }
  assert (MA : forall f, num_kind f -> f <> PktTypeF -> f <> DepthF -> (member (p_sets P f) (V hash nh p f) = true <-> field_allowed rs f (V hash nh p f))).
  { intros f K N1 N2. apply (member_allowed rs P ME' f _ K N1 N2). exact (valid_V hash HL _ nh p f VA). }
  rewrite !MA by (exact I || discriminate).
  assert (NF : num_field hash CreateF nh p = Some (V hash nh p CreateF) /\ num_field hash PktHashF nh p = Some (V hash nh p PktHashF) /\
    num_field hash LinksLenF nh p = Some (V hash nh p LinksLenF) /\ num_field hash DataSizeF nh p = Some (V hash nh p DataSizeF)).
  { destruct p; try contradiction; repeat split; reflexivity. }
  destruct NF as (N1 & N2 & N3 & N4).
  unfold field_allowed, recv_allowed. split.
  - intros (A1 & A2 & A3 & A4 & A5). exists nh, p. split; [exact PA|]. rewrite Forall_forall in *. intros r IN CP. specialize (A1 r IN). specialize (A2 r IN). specialize (A3 r IN). specialize (A4 r IN). specialize (A5 r IN). specialize (OK r IN).
    unfold counted_pred in CP. unfold pred_ok in OK. unfold satisfies. destruct (p_kind r) as [f| | |q]; [destruct f|..]; try contradiction; destruct (p_val r); try contradiction; eauto.
  - intros (nh' & p' & PA' & F). destruct (packet_at_inj hash _ _ _ _ _ PA PA') as [<- <-]. rewrite Forall_forall in F.
    split; [|split; [|split; [|split]]]; apply Forall_forall; intros r IN; specialize (F r IN); unfold counted_pred, satisfies in F; destruct (p_kind r) as [f| | |q]; try exact I; destruct (p_val r); try exact I;
      try (exact (F I)); intros <-; destruct (F I) as (x & E & H); congruence.
Qed.
Lemma tree_query hash d l rs P asc stale nth_ : hash32 hash -> honest_store hash d l -> accepted rs P -> possible rs ->
  stale = None \/ no_pred (RLimit QBranch) rs -> nth_ + lenN l <= 2 ^ 32 ->
  exists n0 ms out, StronglySorted (tree_before hash asc) ms /\ (forall e, In e ms -> In e l /\ tree_matches hash rs e) /\ answers rs nth_ ms out /\
  (forall fuel, (n0 <= fuel)%nat -> query fuel d TTree asc P stale nth_ = Ok out) /\
  (asc = true \/ create_wide rs -> unskipped rs -> forall e, In e l -> tree_matches hash rs e ->
   exists n, branch_position hash l asc rs e n /\ (In e ms <-> position_ok rs QBranch n)).
Proof.
  intros HL HS AC PS ST NL. pose proof AC as [OK AD]. destruct (preds_effect hash HL rs P OK AD) as (cs & IV & ME & CN & CSN).
  assert (ME' : forall f u, num_kind f -> f <> PktTypeF -> u < 2 ^ field_width f -> (member (p_sets P f) u = true <-> Forall (fun r => allows r f u) rs)).
  { intros f u K N U. rewrite (ME f u K U), !Forall_forall. apply forall_iff. intros r. apply forall_iff. intros _. unfold typed. destruct (p_kind r); intuition congruence. }
  destruct (tree_main hash HL d l HS rs P cs IV ME' asc stale nth_ PS OK) as (n0 & ms & out & S & M & A & Q & C); try assumption.
  - intros N1 N2. apply CN. unfold no_pred in *. rewrite Forall_forall in *. intros r IN [H|H]; [now apply (N1 r IN)|now apply (N2 r IN)].
  - intros c u IN SC U MM. exact (CSN c Equal u IN SC U MM).
  - exists n0, ms, out. split; [exact S|]. split; [exact M|]. split; [exact A|]. split; [exact Q|]. intros DIR UN e IN TM. destruct (C DIR UN e IN TM) as (fs & ND & LF & FI & IM).
    exists (lenN fs). split; [|exact IM]. exists fs. split; [exact ND|]. split; [reflexivity|]. intros f. rewrite FI. split; intros (FL & SB & TB & X); (split; [exact FL|]; split; [exact SB|]; split; [exact TB|]).
    + destruct X as (en & O & EO). destruct (owned hash HL d l HS f en O) as (nh & p & ix & PA & WF & IX & ->). now apply (entry_counted hash rs P f nh p ix HL AC PA WF IX).
    + destruct SB as (ia & _ & (nh & p & PA & IX) & _). destruct HS as (VS & HF). rewrite Forall_forall in HF. destruct (HF f FL) as (nh' & p' & PA' & WF). destruct (packet_at_inj hash _ _ _ _ _ PA PA') as [<- <-].
      destruct (index_entry hash HL f nh p ia PA WF IX) as (_ & _ & _ & _ & _ & _ & _ & _ & TE). eexists. split; [split; [exact FL|exact TE]|]. now apply (entry_counted hash rs P f nh p ia HL AC PA WF IX).
Qed.
Lemma no_branch_position rs n : no_pred (RLimit QBranch) rs -> position_ok rs QBranch n.
Proof.
  unfold no_pred, position_ok. rewrite !Forall_forall. intros NB r IN. specialize (NB r IN). destruct (p_kind r) as [g| | |q] eqn:KR; try exact I.
  - destruct g; try exact I. destruct (p_op r); try exact I. discriminate.
  - destruct (p_val r); [|exact I]. intros ->. congruence.
Qed.

(** C34: on a store of packets that declare the right depth every tree query terminates,
    without aborting. *)
Theorem C34_terminates_partial hash d l rs P asc stale nth_ : hash32 hash -> honest_store hash d l -> accepted rs P -> possible rs ->
  stale = None \/ no_pred (RLimit QBranch) rs -> nth_ + lenN l <= 2 ^ 32 ->
  exists n0 out, forall fuel, (n0 <= fuel)%nat -> query fuel d TTree asc P stale nth_ = Ok out.
Proof. intros HL HS AC PS ST NL. destruct (tree_query hash d l rs P asc stale nth_ HL HS AC PS ST NL) as (n0 & ms & out & _ & _ & _ & Q & _). eauto. Qed.

(** The bound on the steps of the model only matters for whether there is a result: all results are the same. *)
Theorem C34_one_result f f' d tb asc P stale nth_ : query f d tb asc P stale nth_ <> OutOfFuel -> query f' d tb asc P stale nth_ <> OutOfFuel ->
  query f d tb asc P stale nth_ = query f' d tb asc P stale nth_.
Proof. apply query_unique. Qed.

(** C32: the results are matching stored points, without repetition, in tree order; of
    these, those at the positions the index predicates allow. *)
Theorem C32_tree_query_sound_partial hash d l rs P asc stale nth_ : hash32 hash -> honest_store hash d l -> accepted rs P -> possible rs ->
  stale = None \/ no_pred (RLimit QBranch) rs -> nth_ + lenN l <= 2 ^ 32 ->
  exists ms out n0, StronglySorted (tree_before hash asc) ms /\ (forall e, In e ms -> In e l /\ tree_matches hash rs e) /\ answers rs nth_ ms out /\
  forall fuel, (n0 <= fuel)%nat -> query fuel d TTree asc P stale nth_ = Ok out.
Proof.
  intros HL HS AC PS ST NL. destruct (tree_query hash d l rs P asc stale nth_ HL HS AC PS ST NL) as (n0 & ms & out & S & M & A & Q & _).
  exists ms, out, n0. auto.
Qed.

(** C33: a tree query returns every matching point if its predicates are such that the
    search skips nothing ([unskipped]), no limit is set on branches and, when descending,
    more than one create stamp is asked for. *)
Theorem C33_tree_query_exact_partial hash d l rs P asc stale nth_ : hash32 hash -> honest_store hash d l -> accepted rs P -> possible rs ->
  no_pred (RLimit QBranch) rs -> asc = true \/ create_wide rs -> unskipped rs -> nth_ + lenN l <= 2 ^ 32 ->
  exists ms out n0, exactly l (tree_matches hash rs) (tree_before hash asc) ms /\ answers rs nth_ ms out /\
  forall fuel, (n0 <= fuel)%nat -> query fuel d TTree asc P stale nth_ = Ok out.
Proof.
  intros HL HS AC PS NB DIR UN NL. destruct (tree_query hash d l rs P asc stale nth_ HL HS AC PS (or_intror NB) NL) as (n0 & ms & out & S & M & A & Q & C).
  exists ms, out, n0. split; [split; [exact S|]|auto]. intros e. split; [exact (M e)|]. intros [IN TM]. destruct (C DIR UN e IN TM) as (n & _ & IM). apply IM. now apply no_branch_position.
Qed.
(** With limits on branches: of each branch, the matching points at the allowed positions, where the positions
    count the packets of the branch that satisfy the predicates on create and receive stamp, hash, number of
    links and data size.  (The state of the cursor after a failed positioning is not to be used, as in C32.) *)
Theorem C33_branch_limits_partial hash d l rs P asc stale nth_ : hash32 hash -> honest_store hash d l -> accepted rs P -> possible rs ->
  stale = None \/ no_pred (RLimit QBranch) rs -> asc = true \/ create_wide rs -> unskipped rs -> nth_ + lenN l <= 2 ^ 32 ->
  exists ms out n0,
  exactly l (fun e => tree_matches hash rs e /\ exists n, branch_position hash l asc rs e n /\ position_ok rs QBranch n) (tree_before hash asc) ms /\
  answers rs nth_ ms out /\ forall fuel, (n0 <= fuel)%nat -> query fuel d TTree asc P stale nth_ = Ok out.
Proof.
  intros HL HS AC PS ST DIR UN NL. destruct (tree_query hash d l rs P asc stale nth_ HL HS AC PS ST NL) as (n0 & ms & out & S & M & A & Q & C).
  exists ms, out, n0. split; [split; [exact S|]|auto]. intros e. split.
  - intros IN. destruct (M e IN) as [IL TM]. split; [exact IL|]. split; [exact TM|]. destruct (C DIR UN e IL TM) as (n & BP & IM). exists n. split; [exact BP|now apply IM].
  - intros (IL & TM & n' & BP' & PO). destruct (C DIR UN e IL TM) as (n & BP & IM). apply IM. destruct BP as (fs & N1 & <- & F1), BP' as (fs' & N2 & <- & F2).
    assert (lenN fs = lenN fs') as ->; [|exact PO]. unfold lenN. f_equal. apply Nat.le_antisymm; apply NoDup_incl_length; try assumption; intros f FI; [apply F2, F1, FI|apply F1, F2, FI].
Qed.

(** What the full statement would say, and four kinds of queries for which it is false. *)
Definition misses (asc : bool) (rs : list Predicate) : Prop :=
  exists d l e, honest_store toy_hash d l /\ accepted rs (compiled rs) /\ possible rs /\ no_pred (RLimit QBranch) rs /\
  In e l /\ tree_matches toy_hash rs e /\
  exists fuel out, query fuel d TTree asc (compiled rs) None 0 = Ok out /\ ~ In (answer e) out.
Lemma num_pred f op v : num_kind f -> v < 2 ^ field_width f -> pred_ok (mkPred (RField f) op (PNum v)).
Proof. intros K V. unfold pred_ok. cbn [p_kind p_val]. destruct f; try destruct K; split; assumption || exact I. Qed.
Lemma b_ok : pred_ok under_b.
Proof. split; [reflexivity|]. exists [sp 98]. split; [now apply space_okb|]. split; [cbn; lia|reflexivity]. Qed.
Lemma group_ok : pred_ok is_group. Proof. split; [exact I|vm_compute; reflexivity]. Qed.
Lemma domain_ok : pred_ok is_domain. Proof. split; [exact I|vm_compute; reflexivity]. Qed.
Lemma ex_at i p : nth_error ex_points i = Some p -> In (100 + N.of_nat i, net_pkt p) ex_list.
Proof.
  unfold ex_list, stored_list. generalize 100 ex_points. intros s ps. revert s i. induction ps as [|q ps IH]; intros s i E; [destruct i; discriminate|].
  cbn [map number]. destruct i as [|i]; cbn [nth_error] in E.
  - injection E as <-. left. f_equal. cbn. lia.
  - right. replace (s + N.of_nat (S i)) with ((s + 1) + N.of_nat i) by lia. now apply IH.
Qed.
Lemma ex_matches rs s p : In p ex_points -> s < 2 ^ 64 -> Forall (satisfies toy_hash s ex_nh p) rs -> (exists ix, index_of toy_hash p ix) -> tree_matches toy_hash rs (s, net_pkt p).
Proof.
  intros IN S F [ix IX]. pose proof (at_point s p (proj1 (ex_well p IN)) S) as PA. split; [exists ex_nh, p; auto|]. exists ix, ex_nh, p. auto.
Qed.
Lemma in_tree_ex p : In p ex_points -> point_rspace p <> None -> exists ix, index_of toy_hash p ix.
Proof. intros IN. apply (index_exists toy_hash p). apply (ex_well p IN). Qed.
Lemma bx_under_b : satisfies toy_hash 100 ex_nh p_bx under_b.
Proof. right. exists (wire_rooted [sp 98; sp 120]), [sp 98], [sp 120]. split; [reflexivity|]. split; [split; [now apply space_okb|left; now exists 2]|]. split; [reflexivity|vm_compute; discriminate]. Qed.
Definition in_group (p : point) : Prop := In p [p_bx; p_bk].
Lemma has_group p s : in_group p -> satisfies toy_hash s ex_nh p is_group.
Proof. intros [<-|[<-|[]]]; exists (be_decode ex_group); split; reflexivity. Qed.
Lemma has_domain p s : in_group p -> satisfies toy_hash s ex_nh p is_domain.
Proof. intros [<-|[<-|[]]]; exists (be_decode ex_domain); split; reflexivity. Qed.
Lemma fields_possible rs n g dm k : n <= 8 -> g < 2 ^ 256 -> dm < 2 ^ 128 -> k < 2 ^ 256 ->
  depth_allowed rs n -> field_allowed rs GroupIDF g -> field_allowed rs DomainF dm -> field_allowed rs PubKeyF k -> possible rs.
Proof. intros. split; [now exists n|]. split; [now exists g|]. split; [now exists dm|now exists k]. Qed.
Ltac allowed := unfold depth_allowed, field_allowed; repeat (apply Forall_cons; [cbn [p_kind p_val p_op holds]; try exact I; try (intros Z; discriminate Z); try (intros _; reflexivity); try reflexivity|]); try apply Forall_nil.

(** A prefix: in a group and domain with the spaces a/x and b/x, the query for the prefix b
    does not return the points in b/x. *)
Theorem C33_prefix_refuted : misses true [is_group; is_domain; under_b].
Proof.
  exists ex_db, ex_list, (100, net_pkt p_bx). split; [exact ex_honest|].
  split; [apply accepted_by; [constructor; [exact group_ok|constructor; [exact domain_ok|constructor; [exact b_ok|constructor]]]|vm_compute; reflexivity]|].
  split; [|split; [repeat (constructor; [discriminate|]); constructor|split; [exact (ex_at 0 p_bx eq_refl)|split]]].
  - apply (fields_possible _ 1 (be_decode ex_group) (be_decode ex_domain) 0); try (vm_compute; reflexivity); try (vm_compute; discriminate); allowed.
    exists [sp 98]. split; [now apply space_okb|]. split; [reflexivity|vm_compute; discriminate].
  - apply ex_matches; [now left|reflexivity| |apply in_tree_ex; [now left|discriminate]].
    constructor; [apply has_group; now left|]. constructor; [apply has_domain; now left|]. constructor; [exact bx_under_b|constructor].
  - exists 100%nat, []. split; [vm_compute; reflexivity|]. intros [].
Qed.
(** A depth: without a fixed group and domain the query for the depth 2 finds nothing when
    the group has points of depth 1. *)
Theorem C33_depth_refuted : misses true [mkPred (RField DepthF) Equal (PNum 2)].
Proof.
  exists ex_db, ex_list, (100, net_pkt p_bx). split; [exact ex_honest|].
  split; [apply accepted_by; [constructor; [apply num_pred; [exact I|reflexivity]|constructor]|vm_compute; reflexivity]|].
  split; [|split; [repeat (constructor; [discriminate|]); constructor|split; [exact (ex_at 0 p_bx eq_refl)|split]]].
  - apply (fields_possible _ 2 0 0 0); try (vm_compute; reflexivity); try (vm_compute; discriminate); allowed.
  - apply ex_matches; [now left|reflexivity| |apply in_tree_ex; [now left|discriminate]]. constructor; [exists 2; split; reflexivity|constructor].
  - exists 100%nat, []. split; [vm_compute; reflexivity|]. intros [].
Qed.
(** A public key: a query for the points of a key at depth 2 under the prefix b misses the
    one in b/x, because the search starts after it. *)
Definition of_key : Predicate := mkPred (RField PubKeyF) Equal (PNum (be_decode key200)).
Definition depth2 : Predicate := mkPred (RField DepthF) Equal (PNum 2).
Theorem C33_pubkey_refuted : misses true [is_group; is_domain; under_b; depth2; of_key].
Proof.
  exists ex_db, ex_list, (106, net_pkt p_bk). split; [exact ex_honest|].
  split; [apply accepted_by; [constructor; [exact group_ok|constructor; [exact domain_ok|constructor; [exact b_ok|constructor; [|constructor; [|constructor]]]]]; (apply num_pred; [exact I|vm_compute; reflexivity])|vm_compute; reflexivity]|].
  split; [|split; [repeat (constructor; [discriminate|]); constructor|split; [exact (ex_at 6 p_bk eq_refl)|split]]].
  - apply (fields_possible _ 2 (be_decode ex_group) (be_decode ex_domain) (be_decode key200)); try (vm_compute; reflexivity); try (vm_compute; discriminate); allowed.
    exists [sp 98]. split; [now apply space_okb|]. split; [reflexivity|vm_compute; discriminate].
  - apply ex_matches; [now do 6 right; left|reflexivity| |apply in_tree_ex; [now do 6 right; left|discriminate]].
    constructor; [apply has_group; right; now left|]. constructor; [apply has_domain; right; now left|].
    constructor; [right; exists (wire_rooted [sp 98; sp 120]), [sp 98], [sp 120]; split; [reflexivity|]; split; [split; [now apply space_okb|left; now exists 2]|]; split; [reflexivity|vm_compute; discriminate]|].
    constructor; [exists 2; split; reflexivity|]. constructor; [exists (be_decode key200); split; reflexivity|constructor].
  - exists 100%nat, []. split; [vm_compute; reflexivity|]. intros [].
Qed.
(** A single create stamp, newest first: the branch b/x has a newer point, and the search
    gives up on it. *)
Theorem C33_create_refuted : misses false [mkPred (RField CreateF) Equal (PNum 13)].
Proof.
  exists ex_db, ex_list, (100, net_pkt p_bx). split; [exact ex_honest|].
  split; [apply accepted_by; [constructor; [apply num_pred; [exact I|vm_compute; reflexivity]|constructor]|vm_compute; reflexivity]|].
  split; [|split; [repeat (constructor; [discriminate|]); constructor|split; [exact (ex_at 0 p_bx eq_refl)|split]]].
  - apply (fields_possible _ 0 0 0 0); try (vm_compute; reflexivity); try (vm_compute; discriminate); allowed.
  - apply ex_matches; [now left|reflexivity| |apply in_tree_ex; [now left|discriminate]]. constructor; [exists 13; split; reflexivity|constructor].
  - exists 100%nat, []. split; [vm_compute; reflexivity|]. intros [].
Qed.
Definition is_bx : Predicate := mkPred (RField SpaceNameF) Equal (PSpace (wire_space [sp 98; sp 120])).
Definition in_bx : list Predicate := [is_group; is_domain; is_bx].
Definition newer : list Predicate := [mkPred (RField CreateF) Greater (PNum 11); mkPred (RField DepthF) Less (PNum 3)].
Lemma bx_space_ok : pred_ok is_bx.
Proof. split; [reflexivity|]. exists [sp 98; sp 120]. split; [now apply space_okb|]. split; [cbn; lia|reflexivity]. Qed.
(** Queries that meet the hypotheses of C32, C33 and C34. *)
Example C33_ex : honest_store toy_hash ex_db ex_list /\
  (accepted in_bx (compiled in_bx) /\ possible in_bx /\ no_pred (RLimit QBranch) in_bx /\ unskipped in_bx /\ create_wide in_bx /\
   run TTree true in_bx = [100; 104; 106] /\ run TTree false in_bx = [104; 100; 106]) /\
  (accepted newer (compiled newer) /\ possible newer /\ no_pred (RLimit QBranch) newer /\ unskipped newer /\ create_wide newer /\
   run TTree true newer = [103; 100; 104; 106] /\ run TTree false newer = [103; 104; 100; 106]).
Proof.
  split; [exact ex_honest|]. split.
  - split; [apply accepted_by; [constructor; [exact group_ok|constructor; [exact domain_ok|constructor; [exact bx_space_ok|constructor]]]|vm_compute; reflexivity]|].
    split; [|split; [repeat (constructor; [discriminate|]); constructor|split; [|split; [|split; vm_compute; reflexivity]]]].
    + apply (fields_possible _ 2 (be_decode ex_group) (be_decode ex_domain) 0); try (vm_compute; reflexivity); try (vm_compute; discriminate); allowed.
      exists [sp 98; sp 120]. split; [now apply space_okb|]. split; reflexivity.
    + right. split; [exists (be_decode ex_group); now left|]. split; [exists (be_decode ex_domain); right; now left|]. left. exists (wire_space [sp 98; sp 120]). right; right; now left.
    + exists 0, 1. split; [lia|]. split; [reflexivity|]. split; allowed.
  - split; [apply accepted_by; [constructor; [|constructor; [|constructor]]; (apply num_pred; [exact I|reflexivity])|vm_compute; reflexivity]|].
    split; [|split; [repeat (constructor; [discriminate|]); constructor|split; [|split; [|split; vm_compute; reflexivity]]]].
    + apply (fields_possible _ 2 0 0 0); try (vm_compute; reflexivity); try (vm_compute; discriminate); allowed.
    + left. split; [repeat (constructor; [discriminate|]); constructor|]. split; [repeat (constructor; [discriminate|]); constructor|]. constructor; [discriminate|]. constructor; [reflexivity|constructor].
    + exists 12, 13. split; [lia|]. split; [reflexivity|]. split; allowed; intros _; reflexivity.
Qed.
(** With a limit on branches. *)
Definition first_two : list Predicate := in_bx ++ [mkPred (RLimit QBranch) Less (PNum 1)].
Example C33_branch_ex : accepted first_two (compiled first_two) /\ possible first_two /\ unskipped first_two /\ create_wide first_two /\
  run TTree true first_two = [100; 106] /\ run TTree false first_two = [104; 106].
Proof.
  split; [apply accepted_by; [constructor; [exact group_ok|constructor; [exact domain_ok|constructor; [exact bx_space_ok|constructor; [vm_compute; reflexivity|constructor]]]]|vm_compute; reflexivity]|].
  split; [|split; [|split; [|split; vm_compute; reflexivity]]].
  + apply (fields_possible _ 2 (be_decode ex_group) (be_decode ex_domain) 0); try (vm_compute; reflexivity); try (vm_compute; discriminate); unfold first_two, in_bx; cbn [app]; allowed.
    exists [sp 98; sp 120]. split; [now apply space_okb|]. split; reflexivity.
  + right. split; [exists (be_decode ex_group); now left|]. split; [exists (be_decode ex_domain); right; now left|]. left. exists (wire_space [sp 98; sp 120]). right; right; now left.
  + exists 0, 1. split; [lia|]. split; [reflexivity|]. unfold first_two, in_bx; cbn [app]. split; allowed.
Qed.
(** The limit does not count the matching packets: the only stored packet that matches is not returned, though
    one packet of each branch is asked for. *)
Definition large_first : list Predicate := mkPred (RField SizeF) Equal (PNum 200) :: first_two.
Theorem C33_branch_count_refuted : exists d l rs e, honest_store toy_hash d l /\ accepted rs (compiled rs) /\ possible rs /\ unskipped rs /\
  In e l /\ tree_matches toy_hash rs e /\ (forall f, In f l -> tree_matches toy_hash rs f -> f = e) /\ position_ok rs QBranch 0 /\
  exists fuel, query fuel d TTree true (compiled rs) None 0 = Ok [].
Proof.
  exists ex_db, ex_list, large_first, (104, net_pkt p_bx').
  split; [exact ex_honest|]. split; [apply accepted_by; [constructor; [apply num_pred; [exact I|reflexivity]|exact (proj1 (proj1 C33_branch_ex))]|vm_compute; reflexivity]|]. split.
  { apply (fields_possible _ 2 (be_decode ex_group) (be_decode ex_domain) 0); try (vm_compute; reflexivity); try (vm_compute; discriminate); unfold large_first, first_two, in_bx; cbn [app]; allowed.
    exists [sp 98; sp 120]. split; [now apply space_okb|]. split; reflexivity. }
  split; [|split; [exact (ex_at 4 p_bx' eq_refl)|split; [|split; [|split; [unfold large_first, first_two, in_bx; cbn [app]; repeat (apply Forall_cons; [cbn; try exact I; try (intros _; reflexivity)|]); apply Forall_nil|exists 100%nat; vm_compute; reflexivity]]]]].
  - right. split; [exists (be_decode ex_group); right; now left|]. split; [exists (be_decode ex_domain); right; right; now left|]. left. exists (wire_space [sp 98; sp 120]). right; right; right; now left.
  - apply ex_matches; [right; right; right; right; now left|reflexivity| |].
    + unfold large_first, first_two, in_bx; cbn [app]. apply Forall_cons; [exists 200; split; vm_compute; reflexivity|]. apply Forall_cons; [exists (be_decode ex_group); split; reflexivity|].
      apply Forall_cons; [exists (be_decode ex_domain); split; reflexivity|]. apply Forall_cons; [|apply Forall_cons; [exact I|apply Forall_nil]].
      exists (wire_rooted [sp 98; sp 120]), [sp 98; sp 120]. split; [reflexivity|]. split; [split; [now apply space_okb|left; now exists 2]|]. split; reflexivity.
    + apply in_tree_ex; [right; right; right; right; now left|discriminate].
  - intros f IN ((nh & p & PA & F) & _). inversion F as [|r rs' SZ _ E]; subst. destruct SZ as (x & E & H). cbn [p_op holds] in H. subst x.
    destruct (number_in 100 ex_points f IN) as (q & Q & EF & LT). pose proof (at_point (fst f) q (proj1 (ex_well q Q)) ltac:(change (lenN ex_points) with 7 in LT; lia)) as PQ. rewrite <- EF in PQ.
    destruct (packet_at_inj toy_hash _ _ _ _ _ PA PQ) as [-> ->]. apply (stored_hash toy_hash ex_db ex_list (proj1 ex_honest)); [exact IN|exact (ex_at 4 p_bx' eq_refl)|]. rewrite EF. cbn [snd].
    unfold ex_points in Q. cbn [In] in Q. repeat (destruct Q as [<-|Q]; [first [exfalso; vm_compute in E; discriminate E|reflexivity]|]). destruct Q.
Qed.
Print Assumptions C33_branch_limits_partial.
Print Assumptions C33_branch_count_refuted.
Print Assumptions C34_terminates_partial.
Print Assumptions C34_one_result.
Print Assumptions C32_tree_query_sound_partial.
Print Assumptions C33_tree_query_exact_partial.
Print Assumptions C33_prefix_refuted.
Print Assumptions C33_depth_refuted.
Print Assumptions C33_pubkey_refuted.
Print Assumptions C33_create_refuted.

(** C34 is false for stores that hold a packet with eight components that declares the
    depth 255, which validation accepts (C15): every tree query without predicates runs
    forever. *)
Lemma stuck t asc k lb at_ s j : key_status k (fst at_) = Ok s -> all_in_set s = false -> jump_key k lb s = Ok (Some j) -> set_range t asc j = Some at_ ->
  forall fuel, set_pointer_at_match fuel t asc k lb at_ = OutOfFuel.
Proof. intros E1 E2 E3 E4. induction fuel as [|fuel IH]; [reflexivity|]. cbn [set_pointer_at_match]. rewrite E1. cbn [obind]. rewrite E2, E3. cbn [obind]. rewrite E4. exact IH. Qed.
Definition p_deep : point := PLink ex_group ex_domain 77 ex_links (rooted_with 255 cs8) ex_data.
Definition deep_db : db := store_all 100 [p_bx; p_deep].
Lemma p_deep_good : good_point p_deep.
Proof.
  split; [|apply bytes_okb; vm_compute; reflexivity]. split; [vm_compute; discriminate|]. split; [reflexivity|]. split; [reflexivity|]. split; [reflexivity|]. split; [repeat constructor|].
  right. exists 255, cs8. split; [now apply space_okb|]. split; [cbn; lia|]. split; [|reflexivity]. cbn. lia.
Qed.
Lemma deep_walk k lb e0 e1 s j : compile_tree_keys preds_default true = Ok k -> lower_bound k = Ok lb ->
  set_range (tree_t deep_db) true lb = Some e0 -> get_next_entry (tree_t deep_db) true e0 = None ->
  (forall fuel, set_pointer_at_match (S fuel) (tree_t deep_db) true k lb e0 = Ok (Some e0)) -> entry_ok preds_default e0 = true ->
  get_next_range (tree_t deep_db) true (fst e0) = Some e1 ->
  key_status k (fst e1) = Ok s -> all_in_set s = false -> jump_key k lb s = Ok (Some j) -> set_range (tree_t deep_db) true j = Some e1 ->
  forall fuel stale nth_, query fuel deep_db TTree true preds_default stale nth_ = OutOfFuel.
Proof.
  intros CK LB SR NE S0 E0 NR E1 E2 E3 E4 fuel stale nth_. pose proof (stuck _ true k lb e1 s j E1 E2 E3 E4) as ST.
  unfold query, query_all, query_tree, query_tree_entries. change (member_peek 32 (p_limits preds_default QBranch) 0) with (Some true). cbn iota.
  rewrite CK. cbn [obind]. rewrite LB. cbn [obind]. rewrite SR. destruct fuel as [|fuel]; [reflexivity|]. rewrite S0. cbn [obind]. cbn [walk]. rewrite E0.
  change (member_next 32 (p_limits preds_default QBranch) 0) with (Some true, 1). cbn iota. change (member_peek 32 (p_limits preds_default QBranch) 1) with (Some true). cbn iota.
  destruct fuel as [|fuel]; [reflexivity|]. cbn [walk]. unfold next_entry. rewrite NE. cbn iota. unfold next_scope. rewrite NR, ST. reflexivity.
Qed.
Theorem C34_deep_refuted : exists d l, valid_store toy_hash d l /\ accepted [] preds_default /\ possible [] /\
  forall fuel stale nth_, query fuel d TTree true preds_default stale nth_ = OutOfFuel.
Proof.
  exists deep_db, (stored_list 100 [p_bx; p_deep]). split; [|split; [|split]].
  - apply store_all_valid; [vm_compute; reflexivity|reflexivity|]. constructor; [apply ex_well; now left|]. constructor; [exact p_deep_good|constructor].
  - split; [constructor|reflexivity].
  - apply (fields_possible _ 0 0 0 0); try reflexivity; try lia; constructor.
  - eapply deep_walk; [vm_compute; reflexivity|vm_compute; reflexivity|vm_compute; reflexivity|vm_compute; reflexivity| |vm_compute; reflexivity|vm_compute; reflexivity|vm_compute; reflexivity|vm_compute; reflexivity|vm_compute; reflexivity|vm_compute; reflexivity].
    intros fuel. vm_compute. reflexivity.
Qed.
Print Assumptions C34_deep_refuted.

(** ** Findings *)
(** A depth that no space has is accepted, but aborts the process when the tree is queried. *)
Definition too_deep : list Predicate := [mkPred (RField DepthF) Greater (PNum 8)].
Theorem F53_impossible_depth_panics : accepted too_deep (compiled too_deep) /\
  forall fuel d asc stale nth_, query fuel d TTree asc (compiled too_deep) stale nth_ = Panic.
Proof.
  split; [apply accepted_by; [constructor; [apply num_pred; [exact I|reflexivity]|constructor]|vm_compute; reflexivity]|].
  intros fuel d [|] stale nth_; vm_compute; reflexivity.
Qed.
(** With a limit on branches the answer depends on what the database cursor returns after it
    failed to find a further branch: here a second packet of one branch is returned. *)
Definition one_per_branch : list Predicate := [mkPred (RLimit QBranch) Less (PNum 1)].
Definition two_db : db := store_all 100 [p_bx; p_bx'; p_a].
Theorem F48_stale_cursor : accepted one_per_branch (compiled one_per_branch) /\ exists out1 out2,
  query 100 two_db TTree false (compiled one_per_branch) None 0 = Ok out1 /\ map fst out1 = [102; 101] /\
  exists e, In e (tree_t two_db) /\ query 100 two_db TTree false (compiled one_per_branch) (Some e) 0 = Ok out2 /\ map fst out2 = [102; 101; 100].
Proof.
  split.
  - apply accepted_by; [|vm_compute; reflexivity]. constructor; [reflexivity|constructor].
  - eexists. eexists. split; [vm_compute; reflexivity|]. split; [vm_compute; reflexivity|]. exists (nth 1 (tree_t two_db) ([], [])). split; [vm_compute; tauto|]. split; [vm_compute; reflexivity|]. vm_compute. reflexivity.
Qed.
Print Assumptions F53_impossible_depth_panics.
Print Assumptions F48_stale_cursor.
