(** C32-C34 for packets that declare a wrong depth: a point in a space of eight components
    may declare any depth. *)
From Coq Require Import Sorting.Sorted.
From Verif Require Import ProofSpace ProofRooted ProofPkt ProofPkt2 ProofTree ProofTestSet ProofStore PropsPkt PropsStore PropsPred.
From Verif Require Import Bytes ModelSpace SpecSpace ModelPkt SpecPkt ModelTree SpecTree ModelTestSet SpecTestSet ModelStore SpecStore ModelPred SpecPred ProofPred ProofPred2.
From Verif Require Import ModelQuery SpecQuery ProofQuery ProofWalk ProofQuery2 ProofQuery3 ProofQuery4 ExStore PropsQuery ProofSound.

(** C32: whatever depths the stored packets declare, a packet that a tree query returns is
    stored, in the tree, and matches.  Missing: the order of the results, and queries with
    [spacename] over packets that declare a wrong depth, for which it is false. *)
Theorem C32_returned_partial hash d l rs P asc fuel nth_ out : hash32 hash -> valid_store hash d l -> accepted rs P -> possible rs -> spaces_clear hash l rs ->
  query fuel d TTree asc P None nth_ = Ok out ->
  forall a, In a out -> exists e, In e l /\ a = answer e /\ tree_matches hash rs e.
Proof.
  intros HL VS [OK AD] PS SC Q a IA. destruct (preds_effect hash HL rs P OK AD) as (cs & IV & ME & CN & CSN).
  assert (ME' : forall f u, num_kind f -> f <> PktTypeF -> u < 2 ^ field_width f -> (member (p_sets P f) u = true <-> Forall (fun r => allows r f u) rs)).
  { intros f u K N U. rewrite (ME f u K U), !Forall_forall. apply forall_iff. intros r. apply forall_iff. intros _. unfold typed. destruct (p_kind r); intuition congruence. }
  unfold query, query_all in Q. destruct (query_tree fuel d asc P None) as [r| | |] eqn:QT; try discriminate. cbn [obind] in Q. apply ok_inj in Q. subst out.
  apply zip_incl in IA. exact (returned hash HL d l VS rs P cs IV SC asc ME' PS fuel r QT a IA).
Qed.

(** ** Points of depth eight that declare the depth [n] *)
Definition c8 : list bytes := [[1];[2];[3];[4];[5];[6];[7];[8]].
Definition p_lie (n : N) : point := PLink ex_group ex_domain 7 [] (rooted_with n c8) [1].
Lemma lie_good n : forallb (fun x => x <? 256) (packet toy_hash ex_nh (p_lie n)) = true -> good_point (p_lie n).
Proof.
  intros B. split; [|now apply bytes_okb].
  split; [vm_compute; discriminate|]. split; [reflexivity|]. split; [reflexivity|]. split; [reflexivity|]. split; [constructor|].
  right. exists n, c8. split; [now apply space_okb|]. split; [cbn; lia|]. split; [cbn; lia|reflexivity].
Qed.
Lemma root_good : good_point p_root.
Proof. apply ex_well. right. right. now left. Qed.
Definition lie_points (n : N) : list point := [p_root; p_lie n].
Definition lie_db (n : N) : db := store_all 100 (lie_points n).
Definition lie_list (n : N) : list stored := stored_list 100 (lie_points n).
Lemma lie_valid n : forallb (fun x => x <? 256) (packet toy_hash ex_nh (p_lie n)) = true -> storedb 100 (lie_points n) = true -> valid_store toy_hash (lie_db n) (lie_list n).
Proof.
  intros B S. apply store_all_valid; [exact S|vm_compute; reflexivity|]. constructor; [exact root_good|]. constructor; [exact (lie_good n B)|constructor].
Qed.
Definition in_place : list Predicate := [is_group; is_domain].
Lemma in_place_accepted : accepted in_place (compiled in_place).
Proof. apply accepted_by; [constructor; [exact group_ok|constructor; [exact domain_ok|constructor]]|vm_compute; reflexivity]. Qed.
Lemma in_place_possible : possible in_place.
Proof. apply (fields_possible _ 1 (be_decode ex_group) (be_decode ex_domain) 0); try (vm_compute; reflexivity); try (vm_compute; discriminate); allowed. Qed.
Lemma in_place_matches s c rs d : good_point (PLink ex_group ex_domain c [] rs d) -> s < 2 ^ 64 ->
  tree_matches toy_hash in_place (s, net_pkt (PLink ex_group ex_domain c [] rs d)).
Proof.
  intros G S. pose proof (at_point s _ G S) as PA. split.
  - eexists. eexists. split; [exact PA|]. constructor; [|constructor; [|constructor]].
    + exists (be_decode ex_group). split; reflexivity.
    + exists (be_decode ex_domain). split; reflexivity.
  - assert (exists ix, index_of toy_hash (PLink ex_group ex_domain c [] rs d) ix) as [ix IX] by (apply index_exists; [apply G|discriminate]).
    exists ix. eexists. eexists. split; [exact PA|exact IX].
Qed.
Lemma lie_in n : In (101, net_pkt (p_lie n)) (lie_list n). Proof. right. now left. Qed.
Lemma root_in n : In (100, net_pkt p_root) (lie_list n). Proof. now left. Qed.

(** C33 fails: a packet that declares a depth from 9 to 254 is in no result, here for the
    query by its group and domain. *)
Theorem C33_depth_byte_refuted : exists d l rs e, valid_store toy_hash d l /\ accepted rs (compiled rs) /\ possible rs /\ unskipped rs /\
  no_pred (RLimit QBranch) rs /\ spaces_clear toy_hash l rs /\ In e l /\ tree_matches toy_hash rs e /\
  exists fuel out, query fuel d TTree true (compiled rs) None 0 = Ok out /\ ~ In (answer e) out.
Proof.
  exists (lie_db 9), (lie_list 9), in_place, (101, net_pkt (p_lie 9)). split; [apply lie_valid; vm_compute; reflexivity|].
  split; [exact in_place_accepted|]. split; [exact in_place_possible|]. split; [left|].
  { split; [|split]; repeat (constructor; [discriminate|]); constructor. }
  split; [repeat (constructor; [discriminate|]); constructor|]. split; [left; repeat (constructor; [discriminate|]); constructor|]. split; [apply lie_in|].
  split; [apply in_place_matches; [apply lie_good; vm_compute; reflexivity|reflexivity]|].
  exists 100%nat. eexists. split; [vm_compute; reflexivity|]. intros [H|[]]. apply (f_equal fst) in H. vm_compute in H. discriminate.
Qed.

(** C32 fails for [spacename]: a packet in a space of eight components that declares the
    depth 2 is returned for the space of its first two components. *)
Definition in_two : list Predicate := [is_group; is_domain; mkPred (RField SpaceNameF) Equal (PSpace (wire_space [[1];[2]]))].
Theorem C32_spacename_refuted : exists d l rs e, valid_store toy_hash d l /\ accepted rs (compiled rs) /\ possible rs /\ In e l /\ ~ matches toy_hash rs e /\
  exists fuel out, query fuel d TTree true (compiled rs) None 0 = Ok out /\ In (answer e) out.
Proof.
  exists (lie_db 2), (lie_list 2), in_two, (101, net_pkt (p_lie 2)). split; [apply lie_valid; vm_compute; reflexivity|].
  split; [apply accepted_by; [constructor; [exact group_ok|constructor; [exact domain_ok|constructor; [|constructor]]]|vm_compute; reflexivity]|].
  { split; [reflexivity|]. exists [[1];[2]]. split; [now apply space_okb|]. split; [cbn; lia|reflexivity]. }
  split.
  { apply (fields_possible _ 2 (be_decode ex_group) (be_decode ex_domain) 0); try (vm_compute; reflexivity); try (vm_compute; discriminate); allowed.
    exists [[1];[2]]. split; [now apply space_okb|]. split; reflexivity. }
  split; [apply lie_in|]. split.
  - intros (nh & p & PA & F). assert (packet_at toy_hash (101, net_pkt (p_lie 2)) ex_nh (p_lie 2)) as PA' by (apply at_point; [apply lie_good; vm_compute; reflexivity|reflexivity]).
    destruct (packet_at_inj toy_hash _ _ _ _ _ PA PA') as [-> ->]. apply Forall_inv_tail, Forall_inv_tail, Forall_inv in F.
    destruct F as (rs & cs & E & HS & W & D). injection E as <-.
    assert (has_space (rooted_with 2 c8) c8) as HS' by (split; [now apply space_okb|left; now exists 2]).
    rewrite (has_space_inj _ _ _ HS HS') in W. vm_compute in W. discriminate.
  - exists 100%nat. eexists. split; [vm_compute; reflexivity|]. left. vm_compute. reflexivity.
Qed.

(** C34 fails: over a store with a packet that declares the depth 255, the tree query by its
    group and domain, in either order, finds no end.  The cursor jumps to the place where it
    already is. *)
Lemma pointer_loop t asc k lb e s j : key_status k (fst e) = Ok s -> all_in_set s = false -> jump_key k lb s = Ok (Some j) -> set_range t asc j = Some e ->
  forall fuel, set_pointer_at_match fuel t asc k lb e = OutOfFuel.
Proof.
  intros KS AS JK SR. induction fuel as [|fuel IH]; [reflexivity|]. cbn [set_pointer_at_match]. rewrite KS. cbn [obind]. rewrite AS, JK. cbn [obind]. rewrite SR. exact IH.
Qed.
(** The first entry is at the start of the search and matches; the next has a loop. *)
Lemma walk_loop t asc p k lb stale a e y' z : compile_tree_keys p asc = Ok k -> lower_bound k = Ok lb -> member_peek 32 (p_limits p QBranch) 0 <> None ->
  set_range t asc lb = Some a -> (forall fuel, set_pointer_at_match (S fuel) t asc k lb a = Ok (Some a)) ->
  entry_ok p a = true -> member_next 32 (p_limits p QBranch) 0 = (Some true, y') -> member_peek 32 (p_limits p QBranch) y' = Some z ->
  get_next_entry t asc a = None -> get_next_range t asc (fst a) = Some e -> (forall fuel, set_pointer_at_match fuel t asc k lb e = OutOfFuel) ->
  forall fuel, query_tree_entries fuel t asc p stale = OutOfFuel.
Proof.
  intros CK LB MP SR SP EK MN MK NE NR LO fuel. unfold query_tree_entries. destruct (member_peek 32 (p_limits p QBranch) 0) as [v|]; [|congruence].
  rewrite CK. cbn [obind]. rewrite LB. cbn [obind]. rewrite SR. destruct fuel as [|f]; [reflexivity|]. rewrite SP. cbn [obind]. cbn [walk]. rewrite EK, MN, MK.
  destruct f as [|g]; [reflexivity|]. cbn [walk]. unfold next_entry. rewrite NE. unfold next_scope. rewrite NR, LO. reflexivity.
Qed.
Definition lie_keys (asc : bool) : TreeKeys := match compile_tree_keys (compiled in_place) asc with Ok k => k | _ => mkTreeKeys (set_default 8) (set_default 8) [] 0 (set_default 8) (mkRange 0 0) end.
Definition lie_low (asc : bool) : bytes := match lower_bound (lie_keys asc) with Ok b => b | _ => [] end.
Definition lie_entry (i : nat) : entry := nth i (tree_t (lie_db 255)) ([], []).
Definition lie_status (asc : bool) : KeyStatus := match key_status (lie_keys asc) (fst (lie_entry 1)) with Ok s => s | _ => mkStatus (mkInfo true None) (mkInfo true None) (mkInfo true None) (mkInfo true None) true [] end.
Definition lie_jump (asc : bool) : bytes := match jump_key (lie_keys asc) (lie_low asc) (lie_status asc) with Ok (Some j) => j | _ => [] end.
Lemma lie_loops asc stale fuel : query_tree_entries fuel (tree_t (lie_db 255)) asc (compiled in_place) stale = OutOfFuel.
Proof.
  apply (walk_loop (tree_t (lie_db 255)) asc (compiled in_place) (lie_keys asc) (lie_low asc) stale (lie_entry 0) (lie_entry 1) 1 true).
  - destruct asc; vm_compute; reflexivity.
  - destruct asc; vm_compute; reflexivity.
  - vm_compute. discriminate.
  - destruct asc; vm_compute; reflexivity.
  - intros f. destruct asc; vm_compute; reflexivity.
  - vm_compute. reflexivity.
  - vm_compute. reflexivity.
  - vm_compute. reflexivity.
  - destruct asc; vm_compute; reflexivity.
  - destruct asc; vm_compute; reflexivity.
  - apply (pointer_loop _ _ _ _ _ (lie_status asc) (lie_jump asc)); destruct asc; vm_compute; reflexivity.
Qed.
Theorem C34_depth_byte_refuted : exists d l rs e e', valid_store toy_hash d l /\ accepted rs (compiled rs) /\ possible rs /\ unskipped rs /\
  spaces_clear toy_hash l rs /\ In e l /\ tree_matches toy_hash rs e /\ In e' l /\ tree_matches toy_hash rs e' /\
  forall fuel asc stale nth_, query fuel d TTree asc (compiled rs) stale nth_ = OutOfFuel.
Proof.
  exists (lie_db 255), (lie_list 255), in_place, (100, net_pkt p_root), (101, net_pkt (p_lie 255)). split; [apply lie_valid; vm_compute; reflexivity|].
  split; [exact in_place_accepted|]. split; [exact in_place_possible|]. split; [left; split; [|split]; repeat (constructor; [discriminate|]); constructor|].
  split; [left; repeat (constructor; [discriminate|]); constructor|]. split; [apply root_in|]. split; [apply in_place_matches; [exact root_good|reflexivity]|].
  split; [apply lie_in|]. split; [apply in_place_matches; [apply lie_good; vm_compute; reflexivity|reflexivity]|].
  intros fuel asc stale nth_. unfold query, query_all, query_tree. rewrite lie_loops. reflexivity.
Qed.

(** The hypotheses of [C32_returned_partial] are met by a store with a packet that declares the
    depth 5 in a space of eight components; it is returned at the place of that depth. *)
Example C32_returned_ex : valid_store toy_hash (lie_db 5) (lie_list 5) /\ ~ honest_store toy_hash (lie_db 5) (lie_list 5) /\
  accepted in_place (compiled in_place) /\ possible in_place /\ spaces_clear toy_hash (lie_list 5) in_place /\
  exists out, query 100 (lie_db 5) TTree true (compiled in_place) None 0 = Ok out /\ map fst out = [100; 101].
Proof.
  split; [apply lie_valid; vm_compute; reflexivity|]. split.
  { intros [_ F]. rewrite Forall_forall in F. destruct (F _ (lie_in 5)) as (nh & p & PA & DH & _).
    assert (packet_at toy_hash (101, net_pkt (p_lie 5)) ex_nh (p_lie 5)) as PA' by (apply at_point; [apply lie_good; vm_compute; reflexivity|reflexivity]).
    destruct (packet_at_inj toy_hash _ _ _ _ _ PA PA') as [-> ->]. destruct (DH _ eq_refl) as (cs & HS & D).
    assert (has_space (rooted_with 5 c8) c8) as HS' by (split; [now apply space_okb|left; now exists 5]).
    rewrite (has_space_inj _ _ _ HS HS') in D. vm_compute in D. discriminate. }
  split; [exact in_place_accepted|]. split; [exact in_place_possible|]. split; [left; repeat (constructor; [discriminate|]); constructor|].
  eexists. split; vm_compute; reflexivity.
Qed.
Print Assumptions C32_returned_partial.
Print Assumptions C32_spacename_refuted.
Print Assumptions C33_depth_byte_refuted.
Print Assumptions C34_depth_byte_refuted.
