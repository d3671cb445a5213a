(** C109: checking the database. *)
From Coq Require Import Sorting.Sorted Sorting.Permutation.
From Verif Require Import Bytes ModelSpace ModelPkt ModelTree ModelStore SpecSpace SpecPkt SpecTree SpecStore
  ProofTree ProofPkt ProofPkt2 ProofStore PropsPkt PropsStore ModelDbCheck SpecDbCheck.

Lemma ins_perm x l : Permutation (ins x l) (x :: l).
Proof. induction l as [|y l IH]; cbn; [reflexivity|]. destruct (fst x <=? fst y); [reflexivity|]. rewrite IH. apply perm_swap. Qed.
Lemma sort_perm l : Permutation (sort_by_key l) l.
Proof. induction l as [|x l IH]; cbn; [reflexivity|]. rewrite ins_perm. now constructor. Qed.
Definition le_key (a b : N * bytes) : Prop := fst a <= fst b.
Lemma ins_sorted x l : StronglySorted le_key l -> StronglySorted le_key (ins x l).
Proof.
  induction 1 as [|y l S IH F]; cbn; [repeat constructor|]. destruct (N.leb_spec (fst x) (fst y)) as [L|L].
  - constructor; [now constructor|]. constructor; [exact L|]. eapply Forall_impl; [|exact F]. unfold le_key. intros; lia.
  - constructor; [exact IH|]. rewrite ins_perm. constructor; [unfold le_key; lia|exact F].
Qed.
Lemma sort_sorted l : StronglySorted le_key (sort_by_key l).
Proof. induction l; cbn; [constructor|]. now apply ins_sorted. Qed.
Lemma sorted_unique : forall a b, StronglySorted le_key b -> increasing (map fst a) -> Permutation a b -> a = b.
Proof.
  induction a as [|x a IH]; intros b S I P.
  - now apply Permutation_nil in P.
  - destruct b as [|y b]; [symmetry in P; now apply Permutation_nil in P|]. inversion S as [|? ? S1 S2]; subst. inversion I as [|? ? I1 I2]; subst.
    assert (x = y) as ->.
    { assert (In x (y :: b)) as [->|Hx] by (eapply Permutation_in; [exact P|now left]); [reflexivity|].
      assert (In y (x :: a)) as [->|Hy] by (eapply Permutation_in; [symmetry; exact P|now left]); [reflexivity|]. exfalso.
      rewrite Forall_forall in S2, I2. specialize (S2 x Hx). specialize (I2 (fst y) (in_map fst _ _ Hy)). unfold le_key in S2. lia. }
    f_equal. apply IH; [assumption..|]. now apply Permutation_cons_inv in P.
Qed.
Lemma pairs_eqb_iff : forall a b, pairs_eqb a b = true <-> a = b.
Proof.
  induction a as [|[x1 x2] a IH]; intros [|[y1 y2] b]; cbn; try (split; [discriminate|discriminate]); [tauto|].
  rewrite !andb_true_iff, N.eqb_eq, beqb_eq, IH. split; [intros ((-> & ->) & ->); reflexivity|intros [= -> -> ->]; auto].
Qed.
Lemma zeros_least : forall n b, length b = n -> lex b (repeat 0 n) <> Lt.
Proof.
  induction n as [|n IH]; intros [|x b] L; try discriminate. cbn [repeat lex]. destruct (x ?= 0) eqn:E; try discriminate.
  - apply IH. now injection L.
  - now apply N.compare_lt_iff, N.nlt_0_r in E.
Qed.
Lemma keep_all h : Forall (fun e : bytes * N => lenN (fst e) = 32) h -> filter (fun e => match lex (fst e) PRIVATE with Lt => false | _ => true end) h = h.
Proof.
  induction 1 as [|e h L _ IH]; cbn [filter]; [reflexivity|]. rewrite IH. pose proof (zeros_least 32 (fst e)) as Z. unfold lenN in L.
  unfold PRIVATE. destruct (lex (fst e) (repeat 0 32)); try reflexivity. exfalso. apply Z; [lia|reflexivity].
Qed.
Lemma log_all d : local_pkt_log d 0 = log_t d.
Proof. unfold local_pkt_log. induction (log_t d) as [|e l IH]; cbn [filter]; [reflexivity|]. rewrite IH. now destruct (N.leb_spec 0 (fst e)); [|lia]. Qed.
Lemma same_key_in k e : forall t, In e (same_key k t) -> In e t /\ fst e = k.
Proof.
  induction t as [|x t IH]; cbn; [tauto|]. destruct (beqb (fst x) k) eqn:E; [|contradiction]. apply beqb_eq in E.
  intros [->|H]; [auto|]. destruct (IH H); auto.
Qed.
Lemma info_ok d : linkspace_info d = Ok tt <->
  pairs_eqb (map (fun e => (fst e, nptr_hash (snd e))) (local_pkt_log d 0))
    (sort_by_key (map (fun e => (snd e, fst e)) (filter (fun e => match lex (fst e) PRIVATE with Lt => false | _ => true end) (hash_t d)))) = true /\
  Forall (points_to_packet d) (next_entries (tree_t d)).
Proof.
  unfold linkspace_info. cbv zeta. set (lg := map _ (local_pkt_log d 0)). set (p := pairs_eqb _ _).
  assert (T : forallb (fun e => existsb (fun o => fst o =? val_logptr (snd e)) lg) (next_entries (tree_t d)) = true <-> Forall (points_to_packet d) (next_entries (tree_t d))).
  { rewrite forallb_forall, Forall_forall. unfold points_to_packet, lg. rewrite log_all. split; intros H e E.
    - apply H, existsb_exists in E as (o & O1 & O2). apply in_map_iff in O1 as ([s b] & <- & O1). cbn in O2. apply N.eqb_eq in O2 as <-. now exists b.
    - destruct (H e E) as (b & B). apply existsb_exists. eexists. split; [apply in_map, B|]. cbn. apply N.eqb_refl. }
  rewrite <- T. destruct (forallb _ _), p; cbn; split; try discriminate; auto; intros (? & ?); discriminate.
Qed.
Lemma val_logptr_of create h s nl nd : s < 2 ^ 64 -> lenN h = 32 -> val_logptr (tree_value create h s nl nd) = s.
Proof.
  intros S H. unfold val_logptr, tree_value. rewrite app_assoc. rewrite (sliceN_mid 40 48) by (rewrite ?lenN_app, ?lenN_be_encode, ?H; reflexivity). now apply be_decode_encode.
Qed.
(** The check passes on every database that holds a list of packets, as every history of saves leaves it *)
Theorem C109_passes d l : represents d l -> Forall sized l -> linkspace_info d = Ok tt.
Proof.
  intros (R1 & R2 & R3 & R4 & R5 & R6 & R7) Z. rewrite Forall_forall in Z. apply info_ok.
  assert (NH : forall s p, In (s, p) l -> nptr_hash (np_bytes p) = np_hash p).
  { intros s p I. destruct (Z _ I) as (_ & Z1 & Z2). cbn [snd] in *. unfold np_bytes, np_byte_segments, push_front, seg_bytes, nptr_hash, sliceN. cbn [concat].
    rewrite <- app_assoc, dropN_app_exact by exact Z1. now apply takeN_app_exact. }
  split.
  - apply pairs_eqb_iff. rewrite log_all, keep_all.
    + assert (E : map (fun e => (fst e, nptr_hash (snd e))) (log_t d) = map (fun e => (fst e, np_hash (snd e))) l).
      { rewrite R3, map_map. apply map_ext_in. intros [s p] I. cbn. f_equal. exact (NH s p I). }
      rewrite E. apply sorted_unique.
      * apply sort_sorted.
      * rewrite map_map. exact R1.
      * rewrite sort_perm. apply NoDup_Permutation.
        -- apply (NoDup_map_inv snd). rewrite map_map. exact R2.
        -- apply (NoDup_map_inv (fun e => (snd e, fst e))). rewrite map_map. cbn. rewrite (map_ext _ (fun e => e)), map_id by now intros [].
           clear - R4. induction R4 as [|x h S IH F]; constructor; [|exact IH]. intros I. rewrite Forall_forall in F. specialize (F x I).
           destruct hash_cmp_total as (A & _ & _). specialize (A x x). rewrite F in A. discriminate.
        -- intros [s h]. rewrite !in_map_iff. split.
           ++ intros ([s' p] & [= <- <-] & I). exists (np_hash p, s'). split; [reflexivity|]. apply R5. now exists p.
           ++ intros ([h' s'] & [= <- <-] & I). apply R5 in I as (p & I & <-). now exists (s', p).
    + apply Forall_forall. intros [h s] I. apply R5 in I as (p & I & <-). exact (proj2 (proj2 (Z _ I))).
  - apply Forall_forall. intros e I. unfold next_entries in I. destruct (tree_t d) as [|e0 t] eqn:T; [contradiction|]. apply same_key_in in I as (I & _).
    apply R7 in I as (s & p & I & E). destruct (Z _ I) as (Z0 & Z1 & Z2). cbn [fst snd] in *. unfold tree_entry in E. destruct (common_idx _) as [[[h rs] key]|]; [|discriminate].
    destruct (rs_space rs); try discriminate. cbn [obind] in E. inversion E; subst e. exists (np_bytes p). cbn [snd].
    rewrite val_logptr_of by assumption. rewrite R3. apply in_map_iff. exists (s, p). auto.
Qed.
Definition sizes (p : NetPktParts) : Prop := lenN (net_header p) = 32 /\ lenN (np_hash p) = 32.
Lemma run_sized os : Forall (fun o => Forall (fun i => sizes (fst i)) (op_items o)) os -> forall d l, represents d l -> Forall (fun e => sizes (snd e)) l ->
  exists l', represents (run_ops d os) l' /\ Forall (fun e => sizes (snd e)) l'.
Proof.
  induction 1 as [|[f now ps] os S _ IH]; intros d l R Z; cbn; [now exists l|].
  unfold run_op at 2. cbn [op_faults op_now op_items] in *. destruct (save f now d ps) as [[d' ps'] o] eqn:E.
  assert (exists l1, represents d' l1 /\ Forall (fun e => sizes (snd e)) l1) as (l1 & R1 & Z1).
  { assert (Q : d' = d -> exists l1, represents d' l1 /\ Forall (fun e => sizes (snd e)) l1) by (intros ->; now exists l).
    destruct o as [[a b]|e| |]; try (apply Q; eapply save_not_ok; [exact E|congruence]).
    eexists. split; [eapply C25_save_consistent; eassumption|]. apply Forall_app. split; [exact Z|]. apply Forall_forall. intros x X.
    apply number_ge in X as (_ & _ & X). rewrite expected_mid in X. cbn [snd] in X. apply mid_pending_in, in_map_iff in X as (y & <- & Y).
    rewrite Forall_forall in S. now apply S. }
  exact (IH d' l1 R1 Z1).
Qed.
(** The check passes after every history of saves, with any failures, as long as the stamps fit 64 bits *)
Theorem C109_history os : Forall (fun o => Forall (fun i => sizes (fst i)) (op_items o)) os ->
  Forall (fun e => fst e < 2 ^ 64) (log_t (run_ops empty_db os)) -> linkspace_info (run_ops empty_db os) = Ok tt.
Proof.
  intros S B. destruct (run_sized os S empty_db [] empty_represents (Forall_nil _)) as (l & R & Z). apply (C109_passes _ l R).
  destruct R as (_ & _ & R3 & _). rewrite R3 in B. rewrite Forall_forall in *. intros x X. destruct (Z x X). split; [|split; assumption].
  exact (B _ (in_map (fun e => (fst e, np_bytes (snd e))) _ _ X)).
Qed.
(** A database that passes has an index of hashes that agrees with its packets *)
Theorem C109_hashes d : Forall (fun e => lenN (fst e) = 32) (hash_t d) -> linkspace_info d = Ok tt -> hashes_agree d.
Proof.
  intros K I. apply info_ok in I as (I & _). apply pairs_eqb_iff in I. rewrite log_all, keep_all in I by exact K.
  intros h s. transitivity (In (s, h) (map (fun e => (snd e, fst e)) (hash_t d))).
  - rewrite in_map_iff. split; [intros H; now exists (h, s)|]. intros ([h' s'] & [= <- <-] & H). exact H.
  - transitivity (In (s, h) (map (fun e => (fst e, nptr_hash (snd e))) (log_t d))).
    + rewrite I. split; intros H; (eapply Permutation_in; [|exact H]); [symmetry|]; apply sort_perm.
    + rewrite in_map_iff. split; [intros ([s' b] & [= <- <-] & H); now exists b|]. intros (b & H & <-). now exists (s, b).
Qed.
(** Of the tree, only the entries under its first key are checked.  The claim for every entry of the tree is refuted below. *)
Theorem C109_tree_partial d e0 t e : ordered_by tree_cmp (tree_t d) -> linkspace_info d = Ok tt -> tree_t d = e0 :: t ->
  In e (tree_t d) -> fst e = fst e0 -> points_to_packet d e.
Proof.
  intros O I T H E. apply info_ok in I as (_ & I). rewrite Forall_forall in I. apply I. rewrite T in *. cbn [next_entries]. clear I T.
  assert (G : forall l, ordered_by tree_cmp l -> (forall x, In x l -> lex (fst e0) (fst x) <> Gt) -> In e l -> In e (same_key (fst e0) l)).
  { induction l as [|x l IH]; intros S L J; [contradiction|]. inversion S as [|? ? S1 S2]; subst. cbn [same_key].
    assert (X : fst x = fst e0).
    { destruct J as [->|J]; [exact E|]. rewrite Forall_forall in S2. specialize (S2 e J). specialize (L x (or_introl eq_refl)). unfold tree_cmp in S2. rewrite E in S2.
      rewrite (lex_antisym (fst e0) (fst x)) in S2. destruct (lex (fst e0) (fst x)) eqn:Q; cbn in S2; try discriminate; [|congruence]. symmetry. now apply lex_eq. }
    rewrite (proj2 (beqb_eq _ _) X). destruct J as [->|J]; [now left|]. right. apply IH; [exact S1| |exact J]. intros y Y. apply L. now right. }
  apply G; [exact O| |exact H]. intros x [->|X].
  - intros Q. pose proof (lex_antisym (fst x) (fst x)) as A. rewrite Q in A. discriminate.
  - inversion O as [|? ? _ F]; subst. rewrite Forall_forall in F. specialize (F x X). unfold tree_cmp in F. destruct (lex (fst e0) (fst x)); discriminate.
Qed.
(** A database passes although an entry of its tree points to no packet *)
Definition ex_store : db := run_ops empty_db [mkOp no_faults 1000 [(ex_b, Pending); (ex_a, Pending)]].
Definition ex_corrupt : db := mkDb (hash_t ex_store) (log_t ex_store) (tree_t ex_store ++ [(repeat 255 81, repeat 0 52)]).
Theorem C109_tree_refuted : exists d e, ordered_by tree_cmp (tree_t d) /\ linkspace_info d = Ok tt /\ In e (tree_t d) /\ ~ points_to_packet d e.
Proof.
  exists ex_corrupt, (repeat 255 81, repeat 0 52). split; [|split; [vm_compute; reflexivity|split]].
  - assert (T : tree_t ex_corrupt = [hd ([], []) (tree_t ex_store); (repeat 255 81, repeat 0 52)]) by (vm_compute; reflexivity).
    rewrite T. constructor; [repeat constructor|]. constructor; [vm_compute; reflexivity|constructor].
  - apply in_or_app. right. now left.
  - intros (b & B). assert (M : In 0 (map fst (log_t ex_corrupt))) by (apply in_map_iff; eexists; split; [|exact B]; reflexivity).
    assert (L : map fst (log_t ex_corrupt) = [1000; 1001]) by (vm_compute; reflexivity). rewrite L in M. destruct M as [M|[M|[]]]; discriminate.
Qed.
Lemma and_assoc_3 (A B C : Prop) : A /\ B /\ C <-> (A /\ B) /\ C.
Proof. tauto. Qed.
Lemma increasing_nodup l : increasing l -> NoDup l.
Proof. induction 1 as [|x l S IH F]; constructor; [|exact IH]. intros I. rewrite Forall_forall in F. specialize (F x I). lia. Qed.
Lemma agree_equal d : Forall (fun e => lenN (fst e) = 32) (hash_t d) -> increasing (map fst (log_t d)) -> NoDup (hash_t d) -> hashes_agree d ->
  pairs_eqb (map (fun e => (fst e, nptr_hash (snd e))) (local_pkt_log d 0))
    (sort_by_key (map (fun e => (snd e, fst e)) (filter (fun e => match lex (fst e) PRIVATE with Lt => false | _ => true end) (hash_t d)))) = true.
Proof.
  intros K I D A. apply pairs_eqb_iff. rewrite log_all, keep_all by exact K. apply sorted_unique.
  - apply sort_sorted.
  - rewrite map_map. exact I.
  - rewrite sort_perm. apply NoDup_Permutation.
    + apply (NoDup_map_inv fst). rewrite map_map. now apply increasing_nodup.
    + apply (NoDup_map_inv (fun e => (snd e, fst e))). rewrite map_map. cbn. rewrite (map_ext _ (fun e => e)), map_id by now intros []. exact D.
    + intros [s h]. rewrite !in_map_iff. split.
      * intros ([s' b] & [= <- <-] & X). exists (nptr_hash b, s'). split; [reflexivity|]. apply A. now exists b.
      * intros ([h' s'] & [= <- <-] & X). apply A in X as (b & X & <-). now exists (s', b).
Qed.
(** What the error says: a hash or packet without its counterpart, or an entry that points to no packet *)
Theorem C109_errors d t h : Forall (fun e => lenN (fst e) = 32) (hash_t d) -> linkspace_info d = Err (t, h) ->
  (t = true -> h = false) /\ (t = false -> exists e, In e (tree_t d) /\ ~ points_to_packet d e) /\
  (h = false -> increasing (map fst (log_t d)) -> NoDup (hash_t d) -> ~ hashes_agree d).
Proof.
  intros K E. rewrite and_assoc_3. split; [|revert E; unfold linkspace_info; cbv zeta; destruct (forallb _ _), (pairs_eqb _ _) eqn:P; cbn [andb]; try discriminate; intros [= <- <-]; try discriminate;
    intros _ I D A; rewrite (agree_equal d K I D A) in P; discriminate]. revert E. unfold linkspace_info. cbv zeta. destruct (forallb _ _) eqn:T, (pairs_eqb _ _) eqn:P; cbn [andb]; try discriminate; intros [= <- <-]; (split; [auto; discriminate|]); try discriminate.
  all: intros _; apply Bool.not_true_iff_false in T; rewrite forallb_forall in T;
    match goal with |- exists e, _ => idtac end.
  all: clear P; rewrite log_all in T;
    assert (G : existsb (fun e => negb (existsb (fun o => fst o =? val_logptr (snd e)) (map (fun e => (fst e, nptr_hash (snd e))) (log_t d)))) (next_entries (tree_t d)) = true);
    [apply Bool.not_false_iff_true; intros G; apply T; intros e E; apply Bool.not_false_iff_true; intros Q; apply Bool.not_true_iff_false in G; apply G; apply existsb_exists; exists e; now rewrite Q|].
  all: apply existsb_exists in G as (e & E & G); exists e; split;
    [unfold next_entries in E; destruct (tree_t d); [contradiction|]; now apply same_key_in in E|];
    intros (b & B); apply Bool.negb_true_iff, Bool.not_true_iff_false in G; apply G; apply existsb_exists; eexists; split; [apply in_map, B|]; cbn; apply N.eqb_refl.
Qed.
Example C109_ex : linkspace_info ex_store = Ok tt /\ Forall (fun e => lenN (fst e) = 32) (hash_t ex_store) /\
  linkspace_info (mkDb [] (log_t ex_store) (tree_t ex_store)) = Err (true, false) /\
  linkspace_info (mkDb (hash_t ex_store) (log_t ex_store) [(repeat 255 81, repeat 0 52)]) = Err (false, true) /\
  represents ex_store [(1000, ex_b); (1001, ex_a)] /\ Forall sized [(1000, ex_b); (1001, ex_a)].
Proof.
  split; [vm_compute; reflexivity|]. split; [repeat constructor; vm_compute; reflexivity|]. split; [vm_compute; reflexivity|]. split; [vm_compute; reflexivity|]. split.
  - assert (S : save no_faults 1000 empty_db [(ex_b, Pending); (ex_a, Pending)] = (ex_store, [(ex_b, Written); (ex_a, Written)], Ok (1000, 1002))) by (vm_compute; reflexivity).
    pose proof (C25_save_consistent _ _ _ _ _ _ _ _ _ empty_represents S) as X. apply X.
  - repeat constructor; vm_compute; reflexivity.
Qed.
Print Assumptions C109_passes.
Print Assumptions C109_history.
Print Assumptions C109_hashes.
Print Assumptions C109_tree_partial.
Print Assumptions C109_tree_refuted.
Print Assumptions C109_errors.
Print Assumptions C109_ex.
