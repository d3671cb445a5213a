(** Properties of the packet store: C25-C29. *)
From Coq Require Import Sorting.Sorted.
From Verif Require Import Bytes ModelSpace ModelPkt ModelTree ModelStore SpecSpace SpecPkt SpecTree SpecStore
  ProofTree ProofPkt ProofPkt2 ProofStore PropsPkt.

(** Packets used by the examples. *)
Definition ok_or {E A} (d : A) (o : outcome E A) : A := match o with Ok a => a | _ => d end.
Definition np0 : NetPktParts := mkNetParts [] [] (mkParts (mkPointHeader 0 0 0) (FUnknown [])).
Definition ex_a : NetPktParts := ok_or np0 (try_datapoint toy ex_data ex_nh).
Definition ex_b : NetPktParts := ok_or np0 (try_linkpoint toy ex_group ex_domain ex_rspace ex_links ex_data 77 ex_nh).
Definition ex_c : NetPktParts := ok_or np0 (try_linkpoint toy ex_group ex_domain ex_rspace [] ex_data 78 ex_nh).

(** C25: a successful save adds the new packets, and only those, to all three tables, with
    consecutive stamps after everything stored before. *)
Theorem C25_save_consistent f now d ps d' ps' a b l :
  represents d l -> save f now d ps = (d', ps', Ok (a, b)) ->
  represents d' (l ++ number a (snd (expected (hashes l) ps))) /\
  (snd (expected (hashes l) ps) <> [] -> Forall (fun s => s < a) (map fst l)).
Proof. intros R E. destruct (save_ok f now d ps d' ps' a b l R E) as (_ & _ & _ & A & _ & B). auto. Qed.
Lemma empty_represents : represents empty_db [].
Proof.
  split; [constructor|]. split; [constructor|]. split; [reflexivity|]. split; [constructor|]. split; [|split; [constructor|]].
  - intros h s. cbn. split; [contradiction|]. intros (p & [] & _).
  - intros e. cbn. split; [contradiction|]. intros (s & p & [] & _).
Qed.
Lemma run_represents os d l : represents d l -> exists l', represents (run_ops d os) (l ++ l').
Proof.
  revert d l. induction os as [|[f now ps] os IH]; intros d l R; cbn; [exists []; now rewrite app_nil_r|].
  unfold run_op at 2. cbn [op_faults op_now op_items]. destruct (save f now d ps) as [[d' ps'] o] eqn:E.
  assert (exists l1, represents d' (l ++ l1)) as [l1 R1].
  { destruct o as [[a b]|e| |].
    - eexists. eapply C25_save_consistent; eassumption.
    - exists []. rewrite app_nil_r. rewrite (save_not_ok _ _ _ _ _ _ _ E); [assumption|congruence].
    - exists []. rewrite app_nil_r. rewrite (save_not_ok _ _ _ _ _ _ _ E); [assumption|congruence].
    - exists []. rewrite app_nil_r. rewrite (save_not_ok _ _ _ _ _ _ _ E); [assumption|congruence]. }
  destruct (IH d' (l ++ l1) R1) as [l2 R2]. exists (l1 ++ l2). now rewrite app_assoc.
Qed.
(** Whatever the history of saves, clock readings and failures, the tables agree. *)
Theorem C25_history_consistent os : exists l, represents (run_ops empty_db os) l.
Proof. destruct (run_represents os empty_db [] empty_represents) as [l R]. now exists l. Qed.
(** What [represents] says about a stored packet, spelled out: a lookup by hash finds exactly
    the packet with that hash; link and key points have one tree entry, data points none. *)
Theorem C25_lookup_exact d l h s b : represents d l ->
  (read d h = Some (s, b) <-> exists p, In (s, p) l /\ np_hash p = h /\ b = np_bytes p).
Proof. apply read_iff. Qed.
Theorem C25_tree_entries hash d l s np p : (forall x, lenN (hash x) = 32) -> represents d l ->
  Forall (fun e => exists q, carries hash (snd e) q) l -> In (s, np) l -> carries hash np p ->
  match p with
  | PData _ | PError _ => forall e, In e (tree_t d) -> val_hash (snd e) <> np_hash np
  | PLink _ _ _ _ _ _ | PKey _ _ _ _ _ _ _ _ => exists e, tree_entry s np = Ok (Some e) /\ val_hash (snd e) = np_hash np /\
      forall e', In e' (tree_t d) /\ val_hash (snd e') = np_hash np <-> e' = e
  end.
Proof.
  intros HL R V I C. destruct R as (R1 & R2 & R3 & R4 & R5 & R6 & R7).
  assert (forall e s' np', In (s', np') l -> tree_entry s' np' = Ok (Some e) -> val_hash (snd e) = np_hash np') as VH.
  { intros [k v] s' np' J T. rewrite Forall_forall in V. destruct (V _ J) as (q & _ & _ & Q). cbn [snd] in *.
    eapply entry_some_hash; [|eassumption]. now rewrite Q. }
  assert (forall s' np', In (s', np') l -> np_hash np' = np_hash np -> (s', np') = (s, np)) as U.
  { intros s' np' J Q. clear - R2 I J Q. induction l as [|x l IH]; [contradiction|]. cbn in R2. inversion R2; subst.
    destruct I as [->|I], J as [->|J]; auto; exfalso.
    - apply H1. cbn. rewrite <- Q. now apply (in_map (fun e => np_hash (snd e)) l (s', np')).
    - apply H1. cbn. rewrite Q. now apply (in_map (fun e => np_hash (snd e)) l (s, np)). }
  assert (match tree_entry s np with Ok None => forall e, In e (tree_t d) -> val_hash (snd e) <> np_hash np
    | Ok (Some e) => val_hash (snd e) = np_hash np /\ forall e', In e' (tree_t d) /\ val_hash (snd e') = np_hash np <-> e' = e
    | _ => False end) as M.
  { destruct (entry_total np p s hash C) as [o E]. rewrite E. destruct o as [e|].
    - split; [eapply VH; eassumption|]. intros e'. split.
      + intros [J Q]. apply R7 in J as (s' & np' & J & T). assert ((s', np') = (s, np)) as [= -> ->].
        { apply U; [assumption|]. rewrite <- Q. symmetry. eapply VH; eassumption. } congruence.
      + intros ->. split; [apply R7; eauto|eapply VH; eassumption].
    - intros e J Q. apply R7 in J as (s' & np' & J & T). assert ((s', np') = (s, np)) as [= -> ->].
        { apply U; [assumption|]. rewrite <- Q. symmetry. eapply VH; eassumption. } congruence. }
  pose proof (entry_none np p s hash C) as EN.
  destruct p.
  - rewrite (proj2 EN Logic.I) in M. exact M.
  - rewrite (proj2 EN Logic.I) in M. exact M.
  - destruct (tree_entry s np) as [[e|]| | |]; try contradiction.
    + exists e. tauto.
    + exfalso. now apply EN.
  - destruct (tree_entry s np) as [[e|]| | |]; try contradiction.
    + exists e. tauto.
    + exfalso. now apply EN.
Qed.
Example C25_ex :
  (exists d' ps', save no_faults 1000 empty_db [(ex_b, Pending); (ex_a, Pending); (ex_b, Pending); (ex_c, Pending)] = (d', ps', Ok (1000, 1003)) /\
     map snd ps' = [Written; Written; Exists; Written] /\ length (log_t d') = 3%nat /\ length (tree_t d') = 2%nat) /\
  snd (expected [] [(ex_b, Pending); (ex_a, Pending); (ex_b, Pending); (ex_c, Pending)]) = [ex_b; ex_a; ex_c].
Proof. split; [|vm_compute; reflexivity]. eexists. eexists. split; [vm_compute; reflexivity|]. repeat split; vm_compute; reflexivity. Qed.
Print Assumptions C25_save_consistent.
Print Assumptions C25_history_consistent.
Print Assumptions C25_lookup_exact.
Print Assumptions C25_tree_entries.

(** C26: newness.  [lk_save] says true exactly for a packet that was not stored. *)
Theorem C26_lk_save_truthful f now d l p d' r : represents d l -> lk_save f now d p = (d', Ok r) ->
  (r = true <-> ~ In (np_hash p) (hashes l)) /\ (r = false -> d' = d) /\
  (r = true -> exists s, represents d' (l ++ [(s, p)])).
Proof.
  intros R E. unfold lk_save, save_one in E. destruct (save f now d [(p, Pending)]) as [[d1 ps1] o] eqn:S.
  destruct o as [[a b]|e| |]; cbn [obind] in E; try discriminate.
  destruct (save_ok _ _ _ _ _ _ _ _ _ R S) as (A & _ & _ & B & C & _). cbn [expected] in *.
  destruct (existsb (beqb (np_hash p)) (hashes l)) eqn:X; cbn [fst snd] in *; subst ps1; cbn [obind] in E; injection E as <- <-.
  - apply existsb_beqb in X. split; [split; [discriminate|contradiction]|]. split; [intros _; now apply C|discriminate].
  - split; [split; [intros _; rewrite <- existsb_beqb; congruence|reflexivity]|]. split; [discriminate|]. intros _. exists a. exact B.
Qed.
(** Saving stored packets again changes nothing at all. *)
Theorem C26_idempotent f now d l ps d' ps' r : represents d l -> save f now d ps = (d', ps', Ok r) ->
  Forall (fun i => In (np_hash (fst i)) (hashes l)) ps ->
  d' = d /\ fst r = snd r /\ map fst ps' = map fst ps /\ Forall (fun i => snd i <> Pending) ps'.
Proof.
  intros R E F. destruct r as [a b]. destruct (save_ok _ _ _ _ _ _ _ _ _ R E) as (A & _ & B & _ & C & _).
  assert (forall seen, (forall k, In k (hashes l) -> In k seen) -> snd (expected seen ps) = [] /\
     map fst (fst (expected seen ps)) = map fst ps /\ Forall (fun i => snd i <> Pending) (fst (expected seen ps))) as G.
  { clear - F. induction F as [|[p st] ps I F IH]; intros seen S; [cbn; auto|]. cbn [expected]. cbn [fst] in I.
    destruct st; [destruct (existsb (beqb (np_hash p)) seen) eqn:X| | |].
    2: apply S in I; rewrite <- existsb_beqb in I; congruence.
    all: destruct (expected seen ps) as [r' new] eqn:Q; destruct (IH seen S) as (G1 & G2 & G3); rewrite Q in *; cbn [fst snd map] in *;
      split; [assumption|split; [now f_equal|constructor; [cbn; congruence|assumption]]]. }
  destruct (G (hashes l) (fun k K => K)) as (G1 & G2 & G3). rewrite G1 in *. change (lenN (@nil NetPktParts)) with 0 in B. subst ps'.
  split; [now apply C|]. split; [cbn; lia|]. auto.
Qed.
(** The count is the number of distinct new hashes and the range is the stamps given to them. *)
Theorem C26_count f now d l ps d' a b : represents d l -> lk_save_all_ext f now d ps = (d', Ok (a, b)) ->
  exists new, (forall h, In h (map np_hash new) <-> In h (map np_hash ps) /\ ~ In h (hashes l)) /\
    NoDup (map np_hash new) /\ incl new ps /\ b - a = lenN new /\ a <= b /\ represents d' (l ++ number a new) /\
    map fst (number a new) = map (fun i => a + N.of_nat i) (seq 0 (N.to_nat (b - a))) /\
    lk_save_all f now d ps = (d', Ok (lenN new)).
Proof.
  intros R E. pose proof E as E'. unfold lk_save_all_ext in E. destruct (save f now d _) as [[d1 ps1] o] eqn:S. injection E as <- ->.
  destruct (save_ok _ _ _ _ _ _ _ _ _ R S) as (_ & _ & B & C & _). pose proof (represents_knows d l R) as [_ ND].
  exists (snd (expected (hashes l) (map (fun p => (p, Pending)) ps))). rewrite expected_mid in *. cbn [fst snd] in *.
  set (new := pending (mid (hashes l) (map (fun p => (p, Pending)) ps))) in *.
  assert (forall seen h, In h (map np_hash (pending (mid seen (map (fun p => (p, Pending)) ps)))) <-> In h (map np_hash ps) /\ ~ In h seen) as H.
  { clear. induction ps as [|p ps IH]; intros seen h; [cbn; tauto|]. cbn [map mid]. destruct (existsb (beqb (np_hash p)) seen) eqn:X.
    - apply existsb_beqb in X. cbn [pending]. rewrite IH. cbn [In]. split; [tauto|]. intros [[<-|]]; [contradiction|tauto].
    - assert (~ In (np_hash p) seen) as Y by (rewrite <- existsb_beqb; congruence). cbn [pending map In]. rewrite IH. cbn [In].
      destruct (list_eq_dec N.eq_dec (np_hash p) h) as [<-|NE]; [split; tauto|]. split; [intros [Q|[Q1 Q2]]; [contradiction|]; split; [tauto|tauto]|]. intros [[Q|Q] Q2]; [contradiction|]. right. split; [assumption|]. intros [|]; contradiction. }
  split; [intros h; apply H|]. split; [now apply mid_fresh|]. split.
  { intros p I. apply mid_pending_in in I. rewrite map_map in I. cbn in I. now rewrite map_id in I. }
  split; [lia|]. split; [lia|]. split; [assumption|]. split.
  { rewrite number_fst. do 2 f_equal. unfold lenN in *. lia. }
  unfold lk_save_all. rewrite E'. cbn [obind fst snd]. do 2 f_equal. lia.
Qed.
Example C26_ex : exists d', lk_save no_faults 5 empty_db ex_b = (d', Ok true) /\ lk_save no_faults 9 d' ex_b = (d', Ok false) /\
  lk_save_all no_faults 9 d' [ex_b; ex_a; ex_a] = (fst (lk_save no_faults 9 d' ex_a), Ok 1).
Proof. eexists. split; [vm_compute; reflexivity|]. split; vm_compute; reflexivity. Qed.
Print Assumptions C26_lk_save_truthful.
Print Assumptions C26_idempotent.
Print Assumptions C26_count.

(** C27: whichever write fails (or is the last one before the process dies), the tables are
    either those before the call or those with all the new packets, and the latter only when
    the call succeeds. *)
Theorem C27_atomic f now d ps d' ps' o l : represents d l -> save f now d ps = (d', ps', o) ->
  match o with
  | Ok (a, b) => represents d' (l ++ number a (snd (expected (hashes l) ps)))
  | _ => d' = d
  end.
Proof.
  intros R E. destruct o as [[a b]|e| |].
  - eapply C25_save_consistent; eassumption.
  - eapply save_not_ok; [eassumption|congruence].
  - eapply save_not_ok; [eassumption|congruence].
  - eapply save_not_ok; [eassumption|congruence].
Qed.
(** The per-packet states are not rolled back: after a failed commit a packet can be marked
    as written although nothing was stored. *)
Theorem F44_states_after_failure : exists f ps', save f 5 empty_db [(ex_b, Pending)] = (empty_db, ps', Err EIo) /\ map snd ps' = [Written].
Proof. exists (mkFaults (fun _ => false) (fun _ => false) (fun _ => false) true). eexists. split; vm_compute; reflexivity. Qed.
Example C27_ex : exists d' ps', save no_faults 5 empty_db [(ex_b, Pending); (ex_a, Pending)] = (d', ps', Ok (5, 7)) /\
  save (mkFaults (fun _ => false) (Nat.eqb 1) (fun _ => false) false) 5 empty_db [(ex_b, Pending); (ex_a, Pending)] =
    (empty_db, [(ex_b, Pending); (ex_a, Pending)], Err EIo).
Proof. eexists. eexists. split; vm_compute; reflexivity. Qed.
Print Assumptions C27_atomic.
Print Assumptions F44_states_after_failure.

(** C28: a stored packet can be read by its hash, with the same bytes and stamp, after any
    further history. *)
Theorem C28_never_lost d l os h s b : represents d l -> read d h = Some (s, b) -> read (run_ops d os) h = Some (s, b).
Proof.
  intros R E. apply (read_iff d l) in E as (p & I & H & ->); [|assumption]. destruct (run_represents os d l R) as [l' R'].
  apply (read_iff _ _ h s _ R'). exists p. split; [apply in_or_app; auto|auto].
Qed.
(** ... and every packet of a successful save is stored, with the bytes [lk_write] gives. *)
Theorem C28_saved_is_readable f now d l ps d' ps' r os i : represents d l -> save f now d ps = (d', ps', Ok r) ->
  In i ps -> snd i = Pending -> exists s b, read (run_ops d' os) (np_hash (fst i)) = Some (s, b) /\
    (In (np_hash (fst i)) (hashes l) \/ exists p, In (p, Pending) ps /\ np_hash p = np_hash (fst i) /\ lk_write p true = Ok b).
Proof.
  intros R E I P. destruct r as [a b]. destruct (save_ok _ _ _ _ _ _ _ _ _ R E) as (_ & _ & _ & R' & _).
  assert (forall seen, In (np_hash (fst i)) seen \/ exists p, In p (snd (expected seen ps)) /\ In (p, Pending) ps /\ np_hash p = np_hash (fst i)) as G.
  { clear - I P. induction ps as [|[p st] ps IH]; intros seen; [contradiction|]. cbn [expected].
    assert (forall seen', (In (np_hash (fst i)) seen' -> In (np_hash (fst i)) seen \/ np_hash (fst i) = np_hash p) -> In i ps ->
       (In (np_hash (fst i)) seen \/ np_hash (fst i) = np_hash p) \/ exists q, In q (snd (expected seen' ps)) /\ In (q, Pending) ((p, st) :: ps) /\ np_hash q = np_hash (fst i)) as K.
    { intros seen' S J. destruct (IH J seen') as [Q|(q & Q1 & Q2 & Q3)]; [left; auto|]. right. exists q. split; [assumption|]. split; [now right|assumption]. }
    destruct (existsb (beqb (np_hash p)) seen) eqn:X.
    - apply existsb_beqb in X. destruct I as [<-|I]; [now left|].
      destruct (K seen ltac:(auto) I) as [[Q|Q]|(q & Q1 & Q2)]; [now left|left; congruence|].
      right. exists q. split; [|assumption]. destruct st; destruct (expected seen ps); exact Q1.
    - destruct st.
      + destruct I as [<-|I].
        * right. exists p. destruct (expected (np_hash p :: seen) ps). cbn. auto.
        * destruct (K (np_hash p :: seen)) as [[Q|Q]|(q & Q1 & Q2)]; [intros [Y|Y]; auto|assumption|now left| |].
          -- right. exists p. destruct (expected (np_hash p :: seen) ps). cbn. auto.
          -- right. exists q. split; [|assumption]. destruct (expected (np_hash p :: seen) ps). cbn. auto.
      + destruct I as [<-|I]; [discriminate P|]. destruct (IH I seen) as [Q|(q & Q1 & Q2 & Q3)]; [now left|].
        right. exists q. destruct (expected seen ps). cbn. auto.
      + destruct I as [<-|I]; [discriminate P|]. destruct (IH I seen) as [Q|(q & Q1 & Q2 & Q3)]; [now left|].
        right. exists q. destruct (expected seen ps). cbn. auto.
      + destruct I as [<-|I]; [discriminate P|]. destruct (IH I seen) as [Q|(q & Q1 & Q2 & Q3)]; [now left|].
        right. exists q. destruct (expected seen ps). cbn. auto. }
  destruct (G (hashes l)) as [Q|(p & Q1 & Q2 & Q3)].
  - unfold hashes in Q. apply in_map_iff in Q as ([s q] & H & J). cbn in H. exists s, (np_bytes q). split.
    + apply (C28_never_lost d' _ os _ _ _ R'). apply (read_iff _ _ _ _ _ R'). exists q. split; [apply in_or_app; auto|auto].
    + left. unfold hashes. apply in_map_iff. exists (s, q). auto.
  - assert (In p (map snd (number a (snd (expected (hashes l) ps))))) as J by now rewrite number_snd.
    apply in_map_iff in J as ([s q] & <- & J). cbn [snd] in *. exists s, (np_bytes q). split.
    + apply (C28_never_lost d' _ os _ _ _ R'). apply (read_iff _ _ _ _ _ R'). exists q. split; [apply in_or_app; auto|auto].
    + right. exists q. auto.
Qed.
Example C28_ex : exists d' ps', save no_faults 5 empty_db [(ex_b, Pending); (ex_a, Pending)] = (d', ps', Ok (5, 7)) /\
  read (run_ops d' [mkOp no_faults 6 [(ex_c, Pending); (ex_a, Pending)]; mkOp no_faults 3 [(ex_b, Pending)]]) (np_hash ex_a) = Some (6, np_bytes ex_a).
Proof. eexists. eexists. split; vm_compute; reflexivity. Qed.
Print Assumptions C28_never_lost.
Print Assumptions C28_saved_is_readable.

(** C29: without write failures a save of valid packets succeeds, unless the clock reads
    exactly the stamp of the last stored packet.  The full claim is refuted below. *)
Theorem C29_save_succeeds_partial hash now d l ps : represents d l -> items_valid hash ps -> log_last (log_t d) <> Some now ->
  exists d' ps' r, save no_faults now d ps = (d', ps', Ok r).
Proof. apply save_total. Qed.
(** With that clock reading it fails exactly when there is something new to store. *)
Theorem C29_same_stamp_refuted : exists d ps', (exists ps, save no_faults 5 empty_db [(ex_a, Pending)] = (d, ps, Ok (5, 6))) /\
  save no_faults 5 d [(ex_b, Pending)] = (d, ps', Err EKeyExist) /\
  items_valid toy_hash [(ex_b, Pending)].
Proof.
  eexists. eexists. split; [eexists; vm_compute; reflexivity|]. split; [vm_compute; reflexivity|].
  constructor; [|constructor]. exists (PLink ex_group ex_domain 77 ex_links ex_rspace ex_data). split; [vm_compute; reflexivity|].
  split; [|vm_compute; reflexivity]. split; [now vm_compute|]. split; [reflexivity|]. split; [reflexivity|]. split; [reflexivity|]. split; [repeat constructor|].
  right. exists 2, [[104;105];[121;111]]. split; [|split; [cbn; lia|split; [reflexivity|reflexivity]]]. now apply space_okb.
Qed.
Example C29_ex : exists d ps, save no_faults 5 empty_db [(ex_a, Pending)] = (d, ps, Ok (5, 6)) /\ log_last (log_t d) = Some 5 /\
  (exists d' ps', save no_faults 3 d [(ex_b, Pending); (ex_c, Pending)] = (d', ps', Ok (6, 8))).
Proof. eexists. eexists. split; [vm_compute; reflexivity|]. split; [reflexivity|]. eexists. eexists. vm_compute. reflexivity. Qed.
Print Assumptions C29_save_succeeds_partial.
Print Assumptions C29_same_stamp_refuted.

(** C63: a save announces the stamp of the newest packet if it stored any, and nothing
    otherwise. *)
Theorem C63_announces_newest f now d l ps d' ps' r : represents d l -> save f now d ps = (d', ps', Ok r) ->
  exists l', represents d' (l ++ l') /\
  match save_emit r with
  | Some n => (exists p, In (n, p) l') /\ Forall (fun e => fst e <= n) (l ++ l')
  | None => l' = [] /\ d' = d
  end.
Proof.
  destruct r as [a b]. intros R E. destruct (save_ok _ _ _ _ _ _ _ _ _ R E) as (_ & _ & B & R' & S1 & S2). set (x := snd (expected (hashes l) ps)) in *. exists (number a x). split; [exact R'|].
  unfold save_emit. cbn [fst snd]. subst b. assert (x = [] \/ x <> []) as [Z|Z] by (destruct x; [now left|right; discriminate]).
  - rewrite Z in *. change (lenN (@nil NetPktParts)) with 0. rewrite N.add_0_r, N.ltb_irrefl. split; [reflexivity|exact (S1 eq_refl)].
  - assert (0 < lenN x) as P by (destruct x; [congruence|unfold lenN; cbn [length]; lia]). destruct (N.ltb_spec a (a + lenN x)); [|lia]. split.
    + assert (In (a + lenN x - 1) (map fst (number a x))) as I.
      { rewrite number_fst. apply in_map_iff. exists (length x - 1)%nat. split; [unfold lenN in *; lia|]. apply in_seq. unfold lenN in P. lia. }
      apply in_map_iff in I as ([s p] & E1 & I). cbn [fst] in E1. subst s. eauto.
    + apply Forall_app. split.
      * specialize (S2 Z). rewrite Forall_forall in *. intros e I. specialize (S2 _ (in_map fst _ _ I)). lia.
      * apply Forall_forall. intros e I. apply number_ge in I. lia.
Qed.
Example C63_ex : exists d' ps' d'' ps'', save no_faults 5 empty_db [(ex_b, Pending); (ex_a, Pending)] = (d', ps', Ok (5, 7)) /\ save_emit (5, 7) = Some 6 /\
  save no_faults 9 d' [(ex_a, Pending)] = (d'', ps'', Ok (9, 9)) /\ save_emit (9, 9) = None.
Proof. do 4 eexists. split; [vm_compute; reflexivity|]. split; [reflexivity|]. split; [vm_compute; reflexivity|reflexivity]. Qed.
Print Assumptions C63_announces_newest.
