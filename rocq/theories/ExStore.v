(** Example stores used beside the theorems about queries and watches. *)
From Coq Require Import Sorting.Sorted.
From Verif Require Import ProofSpace ProofRooted ProofPkt ProofPkt2 ProofTree ProofTestSet ProofStore PropsPkt PropsStore PropsPred.
From Verif Require Import Bytes ModelSpace SpecSpace ModelPkt SpecPkt ModelTree SpecTree ModelTestSet SpecTestSet ModelStore SpecStore ModelPred SpecPred ProofPred.
From Verif Require Import ModelQuery SpecQuery.

(** A linkpoint and a keypoint of the example group and domain. *)
Definition lnk (c : N) (cs : list bytes) (d : bytes) : point := PLink ex_group ex_domain c [] (wire_rooted cs) d.
Definition kpt (c : N) (cs : list bytes) (d pk : bytes) : point := PKey ex_group ex_domain c [] (wire_rooted cs) d pk (repeat 9 64).
Definition cs_okb (cs : list bytes) : bool :=
  forallb (fun c => (1 <=? lenN c) && (lenN c <=? 200)) cs && (lenN (wire_space cs) <=? 242) && (lenN cs <=? 8).
Definition net_pkt (p : point) : NetPktParts := np_of toy_hash ex_nh p.

(** The point can be stored, and is well formed. *)
Definition good_point (p : point) : Prop := point_ok p /\ bytes_ok (packet toy_hash ex_nh p).
Definition well_point (p : point) : Prop := good_point p /\ well_formed p.
Lemma rooted_of cs : cs_okb cs = true -> rooted_ok (wire_rooted cs) /\ has_space (wire_rooted cs) cs /\ declared_depth (wire_rooted cs) = lenN cs.
Proof.
  unfold cs_okb. intros H. apply andb_prop in H as [H L]. apply N.leb_le in L. pose proof (space_okb cs H) as SK.
  assert (length cs <= 8)%nat as L8 by (unfold lenN in L; lia).
  split; [|split].
  - destruct cs as [|c cs]; [now left|right]. exists (lenN (c :: cs)), (c :: cs). split; [exact SK|]. split; [exact L8|]. split; [reflexivity|reflexivity].
  - split; [exact SK|]. destruct cs as [|c cs]; [now right|left]. now exists (lenN (c :: cs)).
  - destruct cs as [|c cs]; reflexivity.
Qed.
Lemma lnk_ok c cs d : cs_okb cs = true -> c < 2 ^ 64 -> point_size (lnk c cs d) <= 65024 -> forallb (fun x => x <? 256) (packet toy_hash ex_nh (lnk c cs d)) = true -> well_point (lnk c cs d).
Proof.
  intros C Hc S B. destruct (rooted_of cs C) as (R & HS & DD). split.
  - split; [|now apply bytes_okb]. split; [exact S|]. split; [reflexivity|]. split; [reflexivity|]. split; [exact Hc|]. split; [constructor|exact R].
  - split; [|exact I]. intros rs E. injection E as <-. exists cs. auto.
Qed.
Lemma kpt_ok c cs d pk : cs_okb cs = true -> c < 2 ^ 64 -> lenN pk = 32 -> pk <> repeat 255 32 -> point_size (kpt c cs d pk) <= 65024 ->
  forallb (fun x => x <? 256) (packet toy_hash ex_nh (kpt c cs d pk)) = true -> well_point (kpt c cs d pk).
Proof.
  intros C Hc LP NP S B. destruct (rooted_of cs C) as (R & HS & DD). split.
  - split; [|now apply bytes_okb]. split; [exact S|]. split; [reflexivity|]. split; [reflexivity|]. split; [exact Hc|]. split; [constructor|]. split; [exact R|]. split; [exact LP|reflexivity].
  - split; [|exact NP]. intros rs E. injection E as <-. exists cs. auto.
Qed.

Lemma at_point s p : good_point p -> s < 2 ^ 64 -> packet_at toy_hash (s, net_pkt p) ex_nh p.
Proof.
  intros [Hp B] S. assert (np_bytes (net_pkt p) = packet toy_hash ex_nh p) as E.
  { unfold np_bytes, net_pkt. change (np_of toy_hash ex_nh p) with (net_of toy ex_nh p). now rewrite (seg_net toy ex_nh p (proj1 Hp)). }
  split; [|split; [|exact S]]; cbn [snd].
  - rewrite E. split; [reflexivity|]. split; [reflexivity|]. split; [exact Hp|exact B].
  - split; [|split; [exact Hp|reflexivity]]. destruct p; cbn; reflexivity.
Qed.

(** Saving the points in an empty store. *)
Definition store_all (s : N) (ps : list point) : db := let '(d, _, _) := save no_faults s empty_db (map (fun p => (net_pkt p, Pending)) ps) in d.
Definition storedb (s : N) (ps : list point) : bool :=
  match save no_faults s empty_db (map (fun p => (net_pkt p, Pending)) ps) with
  | (_, _, Ok (a, b)) => (a =? s) && (b =? s + lenN ps)
  | _ => false
  end.
Definition stored_list (s : N) (ps : list point) : list stored := number s (map net_pkt ps).
Lemma number_in s ps e : In e (stored_list s ps) -> exists p, In p ps /\ e = (fst e, net_pkt p) /\ fst e < s + lenN ps.
Proof.
  unfold stored_list. revert s. induction ps as [|p ps IH]; intros s; [intros []|]. cbn [map number]. intros [<-|IN].
  - exists p. cbn [fst]. split; [now left|]. split; [reflexivity|]. rewrite lenN_cons. lia.
  - destruct (IH _ IN) as (q & Q & E & L). exists q. split; [now right|]. split; [exact E|]. rewrite lenN_cons. lia.
Qed.
Lemma store_all_represents s ps : storedb s ps = true -> represents (store_all s ps) (stored_list s ps).
Proof.
  unfold storedb, store_all. destruct (save no_faults s empty_db _) as [[d ps'] o] eqn:E. destruct o as [[a b]| | |]; try discriminate. intros H.
  apply andb_prop in H as [H1 H2]. apply N.eqb_eq in H1, H2. subst a b.
  destruct (save_ok _ _ _ _ _ _ _ _ _ empty_represents E) as (_ & _ & LN & R & _). cbn [app hashes map] in *.
  assert (snd (expected [] (map (fun p => (net_pkt p, Pending)) ps)) = map net_pkt ps) as X; [|rewrite X in R; exact R].
  assert (forall seen, lenN (snd (expected seen (map (fun p => (net_pkt p, Pending)) ps))) <= lenN ps /\ (lenN (snd (expected seen (map (fun p => (net_pkt p, Pending)) ps))) = lenN ps -> snd (expected seen (map (fun p => (net_pkt p, Pending)) ps)) = map net_pkt ps)) as A.
  { clear. induction ps as [|p ps IH]; intros seen; [split; [reflexivity|reflexivity]|]. cbn [map expected]. destruct (existsb _ seen).
    - specialize (IH seen). destruct (expected seen _) as [r new]. cbn [snd] in *. rewrite lenN_cons. split; [lia|]. intros C. lia.
    - specialize (IH (np_hash (net_pkt p) :: seen)). destruct (expected (_ :: seen) _) as [r new]. cbn [snd] in *. rewrite !lenN_cons. split; [lia|]. intros C. f_equal. apply IH. lia. }
  apply A. lia.
Qed.
Lemma store_all_valid s ps : storedb s ps = true -> s + lenN ps < 2 ^ 32 -> Forall good_point ps -> valid_store toy_hash (store_all s ps) (stored_list s ps).
Proof.
  intros S L F. split; [now apply store_all_represents|]. split.
  - unfold stored_list. assert (forall x m, lenN (number x m) = lenN m) as NL by (intros x m; revert x; induction m as [|y m IH]; intros x; [reflexivity|cbn [number]; now rewrite !lenN_cons, IH]).
    rewrite NL. unfold lenN in *. rewrite map_length. lia.
  - apply Forall_forall. intros e IN. destruct (number_in s ps e IN) as (p & P & -> & U). cbn [fst] in U. rewrite Forall_forall in F. exists ex_nh, p. apply at_point; [auto|lia].
Qed.
Lemma store_all_honest s ps : storedb s ps = true -> s + lenN ps < 2 ^ 32 -> Forall well_point ps -> honest_store toy_hash (store_all s ps) (stored_list s ps).
Proof.
  intros S L F. split; [apply store_all_valid; [exact S|exact L|eapply Forall_impl; [|exact F]; intros p H; apply H]|].
  apply Forall_forall. intros e IN. destruct (number_in s ps e IN) as (p & P & -> & U). cbn [fst] in U. rewrite Forall_forall in F. exists ex_nh, p. split; [apply at_point; [apply F, P|lia]|now apply F].
Qed.
Ltac good_link := apply lnk_ok; [vm_compute; reflexivity|reflexivity|vm_compute; discriminate|vm_compute; reflexivity].
Ltac good_key := apply kpt_ok; [vm_compute; reflexivity|reflexivity|reflexivity|vm_compute; discriminate|vm_compute; discriminate|vm_compute; reflexivity].
