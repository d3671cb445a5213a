(** Properties of packet predicates: C60. *)
From Coq Require Import Sorting.Permutation.
From Verif Require Import ProofSpace ProofRooted ProofTree ProofTestSet PropsPkt.
From Verif Require Import Bytes ModelSpace SpecSpace ModelPkt SpecPkt ModelTestSet SpecTestSet ModelPred SpecPred ProofPred.

Definition hash32 (hash : bytes -> bytes) : Prop := forall x, lenN (hash x) = 32.
(** The packet [b], received at [recv], passes the tests compiled for a query and its receive bound. *)
Definition passes (P : PktPredicates) (b : bytes) (recv : N) : Prop :=
  exists np, view b = Ok np /\ run_tests (compile_predicates P) np = true /\ bound_test (p_recv P) recv = true.

Lemma passes_acc hash P cs ps b nh p recv : hash32 hash -> Inv hash P cs ps -> packet_of hash b nh p -> recv < 2 ^ 64 ->
  (passes P b recv <-> acc hash P recv nh p /\ under cs p).
Proof.
  intros HL IV PK R. rewrite <- (compile_acc hash HL P cs ps recv nh p IV (conj R (ex_intro _ b PK))).
  unfold passes. rewrite (view_packet hash b nh p HL PK). split; [intros (np & E & H); injection E as <-; exact H|eauto].
Qed.
Lemma added_inv hash rs P : hash32 hash -> Forall pred_ok rs -> add_all preds_default rs = Ok P -> exists cs, Inv hash P cs rs.
Proof. intros HL OK E. pose proof (add_all_inv hash HL rs preds_default [] [] (Inv_default hash HL) OK) as H. rewrite E in H. exact H. Qed.

(** C60: a query accepts a packet exactly when the packet satisfies every predicate. *)
Theorem C60_accepts_exactly hash rs P b nh p recv : hash32 hash -> Forall pred_ok rs -> add_all preds_default rs = Ok P ->
  packet_of hash b nh p -> recv < 2 ^ 64 -> no_spacename rs ->
  (passes P b recv <-> Forall (satisfies hash recv nh p) rs).
Proof.
  intros HL OK E PK R NS. destruct (added_inv hash rs P HL OK E) as [cs IV]. rewrite (passes_acc hash P cs rs b nh p recv HL IV PK R).
  destruct IV as (_ & _ & _ & _ & _ & _ & _ & AC). destruct (AC recv nh p (conj R (ex_intro _ b PK))) as [A B].
  split; [intros [X U]; apply B; auto; now right|exact A].
Qed.
(** With [spacename] predicates no matching packet is lost, *)
Theorem C60_accepts_all hash rs P b nh p recv : hash32 hash -> Forall pred_ok rs -> add_all preds_default rs = Ok P ->
  packet_of hash b nh p -> recv < 2 ^ 64 -> Forall (satisfies hash recv nh p) rs -> passes P b recv.
Proof.
  intros HL OK E PK R F. destruct (added_inv hash rs P HL OK E) as [cs IV]. apply (passes_acc hash P cs rs b nh p recv HL IV PK R).
  destruct IV as (_ & _ & _ & _ & _ & _ & _ & AC). exact (proj1 (AC recv nh p (conj R (ex_intro _ b PK))) F).
Qed.
(** and only matching packets are accepted when the packet's depth byte is right. *)
Theorem C60_spacename_partial hash rs P b nh p recv : hash32 hash -> Forall pred_ok rs -> add_all preds_default rs = Ok P ->
  packet_of hash b nh p -> recv < 2 ^ 64 -> depth_honest p ->
  (passes P b recv <-> Forall (satisfies hash recv nh p) rs).
Proof.
  intros HL OK E PK R NS. destruct (added_inv hash rs P HL OK E) as [cs IV]. rewrite (passes_acc hash P cs rs b nh p recv HL IV PK R).
  destruct IV as (_ & _ & _ & _ & _ & _ & _ & AC). destruct (AC recv nh p (conj R (ex_intro _ b PK))) as [A B].
  split; [intros [X U]; apply B; auto; now left|exact A].
Qed.
(** The order of the predicates does not matter. *)
Theorem C60_order hash rs rs' P P' b nh p recv : hash32 hash -> Forall pred_ok rs -> Permutation rs rs' ->
  add_all preds_default rs = Ok P -> add_all preds_default rs' = Ok P' ->
  packet_of hash b nh p -> recv < 2 ^ 64 -> no_spacename rs \/ depth_honest p ->
  (passes P b recv <-> passes P' b recv).
Proof.
  intros HL OK PM E E' PK R C. assert (Forall pred_ok rs') as OK' by (eapply Permutation_Forall; eassumption).
  assert (Forall (satisfies hash recv nh p) rs <-> Forall (satisfies hash recv nh p) rs') as S
    by (split; intros F; eapply Permutation_Forall; try exact F; [exact PM|now symmetry]).
  destruct C as [C|C].
  - assert (no_spacename rs') as C' by (eapply Permutation_Forall; eassumption).
    now rewrite (C60_accepts_exactly hash rs P b nh p recv), (C60_accepts_exactly hash rs' P' b nh p recv).
  - now rewrite (C60_spacename_partial hash rs P b nh p recv), (C60_spacename_partial hash rs' P' b nh p recv).
Qed.
(** A list of predicates is refused only when no packet satisfies all of them or its limits
    allow no result; and it is always either accepted or refused. *)
Theorem C60_refused_is_empty hash rs e b nh p recv : hash32 hash -> Forall pred_ok rs -> add_all preds_default rs = Err e ->
  packet_of hash b nh p -> recv < 2 ^ 64 -> ~ Forall (satisfies hash recv nh p) rs \/ no_results rs.
Proof.
  intros HL OK E PK R. pose proof (add_all_inv hash HL rs preds_default [] [] (Inv_default hash HL) OK) as H. rewrite E in H. cbn [app] in H.
  destruct H as [H|H]; [left|now right]. apply H. split; [exact R|]. now exists b.
Qed.
Theorem C60_total rs : Forall pred_ok rs -> exists o, add_all preds_default rs = o /\ match o with Ok _ | Err _ => True | _ => False end.
Proof.
  intros OK. exists (add_all preds_default rs). split; [reflexivity|].
  pose proof (add_all_inv (fun _ => repeat 0 32) (fun _ => eq_refl) rs preds_default [] [] (Inv_default (fun _ => repeat 0 32) (fun _ => eq_refl)) OK) as H.
  destruct (add_all preds_default rs); tauto.
Qed.
(** The limit sets hold exactly the positions that every limit allows. *)
Theorem C60_limits rs P q n : Forall pred_ok rs -> add_all preds_default rs = Ok P -> n < 2 ^ 32 ->
  (test 32 (p_limits P q) n = true <-> position_ok rs q n).
Proof.
  intros OK E Hn. destruct (added_inv (fun _ => repeat 0 32) rs P (fun _ => eq_refl) OK E) as (cs & _ & _ & _ & _ & _ & LO & LP & _).
  rewrite test_member by (reflexivity || apply LO || exact Hn). now apply LP.
Qed.

(** A linkpoint in the example group with the space hi/yo. *)
Definition ex_point : point := PLink ex_group ex_domain 77 ex_links ex_rspace ex_data.
Definition ex_pkt : bytes := packet toy_hash ex_nh ex_point.
Definition sp_hi : bytes := wire_space [[104;105]].
Definition sp_hiyo : bytes := wire_space [[104;105];[121;111]].
Definition ex_preds : list Predicate :=
  [mkPred (RField GroupIDF) Equal (PNum (be_decode ex_group)); mkPred RPrefix Equal (PSpace sp_hi);
   mkPred (RField CreateF) Less (PNum 78); mkPred RRecv Greater (PNum 5); mkPred (RLimit QQuery) Less (PNum 10)].
Definition ex_preds2 : list Predicate := mkPred (RField SpaceNameF) Equal (PSpace sp_hiyo) :: ex_preds.
Lemma hi_ok : space_ok [[104;105]]. Proof. now apply space_okb. Qed.
Lemma hiyo_ok : space_ok [[104;105];[121;111]]. Proof. now apply space_okb. Qed.
Lemma ex_point_ok : point_ok ex_point.
Proof.
  split; [now vm_compute|]. split; [reflexivity|]. split; [reflexivity|]. split; [reflexivity|]. split; [repeat constructor|].
  right. exists 2, [[104;105];[121;111]]. split; [|split; [cbn; lia|split; [reflexivity|reflexivity]]]. now apply space_okb.
Qed.
Lemma bytes_okb b : forallb (fun x => x <? 256) b = true -> bytes_ok b.
Proof. intros H. apply Forall_forall. intros x X. rewrite forallb_forall in H. now apply N.ltb_lt, H. Qed.
Lemma ex_packet_of : packet_of toy_hash ex_pkt ex_nh ex_point.
Proof. split; [reflexivity|]. split; [reflexivity|]. split; [exact ex_point_ok|]. apply bytes_okb. vm_compute. reflexivity. Qed.
Lemma toy_hash32 : hash32 toy_hash. Proof. exact (proj1 toy_ok). Qed.
Lemma ex_preds_ok : Forall pred_ok ex_preds2.
Proof.
  constructor; [split; [reflexivity|exists [[104;105];[121;111]]; split; [exact hiyo_ok|split; [cbn; lia|reflexivity]]]|].
  constructor; [split; [exact I|vm_compute; reflexivity]|].
  constructor; [split; [reflexivity|exists [[104;105]]; split; [exact hi_ok|split; [cbn; lia|reflexivity]]]|].
  constructor; [split; [exact I|reflexivity]|]. constructor; [split; [reflexivity|exact I]|]. constructor; [reflexivity|constructor].
Qed.
Definition passesb (rs : list Predicate) (b : bytes) (recv : N) : bool :=
  match add_all preds_default rs, view b with
  | Ok P, Ok np => run_tests (compile_predicates P) np && bound_test (p_recv P) recv
  | _, _ => false
  end.
(** The packet passes when received at 6, not when received at 5; in both lists the
    hypotheses of the theorems above hold. *)
Example C60_ex : passesb ex_preds ex_pkt 6 = true /\ passesb ex_preds ex_pkt 5 = false /\
  passesb ex_preds2 ex_pkt 6 = true /\ no_spacename ex_preds /\ depth_honest ex_point.
Proof.
  split; [vm_compute; reflexivity|]. split; [vm_compute; reflexivity|]. split; [vm_compute; reflexivity|].
  split; [repeat (constructor; [discriminate|]); constructor|].
  intros rs E. injection E as <-. exists [[104;105];[121;111]]. split; [|reflexivity]. split; [exact hiyo_ok|]. left. now exists 2.
Qed.
Definition is_err {E A} (o : outcome E A) : bool := match o with Err _ => true | _ => false end.
Example C60_refused_ex :
  is_err (add_all preds_default [mkPred (RField CreateF) Less (PNum 4); mkPred (RField CreateF) Greater (PNum 4)]) = true /\
  is_err (add_all preds_default [mkPred (RField SpaceNameF) Equal (PSpace sp_hi); mkPred (RField DepthF) Equal (PNum 2)]) = true /\
  is_err (add_all preds_default [mkPred (RLimit QQuery) Less (PNum 0)]) = true.
Proof. vm_compute. auto. Qed.

(** Without the hypothesis on the depth byte [spacename] accepts a packet in another space:
    the packet below has eight components and declares two. *)
Definition cs8 : list bytes := [[104;105];[121;111];[1];[2];[3];[4];[5];[6]].
Definition lying : point := PLink ex_group ex_domain 77 ex_links (rooted_with 2 cs8) ex_data.
Definition lying_pkt : bytes := packet toy_hash ex_nh lying.
Lemma lying_packet_of : packet_of toy_hash lying_pkt ex_nh lying.
Proof.
  split; [reflexivity|]. split; [reflexivity|]. split; [|apply bytes_okb; vm_compute; reflexivity].
  split; [now vm_compute|]. split; [reflexivity|]. split; [reflexivity|]. split; [reflexivity|]. split; [repeat constructor|].
  right. exists 2, cs8. split; [now apply space_okb|]. split; [cbn; lia|]. split; [|reflexivity]. cbn. lia.
Qed.
Theorem C60_spacename_refuted : exists hash rs P b nh p recv,
  hash32 hash /\ Forall pred_ok rs /\ add_all preds_default rs = Ok P /\ packet_of hash b nh p /\ recv < 2 ^ 64 /\
  passes P b recv /\ ~ Forall (satisfies hash recv nh p) rs.
Proof.
  pose (rs := [mkPred (RField SpaceNameF) Equal (PSpace sp_hiyo)]).
  destruct (add_all preds_default rs) as [P|e| |] eqn:E; [|vm_compute in E; discriminate..].
  exists toy_hash, rs, P, lying_pkt, ex_nh, lying, 0. split; [exact toy_hash32|].
  split; [constructor; [|constructor]; split; [reflexivity|exists [[104;105];[121;111]]; split; [exact hiyo_ok|split; [cbn; lia|reflexivity]]]|].
  split; [exact E|]. split; [exact lying_packet_of|]. split; [reflexivity|].
  assert (passesb rs lying_pkt 0 = true) as PB by (vm_compute; reflexivity). unfold passesb in PB. rewrite E in PB.
  split.
  - destruct (view lying_pkt) as [np|e| |] eqn:EV; try discriminate. apply andb_prop in PB as [A B]. exists np. auto.
  - intros F. inversion F as [|? ? S _]; subst. destruct S as (rs' & cs & ER & [SK HS] & W & D).
    injection ER as <-. apply wire_space_inj in W; [subst cs|apply hiyo_ok|apply SK].
    destruct HS as [[d X]|[X _]]; [|discriminate]. apply (f_equal (@length N)) in X. vm_compute in X. discriminate.
Qed.
Print Assumptions C60_accepts_exactly.
Print Assumptions C60_accepts_all.
Print Assumptions C60_spacename_partial.
Print Assumptions C60_order.
Print Assumptions C60_refused_is_empty.
Print Assumptions C60_total.
Print Assumptions C60_limits.
Print Assumptions C60_spacename_refuted.

(** Findings outside the hypotheses of C60. *)

(** Mask operators on [recv] are accepted and do nothing. *)
Theorem F47_recv_mask_ignored P op v : (op = Mask0 \/ op = Mask1) -> bound_has_any (p_recv P) = true ->
  and_ P (mkPred RRecv op (PNum v)) = Ok (with_recv P (p_recv P)).
Proof.
  intros H A. unfold and_, bound_try_add. cbn [p_kind p_op p_val]. destruct H as [-> | ->]; cbn [bound_add]; rewrite A; reflexivity.
Qed.
(** Fields in the list of predicates that abort the process. *)
Theorem F13_unsupported_fields_panic f op v P : (f = SignatureF \/ f = DataF \/ f = RSpaceNameF \/ exists i, f = SpaceCompF i) ->
  add_set P PktTypeF Mask1 (field_pkts f) = Ok P -> and_ P (mkPred (RField f) op v) = Panic.
Proof. intros H E. unfold and_. cbn [p_kind p_op p_val]. rewrite E. destruct H as [->|[->|[->|[i ->]]]]; destruct v; reflexivity. Qed.
(** A space with more than eight components is cut to its first eight. *)
Theorem F50_long_space_truncated P cs : space_ok cs ->
  and_ P (mkPred (RField SpaceNameF) Equal (PSpace (wire_space cs))) =
  and_ P (mkPred (RField SpaceNameF) Equal (PSpace (wire_space (firstn 8 cs)))).
Proof.
  intros SK. assert (space_ok (firstn 8 cs)) as SK8 by (apply (space_ok_prefix _ (skipn 8 cs)); now rewrite firstn_skipn).
  unfold and_. cbn [p_kind p_op p_val]. rewrite !try_into_rooted_wire by assumption. now rewrite firstn_firstn.
Qed.
(** Every field predicate asks for the data flag of the point type, which error points do
    not have: no predicate on a field can select one. *)
Theorem F46_error_points_never_match hash rs f op v P b nh d recv : hash32 hash -> Forall pred_ok rs -> add_all preds_default rs = Ok P ->
  packet_of hash b nh (PError d) -> recv < 2 ^ 64 -> In (mkPred (RField f) op v) rs -> ~ passes P b recv.
Proof.
  intros HL OK E PK R I. rewrite (C60_spacename_partial hash rs P b nh (PError d) recv) by (assumption || discriminate).
  intros F. rewrite Forall_forall in F. specialize (F _ I). unfold satisfies in F. cbn [p_kind p_val p_op] in F.
  destruct f, v; try contradiction; try (destruct F as (x & X & _); discriminate). destruct F as (rs' & cs & X & _). discriminate.
Qed.
Print Assumptions F47_recv_mask_ignored.
Print Assumptions F13_unsupported_fields_panic.
Print Assumptions F50_long_space_truncated.
Print Assumptions F46_error_points_never_match.
