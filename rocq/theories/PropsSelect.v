(** * C89: filtering a stream of packets *)
From Coq Require Import List NArith Lia Bool.
From Verif Require Import ProofTree PropsPkt ExStore.
From Verif Require Import Bytes ModelPkt SpecPkt ModelTestSet SpecTestSet ProofTestSet ModelStore SpecStore SpecTree ModelPred SpecPred ProofPred ProofPred2 PropsPred.
From Verif Require Import ModelQuery SpecQuery ProofQuery ProofQuery2 ProofQuery3 ProofQuery4 PropsQuery ModelWatch SpecWatch ProofWatch4 ProofWatch5 ProofWatch6 PropsWatch.
From Verif Require Import ModelCollect SpecCollect ProofCollect ProofRewrite ModelSelect SpecSelect ProofSelect.
Import ListNotations.
Local Open Scope N_scope.

Section C89.
  Variable hash : bytes -> bytes.
  Hypothesis HL : hash32 hash.
  Variable stmts : option NetPktParts -> option (list Predicate).
  Hypothesis WF : forall s rs, stmts s = Some rs -> Forall pred_ok rs.

  Lemma select_start allow live rn private write write_false vs o :
    select stmts allow live rn private write write_false vs = Ok o ->
    exists rs P w, stmts None = Some rs /\ accepted rs P /\ (rn = false -> p_recv P = bound_default 64) /\ w_pred w = P /\ w_nthn w = 0 /\ w_nthq w = 0 /\
      select_loop stmts allow live private write write_false w vs (mkOut [] []) = Ok o.
  Proof.
    unfold select. destruct (statements2query stmts None) as [P| | |] eqn:SQ; cbn [obind]; try discriminate.
    destruct (statements_accepted stmts WF _ _ SQ) as (rs & SR & AC). destruct (negb rn && negb (bound_eqb (p_recv P) (bound_default 64))) eqn:RN; [discriminate|].
    unfold watch_new. destruct (has_next (p_limits P QNew) 0) as [[|]| | |]; cbn [obind negb sel_query]; try discriminate.
    destruct (has_next (p_limits P QQuery) 0) as [[|]| | |]; cbn [obind negb sel_query]; try discriminate. intros R.
    exists rs, P. eexists. split; [exact SR|]. split; [exact AC|]. split; [|split; [|split; [|split; [|exact R]]]]; try reflexivity.
    intros ->. cbn [negb andb] in RN. apply negb_false_iff in RN. unfold bound_eqb in RN. apply andb_prop in RN as [R1 R2]. apply N.eqb_eq in R1, R2.
    destruct (p_recv P) as [a b]. cbn in *. now subst.
  Qed.

  (** Every run that succeeds: the packets are judged one after another; a packet goes to one
      list of destinations if it satisfies the predicates at a position the limits allow (or is a
      datapoint and these are let through), and to the other if not; the input is left when its
      end is reached or no packet can follow.  With --live the predicates are those that the last
      packet taken gives. *)
  Theorem C89_selected : forall allow live rn private write write_false vs o rs,
    stmts None = Some rs -> lenN (sel_input vs) < 2 ^ 32 ->
    Forall (fun e => exists nh p, packet_at hash e nh p) (sel_input vs) -> asked_well hash live rs (sel_input vs) ->
    select stmts allow live rn private write write_false vs = Ok o ->
    exists bs rest, selects hash stmts allow live rs 0 (sel_input vs) bs rest /\
      o = mkOut (split_log private write write_false (sel_input vs) bs) [].
  Proof.
    intros until rs. intros SR LT PK AW R. destruct (select_start _ _ _ _ _ _ _ _ R) as (rs' & P & w & SR' & AC & _ & WP & NN & NQ & LP).
    rewrite SR in SR'. injection SR' as <-.
    destruct (loop_selects hash HL stmts allow live private write write_false WF vs rs P w _ _ AC WP ltac:(congruence) ltac:(now rewrite NN) PK AW LP) as (bs & rest & S & LG & BF).
    exists bs, rest. rewrite NN in S. split; [exact S|]. destruct o as [L B]. cbn in LG, BF. now subst.
  Qed.

  (** Without limits and predicates on the time: every packet is written to exactly one of them. *)
  Theorem C89_every_packet : forall allow rn private write write_false vs o rs,
    stmts None = Some rs -> lenN (sel_input vs) < 2 ^ 32 ->
    Forall (fun e => exists nh p, packet_at hash e nh p) (sel_input vs) -> asked_well hash false rs (sel_input vs) ->
    no_limit rs QNew -> no_limit rs QQuery -> (forall u, u < 2 ^ 64 -> recv_allowed rs u) ->
    select stmts allow false rn private write write_false vs = Ok o ->
    exists bs, Forall2 (fun e b => b = true <-> allow = true /\ data_packet hash e \/ matches hash rs e) (sel_input vs) bs /\
      o = mkOut (split_log private write write_false (sel_input vs) bs) [].
  Proof.
    intros until rs. intros SR LT PK AW N1 N2 RA R. destruct (C89_selected _ _ _ _ _ _ _ _ _ SR LT PK AW R) as (bs & rest & S & ->).
    exists bs. split; [|reflexivity].
    assert (ND : forall k, k < 2 ^ 32 -> ~ done rs k) by (intros k K D; apply (D k); [lia|exact K|split; rewrite N.add_0_l; [apply N1|apply N2]]).
    assert (NP : forall k, new_position rs 0 0 k) by (intros k; split; rewrite N.add_0_l; [apply N1|apply N2]).
    clear SR AW R. revert LT PK S. assert (G : forall l k bs, k + lenN l < 2 ^ 32 -> Forall (fun e => exists nh p, packet_at hash e nh p) l ->
      selects hash stmts allow false rs k l bs rest -> Forall2 (fun e b => b = true <-> allow = true /\ data_packet hash e \/ matches hash rs e) l bs); [|intros LT PK S; exact (G _ 0 _ LT PK S)].
    clear bs. induction l as [|e l IH]; intros k bs LT PK S; [inversion S; constructor|]. rewrite lenN_cons in LT. inversion_clear PK as [|? ? (nh & p & PA) PK'].
    assert (TL : ~ too_late rs (fst e)) by (intros T; apply (T (fst e)); [lia|apply PA|apply RA, PA]).
    inversion S; subst; try contradiction.
    - constructor; [tauto|]. eapply IH; [|eassumption|eassumption]. lia.
    - constructor; [|eapply IH; [|eassumption|eassumption]; lia]. split; [discriminate|]. intros [[A D]|M]; [|contradiction].
      match goal with H : allow = true -> ~ _ |- _ => now destruct (H A) end.
    - match goal with H : ~ new_position _ _ _ _ |- _ => now destruct (H (NP k)) end.
    - match goal with H : ~ new_position _ _ _ _ |- _ => now destruct (H (NP k)) end.
    - constructor; [tauto|]. eapply IH; [|eassumption|eassumption]. lia.
    - match goal with H : done _ _ \/ _ |- _ => destruct H as [D|[D _]]; [|discriminate] end. destruct (ND (k + 1)); [lia|assumption].
  Qed.

  (** A query that restricts the time is refused unless --recv-now is given. *)
  Theorem C89_recv : forall allow live private write write_false vs o rs,
    stmts None = Some rs -> select stmts allow live false private write write_false vs = Ok o -> forall u, u < 2 ^ 64 -> recv_allowed rs u.
  Proof.
    intros until rs. intros SR R u U. destruct (select_start _ _ _ _ _ _ _ _ R) as (rs' & P & w & SR' & [OK AD] & RN & _).
    rewrite SR in SR'. injection SR' as <-. destruct (the_recv rs OK P AD) as (_ & _ & _ & R4). apply (R4 u U). rewrite (RN eq_refl).
    unfold bound_test, bound_default. cbn [low high]. apply andb_true_intro. split; apply N.leb_le; [|apply N.le_0_l].
    change (umax 64) with (2 ^ 64 - 1). lia.
  Qed.

  Lemma next_ok rs P sc : accepted rs P -> open_at rs sc 0 -> has_next (p_limits P sc) 0 = Ok true.
  Proof.
    intros AC OP. pose proof OP as (k & _ & K & M). pose proof M as M'. apply (limit_iff rs P AC sc k K) in M. pose proof (limits_ok rs P AC sc) as SO.
    rewrite test_member in M by (reflexivity || assumption).
    destruct (info_exact 32 (p_limits P sc) k 0 ltac:(reflexivity) ltac:(reflexivity) SO K M ltac:(reflexivity)) as (i & I1 & _ & _).
    destruct (has_next (p_limits P sc) 0) as [[|]| | |] eqn:E; [reflexivity| | | |].
    - now destruct (has_next_no rs P AC sc 0 ltac:(reflexivity) E k ltac:(lia) K).
    - exfalso. unfold has_next in E. rewrite I1 in E. destruct (has_any _ _); discriminate.
    - exfalso. unfold has_next in E. rewrite I1 in E. destruct (has_any _ _); discriminate.
    - exfalso. unfold has_next in E. rewrite I1 in E. destruct (has_any _ _); discriminate.
  Qed.
  (** A stream that is read to its end does not fail. *)
  Theorem C89_runs : forall allow private write write_false vs rs P,
    stmts None = Some rs -> add_all preds_default rs = Ok P -> open_at rs QNew 0 -> open_at rs QQuery 0 ->
    private <> Some false -> ~ In DBuffer (write ++ write_false) -> In SEnd vs -> ~ In SBad vs ->
    exists o, select stmts allow false true private write write_false vs = Ok o.
  Proof.
    intros until P. intros SR AD ON OQ PR NB IE NV. pose proof (conj (WF _ _ SR) AD : accepted rs P) as AC.
    unfold select, statements2query. rewrite SR, AD. cbn [sel_query obind negb andb]. unfold watch_new.
    rewrite (next_ok rs P QNew AC ON). cbn [obind negb sel_query]. rewrite (next_ok rs P QQuery AC OQ). cbn [obind negb sel_query].
    assert (WR : forall ds p o, ~ In DBuffer ds -> exists o', write_multi_dest private false ds p o = Ok o').
    { induction ds as [|d ds IHd]; intros p o NI; cbn [write_multi_dest]; [eauto|]. unfold write_dest.
      assert (Q : exists b, check_write private p = Ok b).
      { unfold check_write. destruct private as [[|]|]; [eauto|congruence|]. destruct (check_private _); eauto. }
      destruct Q as [b ->]. cbn [obind]. assert (NI' : ~ In DBuffer ds) by (intros H; apply NI; now right).
      destruct b; cbn [negb obind]; [|now apply IHd]. destruct d; cbn [obind]; try (now apply IHd). destruct NI. now left. }
    assert (NB1 : ~ In DBuffer write) by (intros H; apply NB, in_app_iff; now left).
    assert (NB2 : ~ In DBuffer write_false) by (intros H; apply NB, in_app_iff; now right).
    generalize (mkWatch 0 [] P 0 0 tt), (mkOut [] []). clear - WR NB1 NB2 IE NV. induction vs as [|v vs IH]; intros w o; [destruct IE|].
    destruct v as [now p| |]; cbn [select_loop]; [|eauto|destruct NV; now left].
    assert (IE' : In SEnd vs) by (destruct IE as [IE|IE]; [discriminate|assumption]).
    assert (NV' : ~ In SBad vs) by (intros H; apply NV; now right).
    destruct (WR write p o NB1) as [o1 W1]. destruct (WR write_false p o NB2) as [o2 W2].
    destruct (allow && is_datapoint p); [rewrite W1; cbn [sel_write obind]; now apply IH|].
    destruct (watch_test w (now, np_bytes p)) as [[w1 ok] brk].
    destruct ok; [rewrite W1|rewrite W2]; cbn [sel_write obind]; (destruct brk; [eauto|now apply IH]).
  Qed.
End C89.

(** The examples: the packets of the example store, as they come in. *)
Definition ex_stream : list SelEvent := map (fun e => SPkt (fst e) (snd e)) ex_list ++ [SEnd].
Definition in_b : list Predicate := [is_group; under_b].
Definition taken (o : outcome SelError Out) : list (Dest * N) :=
  match o with Ok o => map (fun x => (fst x, lenN (np_bytes (snd x)))) (o_log o) | _ => [] end.
Lemma ex_packets_ok : Forall (fun e => exists nh p, packet_at toy_hash e nh p) (sel_input ex_stream).
Proof. change (sel_input ex_stream) with ex_list. exact (proj2 (proj2 (proj1 ex_honest))). Qed.
Lemma ex_asked live rs : asked_well toy_hash live rs (sel_input ex_stream).
Proof.
  right. change (sel_input ex_stream) with ex_list. intros e nh p IN PA. pose proof (proj2 ex_honest) as F. rewrite Forall_forall in F.
  destruct (F e IN) as (nh' & p' & PA' & WP). destruct (packet_at_inj toy_hash _ _ _ _ _ PA PA') as [<- <-]. apply WP.
Qed.
Lemma in_b_ok : Forall pred_ok in_b.
Proof.
  constructor; [split; [exact Logic.I|vm_compute; reflexivity]|]. constructor; [|constructor]. split; [reflexivity|]. exists [sp 98].
  split; [now apply ProofTree.space_okb|]. split; [cbn; lia|reflexivity].
Qed.
Definition first_two : list Predicate := in_b ++ [mkPred (RLimit QNew) Less (PNum 2)].
(** Every packet taken has the group in common; live, the next has to have the depth of the last. *)
Definition same_depth (s : option NetPktParts) : option (list Predicate) :=
  match s with
  | None => Some [is_group]
  | Some p => match fields (point_parts p) with
              | FLink lp | FKey lp _ => Some [is_group; mkPred (RField DepthF) Equal (PNum (nth 0 (ModelPkt.rspace (ModelPkt.tail lp)) 0))]
              | _ => None
              end
  end.
Example C89_selected_ex :
  taken (select (fun _ => Some in_b) true false false None [DOut 0] [DOut 1] ex_stream) =
    map (fun x => (DOut (fst x), lenN (np_bytes (net_pkt (snd x))))) [(0, p_bx); (0, PData [1;2;3]); (1, p_root); (1, p_ax); (0, p_bx'); (1, p_a); (0, p_bk)] /\
  taken (select (fun _ => Some first_two) false false false None [DOut 0] [DOut 1] ex_stream) =
    map (fun x => (DOut (fst x), lenN (np_bytes (net_pkt (snd x))))) [(0, p_bx); (1, PData [1;2;3]); (1, p_root); (1, p_ax); (0, p_bx')] /\
  taken (select same_depth false true false None [DOut 0] [] ex_stream) =
    map (fun x => (DOut 0, lenN (np_bytes (net_pkt x)))) [p_bx; p_ax; p_bx'; p_bk].
Proof. vm_compute. repeat split; reflexivity. Qed.
Print Assumptions C89_selected.
Lemma in_b_limit q : no_limit in_b q.
Proof. intros n. constructor; [exact Logic.I|]. constructor; [exact Logic.I|constructor]. Qed.
Example C89_every_ex : Forall pred_ok in_b /\ no_limit in_b QNew /\ no_limit in_b QQuery /\ (forall u, u < 2 ^ 64 -> recv_allowed in_b u) /\ lenN (sel_input ex_stream) < 2 ^ 32.
Proof.
  split; [exact in_b_ok|]. split; [apply in_b_limit|]. split; [apply in_b_limit|]. split; [|vm_compute; reflexivity].
  intros u _. constructor; [exact Logic.I|]. constructor; [exact Logic.I|constructor].
Qed.
Print Assumptions C89_every_packet.
Example C89_recv_ex : select (fun _ => Some [mkPred RRecv Less (PNum 103)]) false false false None [DOut 0] [] ex_stream = Err SelRecv /\
  taken (select (fun _ => Some [mkPred RRecv Less (PNum 102)]) false false true None [DOut 0] [DOut 1] ex_stream) =
    map (fun x => (DOut (fst x), lenN (np_bytes (net_pkt (snd x))))) [(0, p_bx); (0, PData [1;2;3]); (1, p_root)].
Proof. vm_compute. repeat split; reflexivity. Qed.
Print Assumptions C89_recv.
Example C89_runs_ex : exists P, add_all preds_default first_two = Ok P /\ open_at first_two QNew 0 /\ open_at first_two QQuery 0.
Proof.
  exists (compiled first_two). split; [vm_compute; reflexivity|]. split; exists 1; (split; [lia|]); (split; [lia|]);
    (constructor; [exact Logic.I|]); (constructor; [exact Logic.I|]); (constructor; [|constructor]); intros _; cbn; lia.
Qed.
Print Assumptions C89_runs.

(** With a limit the packets after the last one taken are in neither output, also those that
    do not satisfy the predicates and that "-f" asks for. *)
Theorem C89_rest_refuted : exists rs vs o e,
  Forall pred_ok rs /\ Forall (fun e => exists nh p, packet_at toy_hash e nh p) (sel_input vs) /\ asked_well toy_hash false rs (sel_input vs) /\
  select (fun _ => Some rs) false false false (Some true) [DOut 0] [DOut 1] vs = Ok o /\
  In e (sel_input vs) /\ ~ matches toy_hash rs e /\ ~ In (DOut 1, snd e) (o_log o) /\ In SEnd vs.
Proof.
  exists first_two, ex_stream. eexists. exists (105, net_pkt p_a). split; [|split; [exact ex_packets_ok|split; [apply ex_asked|split; [vm_compute; reflexivity|]]]].
  { apply Forall_app. split; [exact in_b_ok|]. constructor; [reflexivity|constructor]. }
  split; [do 5 right; left; vm_compute; reflexivity|]. split; [|split].
  - assert (AC : accepted in_b (compiled in_b)) by (apply accepted_by; [exact in_b_ok|vm_compute; reflexivity]).
    assert (IN : In (105, net_pkt p_a) ex_list) by (do 5 right; left; vm_compute; reflexivity).
    intros (nh & p & PA & F). apply Forall_app in F as [F _].
    assert (M : matches toy_hash in_b (105, net_pkt p_a)) by (exists nh, p; auto).
    apply (accept_one toy_hash toy_hash32 in_b (compiled in_b) (105, net_pkt p_a) nh p AC PA) in M; [vm_compute in M; discriminate|].
    left. constructor; [discriminate|]. constructor; [discriminate|constructor].
  - intros H. apply (in_map (fun x => be_decode (np_hash (snd x)))) in H. revert H. vm_compute. intros H.
    repeat (destruct H as [H|H]; [discriminate|]). exact H.
  - apply in_app_iff. right. now left.
Qed.
Print Assumptions C89_rest_refuted.
