(** * Proofs about filtering a stream of packets *)
From Coq Require Import List NArith Lia Bool.
From Verif Require Import Bytes ModelPkt SpecPkt ModelTestSet SpecTestSet ProofTestSet ModelStore SpecStore SpecTree ModelPred SpecPred ProofPred ProofPred2 PropsPred.
From Verif Require Import ModelQuery SpecQuery ProofQuery ProofQuery2 ProofQuery3 ProofQuery4 PropsQuery ModelWatch SpecWatch ProofWatch4 ProofWatch5 ProofWatch6.
From Verif Require Import ModelCollect SpecCollect ProofCollect ProofRewrite ModelSelect SpecSelect.
Import ListNotations.
Local Open Scope N_scope.

Section Sel.
  Variable hash : bytes -> bytes.
  Hypothesis HL : hash32 hash.

  Lemma accept_one rs P e nh p : accepted rs P -> packet_at hash e nh p -> no_spacename rs \/ depth_honest p ->
    (accept P (answer e) = true <-> matches hash rs e).
  Proof.
    intros [OK AD] PA CL.
    assert (Q : accept P (answer e) = true <-> passes P (np_bytes (snd e)) (fst e)).
    { unfold accept, passes, pkt_test. cbn [answer fst snd]. rewrite andb_true_iff. split.
      - intros [B T]. destruct (view (np_bytes (snd e))) as [np| | |]; try discriminate. exists np. auto.
      - intros (np & E & T & B). rewrite E. auto. }
    rewrite Q. clear Q. destruct PA as (PO & CA & LT).
    assert (R : passes P (np_bytes (snd e)) (fst e) <-> Forall (satisfies hash (fst e) nh p) rs).
    { destruct CL; [now apply C60_accepts_exactly|now apply C60_spacename_partial]. }
    rewrite R. split; [intros F; exists nh, p; split; [now split|exact F]|].
    intros (nh' & p' & PA' & F). destruct (packet_at_inj hash e nh p nh' p') as [-> ->]; [now split|exact PA'|exact F].
  Qed.

  Lemma late_iff rs P now : accepted rs P -> now < 2 ^ 64 -> (high (p_recv P) < now <-> too_late rs now).
  Proof.
    intros AC LT. split.
    - intros H u U1 U2. apply (recv_passed rs P AC); [lia|exact U2].
    - intros TL. destruct AC as [OK AD]. destruct (the_recv rs OK P AD) as (R2 & R3 & _ & R4).
      destruct (N.lt_ge_cases (high (p_recv P)) now) as [|G]; [assumption|]. exfalso. apply (TL (high (p_recv P)) G R3). apply R4; [exact R3|].
      unfold bound_test. apply andb_true_intro. split; apply N.leb_le; lia.
  Qed.

  Lemma on_high rs P k : accepted rs P -> k <= high (bound (p_limits P QNew)) -> k <= high (bound (p_limits P QQuery)) -> goes_on rs k.
  Proof.
    intros AC A B sc SC LI OP. exists (high (bound (p_limits P sc))). pose proof (limits_ok rs P AC sc) as [[_ B2] _].
    split; [destruct SC; subst sc; assumption|]. split; [exact B2|]. apply (high_allowed rs P sc AC LI), (open_any rs P sc AC OP).
  Qed.

  Lemma position_iff rs P k : accepted rs P -> k < 2 ^ 32 ->
    (test 32 (p_limits P QNew) k && test 32 (p_limits P QQuery) k = true <-> new_position rs 0 0 k).
  Proof. intros AC L. rewrite andb_true_iff, (limit_iff rs P AC QNew k L), (limit_iff rs P AC QQuery k L). unfold new_position. now rewrite !N.add_0_l. Qed.

  Lemma done_high rs P k : accepted rs P -> high (bound (p_limits P QNew)) < k \/ high (bound (p_limits P QQuery)) < k -> done rs k.
  Proof.
    intros AC H j J1 J2 [Q1 Q2]. rewrite N.add_0_l in Q1, Q2. destruct H as [H|H].
    - exact (limit_passed rs P AC QNew j ltac:(lia) J2 Q1).
    - exact (limit_passed rs P AC QQuery j ltac:(lia) J2 Q2).
  Qed.

  (** One packet. *)
  Lemma tested rs P e nh p (w w' : Watch unit) ok brk : accepted rs P -> packet_at hash e nh p -> no_spacename rs \/ depth_honest p ->
    w_pred w = P -> w_nthn w = w_nthq w -> w_nthn w + 1 < 2 ^ 32 ->
    watch_test w (fst e, np_bytes (snd e)) = (w', ok, brk) ->
    w_pred w' = P /\ w_nthn w' = w_nthq w' /\
    (~ matches hash rs e /\ ok = false /\ w_nthn w' = w_nthn w /\ (if brk then too_late rs (fst e) else ~ too_late rs (fst e)) \/
     matches hash rs e /\ (ok = true <-> new_position rs 0 0 (w_nthn w)) /\ w_nthn w' = w_nthn w + 1 /\
     (if brk then done rs (w_nthn w + 1) else goes_on rs (w_nthn w + 1))).
  Proof.
    intros AC PA CL WP EQ LT T. pose proof (accept_one rs P e nh p AC PA CL) as AM. pose proof (proj2 (proj2 PA)) as L64. pose proof (late_iff rs P (fst e) AC L64) as LA.
    unfold watch_test in T. rewrite WP in T. unfold accept, bound_test in AM. cbn [answer fst] in AM, T.
    destruct (N.ltb_spec (high (p_recv P)) (fst e)) as [H|H].
    { injection T as <- <- <-. split; [exact WP|]. split; [exact EQ|]. left. rewrite <- AM. rewrite (proj2 (N.leb_gt _ _) H). cbn. split; [discriminate|]. split; [reflexivity|]. split; [reflexivity|]. now apply LA. }
    assert (NL : ~ too_late rs (fst e)) by (rewrite <- LA; lia).
    rewrite (proj2 (N.leb_le _ _) H) in AM.
    destruct (N.ltb_spec (fst e) (low (p_recv P))) as [L|L].
    { injection T as <- <- <-. split; [exact WP|]. split; [exact EQ|]. left. rewrite <- AM. rewrite (proj2 (N.leb_gt _ _) L). cbn. split; [discriminate|]. split; [reflexivity|]. split; [reflexivity|exact NL]. }
    rewrite (proj2 (N.leb_le _ _) L) in AM. cbn [andb] in AM. unfold answer in AM.
    destruct (pkt_test (compile_predicates P) (fst e, np_bytes (snd e))); cbn [negb] in T.
    - rewrite <- EQ in T. rewrite !(N.mod_small (w_nthn w + 1)) in T by assumption. injection T as <- <- <-. cbn [w_pred w_nthn w_nthq].
      split; [reflexivity|]. split; [reflexivity|]. right. split; [now apply AM|]. split; [apply (position_iff rs P); [assumption|lia]|]. split; [reflexivity|].
      destruct (N.ltb_spec (high (bound (p_limits P QNew))) (w_nthn w + 1)) as [X|X]; [apply (done_high rs P); auto|].
      destruct (N.ltb_spec (high (bound (p_limits P QQuery))) (w_nthn w + 1)) as [Y|Y]; [apply (done_high rs P); auto|]. apply (on_high rs P); assumption.
    - injection T as <- <- <-. split; [exact WP|]. split; [exact EQ|]. left. rewrite <- AM. split; [discriminate|]. split; [reflexivity|]. split; [reflexivity|exact NL].
  Qed.

  Variable stmts : option NetPktParts -> option (list Predicate).
  Variables (allow live : bool) (private : option bool) (write write_false : list Dest).
  Hypothesis WF : forall s rs, stmts s = Some rs -> Forall pred_ok rs.

  Lemma statements_accepted s P : statements2query stmts s = Ok P -> exists rs, stmts s = Some rs /\ accepted rs P.
  Proof.
    unfold statements2query. destruct (stmts s) as [rs|] eqn:E; [|discriminate]. destruct (add_all preds_default rs) as [Q| | |] eqn:A; try discriminate.
    intros H. injection H as <-. exists rs. split; [reflexivity|]. split; [now apply (WF s)|exact A].
  Qed.

  Lemma updated rs P (w : Watch unit) o : accepted rs P -> w_nthn w = w_nthq w -> w_nthn w < 2 ^ 32 -> update_tests w P = Ok o ->
    match o with
    | None => done rs (w_nthn w)
    | Some w' => w_pred w' = P /\ w_nthn w' = w_nthn w /\ w_nthq w' = w_nthq w
    end.
  Proof.
    intros AC EQ LT U. unfold update_tests in U. destruct (has_next (p_limits P QNew) (w_nthn w)) as [[|]| | |] eqn:A; try discriminate; cbn [obind negb] in U.
    - destruct (has_next (p_limits P QQuery) (w_nthq w)) as [[|]| | |] eqn:B; try discriminate; cbn [obind negb] in U; injection U as <-.
      + cbn. auto.
      + rewrite <- EQ in B. intros j J1 J2 [_ Q]. rewrite N.add_0_l in Q. exact (has_next_no rs P AC QQuery _ LT B j J1 J2 Q).
    - injection U as <-. intros j J1 J2 [Q _]. rewrite N.add_0_l in Q. exact (has_next_no rs P AC QNew _ LT A j J1 J2 Q).
  Qed.

  Lemma data_iff e nh p : packet_at hash e nh p -> (is_datapoint (snd e) = true <-> data_packet hash e).
  Proof.
    intros PA. pose proof PA as (_ & (HF & _) & _). unfold is_datapoint. unfold has_fields in HF. split.
    - destruct (fields (point_parts (snd e))); try discriminate. intros _. subst p. exists nh. eexists. exact PA.
    - intros (nh' & d & PA'). destruct (packet_at_inj hash e nh p nh' (PData d) PA PA') as [-> ->]. destruct (fields (point_parts (snd e))); try discriminate; try reflexivity; contradiction.
  Qed.

  Lemma loop_selects vs : forall rs P (w : Watch unit) o o', accepted rs P -> w_pred w = P -> w_nthn w = w_nthq w ->
    w_nthn w + lenN (sel_input vs) < 2 ^ 32 ->
    Forall (fun e => exists nh p, packet_at hash e nh p) (sel_input vs) -> asked_well hash live rs (sel_input vs) ->
    select_loop stmts allow live private write write_false w vs o = Ok o' ->
    exists bs rest, selects hash stmts allow live rs (w_nthn w) (sel_input vs) bs rest /\
      o_log o' = o_log o ++ split_log private write write_false (sel_input vs) bs /\ o_buf o' = o_buf o.
  Proof.
    induction vs as [|v vs IH]; intros rs P w o o' AC WP EQ LT PK AW R; [discriminate|]. destruct v as [now p| |]; cbn [select_loop sel_input] in *.
    2:{ injection R as <-. exists [], []. split; [constructor|]. cbn. now rewrite app_nil_r. }
    2:{ discriminate. }
    rewrite lenN_cons in LT. inversion_clear PK as [|? ? (nh & pt & PA) PK'].
    assert (AW' : asked_well hash live rs (sel_input vs)) by (destruct AW as [AW|AW]; [now left|right; intros e n q I; apply AW; now right]).
    assert (CL : no_spacename rs \/ depth_honest pt) by (destruct AW as [[_ AW]|AW]; [now left|right; apply (AW _ _ _ (or_introl eq_refl) PA)]).
    pose proof (data_iff _ _ _ PA) as DI. cbn [snd] in DI.
    destruct (allow && is_datapoint p) eqn:AL.
    { apply andb_prop in AL as [A1 A2]. destruct (write_multi_dest private false write p o) as [o1| | |] eqn:W1; cbn [sel_write obind] in R; try discriminate.
      apply write_log in W1 as [L1 B1]. destruct (IH rs P w o1 o' AC WP EQ ltac:(lia) PK' AW' R) as (bs & rest & S & LG & BF).
      exists (true :: bs), rest. split; [apply sel_data; [exact A1|now apply DI|exact S]|]. cbn [split_log snd]. rewrite LG, L1, BF, app_assoc. auto. }
    assert (ND : allow = true -> ~ data_packet hash (now, p)). { intros -> D. apply DI in D. rewrite D in AL. discriminate. }
    destruct (watch_test w (now, np_bytes p)) as [[w1 ok] brk] eqn:T.
    destruct (tested rs P (now, p) nh pt w w1 ok brk AC PA CL WP EQ ltac:(lia) T) as (WP1 & EQ1 & CS).
    assert (FALSE : ok = false -> exists o1, o_log o1 = o_log o ++ direct private write_false p /\ o_buf o1 = o_buf o /\
      (if brk then Ok o1 else select_loop stmts allow live private write write_false w1 vs o1) = Ok o').
    { intros ->. cbn [obind] in R. destruct (write_multi_dest private false write_false p o) as [o1| | |] eqn:W1; cbn [sel_write obind] in R; try discriminate.
      apply write_log in W1 as [L1 B1]. eauto. }
    destruct CS as [(NM & OK & NN & BR)|(MA & OK & NN & BR)].
    - destruct (FALSE OK) as (o1 & L1 & B1 & R1). destruct brk.
      + injection R1 as <-. exists [false], (sel_input vs). split; [apply sel_late; assumption|]. cbn [split_log snd]. rewrite L1, B1. split; [|reflexivity]. f_equal. destruct (sel_input vs); now rewrite app_nil_r.
      + destruct (IH rs P w1 o1 o' AC WP1 EQ1 ltac:(lia) PK' AW' R1) as (bs & rest & S & LG & BF). rewrite NN in S.
        exists (false :: bs), rest. split; [now apply sel_no|]. cbn [split_log snd]. rewrite LG, L1, BF, app_assoc. auto.
    - destruct ok.
      + assert (PO : new_position rs 0 0 (w_nthn w)) by (now apply OK). clear FALSE.
        destruct (write_multi_dest private false write p o) as [o1| | |] eqn:W1; cbn [sel_write obind] in R; try discriminate.
        apply write_log in W1 as [L1 B1].
        assert (LAST : o' = o1 -> done rs (w_nthn w + 1) \/ (live = true /\ exists rs', stmts (Some p) = Some rs' /\ done rs' (w_nthn w + 1)) ->
          exists bs rest, selects hash stmts allow live rs (w_nthn w) ((now, p) :: sel_input vs) bs rest /\
          o_log o' = o_log o ++ split_log private write write_false ((now, p) :: sel_input vs) bs /\ o_buf o' = o_buf o).
        { intros -> D. exists [true], (sel_input vs). split; [now apply sel_yes_last|]. cbn [split_log snd]. rewrite L1, B1. split; [|reflexivity]. f_equal. destruct (sel_input vs); now rewrite app_nil_r. }
        destruct live eqn:LV.
        * destruct (statements2query stmts (Some p)) as [P'| | |] eqn:SQ; cbn [obind] in R; try discriminate.
          destruct (statements_accepted _ _ SQ) as (rs' & SR & AC').
          destruct (update_tests w1 P') as [ow| | |] eqn:UP; cbn [sel_query obind] in R; try discriminate.
          pose proof (updated rs' P' w1 ow AC' EQ1 ltac:(lia) UP) as UD. destruct ow as [w2|].
          -- destruct UD as (U1 & U2 & U3). destruct brk; [injection R as <-; apply LAST; [reflexivity|now left]|].
             assert (AWH : asked_well hash true rs' (sel_input vs)) by (destruct AW' as [[? _]|AW']; [discriminate|now right]).
             destruct (IH rs' P' w2 o1 o' AC' U1 ltac:(congruence) ltac:(lia) PK' AWH R) as (bs & rest & S & LG & BF). rewrite U2, NN in S.
             exists (true :: bs), rest. split; [now apply sel_yes with (rs' := rs')|]. cbn [split_log snd]. rewrite LG, L1, BF, app_assoc. auto.
          -- injection R as <-. apply LAST; [reflexivity|right]. split; [reflexivity|]. exists rs'. rewrite <- NN. auto.
        * destruct brk; [injection R as <-; apply LAST; [reflexivity|now left]|].
          destruct (IH rs P w1 o1 o' AC WP1 EQ1 ltac:(lia) PK' AW' R) as (bs & rest & S & LG & BF). rewrite NN in S.
          exists (true :: bs), rest. split; [now apply sel_yes with (rs' := rs)|]. cbn [split_log snd]. rewrite LG, L1, BF, app_assoc. auto.
      + assert (PO : ~ new_position rs 0 0 (w_nthn w)) by (intros Q; apply OK in Q; discriminate).
        destruct (FALSE eq_refl) as (o1 & L1 & B1 & R1). destruct brk.
        * injection R1 as <-. exists [false], (sel_input vs). split; [apply sel_skip_last; assumption|]. cbn [split_log snd]. rewrite L1, B1. split; [|reflexivity]. f_equal. destruct (sel_input vs); now rewrite app_nil_r.
        * destruct (IH rs P w1 o1 o' AC WP1 EQ1 ltac:(lia) PK' AW' R1) as (bs & rest & S & LG & BF). rewrite NN in S.
          exists (false :: bs), rest. split; [now apply sel_skip|]. cbn [split_log snd]. rewrite LG, L1, BF, app_assoc. auto.
  Qed.
End Sel.
