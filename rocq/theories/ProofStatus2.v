(** Proofs about watching a status. *)
From Coq Require Import Sorting.Sorted.
From Verif Require Import Bytes ModelAbe ModelEval ModelSpace SpecSpace ProofSpace ProofTree SpecPkt ModelPkt ProofPkt2 PropsPkt ModelTestSet SpecTestSet ProofTestSet ModelTree SpecTree ModelStore SpecStore ProofStore PropsStore ModelPred SpecPred ProofPred ProofPred2 PropsPred.
From Verif Require Import ModelQText SpecQText ProofQText ModelLns ModelQuery SpecQuery ProofQuery ProofQuery2 ProofQuery3 ProofQuery4 PropsQuery ModelWatch SpecWatch ProofWatch ProofWatch2 ProofWatch3 ProofWatch4 ProofWatch5 ProofWatch6 PropsWatch.
From Verif Require Import ModelStatus SpecStatus ProofStatus.

Section Run.
Variable C : Type.
Variable handle : C -> N * bytes -> C * bool * list (cmd C).
Variable stopped : C -> StopReason -> list (cmd C).
Variable qfuel : nat.
Variable stale : option entry.
Variable q : bytes.
Hypothesis HA : forall c r, Forall (fun c => ~ touches q c) (snd (handle c r)).
Hypothesis HS : forall c x, Forall (fun c => ~ touches q c) (stopped c x).
Hypothesis NP : never_process handle stopped.
Variable fuel : nat.
Notation ex := (exec handle stopped qfuel stale fuel).

Lemma status_scan_calls rs : forall c ok0 last0 s s' c' ok last_, status_scan C handle stopped qfuel stale fuel q rs c ok0 last0 s = Ok (s', c', ok, last_) ->
  Inv C s -> pending_clear q s ->
  exists t asked called, r_trace s' = r_trace s ++ t /\ calls q t = called /\ first_pass no_content handle c rs = (asked, called, c') /\
  still C s s' /\ Inv C s' /\ pending_clear q s' /\ find_watch q (r_cbs s') = find_watch q (r_cbs s) /\ grows (r_db s) (r_db s') /\
  ok = (ok0 || match called with [] => false | _ => true end)%bool /\ last_ = last (map created asked) last0.
Proof.
  induction rs as [|x rs IH]; cbn [status_scan first_pass]; intros c ok0 last0 s s' c' ok last_ E I P.
  - injection E as <- <- <- <-. exists [], [], []. rewrite app_nil_r, orb_false_r. chain. split; [apply grows_refl|]. auto.
  - destruct (no_content x) eqn:NC.
    + apply IH in E as (t & a & b & T & K & F & S & I1 & P1 & W & G & O & L); [|exact I|exact P]. exists t, (x :: a), b. rewrite F. chain. rewrite L. cbn [map].
      destruct a; [reflexivity|]. cbn [map]. generalize (created p) (map created a) (created x) last0. clear. intros y l. revert y. induction l as [|z l IH]; intros y d d'; [reflexivity|]. apply (IH z d d').
    + pose proof (HA c x) as HA1. pose proof (proj1 NP c x) as NP1. destruct (handle c x) as [[c1 b1] cs]. cbn [snd] in HA1, NP1.
      destruct (ex Free (add_event s (Called q x)) cs) as [s1| | |] eqn:X; try discriminate. cbn [obind] in E.
      destruct (exec_apart C handle stopped qfuel stale q HA HS fuel _ _ _ _ HA1 X) as [ST OU]. pose proof (exec_still C handle stopped qfuel stale fuel NP _ _ _ _ NP1 X) as SL.
      assert (Inv C (add_event s (Called q x))) as I0 by exact I. destruct (ST I0) as (I1 & G1 & _). destruct (OU I0 P) as (P1 & _ & t & T & K). destruct SL as [SN UP]. rewrite UP, between_none in K by (cbn; lia). cbn [deliver] in K. injection K as K1 K2. cbn [r_cbs add_event] in K1.
      assert (calls q (Called q x :: t) = [x]) as CX. { cbn [calls flat_map]. fold (calls q t). rewrite K2, (proj2 (beqb_eq q q) eq_refl). reflexivity. }
      destruct b1.
      * injection E as <- <- <- <-. exists (Called q x :: t), [], [x]. split; [rewrite T; cbn; now rewrite <- app_assoc|]. split; [exact CX|]. split; [reflexivity|]. split; [split; [exact SN|exact UP]|]. chain. split; [now rewrite orb_true_r|reflexivity].
      * apply IH in E as (t2 & a & b & T2 & C2 & F2 & S2 & I2 & P2 & W2 & G2 & O2 & L2); [|exact I1|exact P1]. rewrite F2. exists ((Called q x :: t) ++ t2), a, (x :: b). split; [rewrite T2, T; cbn; now rewrite <- !app_assoc|].
        rewrite calls_app, CX, C2. split; [reflexivity|]. split; [reflexivity|]. split; [eapply still_trans; [|exact S2]; split; [exact SN|exact UP]|].
        split; [exact I2|]. split; [exact P2|]. split; [congruence|]. split; [eapply grows_trans; [exact G1|exact G2]|]. split; [|exact L2]. rewrite O2. now rewrite orb_true_r.
Qed.
Lemma set_db_inv s d : Inv C s -> grows (r_db s) d -> Inv C (set_db s d).
Proof.
  intros (A & B & l0 & l1 & R0 & R1) G. destruct (G _ R1) as [l2 R2]. split; [exact A|]. split; [exact B|]. exists l0, (l1 ++ l2). split; [exact R0|]. now rewrite app_assoc.
Qed.
End Run.
Lemma lk_save_grows f now d p d' o : lk_save f now d p = (d', o) -> grows d d'.
Proof.
  unfold lk_save, save_one. destruct (save f now d [(p, Pending)]) as [[d1 ps] o1] eqn:E. apply save_grows in E. 
  intros H. assert (d1 = d') by (destruct o1 as [[a b]| | |]; cbn in H; congruence). now subst.
Qed.

Lemma link_request k st t nh : status_ok st -> t < 2 ^ 64 -> lk_status_request k st t nh = Ok (net_of k nh (request_point st t)).
Proof.
  intros S T. pose proof (status_place_ok st S) as SP. pose proof (place_short st). unfold lk_status_request. rewrite (proj2 (status_space_iff st _) (conj SP eq_refl)). cbn [conv_err obind].
  rewrite try_linkpoint_eval; [|constructor|apply wire_rooted_ok; [exact SP|lia]]. change (PLink PRIVATE (st_domain st) t [] (wire_rooted (status_place st)) []) with (request_point st t).
  pose proof (request_ok st t S T) as [L _]. apply N.leb_le in L. now rewrite L.
Qed.
Lemma conv_ok {E F A} (f : E -> F) (o : outcome E A) a : conv_err f o = Ok a -> o = Ok a.
Proof. destruct o; cbn; congruence. Qed.
Lemma to_query_ok conf o q : to_query conf o = Ok q -> exists P, o = Ok P /\ q = mkQ P conf.
Proof. unfold to_query. intros H. apply conv_ok in H. destruct (lift o) as [P| | |] eqn:E; try discriminate. apply lift_ok in E. exists P. cbn in H. split; [exact E|congruence]. Qed.
Lemma sat_capped a b : sat_add a b = capped_sum a b.
Proof. unfold sat_add, capped_sum. destruct (N.ltb_spec (a + b) (2 ^ 64)); lia. Qed.
Lemma created_request k nh st t : status_ok st -> t < 2 ^ 64 -> get_create_stamp (pf (net_of k nh (request_point st t))) = t.
Proof. reflexivity. Qed.
(** The parts of lk_status_watch. *)
Lemma watch_parts C handle stopped qfuel stale fuel f k st age t0 t1 t2 nh c (s s1 : rt C) ok : status_ok st -> t0 < 2 ^ 64 -> t1 < 2 ^ 64 ->
  lk_status_watch C handle stopped qfuel stale fuel f k st age t0 t1 t2 nh c s = Ok (s1, ok) ->
  exists P xs sa c1 l0 sb P2 z,
    add_all preds_default (seen_preds st age t0) = Ok P /\ query qfuel (r_snap s) TTree false P stale 0 = Ok xs /\
    status_scan C handle stopped qfuel stale fuel (st_qid st) xs c false 0 s = Ok (sa, c1, ok, l0) /\
    (if l0 =? 0 then exists d b, lk_save f t2 (r_db sa) (net_of k nh (request_point st t1)) = (d, Ok b) /\ sb = set_db sa d else sb = sa) /\
    add_all preds_default (watch_preds st age t0 (capped_sum (if l0 =? 0 then t1 else l0) age)) = Ok P2 /\
    watch handle stopped qfuel stale (exec handle stopped qfuel stale fuel) Free sb (st_qid st) TTree false P2 c1 = Ok (s1, z).
Proof.
  intros S T0 T1 E. unfold lk_status_watch in E. rewrite (overwatch_eval st age t0 S T0) in E.
  destruct (to_query [] _) as [qq| | |] eqn:Q; try discriminate. apply to_query_ok in Q as (P & AP & ->). cbn [obind q_preds] in E.
  destruct (query qfuel (r_snap s) TTree false P stale 0) as [xs| | |] eqn:QX; try discriminate. cbn [conv_err obind] in E.
  destruct (status_scan C handle stopped qfuel stale fuel (st_qid st) xs c false 0 s) as [[[[sa c1] ok1] l0]| | |] eqn:SC; try discriminate. cbn [conv_err obind] in E.
  match type of E with obind ?o _ = _ => destruct o as [[sb last_]| | |] eqn:SB end; try discriminate. cbn [obind] in E.
  assert (LS : last_ = (if l0 =? 0 then t1 else l0) /\ (if l0 =? 0 then exists d b, lk_save f t2 (r_db sa) (net_of k nh (request_point st t1)) = (d, Ok b) /\ sb = set_db sa d else sb = sa)).
  { destruct (l0 =? 0); [|split; congruence]. rewrite (link_request k st t1 nh S T1) in SB. destruct (lk_save f t2 (r_db sa) _) as [d o] eqn:SV. destruct o as [b| | |]; try discriminate. cbn [conv_err obind] in SB.
    rewrite created_request in SB by assumption. split; [congruence|]. exists d, b. split; [reflexivity|congruence]. }
  destruct LS as [LS SB']. clear SB. rewrite watch_eval in E by (unfold sat_add; lia). cbn [q_conf q_preds app] in E.
  destruct (to_query _ _) as [q2| | |] eqn:Q2 in E; try discriminate. apply to_query_ok in Q2 as (P2 & AP2 & ->). cbn [obind] in E. unfold watch_id in E.
  rewrite (own_id P2 [] (st_qid st) : get_option (mkQ P2 [[(Some CColon, str "qid"); (Some CColon, st_qid st)]]) (str "qid") = _) in E. cbn [obind q_preds] in E.
  match type of E with obind (conv_err _ ?o) _ = _ => destruct o as [[s3 z]| | |] eqn:W end; try discriminate. cbn [conv_err obind] in E. injection E as -> ->.
  exists P, xs, sa, c1, l0, sb, P2, z. split; [exact AP|]. split; [exact QX|]. split; [exact SC|]. split; [exact SB'|]. split; [|exact W].
  unfold watch_preds. rewrite add_all_app, AP. cbn [obind]. rewrite LS, sat_capped in AP2. exact AP2.
Qed.

(** ** What the predicates ask for *)
Lemma decode_eq n a b : lenN a = n -> lenN b = n -> bytes_ok a -> bytes_ok b -> be_decode a = be_decode b -> a = b.
Proof. intros LA LB OA OB. apply be_decode_inj; [unfold lenN in *; lia|exact OA|exact OB]. Qed.
Lemma below_iff hash b nh p recv cs : packet_of hash b nh p -> space_ok cs -> cs <> [] ->
  (satisfies hash recv nh p (mkPred RPrefix Equal (PSpace (wire_space cs))) <->
   exists rs more, point_rspace p = Some rs /\ has_space rs (cs ++ more) /\ lenN cs <= declared_depth rs).
Proof.
  intros PK SP NE. unfold satisfies. cbn [p_kind p_val]. split.
  - intros [X|(rs & cs' & more & R & H & W & D)]; [destruct cs as [|[|x c] cs]; [congruence|destruct SP as [SP _]; inversion SP as [|? ? X1 _]; destruct X1 as [X1 _]; cbn in X1; lia|discriminate]|].
    assert (cs' = cs) as ->. { symmetry. apply wire_space_inj; [apply SP| |exact W]. destruct H as [[H _] _]. apply Forall_app in H. apply H. }
    exists rs, more. auto.
  - intros (rs & more & R & H & D). right. exists rs, cs, more. auto.
Qed.
Lemma seen_iff hash b nh p recv st age now : hash32 hash -> packet_of hash b nh p -> status_ok st ->
  (Forall (satisfies hash recv nh p) (seen_preds st age now) <-> local_below (st_domain st) (status_place st) p /\ recent age now p).
Proof.
  intros HL PK S. pose proof (status_place_ok st S) as SP. assert (NE : status_place st <> []) by discriminate. destruct S as (_ & _ & LD & BD & _).
  destruct (packet_bytes _ _ _ _ PK) as (_ & _ & BC). apply content_bytes in BC. pose proof PK as (_ & _ & (_ & PO) & _).
  assert (Z : be_decode (repeat 0 32) = 0) by reflexivity. assert (ZB : bytes_ok (repeat 0 32)) by now apply bytes_okb. assert (ZL : lenN (repeat 0 32) = 32) by reflexivity.
  unfold seen_preds. rewrite !Forall_cons_iff, (below_iff hash b nh p recv (status_place st) PK SP NE). clear NE. unfold satisfies, local_below, recent. cbn [p_kind p_val p_op holds]. split.
  - intros ((g & G & G') & (d & D & D') & (c & C & C') & (rs & more & R & H & L) & _). destruct p as [x|x|g0 dm c0 ls rs0 dd|g0 dm c0 ls rs0 dd pk sg]; try discriminate; cbn [num_field point_rspace] in *;
      injection G as <-; injection D as <-; injection C as <-; injection R as <-;
      (assert (g0 = repeat 0 32) as -> by (apply (decode_eq 32); [apply PO|exact ZL|apply BC|exact ZB|now rewrite Z]));
      (assert (dm = st_domain st) as -> by (apply (decode_eq 16); [apply PO|exact LD|apply BC|exact BD|assumption])).
    + split; [|exists c0; split; [reflexivity|lia]]. exists c0, ls, rs0, dd, more. auto.
    + split; [|exists c0; split; [reflexivity|lia]]. exists c0, ls, rs0, dd, more. split; [right; eauto|auto].
  - intros ((c & ls & rs & dd & more & E & H & L) & (c' & C & C')). 
    destruct E as [->|(k & sg & ->)]; cbn [num_field point_rspace point_create] in *; injection C as ->; (split; [exists 0; now rewrite Z|]); (split; [exists (be_decode (st_domain st)); auto|]); (split; [exists c'; split; [reflexivity|lia]|]); (split; [exists rs, more; auto|constructor]).
Qed.
Lemma len0 {A} (l : list A) : lenN l = 0 <-> l = [].
Proof. destruct l; [easy|]. rewrite lenN_cons. split; [lia|discriminate]. Qed.
Lemma watch_iff hash b nh p recv st age now until : hash32 hash -> packet_of hash b nh p -> status_ok st ->
  (Forall (satisfies hash recv nh p) (watch_preds st age now until) <-> local_below (st_domain st) (status_place st) p /\ recent age now p /\ replies p /\ recv < until).
Proof.
  intros HL PK S. unfold watch_preds. rewrite Forall_app, (seen_iff hash b nh p recv st age now HL PK S). rewrite !Forall_cons_iff. unfold replies.
  assert (local_below (st_domain st) (status_place st) p -> (satisfies hash recv nh p (mkPred (RField DataSizeF) Greater (PNum 0)) <-> point_data p <> []) /\ (satisfies hash recv nh p (mkPred (RField LinksLenF) Greater (PNum 0)) <-> point_links p <> [])) as K.
  { intros (c & ls & rs & dd & more & E & _). unfold satisfies. cbn [p_kind p_val p_op holds].
    destruct E as [->|(k & sg & ->)]; cbn [num_field point_data point_links]; rewrite <- !len0; (split; split; [intros (x & X & Y); injection X as <-; lia|intros X; eexists; split; [reflexivity|lia]|intros (x & X & Y); injection X as <-; lia|intros X; eexists; split; [reflexivity|lia]]). }
  unfold satisfies at 3 4. cbn [p_kind p_val p_op holds]. split.
  - intros ((A & B) & C & D & E & _). destruct (K A) as [K1 K2]. apply K1 in C. apply K2 in D. auto.
  - intros (A & B & (C & D) & E). destruct (K A) as [K1 K2]. apply K1 in D. apply K2 in C. auto 10.
Qed.
Lemma no_content_iff hash b nh p recv : hash32 hash -> packet_of hash b nh p -> (no_content (recv, b) = true <-> asks p).
Proof.
  intros HL PK. unfold no_content. cbn [snd]. rewrite (view_packet hash b nh p HL PK), andb_true_iff, !N.eqb_eq, !len0. destruct p; unfold asks; cbn; tauto.
Qed.
Lemma created_is hash b nh p recv c : hash32 hash -> packet_of hash b nh p -> point_create p = Some c -> created (recv, b) = c.
Proof. intros HL PK E. unfold created. cbn [snd]. rewrite (view_packet hash b nh p HL PK). destruct p; cbn in *; congruence. Qed.
