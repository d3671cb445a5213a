(** * C90: following links *)
From Coq Require Import List NArith Lia Bool.
From Verif Require Import Bytes ModelSpace SpecSpace ModelPkt SpecPkt ProofPkt2 PropsPkt SpecTree ModelLns ModelCollect SpecCollect ProofCollect ProofRewrite ModelLinks SpecLinks PropsCollect PropsRewrite.
Import ListNotations.
Local Open Scope N_scope.

Lemma links_has p : has_links p (pkt_links p).
Proof. unfold has_links, pkt_links, ModelTree.get_links, pf. now destruct (fields (point_parts p)). Qed.
Lemma has_links_eq p ls : has_links p ls -> ls = pkt_links p.
Proof. unfold has_links, pkt_links, ModelTree.get_links, pf. destruct (fields (point_parts p)); auto. Qed.

Section C90.
  Variable find : bytes -> option NetPktParts.
  Variables (private : option bool) (write forward : list Dest).
  Hypothesis PR : private <> Some false.
  Hypothesis NB : ~ In DBuffer (write ++ forward).

  Lemma writes ds p o : ~ In DBuffer ds -> exists o', write_multi_dest private false ds p o = Ok o'.
  Proof.
    revert o. induction ds as [|d ds IHd]; intros o NI; cbn [write_multi_dest]; [eauto|]. unfold write_dest.
    assert (Q : exists b, check_write private p = Ok b).
    { unfold check_write. destruct private as [[|]|]; [eauto|congruence|]. destruct (check_private _); eauto. }
    destruct Q as [b ->]. cbn [obind]. assert (NI' : ~ In DBuffer ds) by (intros H; apply NI; now right).
    destruct b; cbn [negb obind]; [|now apply IHd]. destruct d; cbn [obind]; try (now apply IHd). destruct NI. now left.
  Qed.
  Lemma writes_log ds p o : ~ In DBuffer ds -> exists o', write_multi_dest private false ds p o = Ok o' /\ o_log o' = o_log o ++ direct private ds p /\ o_buf o' = o_buf o.
  Proof. intros H. destruct (writes ds p o H) as [o' W]. exists o'. split; [exact W|]. now apply write_log. Qed.
  Let NBw : ~ In DBuffer write. Proof. intros H. apply NB, in_app_iff. now left. Qed.
  Let NBf : ~ In DBuffer forward. Proof. intros H. apply NB, in_app_iff. now right. Qed.

  Lemma skip_lists level : forall ls o, exists qs o', listing find level ls qs /\ get_links find private write level LSkip ls o = (o', Ok tt) /\
    o_log o' = o_log o ++ flat_map (direct private write) qs /\ o_buf o' = o_buf o.
  Proof.
    induction level as [|n IHn]; induction ls as [|[t ptr] ls IH]; intros o; try (exists [], o; split; [constructor|]; split; [reflexivity|]; cbn; now rewrite app_nil_r).
    - destruct (find ptr) as [q|] eqn:F.
      + destruct (writes_log write q o NBw) as (o1 & W & L1 & B1). destruct (IH o1) as (qs & o' & LI & G & LG & BF).
        exists (q :: qs), o'. split; [now apply listing_last|]. cbn [get_links]. rewrite F, W. split; [exact G|]. cbn [flat_map]. rewrite LG, L1, BF, <- app_assoc. auto.
      + destruct (IH o) as (qs & o' & LI & G & LG & BF). exists qs, o'. split; [now apply listing_missing|]. cbn [get_links]. rewrite F. auto.
    - destruct (find ptr) as [q|] eqn:F.
      + destruct (writes_log write q o NBw) as (o1 & W & L1 & B1). destruct (IHn (pkt_links q) o1) as (qs1 & o2 & LI1 & G1 & LG1 & BF1).
        destruct (IH o2) as (qs & o' & LI & G & LG & BF). exists (q :: qs1 ++ qs), o'.
        split; [apply listing_deeper with (ms := pkt_links q); auto using links_has|]. cbn [get_links]. rewrite F, W, G1. split; [exact G|].
        cbn [flat_map]. rewrite flat_map_app, LG, LG1, L1, BF, BF1, <- !app_assoc. auto.
      + destruct (IH o) as (qs & o' & LI & G & LG & BF). exists qs, o'. split; [now apply listing_missing|]. cbn [get_links]. rewrite F. auto.
  Qed.

  (** With `skip` the command always succeeds; for each packet of the input it writes the packets
      linked, each followed by those it links itself as deep as asked, and then the packet. *)
  Theorem C90_skip : forall level vs, In VEnd vs -> ~ In VBad vs ->
    exists log, links_log find level private write forward (received vs) log /\
      links_exec find private write forward level LSkip vs = (mkOut log [], Ok tt).
  Proof.
    intros level vs IE NV. unfold links_exec.
    assert (G : forall o, exists log o', links_log find level private write forward (received vs) log /\ links_loop find private write forward level LSkip vs o = (o', Ok tt) /\
      o_log o' = o_log o ++ log /\ o_buf o' = o_buf o).
    { induction vs as [|v vs IH]; intros o; [destruct IE|]. destruct v as [p|b| |]; cbn [links_loop received].
      - assert (IE' : In VEnd vs) by (destruct IE as [IE|IE]; [discriminate|assumption]).
        assert (NV' : ~ In VBad vs) by (intros H; apply NV; now right).
        destruct (skip_lists level (pkt_links p) o) as (qs & o1 & LI & G & LG & BF).
        assert (E : (match pkt_links p with [] => (o, Ok tt) | x :: ls => get_links find private write level LSkip (x :: ls) o end) = (o1, Ok tt)).
        { destruct (pkt_links p); [|exact G]. destruct level; exact G. }
        rewrite E. destruct (writes_log forward p o1 NBf) as (o2 & W & L2 & B2). rewrite W. destruct (IH IE' NV' o2) as (log & o' & LL & R & LG' & BF').
        exists (flat_map (direct private write) qs ++ direct private forward p ++ log), o'. split; [apply links_log_cons with (ls := pkt_links p); auto using links_has|].
        split; [exact R|]. rewrite LG', L2, LG, BF', B2, BF, <- !app_assoc. auto.
      - assert (IE' : In VEnd vs) by (destruct IE as [IE|IE]; [discriminate|assumption]).
        assert (NV' : ~ In VBad vs) by (intros H; apply NV; now right). now apply IH.
      - exists [], o. split; [constructor|]. split; [reflexivity|]. now rewrite app_nil_r.
      - destruct NV. now left. }
    destruct (G (mkOut [] [])) as (log & [L B] & LL & R & LG & BF). cbn in LG, BF. subst. eauto.
  Qed.

  (** Input that cannot be read is an error, after the work for the packets before it; and whatever
      the mode, the command then does not succeed. *)
  Theorem C90_bad_input : forall level vs rest, ~ In VEnd vs -> ~ In VBad vs ->
    (exists log, links_log find level private write forward (received vs) log /\
      links_exec find private write forward level LSkip (vs ++ VBad :: rest) = (mkOut log [], Err LInput)) /\
    forall mode, snd (links_exec find private write forward level mode (vs ++ VBad :: rest)) <> Ok tt.
  Proof.
    intros level vs rest NE NV. unfold links_exec. split.
    - assert (G : forall o, exists log o', links_log find level private write forward (received vs) log /\ links_loop find private write forward level LSkip (vs ++ VBad :: rest) o = (o', Err LInput) /\
        o_log o' = o_log o ++ log /\ o_buf o' = o_buf o).
      { induction vs as [|v vs IH]; intros o; [exists [], o; split; [constructor|]; split; [reflexivity|]; now rewrite app_nil_r|].
        assert (NE' : ~ In VEnd vs) by (intros H; apply NE; now right). assert (NV' : ~ In VBad vs) by (intros H; apply NV; now right).
        destruct v as [p|b| |]; cbn [links_loop received app].
        - destruct (skip_lists level (pkt_links p) o) as (qs & o1 & LI & G & LG & BF).
          assert (E : (match pkt_links p with [] => (o, Ok tt) | x :: ls => get_links find private write level LSkip (x :: ls) o end) = (o1, Ok tt)).
          { destruct (pkt_links p); [|exact G]. destruct level; exact G. }
          rewrite E. destruct (writes_log forward p o1 NBf) as (o2 & W & L2 & B2). rewrite W. destruct (IH NE' NV' o2) as (log & o' & LL & R & LG' & BF').
          exists (flat_map (direct private write) qs ++ direct private forward p ++ log), o'. split; [apply links_log_cons with (ls := pkt_links p); auto using links_has|].
          split; [exact R|]. rewrite LG', L2, LG, BF', B2, BF, <- !app_assoc. auto.
        - now apply IH.
        - destruct NE. now left.
        - destruct NV. now left. }
      destruct (G (mkOut [] [])) as (log & [L B] & LL & R & LG & BF). cbn in LG, BF. subst. eauto.
    - intros mode. generalize (mkOut [] []). induction vs as [|v vs IH]; intros o; [cbn; discriminate|].
      assert (NE' : ~ In VEnd vs) by (intros H; apply NE; now right). assert (NV' : ~ In VBad vs) by (intros H; apply NV; now right).
      destruct v as [p|b| |]; cbn [links_loop app]; [|now apply IH|destruct NE; now left|destruct NV; now left].
      match goal with |- context [match ?x with (_, _) => _ end] => destruct x as [o1 [[]|e| |]]; cbn [snd]; try discriminate end.
      destruct (write_multi_dest private false forward p o1); cbn [snd]; try discriminate. now apply IH.
  Qed.

  (** The packets listed are exactly those at the end of a path of links that is not too long. *)
  Theorem C90_reach : forall level ls qs, listing find level ls qs -> forall q, In q qs <-> within find level ls q.
  Proof.
    intros level ls qs L q.
    assert (CONS : forall n t ptr ls q, within find n ((t, ptr) :: ls) q <->
      (exists q0, find ptr = Some q0 /\ (q = q0 \/ exists m, n = S m /\ within find m (pkt_links q0) q)) \/ within find n ls q).
    { clear. intros n t ptr ls q. split.
      - intros W. inversion W as [? ? ? LT|m ? q1 ms ? LT HM W']; subst; destruct LT as (t' & ptr' & I & F).
        + destruct I as [I|I]; [injection I as <- <-; left; eauto|right; constructor; exists t', ptr'; auto].
        + apply has_links_eq in HM. subst ms. destruct I as [I|I]; [injection I as <- <-; left; exists q1; eauto 6|].
          right. apply within_later with (q := q1) (ms := pkt_links q1); [exists t', ptr'; auto|apply links_has|exact W'].
      - intros [(q0 & F & [->|(m & -> & W)])|W].
        + constructor. exists t, ptr. split; [now left|exact F].
        + apply within_later with (q := q0) (ms := pkt_links q0); [exists t, ptr; split; [now left|exact F]|apply links_has|exact W].
        + inversion W as [? ? ? LT|m ? q1 ms ? LT HM W']; subst; destruct LT as (t' & ptr' & I & F).
          * constructor. exists t', ptr'. split; [now right|exact F].
          * apply within_later with (q := q1) (ms := ms); [exists t', ptr'; split; [now right|exact F]|exact HM|exact W']. }
    induction L as [n|n t ptr ls qs F L IH|t ptr ls q0 qs F L IH|n t ptr ls q0 ms qs1 qs F HM L1 IH1 L IH].
    - split; [intros []|]. intros W. inversion W as [? ? ? LT|? ? ? ? ? LT]; subst; destruct LT as (t' & ptr' & [] & _).
    - rewrite CONS, IH. split; [auto|]. intros [(q0 & F' & _)|W]; [congruence|exact W].
    - rewrite CONS. cbn [In]. rewrite IH. split.
      + intros [<-|W]; [left; eauto|now right].
      + intros [(q1 & F' & [->|(m & E & _)])|W]; [left; congruence|discriminate|now right].
    - apply has_links_eq in HM. subst ms. rewrite CONS. cbn [In]. rewrite in_app_iff, IH, IH1. split.
      + intros [<-|[W|W]]; [left; eauto|left; exists q0; eauto|now right].
      + intros [(q1 & F' & [->|(m & E & W)])|W]; [left; congruence| |now right; right].
        injection E as <-. rewrite F in F'. injection F' as <-. now right; left.
  Qed.

  (** With `error` and without recursion the command succeeds exactly if every link is found,
      and it writes what `skip` does. *)
  Theorem C90_error_partial : forall vs o res, In VEnd vs -> ~ In VBad vs -> links_exec find private write forward 0 LError vs = (o, res) ->
    (res = Ok tt <-> Forall (fun p => forall ls, has_links p ls -> all_found find ls) (received vs)) /\
    (res = Ok tt -> links_log find 0 private write forward (received vs) (o_log o)) /\
    (res = Ok tt \/ res = Err LNotFound).
  Proof.
    intros vs o res IE NV E. unfold links_exec in E.
    assert (LISTS : forall ls o o' res, get_links find private write 0 LError ls o = (o', res) ->
      (res = Ok tt \/ res = Err LNotFound) /\ (res = Ok tt <-> all_found find ls) /\
      (res = Ok tt -> exists qs, listing find 0 ls qs /\ o_log o' = o_log o ++ flat_map (direct private write) qs)).
    { clear - PR NBw. induction ls as [|[t ptr] ls IH]; intros o o' res; cbn [get_links].
      - intros E. injection E as <- <-. split; [now left|]. split; [split; [constructor|reflexivity]|]. intros _. exists []. split; [constructor|]. cbn. now rewrite app_nil_r.
      - destruct (find ptr) as [q|] eqn:F.
        + destruct (writes_log write q o NBw) as (o1 & W & L1 & B1). rewrite W. intros E. change (get_links find private write 0 LError ls o1 = (o', res)) in E.
          destruct (IH _ _ _ E) as (A & B & C). split; [exact A|]. split.
          * rewrite B. split; [intros G; constructor; [cbn; congruence|exact G]|intros G; now inversion G].
          * intros R. destruct (C R) as (qs & LI & LG). exists (q :: qs). split; [now apply listing_last|]. cbn [flat_map]. now rewrite LG, L1, <- app_assoc.
        + intros E. injection E as <- <-. split; [now right|]. split; [|discriminate]. split; [discriminate|]. intros G. inversion G as [|? ? G1]. cbn in G1. congruence. }
    assert (G : forall o0, links_loop find private write forward 0 LError vs o0 = (o, res) ->
      (res = Ok tt <-> Forall (fun p => forall ls, has_links p ls -> all_found find ls) (received vs)) /\
      (res = Ok tt -> exists log, links_log find 0 private write forward (received vs) log /\ o_log o = o_log o0 ++ log) /\
      (res = Ok tt \/ res = Err LNotFound)).
    { clear E. induction vs as [|v vs IH]; intros o0; [destruct IE|]. destruct v as [p|b| |]; cbn [links_loop received].
      - assert (IE' : In VEnd vs) by (destruct IE as [IE|IE]; [discriminate|assumption]).
        assert (NV' : ~ In VBad vs) by (intros H; apply NV; now right).
        destruct (get_links find private write 0 LError (pkt_links p) o0) as [o1 r1] eqn:GL.
        assert ((match pkt_links p with [] => (o0, Ok tt) | x :: ls => get_links find private write 0 LError (x :: ls) o0 end) = (o1, r1)) as ->.
        { destruct (pkt_links p); exact GL. }
        destruct (LISTS _ _ _ _ GL) as (A & B & C). destruct A as [->| ->].
        + destruct (writes_log forward p o1 NBf) as (o2 & W & L2 & B2). rewrite W. intros R. destruct (IH IE' NV' o2 R) as (X & Y & Z).
          split; [|split; [|exact Z]].
          * rewrite X. split; [intros G; constructor; [|exact G]|intros G; now inversion G]. intros ls HL. apply has_links_eq in HL. subst. now apply B.
          * intros Q. destruct (Y Q) as (log & LL & LG). destruct (C eq_refl) as (qs & LI & LG1).
            exists (flat_map (direct private write) qs ++ direct private forward p ++ log). split; [apply links_log_cons with (ls := pkt_links p); auto using links_has|].
            now rewrite LG, L2, LG1, <- !app_assoc.
        + intros R. injection R as <- <-. split; [|split; [discriminate|now right]]. split; [discriminate|]. intros G. inversion G as [|? ? G1 _]; subst.
          assert (Q : @Err LinksError unit LNotFound = Ok tt) by (apply B, G1, links_has). discriminate.
      - assert (IE' : In VEnd vs) by (destruct IE as [IE|IE]; [discriminate|assumption]).
        assert (NV' : ~ In VBad vs) by (intros H; apply NV; now right). now apply IH.
      - intros R. injection R as <- <-. split; [split; [constructor|reflexivity]|]. split; [|now left]. intros _. exists []. split; [constructor|]. now rewrite app_nil_r.
      - destruct NV. now left. }
    destruct (G _ E) as (X & Y & Z). split; [exact X|]. split; [|exact Z]. intros Q. destruct (Y Q) as (log & LL & LG). cbn in LG. now rewrite LG.
  Qed.
End C90.

(** Three points, the first links the second, which links one that is not there and the third. *)
Definition lk3 : NetPktParts := net_of toy ex_nh (PLink ex_group ex_domain 3 [] [] [3]).
Definition lk2 : NetPktParts := net_of toy ex_nh (PLink ex_group ex_domain 2 [(repeat 0 16, repeat 9 32); (repeat 0 16, np_hash lk3)] [] [2]).
Definition lk1 : NetPktParts := net_of toy ex_nh (PLink ex_group ex_domain 1 [(repeat 0 16, np_hash lk2); (repeat 1 16, np_hash lk3)] [] [1]).
Definition ex_find (h : bytes) : option NetPktParts := List.find (fun p => beqb (np_hash p) h) [lk1; lk2; lk3].
Definition stamps_written (o : Out) : list (Dest * N) :=
  map (fun x => (fst x, match fields (point_parts (snd x)) with FLink lp => create_stamp (ModelPkt.head lp) | _ => 0 end)) (o_log o).
Example C90_skip_ex :
  let '(o0, r0) := links_exec ex_find None [DOut 0] [DOut 1] 0 LSkip [VPkt lk1; VEnd] in
  let '(o1, r1) := links_exec ex_find None [DOut 0] [DOut 1] 5 LSkip [VPkt lk1; VEnd] in
  (stamps_written o0, r0) = ([(DOut 0, 2); (DOut 0, 3); (DOut 1, 1)], Ok tt) /\
  (stamps_written o1, r1) = ([(DOut 0, 2); (DOut 0, 3); (DOut 0, 3); (DOut 1, 1)], Ok tt).
Proof. vm_compute. split; reflexivity. Qed.
Print Assumptions C90_skip.
Example C90_bad_input_ex : let '(o, r) := links_exec ex_find None [DOut 0] [DOut 1] 0 LSkip [VPkt lk1; VBad; VPkt lk2; VEnd] in
  (stamps_written o, r) = ([(DOut 0, 2); (DOut 0, 3); (DOut 1, 1)], Err LInput).
Proof. vm_compute. reflexivity. Qed.
Print Assumptions C90_bad_input.
Example C90_reach_ex : listing ex_find 1 (pkt_links lk1) [lk2; lk3; lk3].
Proof.
  apply listing_deeper with (t := repeat 0 16) (ptr := np_hash lk2) (ms := pkt_links lk2) (qs1 := [lk3]) (qs := [lk3]); [vm_compute; reflexivity|apply links_has| |].
  - apply listing_missing with (ptr := repeat 9 32); [vm_compute; reflexivity|]. apply listing_last with (ptr := np_hash lk3); [vm_compute; reflexivity|constructor].
  - apply listing_deeper with (ptr := np_hash lk3) (ms := []) (qs1 := []) (qs := []); [vm_compute; reflexivity|reflexivity|constructor|constructor].
Qed.
Print Assumptions C90_reach.
Example C90_error_ex : snd (links_exec ex_find None [DOut 0] [DOut 1] 0 LError [VPkt lk1; VEnd]) = Ok tt /\
  snd (links_exec ex_find None [DOut 0] [DOut 1] 0 LError [VPkt lk1; VPkt lk2; VEnd]) = Err LNotFound.
Proof. vm_compute. split; reflexivity. Qed.
Print Assumptions C90_error_partial.

(** With recursion the command succeeds although a link is not found, and the links after it
    are not followed. *)
Theorem C90_error_refuted : forall level, exists find p ls q ms o,
  has_links p ls /\ links_to find ls q /\ has_links q ms /\ ~ all_found find ms /\
  links_exec find None [DOut 0] [DOut 1] (S level) LError [VPkt p; VEnd] = (o, Ok tt) /\
  exists q', within find 1 ls q' /\ ~ In (DOut 0, q') (o_log o).
Proof.
  intros level. set (p := net_of toy ex_nh (PLink ex_group ex_domain 1 [(repeat 0 16, np_hash lk2)] [] [1])).
  exists ex_find, p, (pkt_links p), lk2, (pkt_links lk2), (mkOut [(DOut 0, lk2); (DOut 1, p)] []).
  split; [apply links_has|]. assert (L1 : links_to ex_find (pkt_links p) lk2) by (exists (repeat 0 16), (np_hash lk2); split; [now left|vm_compute; reflexivity]).
  split; [exact L1|]. split; [apply links_has|]. split; [|split].
  - intros A. inversion A as [|? ? A1]. apply A1. vm_compute. reflexivity.
  - destruct level; vm_compute; reflexivity.
  - exists lk3. split.
    + apply within_later with (q := lk2) (ms := pkt_links lk2); [exact L1|apply links_has|]. constructor. exists (repeat 0 16), (np_hash lk3). split; [right; now left|vm_compute; reflexivity].
    + intros H. apply (in_map (fun x => be_decode (np_hash (snd x)))) in H. revert H. vm_compute. intros H. repeat (destruct H as [H|H]; [discriminate|]). exact H.
Qed.
Print Assumptions C90_error_refuted.

(** A linked packet of the private group is not written with --private-write=false, as asked; the
    command fails for such a packet in its input, but not for a linked one. *)
Theorem C90_private_refuted : exists find p ls q, has_links p ls /\ links_to find ls q /\
  parts_group (point_parts q) = Some PRIVATE /\
  links_exec find (Some false) [DOut 0] [DOut 1] 0 LError [VPkt p; VEnd] = (mkOut [(DOut 1, p)] [], Ok tt) /\
  links_exec find (Some false) [DOut 0] [DOut 1] 0 LError [VPkt q; VEnd] = (mkOut [] [], Err (LWrite EPrivate)).
Proof.
  set (q := net_of toy ex_nh (PLink PRIVATE ex_domain 3 [] [] [3])).
  set (p := net_of toy ex_nh (PLink ex_group ex_domain 1 [(repeat 0 16, np_hash q)] [] [1])).
  exists (fun _ => Some q), p, (pkt_links p), q. split; [apply links_has|].
  split; [exists (repeat 0 16), (np_hash q); split; [now left|reflexivity]|]. split; [vm_compute; reflexivity|]. split; vm_compute; reflexivity.
Qed.
Print Assumptions C90_private_refuted.
