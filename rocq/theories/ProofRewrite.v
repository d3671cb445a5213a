(** * Proofs about rewriting packets *)
From Coq Require Import List NArith ZArith Lia Bool Arith.
From Verif Require Import Bytes ModelSpace ModelPkt ModelAbe ModelEval ModelReader SpecSpace SpecPkt ProofPkt ProofPkt2 PropsPkt
  SpecTree SpecReader ModelCollect SpecCollect ProofCollect ModelRewrite SpecRewrite.
From Verif Require ProofRooted.
Import ListNotations.
Local Open Scope N_scope.

Lemma write_log private ds p : forall o o', write_multi_dest private false ds p o = Ok o' ->
  o_log o' = o_log o ++ direct private ds p /\ o_buf o' = o_buf o.
Proof.
  induction ds as [|d ds IH]; intros o o' W; cbn [write_multi_dest] in W.
  - injection W as <-. unfold direct. destruct (shown private p); cbn; now rewrite app_nil_r.
  - unfold write_dest in W. destruct (check_write private p) as [ok| | |] eqn:E; try discriminate.
    apply check_write_ok in E. cbn [obind] in W.
    destruct (shown private p) eqn:SH; subst ok; cbn [negb obind] in W.
    + destruct d as [n| |]; cbn [obind] in W; try discriminate;
        apply IH in W as [W1 W2]; cbn [o_log o_buf] in W1, W2; (split; [|exact W2]); rewrite W1; unfold direct; rewrite SH; cbn;
        rewrite <- app_assoc; reflexivity.
    + apply IH in W as [W1 W2]. split; [|exact W2]. rewrite W1. unfold direct. now rewrite SH.
Qed.
Lemma cost_of rs sp : rooted_ok rs -> rs_space rs = Ok sp ->
  space_cost rs = match sp with [] => 0 | _ => lenN sp + 8 end.
Proof.
  intros RO E. destruct RO as [->|(d & cs & SO & L8 & _ & ->)].
  - unfold rs_space in E. cbn in E. injection E as <-. reflexivity.
  - assert (lenN (offsets cs) = 7) as LO by (unfold lenN; now rewrite ProofRooted.offsets_length).
    assert (L : lenN (rooted_with d cs) = lenN (wire_space cs) + 8).
    { unfold rooted_with. rewrite lenN_cons, lenN_app, LO. lia. }
    unfold rs_space, rs_fields in E. unfold rooted_with in E at 1. 
    change (d :: offsets cs ++ wire_space cs) with (rooted_with d cs) in E.
    destruct (N.ltb_spec (lenN (rooted_with d cs)) 8) as [Q|Q]; [lia|]. cbn [obind] in E. injection E as <-.
    assert (D : dropN 8 (rooted_with d cs) = wire_space cs).
    { unfold rooted_with. change (d :: offsets cs ++ wire_space cs) with ((d :: offsets cs) ++ wire_space cs).
      apply dropN_app_exact. rewrite lenN_cons. lia. }
    rewrite D. unfold space_cost. rewrite L. destruct (wire_space cs) as [|x w]; [reflexivity|].
    rewrite lenN_cons. destruct (N.leb_spec (1 + lenN w + 8) 8); lia.
Qed.

Section Rewrite.
  Variables (fuel : nat) (scope_of : NetPktParts -> scope) (c : crypto) (nh : bytes).
  Variables (og od os : option (NetPktParts -> option bytes)) (oc : option (NetPktParts -> option N)).
  Variables (interpret : bool) (mode : SignMode) (key : option (skey c)) (private : option bool) (write forward : list Dest).

  Lemma changed_ok {A} (o : option (NetPktParts -> option A)) p old new : changed o p old = Ok new -> becomes o p old new.
  Proof. unfold changed, becomes. destruct o as [f|]; [destruct (f p); congruence|congruence]. Qed.

  Lemma pkt_made p lp k r r1 q : Forall link_ok (links (ModelPkt.tail lp)) ->
    rewrite_pkt fuel scope_of c nh og od os oc interpret p lp k r = (r1, Ok q) ->
    exists g' dm' t' rs' b,
      becomes og p (group (ModelPkt.head lp)) g' /\ becomes od p (domain (ModelPkt.head lp)) dm' /\
      becomes os p (ModelPkt.rspace (ModelPkt.tail lp)) rs' /\ becomes oc p (create_stamp (ModelPkt.head lp)) t' /\
      (if interpret
       then exists f, f + 48 * lenN (links (ModelPkt.tail lp)) + space_cost rs' = (match k with Some _ => 64924 | None => 64960 end) /\
                      read_next_data fuel (scope_of p) r f = (r1, Ok (Some b))
       else r1 = r /\ b = tdata (ModelPkt.tail lp)) /\
      is_packet c nh q (point_with c g' dm' rs' k (fun _ => t') 0 (links (ModelPkt.tail lp)) b).
  Proof.
    intros LO R. unfold rewrite_pkt in R.
    destruct (changed og p _) as [g'| | |] eqn:EG; try discriminate.
    destruct (changed od p _) as [dm'| | |] eqn:ED; try discriminate.
    destruct (changed os p _) as [rs'| | |] eqn:ES; try discriminate.
    assert (FIN : forall b, obind (changed oc p (create_stamp (ModelPkt.head lp))) (fun t =>
        of_point (try_point c g' dm' rs' (links (ModelPkt.tail lp)) b t k nh)) = Ok q ->
      exists t', becomes oc p (create_stamp (ModelPkt.head lp)) t' /\ rooted_ok rs' /\
        is_packet c nh q (point_with c g' dm' rs' k (fun _ => t') 0 (links (ModelPkt.tail lp)) b)).
    { intros b B. destruct (changed oc p _) as [t'| | |] eqn:EC; try discriminate. cbn [obind] in B.
      exists t'. split; [now apply changed_ok|].
      destruct (try_point c g' dm' rs' (links (ModelPkt.tail lp)) b t' k nh) as [x| | |] eqn:T; try discriminate.
      injection B as ->. unfold try_point in T. unfold is_packet, point_with. destruct k as [sk'|].
      - apply keypoint_inv in T as (RO & SZ & ->); [|assumption]. split; [assumption|]. unfold key_point. split; [|reflexivity].
        apply seg_net. cbn [point_size]. lia.
      - apply linkpoint_inv in T as (RO & SZ & ->); [|assumption]. split; [assumption|]. split; [|reflexivity].
        apply seg_net. cbn [point_size]. lia. }
    apply changed_ok in EG, ED, ES.
    destruct interpret.
    - destruct (rs_space rs') as [sp| | |] eqn:SP; try discriminate.
      set (z := calc_free_space sp (links (ModelPkt.tail lp)) [] (match k with Some _ => true | None => false end)) in R.
      destruct (Z.ltb_spec z 0) as [Q|Q]; [discriminate|].
      destruct (read_next_data fuel (scope_of p) r (Z.to_N z)) as [r' [[b|]| | |]] eqn:RD; try discriminate.
      cbn [of_read obind] in R. injection R as <- R. destruct (FIN b R) as (t' & BC & RO & IP).
      exists g', dm', t', rs', b. repeat (split; [assumption|]). split; [|assumption].
      exists (Z.to_N z). split; [|assumption]. rewrite (cost_of rs' sp RO SP).
      unfold z, calc_free_space in *. change (Z.of_N MAX_LINKPOINT_DATA_SIZE) with 64960%Z in *. change (Z.of_N MAX_KEYPOINT_DATA_SIZE) with 64924%Z in *.
      change (lenN (@nil N)) with 0 in *. clear - Q.
      destruct k; destruct sp as [|x sp]; cbv beta iota in *;
        change (Z.of_N MAX_LINKPOINT_DATA_SIZE) with 64960%Z in *; change (Z.of_N MAX_KEYPOINT_DATA_SIZE) with 64924%Z in *; lia.
    - cbn [obind] in R. injection R as <- R. destruct (FIN _ R) as (t' & BC & RO & IP).
      exists g', dm', t', rs', (tdata (ModelPkt.tail lp)). repeat (split; [assumption|]). split; [auto|assumption].
  Qed.

  Lemma loop_rewrites : forall vs r o o' pts,
    Forall2 (carries (hash c)) (received vs) pts ->
    rewrite_loop fuel scope_of c nh og od os oc interpret mode key private write forward r vs o = Ok o' ->
    exists qs, rewrites fuel scope_of c nh og od os oc interpret mode key r (combine (received vs) pts) qs /\
      o_log o' = o_log o ++ rewritten_log private write forward (received vs) qs /\ o_buf o' = o_buf o.
  Proof.
    induction vs as [|v vs IH]; intros r o o' pts CA R; [discriminate|].
    destruct v as [p|b| |]; cbn [rewrite_loop received] in *; try discriminate.
    - inversion CA as [|? pt ? pts' C1 CA']; subst. cbn [combine].
      destruct (rewrite_one fuel scope_of c nh og od os oc interpret mode key p r) as [r1 [q| | |]] eqn:ONE; try discriminate.
      cbn [obind] in R.
      destruct (write_multi_dest private false write q o) as [o1| | |] eqn:W1; try discriminate. cbn [of_write obind] in R.
      destruct (write_multi_dest private false forward p o1) as [o2| | |] eqn:W2; try discriminate. cbn [of_write obind] in R.
      apply write_log in W1 as [L1 B1], W2 as [L2 B2]. destruct (IH _ _ _ _ CA' R) as (qs & RW & LG & BF).
      exists (q :: qs). split; [|split].
      + destruct C1 as (HF & PO & _). unfold rewrite_one in ONE. unfold has_fields in HF.
        destruct (fields (point_parts p)) as [d|lp|lp sg|d|d]; try discriminate; subst pt.
        * injection ONE as <- <-. apply rewrites_stay; [now destruct mode|assumption].
        * assert (LO : Forall link_ok (links (ModelPkt.tail lp))) by (destruct PO as (_ & PO); cbn in PO; tauto).
          apply pkt_made in ONE as (g' & dm' & t' & rs' & b & BG & BD & BS & BC & RD & IP); [|assumption].
          eapply rewrites_make; try eassumption; try reflexivity. now destruct mode.
        * assert (LO : Forall link_ok (links (ModelPkt.tail lp))) by (destruct PO as (_ & PO); cbn in PO; tauto).
          destruct mode.
          -- destruct key as [sk|] eqn:EK; [|discriminate]. rewrite <- EK in *.
             apply pkt_made in ONE as (g' & dm' & t' & rs' & b & BG & BD & BS & BC & RD & IP); [|assumption].
             apply rewrites_make with (r1 := r1) (k := key) (g := group (ModelPkt.head lp)) (dm := domain (ModelPkt.head lp)) (t := create_stamp (ModelPkt.head lp)) (ls := links (ModelPkt.tail lp)) (rs := ModelPkt.rspace (ModelPkt.tail lp)) (d := tdata (ModelPkt.tail lp)) (g' := g') (dm' := dm') (t' := t') (rs' := rs') (b := b); try assumption; reflexivity.
          -- apply pkt_made in ONE as (g' & dm' & t' & rs' & b & BG & BD & BS & BC & RD & IP); [|assumption].
             apply rewrites_make with (r1 := r1) (k := None) (g := group (ModelPkt.head lp)) (dm := domain (ModelPkt.head lp)) (t := create_stamp (ModelPkt.head lp)) (ls := links (ModelPkt.tail lp)) (rs := ModelPkt.rspace (ModelPkt.tail lp)) (d := tdata (ModelPkt.tail lp)) (g' := g') (dm' := dm') (t' := t') (rs' := rs') (b := b); try assumption; reflexivity.
          -- injection ONE as <- <-. now apply rewrites_stay.
          -- destruct key as [sk|] eqn:EK; [|discriminate]. rewrite <- EK in *.
             apply pkt_made in ONE as (g' & dm' & t' & rs' & b & BG & BD & BS & BC & RD & IP); [|assumption].
             apply rewrites_make with (r1 := r1) (k := key) (g := group (ModelPkt.head lp)) (dm := domain (ModelPkt.head lp)) (t := create_stamp (ModelPkt.head lp)) (ls := links (ModelPkt.tail lp)) (rs := ModelPkt.rspace (ModelPkt.tail lp)) (d := tdata (ModelPkt.tail lp)) (g' := g') (dm' := dm') (t' := t') (rs' := rs') (b := b); try assumption; reflexivity.
      + rewrite LG, L2, L1. cbn [rewritten_log]. now rewrite <- !app_assoc.
      + congruence.
    - eauto.
    - injection R as <-. inversion CA; subst. exists []. split; [constructor|]. cbn. now rewrite app_nil_r.
  Qed.
End Rewrite.
