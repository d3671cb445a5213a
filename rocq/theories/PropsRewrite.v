(** * C88: rewriting packets *)
From Coq Require Import List NArith ZArith Lia Bool Arith.
From Verif Require Import Bytes ModelSpace ModelPkt ModelAbe ModelEval ModelReader SpecSpace SpecPkt ProofPkt ProofPkt2 PropsPkt
  ProofTree SpecTree SpecReader ModelCollect SpecCollect ProofCollect ProofCollect2 PropsReader PropsCollect ModelRewrite SpecRewrite ProofRewrite.
Import ListNotations.
Local Open Scope N_scope.

(** Every run that succeeds: each packet is replaced by the point with the fields the options
    say and all other fields as they were, signed or not as the mode says, in order; what is
    written is the new packet and then the old one. *)
Theorem C88_points : forall fuel scope_of c nh og od os oc interpret mode key private write forward r vs pts o,
  Forall2 (carries (hash c)) (received vs) pts ->
  rewrite fuel scope_of c nh og od os oc interpret mode key private write forward r vs = Ok o ->
  exists qs, rewrites fuel scope_of c nh og od os oc interpret mode key r (combine (received vs) pts) qs /\
    (signs mode = true -> key <> None) /\
    o = mkOut (rewritten_log private write forward (received vs) qs) [].
Proof.
  intros until o. intros CA R. unfold rewrite in R.
  destruct (signs mode && match key with None => true | _ => false end) eqn:K; [discriminate|].
  destruct (loop_rewrites _ _ _ _ _ _ _ _ _ _ _ _ _ _ _ _ _ _ _ CA R) as (qs & RW & LG & BF).
  exists qs. split; [exact RW|]. split.
  - intros S ->. rewrite S in K. discriminate.
  - destruct o as [L B]. cbn in LG, BF. now subst.
Qed.
Definition ex_points : list point :=
  [PLink ex_group ex_domain 7 ex_links (wire_rooted [[104; 105]]) [1; 2; 3]; PData [9; 9];
   key_point toy ex_group ex_domain 8 ex_links (wire_rooted [[104]]) [4] 5].
Definition ex_packets : list NetPktParts := map (net_of toy ex_nh) ex_points.
Definition ex_input : list Event := map VPkt ex_packets ++ [VEnd].
Definition ex_stamp : option (NetPktParts -> option N) :=
  Some (fun p => match fields (point_parts p) with FLink lp | FKey lp _ => Some (create_stamp (ModelPkt.head lp) + 100) | _ => None end).
Lemma ex_carries : Forall2 (carries (hash toy)) (received ex_input) ex_points.
Proof.
  assert (W : forall cs, space_ok cs -> (List.length cs <= 8)%nat -> rooted_ok (wire_rooted cs)) by exact wire_rooted_ok.
  assert (S1 : space_ok [[104; 105]]) by (now apply ProofTree.space_okb).
  assert (S2 : space_ok [[104]]) by (now apply ProofTree.space_okb).
  assert (LK : Forall link_ok ex_links) by (repeat (constructor; [now split|]); constructor).
  constructor; [|constructor; [|constructor; [|constructor]]].
  - split; [reflexivity|]. split; [|reflexivity]. split; [now vm_compute|]. repeat (split; [reflexivity || assumption|]).
    apply (W [[104; 105]] S1). cbn. lia.
  - split; [reflexivity|]. split; [|reflexivity]. split; [now vm_compute|exact Logic.I].
  - split; [reflexivity|]. split; [|reflexivity]. split; [now vm_compute|]. unfold key_point. repeat (split; [reflexivity || assumption|]).
    split; [apply (W [[104]] S2); cbn; lia|]. split; reflexivity.
Qed.
Example C88_points_ex :
  match rewrite 1000 (fun _ => snone) toy ex_nh None None None ex_stamp false SignAll (Some 5) None [DOut 0] [DDb]
          (open_reader plain_opts None) ex_input with
  | Ok o => map fst (o_log o) = [DOut 0; DDb; DOut 0; DDb; DOut 0; DDb] /\
      map (fun x => match fields (point_parts (snd x)) with
                    | FLink lp => (false, create_stamp (ModelPkt.head lp))
                    | FKey lp _ => (true, create_stamp (ModelPkt.head lp))
                    | _ => (false, 0) end) (o_log o) = [(true, 107); (false, 7); (false, 0); (false, 0); (true, 108); (true, 8)]
  | _ => False
  end.
Proof. vm_compute. split; reflexivity. Qed.
Print Assumptions C88_points.

(** The point keeps its hash if nothing is changed: an unsigned one that stays unsigned, and a
    signed one that is signed again with the same key, or skipped. *)
Definition kept {c} (mode : SignMode) (key : option (skey c)) (pt : point) : Prop :=
  match pt with
  | PData _ => True
  | PLink _ _ _ _ _ _ => mode <> SignAll
  | PKey g dm t ls rs d pk sg =>
      mode = Skip \/ signs mode = true /\ exists sk, key = Some sk /\ pt = point_with c g dm rs (Some sk) (fun _ => t) 0 ls d
  | PError _ => False
  end.
Theorem C88_same : forall fuel scope_of c nh mode key r vs pts o,
  Forall2 (carries (hash c)) (received vs) pts -> Forall (kept mode key) pts ->
  rewrite fuel scope_of c nh None None None None false mode key (Some true) [DOut 0] [] r vs = Ok o ->
  map (fun x => np_hash (snd x)) (o_log o) = map np_hash (received vs) /\ Forall (fun x => fst x = DOut 0) (o_log o).
Proof.
  intros until o. intros CA KE R. destruct (C88_points _ _ _ _ _ _ _ _ _ _ _ _ _ _ _ _ _ _ CA R) as (qs & RW & _ & ->). cbn [o_log].
  clear R. revert r pts qs CA KE RW. induction (received vs) as [|p ps IH]; intros r pts qs CA KE RW.
  - inversion RW; subst. split; [reflexivity|constructor].
  - inversion CA as [|? pt ? pts' C1 CA']; subst. inversion_clear KE as [|? ? K1 KE']. cbn [combine] in RW.
    inversion RW as [|? ? ? ? qs' FT RW'|? ? ? ? q ? qs' k g dm t ls rs d g' dm' t' rs' b FT FL BG BD BS BC RD IP RW']; subst.
    + destruct (IH _ _ _ CA' KE' RW') as [E1 E2]. cbn. split; [now rewrite E1|]. constructor; [reflexivity|assumption].
    + destruct (IH _ _ _ CA' KE' RW') as [E1 E2]. cbn. split; [|constructor; [reflexivity|assumption]]. rewrite E1. f_equal.
      cbn in BG, BD, BS, BC. subst g' dm' rs' t'. destruct RD as [_ ->]. destruct IP as [_ ->]. destruct C1 as (_ & _ & ->).
      destruct pt as [x|x|g0 dm0 t0 ls0 rs0 d0|g0 dm0 t0 ls0 rs0 d0 pk sg]; cbn [fields_link] in FL; try discriminate; injection FL as <- <- <- <- <- <-.
      * destruct mode; cbn [fate_of] in FT; [now destruct K1| | |]; injection FT as <-; reflexivity.
      * destruct K1 as [->|(S & sk & -> & E)]; [discriminate|].
        destruct mode; try discriminate; cbn [fate_of] in FT; injection FT as <-; now rewrite E.
Qed.
Example C88_same_ex : Forall (kept (c := toy) Resign (Some 5)) ex_points /\
  match rewrite 1000 (fun _ => snone) toy (repeat 3 32) None None None None false Resign (Some 5) (Some true) [DOut 0] []
          (open_reader plain_opts None) ex_input with
  | Ok o => List.length (o_log o) = 3%nat /\ map (fun x => net_header (snd x)) (o_log o) = [repeat 3 32; ex_nh; repeat 3 32]
  | _ => False
  end.
Proof.
  split; [|vm_compute; split; reflexivity]. constructor; [discriminate|]. constructor; [exact Logic.I|]. constructor; [|constructor].
  right. split; [reflexivity|]. exists 5. split; reflexivity.
Qed.
Print Assumptions C88_same.

(** Without options and data to read, a stream of points that are no error points is rewritten
    to its end, if signed ones fit. *)
Definition rewritable {c} (mode : SignMode) (key : option (skey c)) (pt : point) : Prop :=
  match pt with
  | PData _ => True
  | PLink _ _ _ _ _ _ => mode = SignAll -> point_size pt + 96 <= 65024
  | PKey _ _ _ _ _ _ _ _ => True
  | PError _ => False
  end.
Theorem C88_runs : forall fuel scope_of c nh mode key private write forward r vs pts,
  Forall2 (carries (hash c)) (received vs) pts -> Forall (rewritable mode key) pts ->
  (signs mode = true -> key <> None) -> private <> Some false -> ~ In DBuffer (write ++ forward) ->
  In VEnd vs -> ~ In VBad vs ->
  exists o, rewrite fuel scope_of c nh None None None None false mode key private write forward r vs = Ok o.
Proof.
  intros until pts. intros CA OK KY PR NB IE NV. unfold rewrite.
  assert (signs mode && match key with None => true | _ => false end = false) as ->.
  { destruct (signs mode); [|reflexivity]. destruct key; [reflexivity|]. now destruct (KY eq_refl). }
  assert (WR : forall ds p o, ~ In DBuffer ds -> exists o', write_multi_dest private false ds p o = Ok o').
  { induction ds as [|d ds IHd]; intros p o NI; cbn [write_multi_dest]; [eauto|]. unfold write_dest.
    assert (Q : exists b, check_write private p = Ok b).
    { unfold check_write. destruct private as [[|]|]; [eauto|congruence|]. destruct (check_private _); eauto. }
    destruct Q as [b ->]. cbn [obind]. assert (NI' : ~ In DBuffer ds) by (intros H; apply NI; now right).
    destruct b; cbn [negb obind]; [|now apply IHd]. destruct d; cbn [obind]; try (now apply IHd). destruct NI. now left. }
  generalize (mkOut [] []). revert r pts CA OK. induction vs as [|v vs IH]; intros r pts CA OK o; [destruct IE|].
  destruct v as [p|b| |]; cbn [rewrite_loop received] in *.
  - assert (IE' : In VEnd vs) by (destruct IE as [IE|IE]; [discriminate|assumption]).
    assert (NV' : ~ In VBad vs) by (intros H; apply NV; now right).
    inversion CA as [|? pt ? pts' C1 CA']; subst. inversion_clear OK as [|? ? O1 OK'].
    assert (ONE : exists r1 q, rewrite_one fuel scope_of c nh None None None None false mode key p r = (r1, Ok q)).
    { destruct C1 as (HF & PO & _). unfold rewrite_one. unfold has_fields in HF.
      assert (MK : forall lp k, Forall link_ok (links (ModelPkt.tail lp)) -> rooted_ok (ModelPkt.rspace (ModelPkt.tail lp)) ->
        (match k with Some _ => 160 | None => 64 end) + 48 * lenN (links (ModelPkt.tail lp)) + lenN (ModelPkt.rspace (ModelPkt.tail lp)) +
          lenN (tdata (ModelPkt.tail lp)) <= 65024 ->
        exists r1 q, rewrite_pkt fuel scope_of c nh None None None None false p lp k r = (r1, Ok q)).
      { intros lp k LO RO SZ. unfold rewrite_pkt, changed. cbn [obind]. unfold try_point. destruct k as [sk|].
        - rewrite try_keypoint_eval by assumption. unfold key_point at 1. cbn [point_size]. rewrite (proj2 (N.leb_le _ _)) by lia. cbn. eauto.
        - rewrite try_linkpoint_eval by assumption. cbn [point_size]. rewrite (proj2 (N.leb_le _ _)) by lia. cbn. eauto. }
      destruct (fields (point_parts p)) as [d|lp|lp sg|d|d]; subst.
      - eauto.
      - destruct PO as (SZ & PO). cbn in PO. cbn [point_size] in SZ. cbn [rewritable point_size] in O1. destruct PO as (_ & _ & _ & LO & RO).
        apply MK; auto. destruct mode; try lia. specialize (O1 eq_refl). destruct key; lia.
      - destruct PO as (SZ & PO). cbn in PO. cbn [point_size] in SZ. destruct PO as (_ & _ & _ & LO & RO & _).
        destruct mode; [destruct key; [apply MK; auto; lia|now destruct (KY eq_refl)]|apply MK; auto; lia|eauto|
                        destruct key; [apply MK; auto; lia|now destruct (KY eq_refl)]].
      - destruct O1.
      - destruct HF. }
    destruct ONE as (r1 & q & ->). cbn [obind].
    destruct (WR write q o) as [o1 W1]; [intros H; apply NB, in_app_iff; now left|]. rewrite W1. cbn [of_write obind].
    destruct (WR forward p o1) as [o2 W2]; [intros H; apply NB, in_app_iff; now right|]. rewrite W2. cbn [of_write obind].
    eapply IH; eassumption.
  - assert (IE' : In VEnd vs) by (destruct IE as [IE|IE]; [discriminate|assumption]).
    assert (NV' : ~ In VBad vs) by (intros H; apply NV; now right). eapply IH; eassumption.
  - eauto.
  - destruct NV. now left.
Qed.
Example C88_runs_ex : Forall (rewritable (c := toy) SignAll (Some 5)) ex_points.
Proof. constructor; [intros _; now vm_compute|]. constructor; [exact Logic.I|]. constructor; [exact Logic.I|constructor]. Qed.
Print Assumptions C88_runs.

(** An error point, which the reader of packets accepts, ends the command with a panic. *)
Theorem C88_error_refuted : forall fuel scope_of c nh og od os oc interpret mode key private write forward r p d vs,
  carries (hash c) p (PError d) -> (signs mode = true -> key <> None) ->
  rewrite fuel scope_of c nh og od os oc interpret mode key private write forward r (VPkt p :: vs) = Panic.
Proof.
  intros until vs. intros (HF & _) KY. unfold rewrite.
  assert (signs mode && match key with None => true | _ => false end = false) as ->.
  { destruct (signs mode); [|reflexivity]. destruct key; [reflexivity|]. now destruct (KY eq_refl). }
  cbn [rewrite_loop]. unfold rewrite_one. unfold has_fields in HF.
  destruct (fields (point_parts p)); try discriminate; try contradiction; reflexivity.
Qed.
Example C88_error_ex : carries (hash toy) (net_of toy ex_nh (PError [1])) (PError [1]) /\
  lk_read toy (packet (hash toy) ex_nh (PError [1])) false = Ok (packet (hash toy) ex_nh (PError [1]), []).
Proof. split; [|vm_compute; reflexivity]. split; [reflexivity|]. split; [|reflexivity]. split; [now vm_compute|exact Logic.I]. Qed.
Print Assumptions C88_error_refuted.
