(** * Proofs about collecting packets: a run without data does not fail *)
From Coq Require Import List NArith ZArith Lia Bool Arith.
From Verif Require Import Bytes ModelPkt ModelAbe ModelEval ModelReader SpecSpace SpecPkt ProofPkt ProofPkt2 PropsPkt
  SpecReader ProofReader3 ProofReader4 ModelCollect SpecCollect ProofCollect.
Import ListNotations.
Local Open Scope N_scope.

Lemma write_total private ds p : private <> Some false -> forall o, exists o', write_multi_dest private true ds p o = Ok o'.
Proof.
  intros PR. induction ds as [|d ds IH]; intros o; cbn [write_multi_dest]; [eauto|]. unfold write_dest, check_write.
  assert (Q : exists b, match private with
              | Some true => Ok true
              | Some false => match check_private (parts_group (point_parts p)) with Ok _ => Ok true | _ => Err EPrivate end
              | None => match check_private (parts_group (point_parts p)) with Ok _ => Ok true | _ => Ok false end
              end = @Ok CmdError bool b).
  { destruct private as [[|]|]; [eauto|congruence|]. destruct (check_private _); eauto. }
  destruct Q as [b ->]. cbn [obind]. destruct b; cbn [negb obind]; [|apply IH]. destruct d; cbn [obind]; apply IH.
Qed.

Section Total.
  Variables (fuel : nat) (s : scope) (c : crypto) (nh : bytes).
  Variables (g dm : bytes) (cs : list bytes) (key : option (skey c)) (stamp : nat -> N).
  Variables (private : option bool) (forward write : list Dest) (allow_empty : bool) (max_links : N) (interval : bool).
  Variables (collect_tag : NetPktParts -> option bytes) (chain_tag : option (NetPktParts -> option bytes))
            (build_links : NetPktParts -> option (list (bytes * bytes))) (B : N).
  Hypotheses (HC : forall b, lenN (hash c b) = 32) (SO : space_ok cs) (S8 : (List.length cs <= 8)%nat)
    (PR : private <> Some false)
    (TO : forall p, exists t, collect_tag p = Some t /\ lenN t = 16)
    (CO : forall f p, chain_tag = Some f -> exists t, f p = Some t /\ lenN t = 16)
    (BO : forall p, exists l, build_links p = Some l /\ Forall link_ok l /\ 1 + lenN l <= B)
    (FIT : (match key with Some _ => 160 | None => 64 end) + 48 * (B + N.max 1 max_links) + lenN (wire_rooted cs) <= 65024).
  Notation collect_now := (collect_now fuel s c nh g dm (wire_space cs) (wire_rooted cs) key stamp private write allow_empty chain_tag build_links).
  Notation collect_loop := (collect_loop fuel s c nh g dm (wire_space cs) (wire_rooted cs) key stamp private forward write
                              allow_empty max_links interval collect_tag chain_tag build_links).

  Record ready (k : Collector) (n : N) : Prop := mkReady {
    rd_ok : Forall link_ok (c_links k);
    rd_len : lenN (c_links k) <= B + c_current k;
    rd_input : r_input (c_reader k) = None;
    rd_next : r_next (c_reader k) = None;
    rd_limit : n <= r_call_limit (c_reader k) }.

  Lemma now_total k n : ready k (n + 1) -> c_current k <= N.max 1 max_links ->
    exists k' made, collect_now k = Ok (k', made, true) /\ ready k' n /\ (c_current k' = 0 \/ (c_links k = [] /\ k' = k)).
  Proof.
    intros [RO RL RI RN RC] CU. unfold ModelCollect.collect_now.
    destruct (negb allow_empty && match c_links k with [] => true | _ => false end) eqn:E.
    - exists k, None. split; [reflexivity|]. split; [constructor; auto; lia|].
      apply andb_true_iff in E as [_ E2]. destruct (c_links k); [now right|discriminate].
    - unfold build_with_reader. rewrite calc_eval. change (lenN (@nil N)) with 0.
      set (z := ((if match key with Some _ => true | None => false end then 64924 else 64960) - 48 * Z.of_N (lenN (c_links k)) -
        Z.of_N (lenN (wire_rooted cs)) - Z.of_N 0)%Z).
      destruct (Z.ltb_spec z 0) as [Q|Q]; [unfold z in Q; destruct key; lia|].
      assert (R : read_next_data fuel s (c_reader k) (Z.to_N z) =
                  (with_limit (c_reader k) (r_call_limit (c_reader k) - 1), Ok (Some []))).
      { unfold read_next_data, read_new. destruct (N.eqb_spec (r_call_limit (c_reader k)) 0) as [Z0|Z0]; [lia|].
        rewrite RN. unfold with_limit. cbn. rewrite RI. reflexivity. }
      rewrite R.
      assert (T : exists p, try_point c g dm (wire_rooted cs) (c_links k) [] (stamp (c_count k)) key nh = Ok p /\ lenN (np_hash p) = 32).
      { pose proof (wire_rooted_ok cs SO S8) as RO'. unfold try_point. destruct key as [sk|].
        - rewrite try_keypoint_eval by assumption. unfold key_point at 1. cbn [point_size]. change (lenN (@nil N)) with 0.
          rewrite (proj2 (N.leb_le _ _)) by lia. eexists. split; [reflexivity|]. cbn. apply HC.
        - rewrite try_linkpoint_eval by assumption. cbn [point_size]. change (lenN (@nil N)) with 0.
          rewrite (proj2 (N.leb_le _ _)) by lia. eexists. split; [reflexivity|]. cbn. apply HC. }
      destruct T as (p & T & HP). rewrite T.
      destruct (write_total private write p PR (c_out k)) as [o W]. rewrite W. cbn [obind].
      destruct (BO p) as (ex & BE & BK & BL). rewrite BE.
      destruct chain_tag as [ft|] eqn:CT.
      + destruct (CO ft p eq_refl) as (t & FT & TL). rewrite FT. eexists _, _. split; [reflexivity|].
        split; [|now left]. constructor; cbn [c_links c_current c_reader]; auto.
        * constructor; [now split|assumption].
        * cbn [app]. rewrite lenN_cons. lia.
        * cbn. lia.
      + eexists _, _. split; [reflexivity|].
        split; [|now left]. constructor; cbn [c_links c_current c_reader]; auto.
        * cbn [app]. lia.
        * cbn. lia.
  Qed.

  Lemma loop_total : forall vs k, ready k (lenN vs + 1) -> c_current k < N.max 1 max_links ->
    (forall p, In (VPkt p) vs -> lenN (np_hash p) = 32) -> ~ In VBad vs -> ~ In VEnd vs ->
    exists k' rs, collect_loop k (vs ++ [VEnd]) = Ok (k', rs, InputEnd).
  Proof.
    induction vs as [|v vs IH]; intros k RD CU HP NB NE.
    - cbn [app ModelCollect.collect_loop]. unfold at_end.
      destruct (c_links k) as [|x l] eqn:L; [eauto|].
      destruct (now_total k 0) as (k' & made & C & _); [exact RD|lia|]. rewrite C. cbn [obind]. eauto.
    - assert (HP' : forall p, In (VPkt p) vs -> lenN (np_hash p) = 32) by (intros; apply HP; now right).
      assert (NB' : ~ In VBad vs) by (intros H; apply NB; now right).
      assert (NE' : ~ In VEnd vs) by (intros H; apply NE; now right).
      rewrite lenN_cons in RD.
      assert (LESS : forall k n m, m <= n -> ready k n -> ready k m) by (intros ? ? ? LE []; constructor; auto; lia).
      destruct v as [p|st| |]; cbn [app ModelCollect.collect_loop].
      + destruct (TO p) as (t & CT & TL). unfold new_pkt. rewrite CT.
        destruct (write_total private forward p PR (c_out k)) as [o W]. rewrite W. cbn [obind].
        set (k0 := mkCol (c_links k ++ [(t, np_hash p)]) (c_current k + 1) o (c_reader k) (c_count k)).
        assert (R0 : ready k0 (lenN vs + 1 + 1)).
        { destruct RD as [RO RL RI RN RC]. constructor; cbn [k0 c_links c_current c_reader]; auto; try lia.
          - apply Forall_app. split; [assumption|]. constructor; [|constructor]. split; [assumption|]. apply HP. now left.
          - rewrite lenN_app. change (lenN [(t, np_hash p)]) with 1. lia. }
        destruct (N.leb_spec max_links (c_current k + 1)) as [F|F].
        * destruct (now_total k0 _ R0) as (k1 & made & C & R1 & [C0|[C0 _]]); [change (c_current k0) with (c_current k + 1); lia| |].
          -- rewrite C. cbn [obind]. destruct (IH k1 R1 ltac:(lia) HP' NB' NE') as (k' & rs & E). rewrite E. cbn [obind]. eauto.
          -- unfold k0 in C0. cbn [c_links] in C0. destruct (c_links k); discriminate.
        * destruct (IH k0 (LESS k0 (lenN vs + 1 + 1) (lenN vs + 1) ltac:(lia) R0) ltac:(change (c_current k0) with (c_current k + 1); lia) HP' NB' NE') as (k' & rs & E). eauto.
      + destruct st.
        * destruct (now_total k (lenN vs + 1)) as (k1 & made & C & R1 & C0); [revert RD; apply LESS; lia|lia|].
          rewrite C. cbn [obind]. assert (C1 : c_current k1 < N.max 1 max_links) by (destruct C0 as [C0|[_ ->]]; lia).
          destruct (IH k1 R1 C1 HP' NB' NE') as (k' & rs & E). rewrite E. cbn [obind]. eauto.
        * apply IH; auto. revert RD. apply LESS. lia.
      + destruct NE. now left.
      + destruct NB. now left.
  Qed.
End Total.
