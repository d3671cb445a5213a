(** Properties of header changes (C46), the duplicate filter (C54) and the buffer of datapoints (C70). *)
From Verif Require Import Bytes ModelAbe ModelEval ModelTestSet ModelPred SpecPkt ModelPkt PropsPkt SpecPred ProofPred PropsPred ModelQText ModelNet SpecNet ProofNet.

(** ** C46 *)
(** Any sequence of assignments to header fields is accepted.  A field that is not assigned keeps its
    bytes, as do the first three; an assigned one gets the bits of the last value assigned, but keeps
    those it had. *)
Theorem C46_changes_partial l h : Forall change_ok l -> List.length h = 32%nat -> bytes_ok h ->
  exists m, mut_from_lst mut_default (map change_stmt l) = Ok m /\
    List.length (mutate_header m h) = 32%nat /\ field_bytes 0 3 (mutate_header m h) = field_bytes 0 3 h /\
    forall f i j, span f = Some (i, j) ->
      field_bytes i j (mutate_header m h) = match last_value f l with Some v => both (field_bytes i j h) v | None => field_bytes i j h end.
Proof.
  intros F L B. destruct (changes_run l mut_default [] default_ok F) as (m & E & M). exists m. split; [exact E|]. exact (mutated m l h M L B).
Qed.
Print Assumptions C46_changes_partial.
(** So the field is set if none of its other bits was. *)
Theorem C46_sets_partial l h f i j v : Forall change_ok l -> List.length h = 32%nat -> bytes_ok h ->
  span f = Some (i, j) -> last_value f l = Some v -> Forall2 (fun old new => N.land old new = old) (field_bytes i j h) v ->
  exists m, mut_from_lst mut_default (map change_stmt l) = Ok m /\ field_bytes i j (mutate_header m h) = v.
Proof.
  intros F L B E V S. destruct (C46_changes_partial l h F L B) as (m & R & _ & _ & H). exists m. split; [exact R|]. rewrite (H f i j E), V.
  clear -S. induction S as [|x y a b X S IH]; [reflexivity|]. cbn. rewrite IH. f_equal. rewrite <- X at 1. apply N.bits_inj. intros n. rewrite N.lor_spec, N.land_spec. now destruct (N.testbit x n), (N.testbit y n).
Qed.
Print Assumptions C46_sets_partial.
(** The point and its hash stay the same: the packet with the changed header is the packet of the
    same point. *)
Theorem C46_same_point l hash b nh p : Forall change_ok l -> packet_of hash b nh p ->
  exists m nh', mut_from_lst mut_default (map change_stmt l) = Ok m /\ nh' = mutate_header m nh /\
    packet_of hash (nh' ++ skipn 32 b) nh' p /\ firstn 3 nh' = firstn 3 nh.
Proof.
  intros F (E & L & K & O). assert (LN : List.length nh = 32%nat) by (unfold lenN in L; lia).
  assert (ON : bytes_ok nh) by (subst b; unfold packet in O; now apply Forall_app in O as [O _]).
  destruct (changes_run l mut_default [] default_ok F) as (m & R & M). destruct (mutated m l nh M LN ON) as (L' & P3 & H).
  exists m, (mutate_header m nh). split; [exact R|]. split; [reflexivity|]. split; [|exact P3].
  assert (SK : skipn 32 b = hash (content p) ++ content p) by (subst b; unfold packet; rewrite skipn_app, LN, Nat.sub_diag, skipn_all2 by lia; reflexivity).
  rewrite SK. split; [reflexivity|]. split; [unfold lenN; rewrite L'; reflexivity|]. split; [exact K|]. apply Forall_app. split.
  - (* every byte stays a byte *)
    unfold mutate_header. destruct M as (C & LS & P0 & FS). assert (BS : bytes_ok (m_set m)).
    { assert (m_set m = field_bytes 0 3 (m_set m) ++ field_bytes 3 4 (m_set m) ++ field_bytes 4 8 (m_set m) ++ field_bytes 8 16 (m_set m) ++ field_bytes 16 20 (m_set m) ++ field_bytes 20 24 (m_set m) ++ field_bytes 24 28 (m_set m) ++ field_bytes 28 32 (m_set m)) as ->.
      { generalize (m_set m) LS. intros s LS'. do 32 (destruct s as [|? s]; [discriminate|]). destruct s; [reflexivity|discriminate]. }
      assert (V : forall f i j, span f = Some (i, j) -> bytes_ok (field_bytes i j (m_set m))).
      { intros f i j S. rewrite (FS f i j S). destruct (last_value f ([] ++ l)) as [v|] eqn:LV; [|apply Forall_forall; intros x X; apply repeat_spec in X; subst; reflexivity].
        cbn [app] in LV. clear -F LV. induction l as [|[g w] l IH]; [discriminate|]. apply Forall_cons_iff in F as [[W _] F]. cbn [last_value] in LV. destruct (last_value f l); [now apply IH|].
        destruct (field_eqb g f); [|discriminate]. injection LV as <-. exact W. }
      rewrite P0. pose proof (V VarNetFlagsF _ _ eq_refl). pose proof (V VarHopF _ _ eq_refl). pose proof (V VarStampF _ _ eq_refl).
      pose proof (V VarUBits0F _ _ eq_refl). pose proof (V VarUBits1F _ _ eq_refl). pose proof (V VarUBits2F _ _ eq_refl). pose proof (V VarUBits3F _ _ eq_refl).
      assert (bytes_ok [0; 0; 0]) by (apply bytes_okb; reflexivity). unfold bytes_ok in *. rewrite !Forall_app. auto 12. }
    clear -ON BS. revert ON BS. generalize (m_clear m) (m_set m). induction nh as [|x nh IH]; intros [|c cs] [|s ss] ON BS; try constructor.
    + apply Forall_cons_iff in ON as [X _], BS as [S _]. assert (Z : forall a b, a < 256 -> b < 256 -> N.lor a b < 256).
      { intros a b A B. destruct (N.eq_0_gt_0_cases (N.lor a b)) as [->|G]; [reflexivity|]. change 256 with (2 ^ 8). apply N.log2_lt_pow2; [exact G|]. rewrite N.log2_lor. apply N.max_lub_lt.
        - destruct (N.eq_0_gt_0_cases a) as [->|GA]; [reflexivity|now apply N.log2_lt_pow2].
        - destruct (N.eq_0_gt_0_cases b) as [->|GB]; [reflexivity|now apply N.log2_lt_pow2]. }
      apply Z; [|exact S]. destruct (N.eq_0_gt_0_cases (N.land x c)) as [->|G]; [reflexivity|]. change 256 with (2 ^ 8). apply N.log2_lt_pow2; [exact G|].
      eapply N.le_lt_trans; [apply N.log2_land|]. eapply N.le_lt_trans; [apply N.le_min_l|]. apply N.log2_lt_pow2; [|exact X]. destruct x; [discriminate G|reflexivity].
    + apply Forall_cons_iff in ON as [_ ON], BS as [_ BS]. now apply IH.
  - subst b. unfold packet in O. now apply Forall_app in O as [_ O].
Qed.
Print Assumptions C46_same_point.
(** Nothing but assignments is done: every other operator is refused, except the orders that hold
    for every value, which do nothing. *)
Theorem C46_other_operators f o v m : o <> Op Equal -> lenN v <> 0 ->
  match obind (try_iter (RField f, o, [(None, v)])) (add_rules m) with Ok m' => m' = m | Err _ => True | _ => False end.
Proof.
  intros NE NV.
  destruct v as [|x v]; [now destruct NV|]. destruct o as [| | | |op]; cbn [try_iter].
  3, 4: (destruct (fixed_size (RField f)); [|exact Logic.I]; cbn [as_exact_bytes]; destruct (_ <? _); [exact Logic.I|]; cbn [obind add_rules try_add_rule]; destruct (mut_route f) as [[off k]|]; exact Logic.I).
  1, 2: (unfold sub_one, add_one; match goal with |- context [let '(_, _) := ?c in _] => destruct c as [w []] end; cbn [obind]; [reflexivity|];
    cbn [add_rules try_add_rule mutate_rule]; destruct (mut_route f) as [[off k]|]; exact Logic.I).
  assert (NO : op <> Equal) by (intros ->; now apply NE). cbn [obind add_rules try_add_rule]. destruct (mut_route f) as [[off k]|]; [|exact Logic.I]. destruct op; try exact Logic.I. contradiction.
Qed.
Print Assumptions C46_other_operators.
(** Statements about anything but those fields change nothing either. *)
Theorem C46_other_fields f v m : span f = None -> add_rules m [(RField f, Equal, v)] = Err QStmt.
Proof. intros E. cbn [add_rules try_add_rule]. destruct f; try discriminate; reflexivity. Qed.
Print Assumptions C46_other_fields.
(** Two fields of the header of C60's packet. *)
Definition ex_changes : list change := [(VarUBits2F, [9; 9; 9; 9]); (VarNetFlagsF, [6]); (VarUBits2F, [0; 0; 0; 7])].
Definition mutated_by (l : list change) (h : bytes) : bytes := match mut_from_lst mut_default (map change_stmt l) with Ok m => mutate_header m h | _ => [] end.
Example C46_ex : Forall change_ok ex_changes /\ last_value VarUBits2F ex_changes = Some [0; 0; 0; 7] /\
  mutated_by ex_changes (repeat 0 32) = [0; 0; 0; 6] ++ repeat 0 20 ++ [0; 0; 0; 7] ++ repeat 0 4 /\ packet_of toy_hash ex_pkt ex_nh ex_point.
Proof.
  split; [|split; [reflexivity|split; [vm_compute; reflexivity|exact ex_packet_of]]].
  repeat constructor; cbn [fst snd]; (do 2 eexists; split; reflexivity) || (eexists; eexists; split; reflexivity).
Qed.
(** Assigning 2 to a hop count of 1 gives 3: the bits that were set are not cleared. *)
Theorem C46_assignment_refuted : exists f i j v h, span f = Some (i, j) /\ change_ok (f, v) /\ List.length h = 32%nat /\ bytes_ok h /\
  field_bytes i j (mutated_by [(f, v)] h) <> v /\ field_bytes i j h = [0; 0; 0; 1] /\ v = [0; 0; 0; 2] /\ field_bytes i j (mutated_by [(f, v)] h) = [0; 0; 0; 3].
Proof.
  exists VarHopF, 4%nat, 8%nat, [0; 0; 0; 2], (repeat 0 7 ++ [1] ++ repeat 0 24). split; [reflexivity|]. split; [split; [repeat constructor|exists 4%nat, 8%nat; split; reflexivity]|].
  split; [reflexivity|]. split; [apply bytes_okb; reflexivity|]. split; [vm_compute; discriminate|]. repeat split.
Qed.
Print Assumptions C46_assignment_refuted.

(** ** C54 *)
(** The answer for a hash is whether it is the last hash seen in its slot; for a slot that was not used,
    whether it is the zero hash. *)
Theorem C54_answers cap hs : (0 < cap)%nat -> exists bs, dedup_run (dedup_new cap) hs = Ok bs /\ List.length bs = List.length hs /\
  forall before h after, hs = before ++ h :: after -> exists b, nth_error bs (List.length before) = Some b /\
    (b = true <-> (exists u w, before = u ++ h :: w /\ Forall (fun y => dedup_slot cap y <> dedup_slot cap h) w) \/
                  h = zero_hash /\ Forall (fun y => dedup_slot cap y <> dedup_slot cap h) before).
Proof.
  intros L. destruct (dedup_outputs cap hs (dedup_new cap) [] L (slots_new cap L)) as (bs & E & LB & H). exists bs. split; [exact E|]. split; [exact LB|]. intros before h after EQ.
  eexists. split; [exact (H before h after EQ)|]. cbn [app]. rewrite beqb_eq. pose proof (last_in_slot_spec (dedup_slot cap) h before) as S. destruct (last_in_slot (dedup_slot cap) h before) as [x|].
  - destruct S as (a & b & -> & SX & FB). split.
    + intros ->. left. exists a, b. auto.
    + intros [(u & w & E2 & FW)|[_ F]].
      * clear -E2 FB FW SX. revert u E2. induction a as [|y a IH]; intros [|z u] E2; cbn [app] in E2; injection E2 as -> E2; [reflexivity| | |now apply (IH u)].
        -- exfalso. subst b. apply Forall_app in FB as [_ FB]. apply Forall_cons_iff in FB as [FB _]. now apply FB.
        -- exfalso. subst w. apply Forall_app in FW as [_ FW]. apply Forall_cons_iff in FW as [FW _]. now apply FW.
      * exfalso. apply Forall_app in F as [_ F]. apply Forall_cons_iff in F as [F _]. now apply F.
  - split; [intros <-; right; auto|]. intros [(u & w & -> & _)|[-> _]]; [|reflexivity]. exfalso. apply Forall_app in S as [_ S]. apply Forall_cons_iff in S as [S _]. now apply S.
Qed.
Print Assumptions C54_answers.
(** In particular a hash other than the zero hash is reported only if it was seen, and one that comes
    again before any other in its slot is reported. *)
Theorem C54_only_seen cap hs bs before h after : (0 < cap)%nat -> dedup_run (dedup_new cap) hs = Ok bs -> hs = before ++ h :: after ->
  nth_error bs (List.length before) = Some true -> h <> zero_hash -> In h before.
Proof.
  intros L E EQ T NZ. destruct (C54_answers cap hs L) as (bs' & E' & _ & H). assert (bs' = bs) as -> by congruence. destruct (H before h after EQ) as (b & B & I).
  assert (b = true) by congruence. apply I in H0 as [(u & w & -> & _)|[Z _]]; [|contradiction]. apply in_or_app. right. now left.
Qed.
Print Assumptions C54_only_seen.
Theorem C54_last_seen cap hs bs u h w after : (0 < cap)%nat -> dedup_run (dedup_new cap) hs = Ok bs -> hs = (u ++ h :: w) ++ h :: after ->
  Forall (fun y => dedup_slot cap y <> dedup_slot cap h) w -> nth_error bs (List.length (u ++ h :: w)) = Some true.
Proof.
  intros L E EQ F. destruct (C54_answers cap hs L) as (bs' & E' & _ & H). assert (bs' = bs) as -> by congruence. destruct (H (u ++ h :: w) h after EQ) as (b & B & I). rewrite B. f_equal. apply I. left. exists u, w. auto.
Qed.
Print Assumptions C54_last_seen.
Definition hx (n : N) : bytes := be_encode 32 (n * 2 ^ 248).
Example C54_ex : dedup_run (dedup_new 3) [hx 4; hx 5; hx 4; hx 7; hx 4; hx 5] = Ok [false; false; true; false; false; true] /\
  dedup_slot 3 (hx 4) = 1%nat /\ dedup_slot 3 (hx 5) = 2%nat /\ dedup_slot 3 (hx 7) = 1%nat.
Proof. vm_compute. auto. Qed.
(** The zero hash is reported before it was seen; a filter without slots panics. *)
Theorem C54_zero_hash_refuted cap : (0 < cap)%nat -> dedup_run (dedup_new cap) [zero_hash] = Ok [true].
Proof.
  intros L. destruct (C54_answers cap [zero_hash] L) as (bs & E & LB & H). rewrite E. destruct (H [] zero_hash [] eq_refl) as (b & B & I). destruct bs as [|b' [|]]; try discriminate. cbn in B.
  injection B as ->. rewrite (proj2 I); [reflexivity|]. right. auto.
Qed.
Print Assumptions C54_zero_hash_refuted.
Theorem F32_no_slots h hs : dedup_run (dedup_new 0) (h :: hs) = Panic.
Proof. reflexivity. Qed.
Print Assumptions F32_no_slots.

(** ** C70 *)
(** What comes out of the buffer for each packet pushed. *)
Theorem C70_buffer {A} (hash_of : A -> bytes) links_of before d k rest last :
  Forall (is_data links_of) d ->
  match last with None => before = [] | Some l => links_of l <> None /\ exists pre, before = pre ++ [l] end ->
  nth_error (buf_run hash_of links_of buf_default (before ++ d ++ k :: rest)) (List.length (before ++ d)) = Some (comes_out hash_of links_of last d k).
Proof.
  intros F H. rewrite app_assoc, run_nth. f_equal. rewrite state_app. destruct last as [l|].
  - destruct H as [NL [pre ->]]. destruct (state_links hash_of links_of buf_default pre l NL) as (ls & E & ->). apply (after_last hash_of links_of _ (Some l)); [exact F|]. now rewrite E.
  - subst before. now apply (after_last hash_of links_of _ None).
Qed.
Print Assumptions C70_buffer.
(** Packets as a hash and links. *)
Definition ex_stream : list (bytes * option (list bytes)) :=
  [([1], None); ([2], None); ([3], Some [[1]; [4]; [9]]); ([4], None); ([5], None); ([1], None); ([6], Some [[5]; [4]]); ([2], None)].
Example C70_ex : map (map fst) (buf_run fst snd buf_default ex_stream) = [[]; []; [[1]; [3]]; [[4]]; []; [[1]]; [[5]; [6]]; []].
Proof. reflexivity. Qed.
(** A datapoint that the second linkpoint after it links to is lost. *)
Theorem F69_dropped : buf_run fst snd buf_default [([1], None); ([3], Some []); ([4], Some [[1]])] = [[]; [([3], Some [])]; [([4], Some [[1]])]].
Proof. reflexivity. Qed.
Print Assumptions F69_dropped.
