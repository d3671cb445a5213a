(** Properties C12-C17 and C56: spaces and rooted spaces. *)
From Verif Require Import Bytes ModelSpace SpecSpace ProofSpace ProofRooted.

(** Used by the examples: the spaces /hello/world and /a/b/.../i (9 components). *)
Definition ex_hw : list bytes := [[104;101;108;108;111]; [119;111;114;108;100]].
Definition ex_nine : list bytes := map (fun x => [x]) [97;98;99;100;101;102;103;104;105].
Definition ex_eight : list bytes := firstn 8 ex_nine.

(** * C12 *)

(** Building a space from components and iterating it gives the components back. *)
Theorem C12_build_then_iterate : forall cs b,
  try_from_iter cs = Ok b ->
  iter_all b = Ok (cs, []) /\ components b = Ok cs /\ iter_count b = Ok (N.of_nat (length cs)).
Proof.
  intros cs b H. apply try_from_iter_iff in H as ([H _] & _ & ->).
  split; [now apply iter_all_wire|]. split; [now apply components_wire|now apply iter_count_wire].
Qed.
Example C12_build_then_iterate_ex : exists b, try_from_iter ex_hw = Ok b /\ length b = 12%nat.
Proof. eexists; split; reflexivity. Qed.
Print Assumptions C12_build_then_iterate.

(** Iterating an accepted byte string never panics and never stops early. *)
Theorem C12_iterate_accepted : forall b,
  space_from_slice b = Ok b ->
  exists cs, iter_all b = Ok (cs, []) /\ b = wire_space cs /\ components b = Ok cs.
Proof.
  intros b H. unfold space_from_slice in H. destruct (check_components b) as [n|e| |] eqn:E; try discriminate.
  apply check_components_iff in E as (cs & [Hc Hl] & -> & _). exists cs.
  split; [now apply iter_all_wire|]. split; [reflexivity|now apply components_wire].
Qed.
Example C12_iterate_accepted_ex : space_from_slice (wire_space ex_nine) = Ok (wire_space ex_nine).
Proof. reflexivity. Qed.
Print Assumptions C12_iterate_accepted.

(** Iterating an accepted space and rebuilding it: only for at most 8 components,
    because validation accepts more components than building does. *)
Theorem C12_iterate_then_build_partial : forall b cs,
  space_from_slice b = Ok b -> iter_all b = Ok (cs, []) -> (length cs <= 8)%nat ->
  try_from_iter cs = Ok b.
Proof.
  intros b cs H I L. unfold space_from_slice in H.
  destruct (check_components b) as [n|e| |] eqn:E; try discriminate.
  apply check_components_iff in E as (cs' & [Hc Hl] & -> & _).
  rewrite iter_all_wire in I by assumption. inversion I; subst.
  apply try_from_iter_iff. repeat split; auto. unfold lenN; lia.
Qed.
Example C12_iterate_then_build_ex :
  space_from_slice (wire_space ex_hw) = Ok (wire_space ex_hw) /\
  iter_all (wire_space ex_hw) = Ok (ex_hw, []) /\ (length ex_hw <= 8)%nat.
Proof. repeat split. cbn; lia. Qed.
Print Assumptions C12_iterate_then_build_partial.

(** The full statement fails: /a/b/c/d/e/f/g/h/i is accepted but cannot be rebuilt. *)
Theorem C12_iterate_then_build_refuted : exists b cs,
  space_from_slice b = Ok b /\ iter_all b = Ok (cs, []) /\ try_from_iter cs = Err EMaxDepth.
Proof. exists (wire_space ex_nine), ex_nine. repeat split. Qed.
Print Assumptions C12_iterate_then_build_refuted.

(** * C13 *)
Theorem C13_validation_exact : forall b n,
  check_components b = Ok n <-> exists cs, is_space b cs /\ n = N.of_nat (length cs).
Proof.
  intros b n. rewrite check_components_iff. unfold is_space, lenN. split; intros (cs & H); exists cs; tauto.
Qed.
Print Assumptions C13_validation_exact.
Theorem C13_validation_total : forall b,
  (exists n, check_components b = Ok n) \/ (exists e, check_components b = Err e).
Proof. exact check_components_total. Qed.
Print Assumptions C13_validation_total.
(** The components of a space are unique, so the "exists cs" above is "the". *)
Theorem C13_components_unique : forall b cs cs', is_space b cs -> is_space b cs' -> cs = cs'.
Proof.
  intros b cs cs' [[H1 _] ->] [[H2 _] E]. now apply wire_space_inj.
Qed.
Print Assumptions C13_components_unique.
Example C13_ex : is_space [1;97;2;98;99] [[97];[98;99]].
Proof. repeat split; repeat constructor; cbn; lia. Qed.
Theorem C13_build_exact : forall cs b,
  try_from_iter cs = Ok b <-> is_space b cs /\ (length cs <= 8)%nat.
Proof.
  intros cs b. rewrite try_from_iter_iff. unfold is_space, lenN. split.
  - intros (H1 & H2 & H3). repeat split; try apply H1; auto. lia.
  - intros ((H1 & H2) & H3). repeat split; try apply H1; auto. lia.
Qed.
Print Assumptions C13_build_exact.
Theorem C13_build_total : forall cs,
  (exists b, try_from_iter cs = Ok b) \/ (exists e, try_from_iter cs = Err e).
Proof. exact try_from_iter_total. Qed.
Print Assumptions C13_build_total.

(** * C14 *)
(** What rooting does to every valid space: it keeps the first eight components. *)
Theorem C14_rooting_exact : forall b cs, is_space b cs ->
  try_into_rooted b = Ok (wire_rooted (firstn 8 cs)).
Proof. intros b cs [H ->]. now apply try_into_rooted_wire. Qed.
Print Assumptions C14_rooting_exact.

Theorem C14_rooting_preserves_partial : forall b cs, is_space b cs -> (length cs <= 8)%nat ->
  exists r, try_into_rooted b = Ok r /\
    rs_check_components r = Ok tt /\
    rs_depth r = N.of_nat (length cs) /\
    rs_space r = Ok b /\
    rs_iter r = Ok cs /\
    (forall i, (i < 8)%nat -> rs_comp r (N.of_nat i) = Ok (nth i cs [])) /\
    (forall i, (1 <= i < 8)%nat -> cs <> [] -> nth i r 0 = offset cs i).
Proof.
  intros b cs [H ->] L. exists (wire_rooted cs).
  rewrite try_into_rooted_wire by assumption. rewrite firstn_all2 by assumption.
  split; [reflexivity|]. split.
  { apply rs_check_iff. destruct cs as [|c cs]; [left; reflexivity|right].
    exists (lenN (c :: cs)), (c :: cs). repeat split; auto; apply H. }
  split; [destruct cs; reflexivity|]. split.
  { destruct cs as [|c cs]; [reflexivity|]. unfold rs_space, wire_rooted. rewrite rs_fields_rooted. reflexivity. }
  split; [now apply rs_iter_rooted|]. split.
  { intros i Hi. destruct cs as [|c cs]; [rewrite rs_comp_empty by assumption; now destruct i|].
    unfold wire_rooted. now apply rs_comp_rooted. }
  intros i Hi Hne. destruct cs as [|c cs]; [congruence|]. unfold wire_rooted, rooted_with.
  destruct i as [|i]; [lia|]. cbn [nth]. rewrite app_nth1 by (rewrite offsets_length; lia).
  exact (nth_offsets (c :: cs) (S i) ltac:(lia)).
Qed.
Example C14_ex : is_space (wire_space ex_eight) ex_eight /\ (length ex_eight <= 8)%nat.
Proof. repeat split; repeat constructor; cbn; lia. Qed.
Print Assumptions C14_rooting_preserves_partial.

(** Full statement refuted: a valid 9-component space loses its last component. *)
Theorem C14_rooting_preserves_refuted : exists b cs r,
  is_space b cs /\ try_into_rooted b = Ok r /\ rs_iter r <> Ok cs.
Proof.
  exists (wire_space ex_nine), ex_nine. eexists. split; [|split; [reflexivity|discriminate]].
  repeat split; repeat constructor; cbn; lia.
Qed.
Print Assumptions C14_rooting_preserves_refuted.

(** * C15 *)
(** Exactly which byte strings pass rooted-space validation. *)
Theorem C15_validation_exact : forall b, rs_check_components b = Ok tt <->
  b = [] \/ exists d cs, space_ok cs /\ (length cs <= 8)%nat /\
                         ((length cs < 8)%nat -> d = N.of_nat (length cs)) /\ b = rooted_with d cs.
Proof. exact rs_check_iff. Qed.
Print Assumptions C15_validation_exact.
Theorem C15_validation_total : forall b,
  rs_check_components b = Ok tt \/ exists e, rs_check_components b = Err e.
Proof. exact rs_check_total. Qed.
Print Assumptions C15_validation_total.

(** Everything except the depth byte of an 8-component space is truthful. *)
Theorem C15_table_truthful_partial : forall b, rs_check_components b = Ok tt ->
  exists cs, space_ok cs /\ (length cs <= 8)%nat /\ rs_space b = Ok (wire_space cs) /\
    (forall i, (i < 8)%nat -> rs_comp b (N.of_nat i) = Ok (nth i cs [])) /\
    (forall s e, (s <= e)%nat -> (e <= 8)%nat ->
       rs_range b (N.of_nat s) (N.of_nat e) = Ok (wire_space (firstn (e - s) (skipn s cs)))) /\
    ((length cs < 8)%nat -> rs_depth b = N.of_nat (length cs) /\ rs_iter b = Ok cs).
Proof.
  intros b H. apply rs_check_iff in H as [->|(d & cs & H1 & H2 & H3 & ->)].
  - exists []. split; [apply space_ok_nil|]. split; [cbn; lia|]. split; [reflexivity|].
    split; [intros i Hi; rewrite rs_comp_empty by assumption; now destruct i|].
    split; [|intros _; split; reflexivity].
    intros s e Hse He. rewrite skipn_nil, firstn_nil. unfold rs_range. cbn [rs_fields obind].
    destruct (N.ltb_spec 8 (N.of_nat s)); [lia|]. destruct (N.ltb_spec 8 (N.of_nat e)); [lia|]. cbn [orb].
    rewrite !Nat2N.id.
    assert (X : forall i, (i <= 8)%nat -> nth i (repeat 0 9) 0 = 0)
      by (intros i Hi; do 9 (destruct i as [|i]; [reflexivity|]); lia).
    rewrite !X by lia. reflexivity.
  - exists cs. split; [assumption|]. split; [assumption|].
    split; [unfold rs_space; rewrite rs_fields_rooted; reflexivity|].
    split; [intros i Hi; now apply rs_comp_rooted|].
    split; [intros s e Hse He; now apply rs_range_rooted|].
    intros L. rewrite H3 by assumption. split; [reflexivity|].
    destruct cs as [|c cs]; [reflexivity|]. now apply (rs_iter_rooted (c :: cs)).
Qed.
Example C15_ex : rs_check_components [2;3;7;7;7;7;7;7;2;104;101;3;108;108;111] = Ok tt.
Proof. reflexivity. Qed.
Print Assumptions C15_table_truthful_partial.

(** Full statement refuted: with exactly 8 components the depth byte is not
    checked, so the stated depth is wrong and iterating the rooted space panics. *)
Theorem C15_table_truthful_refuted : exists b cs,
  rs_check_components b = Ok tt /\ rs_space b = Ok (wire_space cs) /\ space_ok cs /\
  length cs = 8%nat /\ rs_depth b = 200 /\ rs_iter b = Panic /\ rs_last b = Panic.
Proof.
  exists (rooted_with 200 ex_eight), ex_eight. repeat split; try reflexivity.
  - repeat constructor; cbn; lia.
  - cbn; lia.
Qed.
Print Assumptions C15_table_truthful_refuted.

(** The empty space has two accepted rooted encodings, and an 8-component space
    has 256: equal spaces need not have equal rooted bytes. *)
Theorem C15_encoding_unique_refuted : exists b1 b2,
  rs_check_components b1 = Ok tt /\ rs_check_components b2 = Ok tt /\
  rs_space b1 = rs_space b2 /\ b1 <> b2.
Proof. exists [], (repeat 0 8). repeat split. discriminate. Qed.
Print Assumptions C15_encoding_unique_refuted.

(** * C16 *)
Theorem C16_starts_with : forall b cb p cp, is_space b cb -> is_space p cp ->
  (space_starts_with b p = true <-> exists rest, cb = cp ++ rest).
Proof. intros b cb p cp [[H1 _] ->] [[H2 _] ->]. now apply starts_with_wire. Qed.
Print Assumptions C16_starts_with.
Theorem C16_strip_prefix : forall b cb p cp, is_space b cb -> is_space p cp ->
  (forall rest, cb = cp ++ rest -> strip_prefix b p = Some (wire_space rest)) /\
  ((forall rest, cb <> cp ++ rest) -> strip_prefix b p = None).
Proof.
  intros b cb p cp [[H1 _] ->] [[H2 _] ->]. unfold strip_prefix. split.
  - intros rest ->. assert (E : starts_with (wire_space (cp ++ rest)) (wire_space cp) = true)
      by (apply starts_with_iff; exists (wire_space rest); apply wire_space_app).
    rewrite E, wire_space_app, dropN_app_exact by reflexivity. reflexivity.
  - intros H. destruct (starts_with (wire_space cb) (wire_space cp)) eqn:E; [|reflexivity].
    apply starts_with_wire in E as [r E]; auto. exfalso; now apply (H r).
Qed.
Print Assumptions C16_strip_prefix.
Example C16_ex : is_space (wire_space ex_hw) ex_hw /\ is_space (wire_space (firstn 1 ex_hw)) (firstn 1 ex_hw).
Proof. repeat split; repeat constructor; cbn; lia. Qed.

(** * C17 *)
Theorem C17_push : forall b cs c b', is_space b cs ->
  (try_push b c = Ok b' <-> is_space b' (cs ++ [c])).
Proof.
  intros b cs c b' [[H L] ->]. rewrite try_push_iff. unfold is_space, space_ok.
  fold (lenN (wire_space (cs ++ [c]))). rewrite lenN_wire_app, lenN_wire_cons, Forall_app, wire_space_app.
  cbn [wire_space flat_map]. rewrite app_nil_r. fold (wire_space cs). rewrite lenN_nil. split.
  - intros (H1 & H2 & ->). split; [split; [split; [assumption|constructor; [assumption|constructor]]|lia]|reflexivity].
  - intros (((_ & H1) & H2) & ->). inversion H1; subst. split; [assumption|split; [lia|reflexivity]].
Qed.
Print Assumptions C17_push.
Theorem C17_push_front : forall b cs c b', is_space b cs ->
  (try_push_front b c = Ok b' <-> is_space b' (c :: cs)).
Proof.
  intros b cs c b' [[H L] ->]. rewrite try_push_front_iff. unfold is_space, space_ok.
  fold (lenN (wire_space (c :: cs))). rewrite lenN_wire_cons. split.
  - intros (H1 & H2 & ->). split; [split; [constructor; assumption|lia]|reflexivity].
  - intros ((H1 & H2) & ->). inversion H1; subst. split; [assumption|split; [lia|reflexivity]].
Qed.
Print Assumptions C17_push_front.
(** extend_from_iter / try_append / try_join: all or nothing, with the depth limit. *)
Theorem C17_extend : forall b cs more b', is_space b cs ->
  (extend_from_iter b more = Ok b' <-> is_space b' (cs ++ more) /\ (length (cs ++ more) <= 8)%nat).
Proof.
  intros b cs more b' [H ->]. rewrite extend_wire_iff by assumption. unfold is_space, lenN.
  split; [intros (H1 & H2 & ->); repeat split; try apply H1; lia|].
  intros ((H1 & ->) & H2). repeat split; try apply H1; lia.
Qed.
Print Assumptions C17_extend.
Theorem C17_append : forall b cs p cp b', is_space b cs -> is_space p cp ->
  (try_append b p = Ok b' <-> is_space b' (cs ++ cp) /\ (length (cs ++ cp) <= 8)%nat).
Proof.
  intros b cs p cp b' Hb [[Hp _] ->]. unfold try_append. rewrite iter_all_wire by assumption. cbn [obind].
  now apply C17_extend.
Qed.
Print Assumptions C17_append.
Theorem C17_prepend : forall b cs p cp b', is_space b cs -> is_space p cp ->
  (try_prepend b p = Ok b' <-> is_space b' (cp ++ cs)).
Proof.
  intros b cs p cp b' [[H _] ->] [[Hp _] ->]. unfold try_prepend, MAX_SPACENAME_SIZE, is_space, space_ok.
  fold (lenN (wire_space (cp ++ cs))). rewrite lenN_wire_app, Forall_app, wire_space_app.
  destruct (N.ltb_spec 242 (lenN (wire_space cs) + lenN (wire_space cp))).
  - split; [discriminate|]. intros ((_ & X) & _). lia.
  - split; [intros E; inversion E; subst; repeat split; auto; lia|intros (_ & ->); reflexivity].
Qed.
Print Assumptions C17_prepend.
Theorem C17_split_last : forall b cs, is_space b cs ->
  split_last b = Ok (wire_space (removelast cs), match rev cs with [] => None | c :: _ => Some (wire_space [c]) end)
  /\ pop b = Ok (wire_space (removelast cs), match rev cs with [] => None | c :: _ => Some c end)
  /\ truncate_last b = Ok (wire_space (removelast cs))
  /\ parent b = Ok (match cs with [] => None | _ => Some (wire_space (removelast cs)) end).
Proof.
  intros b cs [[H _] ->]. split; [now apply split_last_wire|]. split; [now apply pop_wire|].
  split; [now apply truncate_last_wire|]. unfold parent. destruct cs as [|c cs]; [reflexivity|].
  destruct (wire_space (c :: cs)) eqn:E; [rewrite wire_space_cons in E; discriminate|]. rewrite <- E.
  rewrite split_last_wire by assumption. reflexivity.
Qed.
Print Assumptions C17_split_last.
Theorem C17_split_first : forall b cs, is_space b cs ->
  split_first b = Ok (match cs with [] => None | c :: r => Some (c, wire_space r) end)
  /\ first b = Ok (match cs with [] => [] | c :: _ => c end).
Proof.
  intros b cs [[H _] ->]. split; [now apply split_first_wire|].
  destruct cs as [|c cs]; [reflexivity|]. rewrite wire_space_cons. apply first_wire.
Qed.
Print Assumptions C17_split_first.
Theorem C17_split_at : forall b cs n, is_space b cs ->
  split_at b n = Ok (wire_space (firstn n cs), wire_space (skipn n cs)).
Proof. intros b cs n [[H _] ->]. now apply split_at_wire. Qed.
Print Assumptions C17_split_at.
Theorem C17_scan : forall b cs, is_space b cs ->
  scan_space b = Ok (map (fun n => wire_space (firstn n cs)) (seq 1 (length cs))).
Proof.
  intros b cs [[H _] ->]. unfold scan_space.
  exact (scan_loop_wire cs H [] (length (wire_space cs)) (length_wire_ge cs)).
Qed.
Print Assumptions C17_scan.
Example C17_ex : is_space (wire_space ex_hw) ex_hw. Proof. repeat split; repeat constructor; cbn; lia. Qed.

(** Rooted buffers. *)
Theorem C17_rooted_append : forall cs c b', space_ok cs -> (length cs <= 8)%nat ->
  (rs_try_append (wire_rooted cs) c = Ok b' <->
   space_ok (cs ++ [c]) /\ (length cs < 8)%nat /\ b' = wire_rooted (cs ++ [c])).
Proof. exact rs_try_append_wire. Qed.
Print Assumptions C17_rooted_append.
Theorem C17_rooted_build : forall cs b, rs_try_from_iter cs = Ok b <->
  space_ok cs /\ (length cs <= 8)%nat /\ b = wire_rooted cs.
Proof. exact rs_try_from_iter_iff. Qed.
Print Assumptions C17_rooted_build.
(** [RootedSpaceBuf::extend_from_iter]: whatever the outcome, the buffer is a valid
    rooted space holding the old components and some of the new ones ... *)
Theorem C17_rooted_extend_partial : forall cs more, space_ok cs -> (length cs <= 8)%nat ->
  exists k, fst (rs_extend (wire_rooted cs) more) = wire_rooted (cs ++ firstn k more) /\
    space_ok (cs ++ firstn k more) /\ (length (cs ++ firstn k more) <= 8)%nat /\
    (snd (rs_extend (wire_rooted cs) more) = Ok tt <-> (space_ok (cs ++ more) /\ (length (cs ++ more) <= 8)%nat)) /\
    (snd (rs_extend (wire_rooted cs) more) = Ok tt -> firstn k more = more).
Proof.
  intros cs more H L. destruct (rs_extend_wire more cs H L) as (k & r & E1 & E2 & E3 & E4).
  exists k. rewrite E1. cbn [fst snd]. split; [reflexivity|]. split; [assumption|]. split; [assumption|].
  destruct E4 as [[-> E5]|[[e ->] E5]].
  - rewrite E5 in *. split; [split; [auto|reflexivity]|auto].
  - split; [split; [discriminate|intros X; contradiction]|discriminate].
Qed.
Print Assumptions C17_rooted_extend_partial.
(** ... but a failed extend does not leave it unchanged. *)
Theorem C17_rooted_extend_refuted : exists cs more e,
  space_ok cs /\ (length cs <= 8)%nat /\
  snd (rs_extend (wire_rooted cs) more) = Err e /\ fst (rs_extend (wire_rooted cs) more) <> wire_rooted cs.
Proof.
  exists [[97]], [[98]; []], EZeroComponent. repeat split; try discriminate; repeat constructor; cbn; lia.
Qed.
Print Assumptions C17_rooted_extend_refuted.

(** * C56: no space with more than eight components *)
(** True of [extend_from_iter], [try_append], [try_from_iter] (C13, C17) and of
    every rooted space (C15); refuted for push, push_front, prepend and
    [Space::from_slice]. *)
Theorem C56_depth_limit_refuted :
  (exists b, space_from_slice (wire_space ex_nine) = Ok b /\ iter_count b = Ok 9) /\
  (exists b b', try_from_iter ex_eight = Ok b /\ try_push b [105] = Ok b' /\ iter_count b' = Ok 9) /\
  (exists b b', try_from_iter ex_eight = Ok b /\ try_push_front b [105] = Ok b' /\ iter_count b' = Ok 9) /\
  (exists b b', try_from_iter ex_eight = Ok b /\ try_prepend b b = Ok b' /\ iter_count b' = Ok 16).
Proof.
  split; [eexists; split; reflexivity|]. split; [do 2 eexists; repeat split; reflexivity|].
  split; do 2 eexists; repeat split; reflexivity.
Qed.
Print Assumptions C56_depth_limit_refuted.
Theorem C56_depth_limit_partial :
  (forall cs b, try_from_iter cs = Ok b -> exists n, iter_count b = Ok n /\ n <= 8) /\
  (forall b cs more b', is_space b cs -> extend_from_iter b more = Ok b' ->
     exists n, iter_count b' = Ok n /\ n <= 8) /\
  (forall b sp, rs_check_components b = Ok tt -> rs_space b = Ok sp ->
     exists n, iter_count sp = Ok n /\ n <= 8).
Proof.
  split; [|split].
  - intros cs b H. apply try_from_iter_iff in H as ([H _] & L & ->). exists (lenN cs).
    split; [now apply iter_count_wire|assumption].
  - intros b cs more b' Hb H. apply (C17_extend b cs more b' Hb) in H as [[[H1 _] ->] H2].
    exists (lenN (cs ++ more)). split; [now apply iter_count_wire|unfold lenN; lia].
  - intros b sp H E. apply rs_check_iff in H as [->|(d & cs & [H1 _] & H2 & _ & ->)].
    + inversion E; subst. exists 0; split; [reflexivity|lia].
    + unfold rs_space in E. rewrite rs_fields_rooted in E. inversion E; subst.
      exists (lenN cs). split; [now apply iter_count_wire|unfold lenN; lia].
Qed.
Print Assumptions C56_depth_limit_partial.
