From Verif Require Import Bytes ModelSpace SpecSpace ProofSpace.

Lemma set_nth_app_l {A} i (x : A) a b : (i < length a)%nat -> set_nth i x (a ++ b) = set_nth i x a ++ b.
Proof.
  revert i; induction a as [|y a IH]; intros i H; cbn [length] in H; [lia|].
  destruct i as [|i]; cbn [app set_nth]; [reflexivity|]. rewrite IH by lia. reflexivity.
Qed.
Lemma set_nth_app_r {A} (x : A) a b : set_nth (length a) x (a ++ b) = a ++ set_nth 0 x b.
Proof. induction a as [|y a IH]; cbn [app length set_nth]; [reflexivity|]. now rewrite IH. Qed.
Lemma set_nth_length {A} i (x : A) l : length (set_nth i x l) = length l.
Proof. revert i; induction l as [|y l IH]; intros [|i]; cbn [set_nth length]; auto. Qed.

Lemma offset_0 cs : offset cs 0 = 0. Proof. reflexivity. Qed.
Lemma offset_lenN cs i : offset cs i = lenN (wire_space (firstn i cs)). Proof. reflexivity. Qed.
Lemma offset_ge cs i : (length cs <= i)%nat -> offset cs i = lenN (wire_space cs).
Proof. intros H; unfold offset. now rewrite firstn_all2. Qed.
Lemma offset_S cs i c r : skipn i cs = c :: r -> offset cs (S i) = offset cs i + 1 + lenN c.
Proof.
  intros H. rewrite !offset_lenN.
  assert (E : firstn (S i) cs = firstn i cs ++ [c]).
  { revert cs H; induction i as [|i IH]; intros cs H; destruct cs as [|x cs]; cbn [skipn firstn app] in *; try discriminate.
    - inversion H; reflexivity.
    - now rewrite IH. }
  rewrite E, lenN_wire_app, lenN_wire_cons. cbn [wire_space flat_map]. rewrite lenN_nil. lia.
Qed.
Lemma offset_le cs i : offset cs i <= lenN (wire_space cs).
Proof. rewrite offset_lenN. rewrite <- (firstn_skipn i cs) at 2. rewrite lenN_wire_app. lia. Qed.
Lemma offset_cons c cs i : offset (c :: cs) (S i) = 1 + lenN c + offset cs i.
Proof. rewrite !offset_lenN. cbn [firstn]. now rewrite lenN_wire_cons. Qed.
Lemma firstn_S_skipn {A} i (cs : list A) c r : skipn i cs = c :: r -> firstn (S i) cs = firstn i cs ++ [c] /\ skipn (S i) cs = r.
Proof.
  revert cs; induction i as [|i IH]; intros cs H; destruct cs as [|x cs]; cbn [skipn firstn app] in *; try discriminate.
  - inversion H; subst; auto.
  - destruct (IH cs H) as [-> ->]; auto.
Qed.

Definition idx_at (cs : list bytes) (i : nat) : list N := map (offset cs) (seq 0 i) ++ repeat 0 (8 - i).
Lemma idx_at_len cs i : (i <= 8)%nat -> length (idx_at cs i) = 8%nat.
Proof. intros H; unfold idx_at. rewrite app_length, map_length, seq_length, repeat_length. lia. Qed.
Lemma idx_at_set cs i w : (i < 8)%nat ->
  set_nth i (offset cs i) (idx_at cs i ++ w) = idx_at cs (S i) ++ w.
Proof.
  intros H. rewrite set_nth_app_l by (rewrite idx_at_len; lia). f_equal. unfold idx_at.
  replace i with (length (map (offset cs) (seq 0 i))) at 1 by (rewrite map_length, seq_length; reflexivity).
  rewrite set_nth_app_r. rewrite seq_S, map_app. cbn [map Nat.add].
  replace (8 - i)%nat with (S (8 - S i)) by lia. cbn [repeat set_nth]. now rewrite <- app_assoc.
Qed.

Lemma into_rooted_loop_wire cs : Forall component_ok cs -> forall n i, (i + n = 8)%nat ->
  into_rooted_loop n i (wire_space (skipn i cs)) (idx_at cs i ++ wire_space (firstn i cs)) (lenN (firstn i cs))
  = Ok (idx_at cs 8 ++ wire_space (firstn 8 cs), lenN (firstn 8 cs)).
Proof.
  intros Hcs. induction n as [|n IH]; intros i Hi.
  - replace i with 8%nat by lia. reflexivity.
  - cbn [into_rooted_loop].
    replace (lenN (idx_at cs i ++ wire_space (firstn i cs)) - 8) with (offset cs i)
      by (unfold lenN; rewrite app_length, idx_at_len by lia; unfold offset; lia).
    rewrite idx_at_set by lia.
    destruct (skipn i cs) as [|c r] eqn:E.
    + cbn [wire_space flat_map next_c next_sp_c].
      assert (L : (length cs <= i)%nat).
      { pose proof (skipn_length i cs) as K. rewrite E in K. cbn [length] in K. lia. }
      specialize (IH (S i)). rewrite (skipn_all2 (n := S i)) in IH by lia.
      rewrite (firstn_all2 (n := S i)) in IH by lia. rewrite (firstn_all2 (n := i)) by lia.
      apply IH; lia.
    + assert (Hc : component_ok c).
      { rewrite <- (firstn_skipn i cs), E in Hcs. apply Forall_app in Hcs as [_ Hcs]. now inversion Hcs. }
      rewrite wire_space_cons, next_c_wire by assumption.
      destruct (firstn_S_skipn _ _ _ _ E) as [E1 E2].
      specialize (IH (S i)). rewrite E2, E1 in IH. rewrite <- IH by lia.
      rewrite wire_space_app, lenN_app. cbn [wire_space flat_map]. rewrite app_nil_r, <- app_assoc.
      f_equal.
Qed.

Lemma rooted_set0 d x cs k w : set_nth 0 d ((x :: map (offset cs) k) ++ w) = d :: map (offset cs) k ++ w.
Proof. reflexivity. Qed.
Lemma offsets_firstn8 cs : offsets (firstn 8 cs) = offsets cs.
Proof.
  unfold offsets. apply map_ext_in. intros i Hi. apply in_seq in Hi. unfold offset.
  rewrite firstn_firstn. do 4 f_equal. lia.
Qed.
Lemma try_into_rooted_wire cs : space_ok cs ->
  try_into_rooted (wire_space cs) = Ok (wire_rooted (firstn 8 cs)).
Proof.
  intros [H L]. fold (lenN (wire_space cs)) in L. unfold try_into_rooted.
  destruct cs as [|c cs]; [reflexivity|].
  destruct (wire_space (c :: cs)) as [|z zs] eqn:E; [rewrite wire_space_cons in E; discriminate|].
  rewrite <- E in *. unfold MAX_SPACENAME_SIZE. destruct (N.ltb_spec 242 (lenN (wire_space (c :: cs)))); [lia|].
  pose proof (into_rooted_loop_wire (c :: cs) H 8 0 eq_refl) as X.
  change (skipn 0 (c :: cs)) with (c :: cs) in X.
  change (idx_at (c :: cs) 0 ++ wire_space (firstn 0 (c :: cs))) with (repeat 0 8) in X.
  change (lenN (firstn 0 (c :: cs))) with 0 in X. rewrite X. cbn [obind].
  assert (Y : idx_at (c :: cs) 8 = 0 :: offsets (c :: cs)) by reflexivity.
  rewrite Y, <- (offsets_firstn8 (c :: cs)). reflexivity.
Qed.
Lemma try_into_rooted_total b :
  (exists r, try_into_rooted b = Ok r) \/ (exists e, try_into_rooted b = Err e).
Proof.
  unfold try_into_rooted. destruct b as [|x b]; [eauto|]. destruct (_ <? _); [eauto|].
  assert (X : forall n i r d c, (exists q, into_rooted_loop n i r d c = Ok q) \/ (exists e, into_rooted_loop n i r d c = Err e)).
  { induction n as [|n IH]; intros i r d c; cbn [into_rooted_loop]; [eauto|].
    pose proof (next_c_no_panic r) as [N1 N2].
    destruct (next_c r) as [[[v r']|e| |]|]; try congruence; eauto. }
  destruct (X 8%nat 0%nat (x :: b) (repeat 0 8) 0) as [[[d c] Q]|[e Q]]; rewrite Q; cbn [obind]; eauto.
Qed.

(** ** validation of rooted spaces *)
Lemma rs_check_loop_iff idx n : forall i len ptr iter,
  rs_check_loop n i len ptr idx iter = Ok tt <->
  exists cs rest, Forall component_ok cs /\ iter = wire_space cs ++ rest /\ (length cs <= n)%nat /\
    ((length cs < n)%nat -> rest = [] /\ len = i + lenN cs) /\
    (forall j, (1 <= j <= n)%nat -> nth (N.to_nat i + j) idx 0 = ptr + offset cs j).
Proof.
  induction n as [|n IH]; intros i len ptr iter; cbn [rs_check_loop].
  - split; [intros _|reflexivity]. exists [], iter. repeat split; auto; cbn [length] in *; intros; lia.
  - pose proof (next_sp_c_no_panic iter) as [NP1 NP2].
    destruct (next_sp_c iter) as [[[s r]|e| |]|] eqn:E; try congruence.
    + apply next_sp_c_inv in E as (c & Hc & -> & ->).
      replace (lenN (lenN c :: c)) with (1 + lenN c) by now rewrite lenN_cons.
      destruct (N.eqb_spec (nth (N.to_nat (i + 1)) idx 0) (ptr + (1 + lenN c))) as [Hn|Hn].
      * rewrite IH. split.
        -- intros (cs & rest & H1 & -> & H3 & H4 & H5). exists (c :: cs), rest.
           split; [constructor; auto|]. split; [rewrite wire_space_cons; cbn [app]; now rewrite <- app_assoc|].
           cbn [length]. split; [lia|]. split.
           ++ intros L. destruct H4 as [-> ->]; [lia|]. rewrite lenN_cons; split; [reflexivity|lia].
           ++ intros j Hj. destruct j as [|j]; [lia|]. rewrite offset_cons.
              destruct j as [|j].
              ** rewrite offset_0. replace (N.to_nat i + 1)%nat with (N.to_nat (i + 1)) by lia. rewrite Hn; lia.
              ** specialize (H5 (S j)). replace (N.to_nat (i + 1) + S j)%nat with (N.to_nat i + S (S j))%nat in H5 by lia.
                 rewrite H5 by lia. lia.
        -- intros (cs & rest & H1 & H2 & H3 & H4 & H5).
           destruct cs as [|c' cs].
           { cbn [length] in H4. destruct H4 as [-> _]; [lia|]. discriminate. }
           rewrite wire_space_cons in H2. cbn [app] in H2. inversion H2 as [[L E']].
           rewrite <- app_assoc in E'. apply app_eq_lenN in E' as [-> ->]; [|assumption].
           inversion H1 as [|? ? _ H1']; subst. exists cs, rest. split; [assumption|]. split; [reflexivity|].
           cbn [length] in *. split; [lia|]. split.
           ++ intros L'. destruct H4 as [-> ->]; [lia|]. rewrite lenN_cons; split; [reflexivity|lia].
           ++ intros j Hj. specialize (H5 (S j)). rewrite offset_cons in H5.
              replace (N.to_nat (i + 1) + j)%nat with (N.to_nat i + S j)%nat by lia. rewrite H5 by lia. lia.
      * split; [discriminate|]. intros (cs & rest & H1 & H2 & H3 & H4 & H5). exfalso. apply Hn.
        destruct cs as [|c' cs].
        { cbn [length] in H4. destruct H4 as [-> _]; [lia|]. discriminate. }
        rewrite wire_space_cons in H2. cbn [app] in H2. inversion H2 as [[L E']].
        rewrite <- app_assoc in E'. apply app_eq_lenN in E' as [-> ->]; [|assumption].
        specialize (H5 1%nat). rewrite offset_cons, offset_0 in H5.
        replace (N.to_nat (i + 1)) with (N.to_nat i + 1)%nat by lia. rewrite H5 by lia. lia.
    + split; [discriminate|]. intros (cs & rest & H1 & H2 & H3 & H4 & H5). exfalso.
      destruct cs as [|c' cs].
      { cbn [length] in H4. destruct H4 as [-> _]; [lia|]. cbn in H2. subst. discriminate. }
      subst iter. rewrite wire_space_cons in E. cbn [app] in E. rewrite <- app_assoc in E.
      inversion H1; subst. rewrite next_sp_c_wire in E by assumption. discriminate.
    + apply next_sp_c_none in E. subst iter.
      destruct (N.eqb_spec len i) as [->|Hli].
      * destruct (N.eqb_spec (nth (N.to_nat (i + 1)) idx 0) ptr) as [Hn|Hn].
        -- rewrite IH. split.
           ++ intros (cs & rest & H1 & H2 & H3 & H4 & H5). exists [], [].
              assert (cs = []) as ->.
              { destruct cs as [|c cs]; [reflexivity|]. rewrite wire_space_cons in H2. discriminate. }
              split; [constructor|]. split; [reflexivity|]. split; [cbn [length]; lia|].
              split; [intros _; split; [reflexivity|change (lenN (@nil bytes)) with 0; lia]|].
              intros j Hj. destruct j as [|[|j]]; [lia| |].
              ** replace (N.to_nat i + 1)%nat with (N.to_nat (i + 1)) by lia.
                 rewrite Hn. rewrite (offset_ge [] 1) by (cbn [length]; lia). cbn [wire_space flat_map]. rewrite lenN_nil; lia.
              ** specialize (H5 (S j)). replace (N.to_nat (i + 1) + S j)%nat with (N.to_nat i + S (S j))%nat in H5 by lia.
                 rewrite H5 by lia. rewrite !(offset_ge []) by (cbn [length]; lia). reflexivity.
           ++ intros (cs & rest & H1 & H2 & H3 & H4 & H5). exists [], [].
              assert (cs = []) as ->.
              { destruct cs as [|c cs]; [reflexivity|]. rewrite wire_space_cons in H2. discriminate. }
              split; [constructor|]. split; [reflexivity|]. split; [cbn [length]; lia|].
              split; [intros _; split; [reflexivity|change (lenN (@nil bytes)) with 0; lia]|].
              intros j Hj. specialize (H5 (S j)).
              replace (N.to_nat (i + 1) + j)%nat with (N.to_nat i + S j)%nat by lia.
              rewrite H5 by lia. rewrite !(offset_ge []) by (cbn [length]; lia). reflexivity.
        -- split; [discriminate|]. intros (cs & rest & H1 & H2 & H3 & H4 & H5). exfalso. apply Hn.
           assert (cs = []) as ->.
           { destruct cs as [|c cs]; [reflexivity|]. rewrite wire_space_cons in H2. discriminate. }
           specialize (H5 1%nat). replace (N.to_nat (i + 1)) with (N.to_nat i + 1)%nat by lia. rewrite H5 by lia.
           rewrite (offset_ge []) by (cbn [length]; lia). cbn [wire_space flat_map]. rewrite lenN_nil; lia.
      * split; [discriminate|]. intros (cs & rest & H1 & H2 & H3 & H4 & H5). exfalso. apply Hli.
        assert (cs = []) as ->.
        { destruct cs as [|c cs]; [reflexivity|]. rewrite wire_space_cons in H2. discriminate. }
        destruct H4 as [_ ->]; [cbn [length]; lia|]. change (lenN (@nil bytes)) with 0; lia.
Qed.

Lemma rs_check_loop_total idx n : forall i len ptr iter,
  rs_check_loop n i len ptr idx iter = Ok tt \/ exists e, rs_check_loop n i len ptr idx iter = Err e.
Proof.
  induction n as [|n IH]; intros i len ptr iter; cbn [rs_check_loop]; [auto|].
  pose proof (next_sp_c_no_panic iter) as [N1 N2].
  destruct (next_sp_c iter) as [[[s r]|e| |]|]; try congruence; eauto.
  - destruct (_ =? _); eauto.
  - destruct (len =? i); [|eauto]. destruct (_ =? _); eauto.
Qed.
Lemma rs_check_total b : rs_check_components b = Ok tt \/ exists e, rs_check_components b = Err e.
Proof.
  unfold rs_check_components. destruct b as [|x b]; [auto|].
  destruct (lenN (x :: b) <? 8) eqn:E; [right; eexists; reflexivity|].
  destruct (MAX_ROOTED_SPACENAME_SIZE <? _); [right; eexists; reflexivity|].
  unfold rs_fields. rewrite E. cbn [obind].
  destruct (MAX_SPACENAME_SIZE <? _); [right; eexists; reflexivity|]. apply rs_check_loop_total.
Qed.

Lemma offsets_length cs : length (offsets cs) = 7%nat.
Proof. unfold offsets; now rewrite map_length, seq_length. Qed.
Lemma nth_offsets cs j : (1 <= j <= 7)%nat -> nth j (0 :: offsets cs) 0 = offset cs j.
Proof.
  intros H. destruct j as [|j]; [lia|]. cbn [nth]. unfold offsets.
  rewrite (nth_indep _ 0 (offset cs 0)) by (rewrite map_length, seq_length; lia).
  rewrite map_nth, seq_nth by lia. f_equal.
Qed.

Lemma rs_fields_rooted d cs : rs_fields (rooted_with d cs) =
  Ok (d, 0 :: offsets cs ++ [N.min 255 (lenN (wire_space cs))], wire_space cs).
Proof.
  unfold rooted_with, rs_fields.
  assert (L : lenN (d :: offsets cs ++ wire_space cs) = 8 + lenN (wire_space cs)).
  { rewrite lenN_cons, lenN_app. unfold lenN at 1. rewrite offsets_length. lia. }
  rewrite L. destruct (N.ltb_spec (8 + lenN (wire_space cs)) 8); [lia|].
  change (d :: offsets cs ++ wire_space cs) with ((d :: offsets cs) ++ wire_space cs).
  assert (L8 : lenN (d :: offsets cs) = 8) by (unfold lenN; cbn [length]; rewrite offsets_length; reflexivity).
  rewrite takeN_app_exact, dropN_app_exact by exact L8. reflexivity.
Qed.
Lemma rooted_with_lenN d cs : lenN (rooted_with d cs) = 8 + lenN (wire_space cs).
Proof. unfold rooted_with. rewrite lenN_cons, lenN_app. unfold lenN at 1. rewrite offsets_length. lia. Qed.

Lemma eq_by_nth7 (h : list N) cs : length h = 7%nat ->
  (forall j, (1 <= j <= 7)%nat -> nth j (0 :: h) 0 = offset cs j) -> h = offsets cs.
Proof.
  intros L H. apply (nth_ext _ _ 0 0); [now rewrite offsets_length|].
  intros n Hn. specialize (H (S n)). cbn [nth] in H. rewrite H by lia.
  rewrite <- (nth_offsets cs (S n)) by lia. reflexivity.
Qed.

(** Exactly which byte strings pass rooted-space validation. *)
Lemma rs_check_iff b : rs_check_components b = Ok tt <->
  b = [] \/ exists d cs, space_ok cs /\ (length cs <= 8)%nat /\
                         ((length cs < 8)%nat -> d = lenN cs) /\ b = rooted_with d cs.
Proof.
  unfold rs_check_components, MAX_ROOTED_SPACENAME_SIZE, MAX_SPACENAME_SIZE.
  destruct b as [|x b]; [split; auto|].
  split.
  - destruct (N.ltb_spec (lenN (x :: b)) 8) as [|L1]; [discriminate|].
    destruct (N.ltb_spec 250 (lenN (x :: b))) as [|L2]; [discriminate|].
    unfold rs_fields. destruct (N.ltb_spec (lenN (x :: b)) 8) as [|_]; [lia|]. cbn [obind].
    rewrite takeN_cons, dropN_cons by lia. replace (8 - 1) with 7 by lia. cbn [hd tl].
    rewrite lenN_cons in *.
    destruct (N.ltb_spec 242 (lenN (dropN 7 b))) as [|L3]; [discriminate|].
    intros H. apply rs_check_loop_iff in H as (cs & rest & H1 & H2 & H3 & H4 & H5).
    assert (L7 : length (takeN 7 b) = 7%nat).
    { pose proof (lenN_takeN 7 b) as K. unfold lenN in *. lia. }
    assert (R : rest = []).
    { specialize (H5 8%nat). change (N.to_nat 0 + 8)%nat with 8%nat in H5.
      change (0 :: takeN 7 b ++ [N.min 255 (lenN (dropN 7 b))]) with ((0 :: takeN 7 b) ++ [N.min 255 (lenN (dropN 7 b))]) in H5.
      rewrite app_nth2 in H5 by (cbn [length]; lia). cbn [length] in H5. rewrite L7 in H5.
      cbn [nth Nat.sub] in H5. rewrite offset_ge in H5 by assumption.
      rewrite H2, lenN_app in H5. specialize (H5 ltac:(lia)).
      apply lenN_0_inv. rewrite H2, lenN_app in L3. lia. }
    subst rest. rewrite app_nil_r in H2. right. exists x, cs.
    split; [split; [assumption|]; fold (lenN (wire_space cs)); rewrite <- H2; lia|].
    split; [assumption|]. split.
    + intros L. destruct H4 as [_ ->]; [assumption|lia].
    + unfold rooted_with. f_equal. rewrite <- (takeN_dropN 7 b) at 1. rewrite H2. f_equal.
      apply eq_by_nth7; [assumption|]. intros j Hj. specialize (H5 j).
      change (N.to_nat 0 + j)%nat with j in H5.
      change (0 :: takeN 7 b ++ [N.min 255 (lenN (dropN 7 b))]) with ((0 :: takeN 7 b) ++ [N.min 255 (lenN (dropN 7 b))]) in H5.
      rewrite app_nth1 in H5 by (cbn [length]; lia). rewrite H5 by lia. lia.
  - intros [H|(d & cs & [H1 H2] & H3 & H4 & ->)]; [discriminate|].
    fold (lenN (wire_space cs)) in H2. rewrite rooted_with_lenN, rs_fields_rooted.
    destruct (N.ltb_spec (8 + lenN (wire_space cs)) 8); [lia|].
    destruct (N.ltb_spec 250 (8 + lenN (wire_space cs))); [lia|]. cbn [obind].
    destruct (N.ltb_spec 242 (lenN (wire_space cs))); [lia|].
    apply rs_check_loop_iff. exists cs, []. rewrite app_nil_r. split; [assumption|].
    split; [reflexivity|]. split; [assumption|]. split; [intros L; rewrite H4 by assumption; split; [reflexivity|lia]|].
    intros j Hj. change (N.to_nat 0 + j)%nat with j.
    change (0 :: offsets cs ++ [N.min 255 (lenN (wire_space cs))]) with ((0 :: offsets cs) ++ [N.min 255 (lenN (wire_space cs))]).
    destruct (Nat.eq_dec j 8) as [->|Hj8].
    + rewrite app_nth2 by (cbn [length]; rewrite offsets_length; lia). cbn [length]. rewrite offsets_length.
      cbn [nth Nat.sub]. rewrite offset_ge by assumption. lia.
    + rewrite app_nth1 by (cbn [length]; rewrite offsets_length; lia). rewrite nth_offsets by lia. lia.
Qed.

(** ** reading components *)
Lemma rs_ptr_rooted d cs i : space_ok cs -> (length cs <= 8)%nat -> (i <= 8)%nat ->
  rs_ptr (rooted_with d cs) (N.of_nat i) = offset cs i.
Proof.
  intros [_ L] Hl Hi. fold (lenN (wire_space cs)) in L. unfold rs_ptr.
  destruct (N.eqb_spec (N.of_nat i) 0) as [E|E]; [assert (i = 0%nat) as -> by lia; reflexivity|].
  destruct (N.eqb_spec (N.of_nat i) 8) as [E8|E8].
  - rewrite rooted_with_lenN. replace i with 8%nat by lia. rewrite offset_ge by assumption.
    replace (8 + lenN (wire_space cs) - 8) with (lenN (wire_space cs)) by lia.
    apply N.mod_small; lia.
  - rewrite Nat2N.id. unfold rooted_with.
    destruct i as [|i]; [lia|]. cbn [nth]. rewrite app_nth1 by (rewrite offsets_length; lia).
    exact (nth_offsets cs (S i) ltac:(lia)).
Qed.
Lemma rs_comp_rooted d cs i : space_ok cs -> (length cs <= 8)%nat -> (i < 8)%nat ->
  rs_comp (rooted_with d cs) (N.of_nat i) = Ok (nth i cs []).
Proof.
  intros Hok Hl Hi. unfold rs_comp. destruct (N.ltb_spec (N.of_nat i) 8); [|lia].
  unfold rs_comp_space. unfold rooted_with at 1. fold (rooted_with d cs).
  rewrite rooted_with_lenN. destruct (N.ltb_spec (8 + lenN (wire_space cs)) 8); [lia|].
  replace (N.of_nat i + 1) with (N.of_nat (S i)) by lia. rewrite !rs_ptr_rooted by (assumption || lia).
  replace (dropN 8 (rooted_with d cs)) with (wire_space cs).
  2:{ unfold rooted_with. change (d :: offsets cs ++ wire_space cs) with ((d :: offsets cs) ++ wire_space cs).
      rewrite dropN_app_exact; [reflexivity|]. unfold lenN; cbn [length]; rewrite offsets_length; reflexivity. }
  unfold raw_slice. destruct Hok as [Hok L]. fold (lenN (wire_space cs)) in L.
  pose proof (offset_le cs (S i)) as O1.
  destruct (skipn i cs) as [|c r] eqn:E.
  - assert (L' : (length cs <= i)%nat).
    { pose proof (skipn_length i cs) as K. rewrite E in K. cbn [length] in K. lia. }
    rewrite !offset_ge by lia.
    replace ((lenN (wire_space cs) + 256 - lenN (wire_space cs)) mod 256) with 0
      by (replace (lenN (wire_space cs) + 256 - lenN (wire_space cs)) with 256 by lia; reflexivity).
    rewrite N.add_0_r. destruct (N.ltb_spec (lenN (wire_space cs)) (lenN (wire_space cs))); [lia|].
    rewrite takeN_0. cbn [obind first]. rewrite nth_overflow by lia. reflexivity.
  - pose proof (offset_S cs i c r E) as O2. rewrite O2 in *.
    replace ((offset cs i + 1 + lenN c + 256 - offset cs i) mod 256) with (1 + lenN c).
    2:{ replace (offset cs i + 1 + lenN c + 256 - offset cs i) with ((1 + lenN c) + 1 * 256) by lia.
        rewrite N.mod_add by lia. symmetry; apply N.mod_small. lia. }
    destruct (N.ltb_spec (lenN (wire_space cs)) (offset cs i + (1 + lenN c))); [lia|].
    assert (W : wire_space cs = wire_space (firstn i cs) ++ wire_space (c :: r)).
    { rewrite <- wire_space_app. f_equal. rewrite <- E. symmetry. apply firstn_skipn. }
    rewrite W, dropN_app_exact by reflexivity. rewrite wire_space_cons.
    change (lenN c :: c ++ wire_space r) with ((lenN c :: c) ++ wire_space r).
    rewrite takeN_app_exact by (rewrite lenN_cons; lia). cbn [obind].
    rewrite <- (app_nil_r c) at 2. rewrite first_wire. f_equal.
    rewrite <- (firstn_skipn i cs), E.
    assert (length (firstn i cs) = i).
    { pose proof (skipn_length i cs) as K. rewrite E in K. cbn [length] in K. rewrite firstn_length. lia. }
    rewrite app_nth2 by lia. replace (i - length (firstn i cs))%nat with 0%nat by lia. reflexivity.
Qed.

Lemma oseq_map_ok {A B E} (f : A -> outcome E B) (g : A -> B) l :
  (forall x, In x l -> f x = Ok (g x)) -> oseq (map f l) = Ok (map g l).
Proof.
  induction l as [|x l IH]; intros H; cbn [map oseq]; [reflexivity|].
  rewrite H by (left; reflexivity). cbn [obind]. rewrite IH by (intros; apply H; right; assumption). reflexivity.
Qed.
Lemma map_nth_seq {A} (l : list A) d : map (fun i => nth i l d) (seq 0 (length l)) = l.
Proof.
  induction l as [|x l IH]; [reflexivity|]. cbn [length seq map nth]. f_equal.
  rewrite <- seq_shift, map_map. exact IH.
Qed.
Lemma rs_iter_rooted cs : space_ok cs -> (length cs <= 8)%nat ->
  rs_iter (wire_rooted cs) = Ok cs.
Proof.
  intros H L. destruct cs as [|c cs]; [reflexivity|].
  unfold wire_rooted. set (b := c :: cs) in *. clearbody b. unfold rs_iter, rs_depth.
  unfold rooted_with at 2. cbn [hd]. rewrite Nat2N.id.
  rewrite (oseq_map_ok _ (fun i => nth i b [])); [now rewrite map_nth_seq|].
  intros i Hi. apply in_seq in Hi. apply rs_comp_rooted; auto. lia.
Qed.
Lemma rs_comp_empty i : (i < 8)%nat -> rs_comp [] (N.of_nat i) = Ok [].
Proof. intros H; unfold rs_comp. destruct (N.ltb_spec (N.of_nat i) 8); [reflexivity|lia]. Qed.

Lemma rs_range_rooted d cs s e : space_ok cs -> (length cs <= 8)%nat -> (s <= e)%nat -> (e <= 8)%nat ->
  rs_range (rooted_with d cs) (N.of_nat s) (N.of_nat e) = Ok (wire_space (firstn (e - s) (skipn s cs))).
Proof.
  intros [_ L] Hl Hse He. fold (lenN (wire_space cs)) in L.
  unfold rs_range. rewrite rs_fields_rooted. cbn [obind].
  destruct (N.ltb_spec 8 (N.of_nat s)); [lia|]. destruct (N.ltb_spec 8 (N.of_nat e)); [lia|]. cbn [orb].
  rewrite !Nat2N.id.
  assert (X : forall i, (i <= 8)%nat ->
    nth i (0 :: offsets cs ++ [N.min 255 (lenN (wire_space cs))]) 0 = offset cs i).
  { intros i Hi. destruct (Nat.eq_dec i 0) as [->|H0']; [reflexivity|].
    change (0 :: offsets cs ++ [N.min 255 (lenN (wire_space cs))]) with ((0 :: offsets cs) ++ [N.min 255 (lenN (wire_space cs))]).
    destruct (Nat.eq_dec i 8) as [->|H8].
    - rewrite app_nth2 by (cbn [length]; rewrite offsets_length; lia). cbn [length]. rewrite offsets_length.
      cbn [nth Nat.sub]. rewrite offset_ge by assumption. lia.
    - rewrite app_nth1 by (cbn [length]; rewrite offsets_length; lia). apply nth_offsets. lia. }
  rewrite !X by lia.
  assert (E : firstn e cs = firstn s cs ++ firstn (e - s) (skipn s cs)).
  { rewrite <- (firstn_skipn s (firstn e cs)). rewrite firstn_firstn, skipn_firstn_comm.
    do 2 f_equal; lia. }
  assert (O : offset cs e = offset cs s + lenN (wire_space (firstn (e - s) (skipn s cs)))).
  { rewrite !offset_lenN, E, lenN_wire_app. reflexivity. }
  pose proof (offset_le cs e) as O1.
  destruct (N.ltb_spec (offset cs e) (offset cs s)); [lia|].
  destruct (N.ltb_spec (lenN (wire_space cs)) (offset cs e)); [lia|]. cbn [orb].
  f_equal. unfold sliceN. rewrite O.
  assert (W : wire_space cs = wire_space (firstn s cs) ++ wire_space (firstn (e - s) (skipn s cs)) ++ wire_space (skipn (e - s) (skipn s cs))).
  { rewrite <- !wire_space_app. f_equal. now rewrite firstn_skipn, firstn_skipn. }
  rewrite W at 1. rewrite dropN_app_exact by reflexivity.
  rewrite takeN_app_exact; [reflexivity|lia].
Qed.

(** ** appending *)
Lemma fill8_rooted k x c1 w : length c1 = 7%nat -> (1 <= k <= 8)%nat ->
  fill8 (N.of_nat k) x ((N.of_nat k :: c1) ++ w) = N.of_nat k :: firstn (k - 1) c1 ++ repeat x (8 - k) ++ w.
Proof.
  intros L H. unfold fill8. rewrite dropN_app_exact by (unfold lenN; cbn [length]; rewrite L; reflexivity).
  rewrite takeN_app_le by (unfold lenN; cbn [length]; lia).
  rewrite takeN_cons by lia. cbn [app]. f_equal.
  unfold takeN. rewrite !N2Nat.inj_sub, !Nat2N.id. reflexivity.
Qed.
Lemma offsets_snoc cs c : (length cs < 8)%nat ->
  offsets (cs ++ [c]) = firstn (length cs) (offsets cs) ++ repeat (lenN (wire_space (cs ++ [c]))) (7 - length cs).
Proof.
  intros L. unfold offsets.
  replace 7%nat with (length cs + (7 - length cs))%nat at 1 by lia.
  rewrite seq_app, map_app. f_equal.
  - replace 7%nat with (length cs + (7 - length cs))%nat at 1 by lia.
    rewrite seq_app, map_app, firstn_app, map_length, seq_length, Nat.sub_diag. cbn [firstn]. rewrite app_nil_r.
    rewrite firstn_all2 by (rewrite map_length, seq_length; lia).
    apply map_ext_in. intros i Hi. apply in_seq in Hi. unfold offset. rewrite firstn_app.
    replace (i - length cs)%nat with 0%nat by lia. cbn [firstn]. now rewrite app_nil_r.
  - set (k := (7 - length cs)%nat).
    assert (forall s, (length cs + 1 <= s)%nat -> map (offset (cs ++ [c])) (seq s k) = repeat (lenN (wire_space (cs ++ [c]))) k) as X.
    { clearbody k. clear L. induction k as [|k IH]; intros s Hs; [reflexivity|]. cbn [seq map repeat]. f_equal; [|apply IH; lia].
      rewrite offset_ge; [reflexivity|]. rewrite app_length; cbn [length]; lia. }
    apply X. lia.
Qed.
Lemma rs_try_append_wire cs c b' : space_ok cs -> (length cs <= 8)%nat ->
  (rs_try_append (wire_rooted cs) c = Ok b' <->
   space_ok (cs ++ [c]) /\ (length cs < 8)%nat /\ b' = wire_rooted (cs ++ [c])).
Proof.
  intros [H L] L8. fold (lenN (wire_space cs)) in L. unfold rs_try_append, MAX_SPACENAME_COMPONENT_SIZE.
  assert (OK : space_ok (cs ++ [c]) <-> component_ok c /\ lenN (wire_space cs) + 1 + lenN c <= 242).
  { unfold space_ok. fold (lenN (wire_space (cs ++ [c]))). rewrite lenN_wire_app, lenN_wire_cons.
    cbn [wire_space flat_map]. fold (wire_space cs). rewrite lenN_nil, Forall_app. split.
    - intros [[_ H1] H2]. inversion H1; subst. split; [assumption|lia].
    - intros [H1 H2]. split; [split; [assumption|constructor; [assumption|constructor]]|lia]. }
  destruct (N.ltb_spec 200 (lenN c)).
  { split; [discriminate|]. intros (X & _). apply OK in X as [X _]. unfold component_ok in X. fold (lenN c) in X. lia. }
  destruct (N.eqb_spec (lenN c) 0).
  { split; [discriminate|]. intros (X & _). apply OK in X as [X _]. unfold component_ok in X. fold (lenN c) in X. lia. }
  assert (B : match wire_rooted cs with [] => repeat 0 8 | z => z end = rooted_with (lenN cs) cs).
  { destruct cs as [|x cs]; reflexivity. }
  replace (match wire_rooted cs with [] => repeat 0 8 | _ :: _ => wire_rooted cs end) with (rooted_with (lenN cs) cs)
    by (rewrite <- B; destruct (wire_rooted cs); reflexivity).
  rewrite rooted_with_lenN. unfold rooted_with at 1. cbn [hd]. unfold MAX_SPACE_DEPTH, MAX_ROOTED_SPACENAME_SIZE.
  destruct (N.leb_spec 8 (lenN cs)) as [K|K].
  { split; [discriminate|]. intros (_ & X & _). unfold lenN in K. lia. }
  destruct (N.ltb_spec 250 (8 + lenN (wire_space cs) + lenN c + 1)).
  { split; [discriminate|]. intros (X & _). apply OK in X as [_ X]. lia. }
  assert (R : fill8 (hd 0 (rooted_with (lenN cs) cs) + 1)
       (lenN (set_nth 0 (hd 0 (rooted_with (lenN cs) cs) + 1) (rooted_with (lenN cs) cs) ++ lenN c :: c) - 8)
       (set_nth 0 (hd 0 (rooted_with (lenN cs) cs) + 1) (rooted_with (lenN cs) cs) ++ lenN c :: c) = wire_rooted (cs ++ [c])).
  { unfold rooted_with. cbn [hd set_nth].
    replace (lenN cs + 1) with (N.of_nat (S (length cs))) by (unfold lenN; lia).
    assert (W : (offsets cs ++ wire_space cs) ++ lenN c :: c = offsets cs ++ wire_space (cs ++ [c])).
    { rewrite wire_space_app, <- app_assoc. cbn [wire_space flat_map]. now rewrite app_nil_r. }
    cbn [app]. rewrite W.
    change (N.of_nat (S (length cs)) :: offsets cs ++ wire_space (cs ++ [c]))
      with ((N.of_nat (S (length cs)) :: offsets cs) ++ wire_space (cs ++ [c])).
    rewrite fill8_rooted by (rewrite ?offsets_length; unfold lenN in K; lia).
    rewrite lenN_app. unfold lenN at 1. cbn [length]. rewrite offsets_length.
    replace (N.of_nat 8 + lenN (wire_space (cs ++ [c])) - 8) with (lenN (wire_space (cs ++ [c]))) by lia.
    unfold wire_rooted. destruct (cs ++ [c]) as [|z zs] eqn:Z; [destruct cs; discriminate|]. rewrite <- Z.
    unfold rooted_with. f_equal; [rewrite app_length; cbn [length]; f_equal; lia|].
    rewrite offsets_snoc by (unfold lenN in K; lia). rewrite <- app_assoc.
    replace (S (length cs) - 1)%nat with (length cs) by lia.
    replace (8 - S (length cs))%nat with (7 - length cs)%nat by lia. reflexivity. }
  cbv zeta. rewrite R. split.
  - intros X; inversion X; subst. split; [apply OK; split; [unfold component_ok; fold (lenN c); lia|lia]|].
    split; [unfold lenN in K; lia|reflexivity].
  - intros (_ & _ & ->); reflexivity.
Qed.
Lemma rs_try_append_total b c : (exists r, rs_try_append b c = Ok r) \/ (exists e, rs_try_append b c = Err e).
Proof.
  unfold rs_try_append. destruct (_ <? lenN c); [eauto|]. destruct (_ =? _); [eauto|]. cbv zeta.
  destruct (_ <=? _); [eauto|]. destruct (_ <? _); eauto.
Qed.

Lemma space_ok_app_inv a b : space_ok (a ++ b) -> space_ok a.
Proof.
  intros [H1 H2]. apply Forall_app in H1 as [H1 _]. fold (lenN (wire_space (a ++ b))) in H2.
  rewrite lenN_wire_app in H2. split; [assumption|]. fold (lenN (wire_space a)). lia.
Qed.

Lemma rs_extend_wire cs : forall cs0, space_ok cs0 -> (length cs0 <= 8)%nat ->
  exists k r, rs_extend (wire_rooted cs0) cs = (wire_rooted (cs0 ++ firstn k cs), r) /\
    space_ok (cs0 ++ firstn k cs) /\ (length (cs0 ++ firstn k cs) <= 8)%nat /\
    ((r = Ok tt /\ firstn k cs = cs) \/
     (exists e, r = Err e) /\ ~ (space_ok (cs0 ++ cs) /\ (length (cs0 ++ cs) <= 8)%nat)).
Proof.
  induction cs as [|c cs IH]; intros cs0 H L; cbn [rs_extend].
  - exists 0%nat, (Ok tt). cbn [firstn]. rewrite app_nil_r. split; [reflexivity|].
    split; [assumption|]. split; [assumption|]. left; auto.
  - destruct (rs_try_append (wire_rooted cs0) c) as [b'|e| |] eqn:E.
    + apply rs_try_append_wire in E as (H1 & H2 & ->); try assumption.
      destruct (IH (cs0 ++ [c])) as (k & r & E1 & E2 & E3 & E4); [assumption|rewrite app_length; cbn [length]; lia|].
      exists (S k), r. cbn [firstn].
      assert (X : forall l, (cs0 ++ [c]) ++ l = cs0 ++ c :: l) by (intros; rewrite <- app_assoc; reflexivity).
      rewrite !X in *. split; [assumption|]. split; [assumption|]. split; [assumption|].
      destruct E4 as [[E4 E5]|E4]; [left; split; [assumption|now rewrite E5]|right; assumption].
    + exists 0%nat, (Err e). cbn [firstn]. rewrite app_nil_r. split; [reflexivity|]. split; [assumption|].
      split; [assumption|]. right. split; [eauto|]. intros [X Y].
      assert (rs_try_append (wire_rooted cs0) c = Ok (wire_rooted (cs0 ++ [c]))) as Z; [|congruence].
      apply rs_try_append_wire; try assumption. split.
      * apply (space_ok_app_inv (cs0 ++ [c]) cs). rewrite <- app_assoc. exact X.
      * rewrite app_length in Y. cbn [length] in Y. split; [lia|reflexivity].
    + destruct (rs_try_append_total (wire_rooted cs0) c) as [[x X]|[x X]]; congruence.
    + destruct (rs_try_append_total (wire_rooted cs0) c) as [[x X]|[x X]]; congruence.
Qed.

Lemma rs_try_from_iter_iff cs b : rs_try_from_iter cs = Ok b <->
  space_ok cs /\ (length cs <= 8)%nat /\ b = wire_rooted cs.
Proof.
  unfold rs_try_from_iter.
  destruct (rs_extend_wire cs [] space_ok_nil) as (k & r & E1 & E2 & E3 & E4); [cbn [length]; lia|].
  change (wire_rooted []) with (@nil N) in E1. cbn [app] in *. rewrite E1.
  destruct E4 as [[-> E5]|[[e ->] E5]].
  - rewrite E5 in *. split; [intros X; inversion X; subst; auto|intros (_ & _ & ->); reflexivity].
  - split; [discriminate|]. intros (X & Y & _). exfalso; apply E5; auto.
Qed.
