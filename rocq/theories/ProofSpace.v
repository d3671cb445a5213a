From Verif Require Import Bytes ModelSpace SpecSpace.

Lemma wire_space_cons c cs : wire_space (c :: cs) = lenN c :: c ++ wire_space cs.
Proof. reflexivity. Qed.
Lemma wire_space_app a b : wire_space (a ++ b) = wire_space a ++ wire_space b.
Proof. unfold wire_space; apply flat_map_app. Qed.
Lemma lenN_wire_cons c cs : lenN (wire_space (c :: cs)) = 1 + lenN c + lenN (wire_space cs).
Proof. rewrite wire_space_cons, lenN_cons, lenN_app; lia. Qed.
Lemma lenN_wire_app a b : lenN (wire_space (a ++ b)) = lenN (wire_space a) + lenN (wire_space b).
Proof. now rewrite wire_space_app, lenN_app. Qed.
Lemma length_wire_ge cs : (length cs <= length (wire_space cs))%nat.
Proof.
  induction cs as [|c cs IH]; [reflexivity|]. rewrite wire_space_cons; cbn [length].
  rewrite app_length; lia.
Qed.

Ltac comp_ok H := unfold component_ok in H; fold (lenN (A:=N)) in H.

Lemma next_sp_c_wire c r : component_ok c ->
  next_sp_c (lenN c :: c ++ r) = Some (Ok (lenN c :: c, r)).
Proof.
  intros H; unfold component_ok in H; fold (lenN c) in H. cbn [next_sp_c].
  unfold MAX_SPACENAME_COMPONENT_SIZE.
  destruct (N.ltb_spec 200 (lenN c)) as [|_]; [lia|].
  destruct (N.eqb_spec (lenN c) 0) as [|_]; [lia|].
  rewrite lenN_cons, lenN_app.
  destruct (N.leb_spec (1 + (lenN c + lenN r)) (lenN c)) as [|_]; [lia|].
  change (lenN c :: c ++ r) with ((lenN c :: c) ++ r).
  rewrite takeN_app_exact, dropN_app_exact by (rewrite lenN_cons; lia). reflexivity.
Qed.

Lemma next_sp_c_inv b s r : next_sp_c b = Some (Ok (s, r)) ->
  exists c, component_ok c /\ s = lenN c :: c /\ b = lenN c :: c ++ r.
Proof.
  destruct b as [|len b]; cbn [next_sp_c]; [discriminate|].
  destruct (N.ltb_spec MAX_SPACENAME_COMPONENT_SIZE len) as [|H1]; [discriminate|].
  destruct (N.eqb_spec len 0) as [|H2]; [discriminate|].
  destruct (N.leb_spec (lenN (len :: b)) len) as [|H3]; [discriminate|].
  intros E; inversion E; subst; clear E. rewrite lenN_cons in H3.
  exists (takeN len b). unfold MAX_SPACENAME_COMPONENT_SIZE in *.
  assert (L : lenN (takeN len b) = len) by (rewrite lenN_takeN; lia).
  split; [unfold component_ok; fold (lenN (takeN len b)); lia|].
  rewrite L. rewrite takeN_cons, dropN_cons by lia.
  replace (len + 1 - 1) with len by lia. split; [reflexivity|].
  now rewrite takeN_dropN.
Qed.

Lemma next_sp_c_no_panic b : next_sp_c b <> Some Panic /\ next_sp_c b <> Some OutOfFuel.
Proof.
  destruct b as [|len b]; cbn [next_sp_c]; [split; discriminate|].
  destruct (_ <? len); [split; discriminate|]. destruct (len =? 0); [split; discriminate|].
  destruct (_ <=? len); split; discriminate.
Qed.
Lemma next_sp_c_none b : next_sp_c b = None <-> b = [].
Proof.
  destruct b as [|len b]; cbn [next_sp_c]; [split; reflexivity|].
  destruct (_ <? len); [split; discriminate|]. destruct (len =? 0); [split; discriminate|].
  destruct (_ <=? len); split; discriminate.
Qed.

Lemma next_c_wire c r : component_ok c ->
  next_c (lenN c :: c ++ r) = Some (Ok (c, r)).
Proof.
  intros H; unfold next_c; rewrite next_sp_c_wire by assumption.
  rewrite dropN_cons by lia. reflexivity.
Qed.
Lemma next_c_inv b c r : next_c b = Some (Ok (c, r)) -> component_ok c /\ b = lenN c :: c ++ r.
Proof.
  unfold next_c. destruct (next_sp_c b) as [[[s r']|e| |]|] eqn:E; try discriminate.
  intros H; inversion H; subst; clear H.
  apply next_sp_c_inv in E as (c' & H1 & -> & ->). rewrite dropN_cons by lia. auto.
Qed.
Lemma next_c_none b : next_c b = None <-> b = [].
Proof.
  rewrite <- next_sp_c_none. unfold next_c.
  destruct (next_sp_c b) as [[[s r']|e| |]|]; split; congruence.
Qed.
Lemma next_c_no_panic b : next_c b <> Some Panic /\ next_c b <> Some OutOfFuel.
Proof.
  pose proof (next_sp_c_no_panic b) as [H1 H2]. unfold next_c.
  destruct (next_sp_c b) as [[[s r']|e| |]|]; split; congruence.
Qed.

(** ** check_components *)
Lemma check_loop_wire cs : Forall component_ok cs -> forall fuel i,
  (length cs <= fuel)%nat -> check_loop fuel (wire_space cs) i = Ok (i + lenN cs).
Proof.
  induction 1 as [|c cs Hc _ IH]; intros fuel i Hf.
  - destruct fuel; cbn [check_loop wire_space flat_map next_c next_sp_c]; rewrite lenN_nil; f_equal; lia.
  - rewrite wire_space_cons. destruct fuel as [|f]; cbn [length] in Hf; [lia|].
    cbn [check_loop]. rewrite next_c_wire by assumption. rewrite IH by lia.
    rewrite lenN_cons; f_equal; lia.
Qed.
Lemma check_loop_inv fuel : forall b i n, check_loop fuel b i = Ok n ->
  exists cs, Forall component_ok cs /\ b = wire_space cs /\ n = i + lenN cs.
Proof.
  induction fuel as [|f IH]; intros b i n; cbn [check_loop];
    destruct (next_c b) as [[[c r]|e| |]|] eqn:E; try discriminate; intros H.
  - apply next_c_none in E; subst. inversion H; subst. exists []. repeat split; [constructor|]. rewrite lenN_nil; lia.
  - apply next_c_inv in E as [Hc ->]. apply IH in H as (cs & H1 & -> & ->).
    exists (c :: cs). repeat split; [constructor; auto|]. rewrite lenN_cons; lia.
  - apply next_c_none in E; subst. inversion H; subst. exists []. repeat split; [constructor|]. rewrite lenN_nil; lia.
Qed.
Lemma check_loop_total fuel : forall b i, (length b <= fuel)%nat ->
  (exists n, check_loop fuel b i = Ok n) \/ (exists e, check_loop fuel b i = Err e).
Proof.
  induction fuel as [|f IH]; intros b i Hl; cbn [check_loop].
  - destruct b; cbn [length] in Hl; [|lia]. left; eexists; reflexivity.
  - pose proof (next_c_no_panic b) as [N1 N2].
    destruct (next_c b) as [[[c r]|e| |]|] eqn:E; try congruence; eauto.
    apply next_c_inv in E as [Hc ->]. apply IH. cbn [length] in Hl. rewrite app_length in Hl; lia.
Qed.

Lemma check_components_iff b n : check_components b = Ok n <->
  exists cs, space_ok cs /\ b = wire_space cs /\ n = lenN cs.
Proof.
  unfold check_components, MAX_SPACENAME_SIZE. destruct (N.ltb_spec 242 (lenN b)) as [Hl|Hl]; split.
  - discriminate.
  - intros (cs & [_ Hs] & -> & _). fold (lenN (wire_space cs)) in Hs. lia.
  - intros H; apply check_loop_inv in H as (cs & H1 & -> & ->).
    exists cs. repeat split; auto.
  - intros (cs & [H1 _] & -> & ->). rewrite check_loop_wire; [f_equal; lia|assumption|apply length_wire_ge].
Qed.
Lemma check_components_total b :
  (exists n, check_components b = Ok n) \/ (exists e, check_components b = Err e).
Proof.
  unfold check_components. destruct (_ <? _); [right; eauto|]. now apply check_loop_total.
Qed.

(** ** iteration *)
Lemma iter_next_wire c r : component_ok c ->
  iter_next (lenN c :: c ++ r) = Ok (Some c, r).
Proof.
  intros H; unfold component_ok in H; fold (lenN c) in H. cbn [iter_next].
  unfold MAX_SPACENAME_COMPONENT_SIZE.
  destruct (N.ltb_spec 200 (lenN c)) as [|_]; [lia|].
  destruct (N.eqb_spec (lenN c) 0) as [|_]; [lia|]. cbn [orb].
  rewrite lenN_cons, lenN_app.
  destruct (N.ltb_spec (1 + (lenN c + lenN r)) (lenN c + 1)) as [|_]; [lia|].
  unfold sliceN. rewrite !dropN_cons by lia.
  replace (lenN c + 1 - 1) with (lenN c) by lia. replace (1 - 1) with 0 by lia.
  rewrite dropN_0, takeN_app_exact, dropN_app_exact by reflexivity. reflexivity.
Qed.
Lemma iter_all_fuel_wire cs : Forall component_ok cs -> forall fuel,
  (length cs <= fuel)%nat -> iter_all_fuel fuel (wire_space cs) = Ok (cs, []).
Proof.
  induction 1 as [|c cs Hc _ IH]; intros fuel Hf.
  - destruct fuel; reflexivity.
  - rewrite wire_space_cons. destruct fuel as [|f]; cbn [length] in Hf; [lia|].
    cbn [iter_all_fuel]. rewrite iter_next_wire by assumption. rewrite IH by lia. reflexivity.
Qed.
Lemma iter_all_wire cs : Forall component_ok cs -> iter_all (wire_space cs) = Ok (cs, []).
Proof. intros H; apply iter_all_fuel_wire; [assumption|apply length_wire_ge]. Qed.
Lemma components_wire cs : Forall component_ok cs -> components (wire_space cs) = Ok cs.
Proof. intros H; unfold components; rewrite iter_all_wire by assumption; reflexivity. Qed.
Lemma iter_count_wire cs : Forall component_ok cs -> iter_count (wire_space cs) = Ok (lenN cs).
Proof. intros H; unfold iter_count; rewrite iter_all_wire by assumption; reflexivity. Qed.

Lemma wire_space_inj a : Forall component_ok a -> forall b, Forall component_ok b ->
  wire_space a = wire_space b -> a = b.
Proof.
  intros Ha b Hb H. pose proof (components_wire a Ha) as E1. pose proof (components_wire b Hb) as E2.
  rewrite H, E2 in E1. now inversion E1.
Qed.

(** ** building *)
Lemma try_push_iff b c b' : try_push b c = Ok b' <->
  component_ok c /\ lenN b + 1 + lenN c <= 242 /\ b' = b ++ lenN c :: c.
Proof.
  unfold try_push, component_ok, MAX_SPACENAME_COMPONENT_SIZE, MAX_SPACENAME_SIZE. fold (lenN c).
  destruct (N.ltb_spec 200 (lenN c)); [split; [discriminate|lia]|].
  destruct (N.eqb_spec (lenN c) 0); [split; [discriminate|lia]|].
  destruct (N.ltb_spec 242 (lenN b + lenN c + 1)); [split; [discriminate|lia]|].
  split; [intros E; inversion E; subst; repeat split; lia|intros (_ & _ & ->); reflexivity].
Qed.
Lemma try_push_front_iff b c b' : try_push_front b c = Ok b' <->
  component_ok c /\ lenN b + 1 + lenN c <= 242 /\ b' = lenN c :: c ++ b.
Proof.
  unfold try_push_front, component_ok, MAX_SPACENAME_COMPONENT_SIZE, MAX_SPACENAME_SIZE. fold (lenN c).
  destruct (N.ltb_spec 200 (lenN c)); [split; [discriminate|lia]|].
  destruct (N.eqb_spec (lenN c) 0); [split; [discriminate|lia]|].
  destruct (N.ltb_spec 242 (lenN b + lenN c + 1)); [split; [discriminate|lia]|].
  split; [intros E; inversion E; subst; repeat split; lia|intros (_ & _ & ->); reflexivity].
Qed.
Lemma try_push_total b c : (exists b', try_push b c = Ok b') \/ (exists e, try_push b c = Err e).
Proof. unfold try_push. destruct (_ <? lenN c); [eauto|]. destruct (_ =? _); [eauto|]. destruct (_ <? _); eauto. Qed.

Lemma push_all_iff cs : forall b d b' d', push_all b cs d = Ok (b', d') <->
  Forall component_ok cs /\ (cs <> [] -> lenN b + lenN (wire_space cs) <= 242) /\
  b' = b ++ wire_space cs /\ d' = d + lenN cs.
Proof.
  induction cs as [|c cs IH]; intros b d b' d'; cbn [push_all].
  - cbn [wire_space flat_map]. rewrite app_nil_r. change (lenN (@nil bytes)) with 0. split.
    + intros E; inversion E; subst. repeat split; [constructor|congruence|lia].
    + intros (_ & _ & -> & ->). do 2 f_equal; lia.
  - destruct (try_push b c) as [b1|e| |] eqn:E; cbn [obind].
    + apply try_push_iff in E as (Hc & Hl & ->). rewrite IH.
      rewrite !lenN_app, !lenN_cons, lenN_wire_cons.
      assert (X : (b ++ lenN c :: c) ++ wire_space cs = b ++ wire_space (c :: cs))
        by (rewrite <- app_assoc; reflexivity).
      rewrite X. split.
      * intros (H1 & H2 & -> & ->). repeat split; [constructor; auto| |lia].
        intros _. destruct cs as [|c2 cs]; [cbn [wire_space flat_map]; rewrite lenN_nil; lia|].
        assert (c2 :: cs <> []) as K by discriminate. specialize (H2 K). lia.
      * intros (H1 & H2 & -> & ->). inversion H1; subst. repeat split; auto; [|lia].
        intros _. assert (c :: cs <> []) as K by discriminate. specialize (H2 K). lia.
    + split; [discriminate|]. intros (H1 & H2 & _). inversion H1; subst.
      assert (c :: cs <> []) as K by discriminate. specialize (H2 K). rewrite lenN_wire_cons in H2.
      assert (try_push b c = Ok (b ++ lenN c :: c)) as X by (apply try_push_iff; split; [assumption|split; [lia|reflexivity]]).
      congruence.
    + destruct (try_push_total b c) as [[x X]|[x X]]; congruence.
    + destruct (try_push_total b c) as [[x X]|[x X]]; congruence.
Qed.
Lemma push_all_total cs : forall b d,
  (exists r, push_all b cs d = Ok r) \/ (exists e, push_all b cs d = Err e).
Proof.
  induction cs as [|c cs IH]; intros b d; cbn [push_all]; [eauto|].
  destruct (try_push_total b c) as [[x X]|[x X]]; rewrite X; cbn [obind]; eauto.
Qed.

(** Extending a valid space. *)
Lemma extend_wire_iff cs0 cs b' : space_ok cs0 ->
  (extend_from_iter (wire_space cs0) cs = Ok b' <->
   space_ok (cs0 ++ cs) /\ lenN (cs0 ++ cs) <= 8 /\ b' = wire_space (cs0 ++ cs)).
Proof.
  intros [H0 L0]. unfold extend_from_iter. rewrite iter_count_wire by assumption. cbn [obind].
  fold (lenN (wire_space cs0)) in L0.
  destruct (push_all (wire_space cs0) cs (lenN cs0)) as [[b1 d1]|e| |] eqn:E; cbn [obind].
  - apply push_all_iff in E as (H1 & H2 & -> & ->). rewrite lenN_app. unfold MAX_SPACE_DEPTH.
    rewrite <- wire_space_app. unfold space_ok. fold (lenN (wire_space (cs0 ++ cs))).
    rewrite lenN_wire_app, Forall_app.
    assert (L : lenN (wire_space cs0) + lenN (wire_space cs) <= 242).
    { destruct cs as [|c cs]; [cbn [wire_space flat_map]; rewrite lenN_nil; lia|]. apply H2; discriminate. }
    destruct (N.ltb_spec 8 (lenN cs0 + lenN cs)).
    + split; [discriminate|]. intros (_ & X & _). lia.
    + split; [intros X; inversion X; subst; auto|intros (_ & _ & ->); reflexivity].
  - split; [discriminate|]. intros ((H1 & H2) & _ & _). apply Forall_app in H1 as [_ H1].
    fold (lenN (wire_space (cs0 ++ cs))) in H2. rewrite lenN_wire_app in H2.
    assert (push_all (wire_space cs0) cs (lenN cs0) =
            Ok (wire_space cs0 ++ wire_space cs, lenN cs0 + lenN cs)) as X
      by (apply push_all_iff; repeat split; auto).
    congruence.
  - destruct (push_all_total cs (wire_space cs0) (lenN cs0)) as [[x X]|[x X]]; congruence.
  - destruct (push_all_total cs (wire_space cs0) (lenN cs0)) as [[x X]|[x X]]; congruence.
Qed.
Lemma extend_wire_total cs0 cs : space_ok cs0 ->
  (exists b, extend_from_iter (wire_space cs0) cs = Ok b) \/
  (exists e, extend_from_iter (wire_space cs0) cs = Err e).
Proof.
  intros [H0 L0]. unfold extend_from_iter. rewrite iter_count_wire by assumption. cbn [obind].
  destruct (push_all_total cs (wire_space cs0) (lenN cs0)) as [[[x y] X]|[x X]]; rewrite X; cbn [obind]; eauto.
  destruct (_ <? _); eauto.
Qed.
Lemma space_ok_nil : space_ok [].
Proof. split; [constructor|cbn; lia]. Qed.
Lemma try_from_iter_iff cs b : try_from_iter cs = Ok b <->
  space_ok cs /\ lenN cs <= 8 /\ b = wire_space cs.
Proof. exact (extend_wire_iff [] cs b space_ok_nil). Qed.
Lemma try_from_iter_total cs : (exists b, try_from_iter cs = Ok b) \/ (exists e, try_from_iter cs = Err e).
Proof. exact (extend_wire_total [] cs space_ok_nil). Qed.

(** ** prefixes *)
Lemma starts_with_wire a : Forall component_ok a -> forall p, Forall component_ok p ->
  (starts_with (wire_space a) (wire_space p) = true <-> exists r, a = p ++ r).
Proof.
  intros Ha p Hp. rewrite starts_with_iff. split.
  - revert p Hp. induction Ha as [|c a Hc Ha IH]; intros p Hp [r Hr].
    + destruct p as [|c' p]; [exists []; reflexivity|]. rewrite wire_space_cons in Hr; discriminate.
    + destruct Hp as [|c' p Hc' Hp]; [exists (c :: a); reflexivity|].
      rewrite !wire_space_cons in Hr. cbn [app] in Hr. inversion Hr as [[L E]].
      rewrite <- app_assoc in E. apply app_eq_lenN in E as [-> E]; [|assumption].
      destruct (IH p Hp) as [r' ->]; [eauto|]. exists r'; reflexivity.
  - intros [r ->]. exists (wire_space r). apply wire_space_app.
Qed.

(** ** split_last etc *)
Lemma split_last_loop_wire cs : Forall component_ok cs -> forall fuel last,
  (length cs <= fuel)%nat ->
  split_last_loop fuel (wire_space cs) last =
  Ok (match rev cs with [] => last | c :: _ => Some (wire_space [c]) end).
Proof.
  induction 1 as [|c cs Hc _ IH]; intros fuel last Hf.
  - destruct fuel; reflexivity.
  - rewrite wire_space_cons. destruct fuel as [|f]; cbn [length] in Hf; [lia|].
    cbn [split_last_loop]. rewrite lenN_cons, lenN_app.
    destruct (N.ltb_spec (1 + (lenN c + lenN (wire_space cs))) (lenN c + 1)) as [|_]; [lia|].
    rewrite dropN_cons by lia. replace (lenN c + 1 - 1) with (lenN c) by lia.
    rewrite dropN_app_exact by reflexivity. rewrite IH by lia. cbn [rev].
    destruct cs as [|c2 cs2] using rev_ind; [reflexivity|].
    rewrite rev_app_distr; reflexivity.
Qed.
Lemma split_last_wire cs : Forall component_ok cs ->
  split_last (wire_space cs) =
  Ok (wire_space (removelast cs), match rev cs with [] => None | c :: _ => Some (wire_space [c]) end).
Proof.
  intros H; unfold split_last. rewrite split_last_loop_wire; [|assumption|apply length_wire_ge]. cbn [obind].
  destruct cs as [|c cs _] using rev_ind; [reflexivity|].
  rewrite rev_app_distr; cbn [rev app]. rewrite removelast_last. rewrite wire_space_app, lenN_app.
  replace (lenN (wire_space cs) + lenN (wire_space [c]) - lenN (wire_space [c])) with (lenN (wire_space cs)) by lia.
  rewrite takeN_app_exact, dropN_app_exact by reflexivity. reflexivity.
Qed.
Lemma pop_wire cs : Forall component_ok cs ->
  pop (wire_space cs) = Ok (wire_space (removelast cs), match rev cs with [] => None | c :: _ => Some c end).
Proof.
  intros H; unfold pop. rewrite split_last_wire by assumption. cbn [obind].
  destruct cs as [|c cs _] using rev_ind; [reflexivity|].
  rewrite rev_app_distr; cbn [rev app]. apply Forall_app in H as [_ H]. inversion H; subst.
  rewrite wire_space_cons, iter_next_wire by assumption. reflexivity.
Qed.
Lemma truncate_last_wire cs : Forall component_ok cs ->
  truncate_last (wire_space cs) = Ok (wire_space (removelast cs)).
Proof.
  intros H; unfold truncate_last. rewrite iter_all_wire by assumption. cbn [obind].
  destruct cs as [|c cs _] using rev_ind; [reflexivity|].
  rewrite rev_app_distr; cbn [rev app]. rewrite removelast_last.
  rewrite wire_space_app, lenN_app, lenN_wire_cons. cbn [wire_space flat_map]. rewrite lenN_nil.
  fold (wire_space cs).
  destruct (N.ltb_spec (lenN (wire_space cs) + (1 + lenN c + 0)) (lenN c + 1)); [lia|].
  rewrite takeN_app_exact by lia. reflexivity.
Qed.
Lemma split_first_wire cs : Forall component_ok cs ->
  split_first (wire_space cs) = Ok (match cs with [] => None | c :: cs' => Some (c, wire_space cs') end).
Proof.
  intros H. destruct H as [|c cs Hc _]; [reflexivity|]. rewrite wire_space_cons. cbn [split_first].
  rewrite lenN_cons, lenN_app.
  destruct (N.ltb_spec (1 + (lenN c + lenN (wire_space cs))) (lenN c + 1)) as [|_]; [lia|].
  unfold sliceN. rewrite !dropN_cons by lia.
  replace (lenN c + 1 - 1) with (lenN c) by lia. replace (1 - 1) with 0 by lia.
  rewrite dropN_0, takeN_app_exact, dropN_app_exact by reflexivity. reflexivity.
Qed.
Lemma first_wire c r : first (lenN c :: c ++ r) = Ok c.
Proof.
  cbn [first]. rewrite lenN_app. destruct (N.ltb_spec (lenN c + lenN r) (lenN c)); [lia|].
  now rewrite takeN_app_exact.
Qed.
Lemma advance_by_wire n : forall cs, Forall component_ok cs ->
  advance_by n (wire_space cs) = Ok ((n <=? length cs)%nat, wire_space (skipn n cs)).
Proof.
  induction n as [|n IH]; intros cs H; [reflexivity|].
  destruct H as [|c cs Hc H]; [reflexivity|]. rewrite wire_space_cons. cbn [advance_by].
  rewrite iter_next_wire by assumption. rewrite IH by assumption. reflexivity.
Qed.
Lemma split_at_wire n cs : Forall component_ok cs ->
  split_at (wire_space cs) n = Ok (wire_space (firstn n cs), wire_space (skipn n cs)).
Proof.
  intros H; unfold split_at. rewrite advance_by_wire by assumption. cbn [obind].
  destruct (Nat.leb_spec n (length cs)) as [L|L].
  - pose proof (firstn_skipn n cs) as E. set (a := firstn n cs) in *. set (d := skipn n cs) in *.
    clearbody a d. subst cs. rewrite wire_space_app, lenN_app.
    replace (lenN (wire_space a) + lenN (wire_space d) - lenN (wire_space d))
      with (lenN (wire_space a)) by lia.
    rewrite takeN_app_exact, dropN_app_exact by reflexivity. reflexivity.
  - rewrite firstn_all2, skipn_all2 by lia. reflexivity.
Qed.
Lemma scan_loop_wire cs : Forall component_ok cs -> forall pre fuel, (length cs <= fuel)%nat ->
  scan_loop fuel (wire_space (pre ++ cs)) (wire_space cs) =
  Ok (map (fun n => wire_space (pre ++ firstn n cs)) (seq 1 (length cs))).
Proof.
  induction 1 as [|c cs Hc _ IH]; intros pre fuel Hf.
  - destruct fuel; reflexivity.
  - rewrite wire_space_cons. destruct fuel as [|f]; cbn [length] in Hf; [lia|].
    cbn [scan_loop]. rewrite iter_next_wire by assumption.
    replace (pre ++ c :: cs) with ((pre ++ [c]) ++ cs) by (rewrite <- app_assoc; reflexivity).
    rewrite IH by lia. cbn [obind length seq map]. f_equal. f_equal.
    + rewrite lenN_wire_app. rewrite (wire_space_app (pre ++ [c]) cs).
      replace (lenN (wire_space (pre ++ [c])) + lenN (wire_space cs) - lenN (wire_space cs))
        with (lenN (wire_space (pre ++ [c]))) by lia.
      rewrite takeN_app_exact by reflexivity. reflexivity.
    + rewrite <- (seq_shift (length cs) 1), map_map. apply map_ext. intros n. cbn [firstn]. now rewrite <- app_assoc.
Qed.
