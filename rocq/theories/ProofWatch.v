(** Lemmas about watches and the runtime. *)
From Coq Require Import Sorting.Sorted.
From Verif Require Import Bytes ModelPkt ModelTestSet SpecTestSet ModelStore SpecStore ProofStore ModelPred SpecPred SpecQuery ModelQuery ModelWatch SpecWatch.

(** ** The list of watches as a map from ids *)
Section Map.
Variable C : Type.
Implicit Types (l : list (Watch C)) (w : Watch C) (q : bytes).
Lemma lex_beqb a b : beqb a b = match lex a b with Eq => true | _ => false end.
Proof.
  destruct (beqb a b) eqn:E.
  - apply beqb_eq in E as ->. now rewrite lex_refl.
  - destruct (lex a b) eqn:L; try reflexivity. apply lex_eq in L. subst. rewrite (proj2 (beqb_eq b b) eq_refl) in E. discriminate.
Qed.
Lemma beqb_sym_ a b : beqb a b = beqb b a.
Proof. rewrite !lex_beqb, (lex_antisym a b). now destruct (lex a b). Qed.
Lemma find_none q l : (forall x, In x l -> lex q (w_qid x) = Lt) -> find_watch q l = None.
Proof.
  intros H. unfold find_watch. destruct (find _ l) as [x|] eqn:E; [|reflexivity]. apply find_some in E as [I B]. apply beqb_eq in B. specialize (H x I). rewrite B, lex_refl in H. discriminate.
Qed.
Lemma by_id_head x l : by_id (x :: l) -> by_id l /\ Forall (fun y => lex (w_qid x) (w_qid y) = Lt) l.
Proof. intros H. inversion H. auto. Qed.
Lemma find_above q x l : by_id (x :: l) -> lex q (w_qid x) = Lt -> find_watch q (x :: l) = None.
Proof.
  intros S L. apply by_id_head in S as [_ F]. apply find_none. rewrite Forall_forall in F. intros y [<-|Y]; [exact L|]. eapply lex_trans_lt; [exact L|auto].
Qed.
Lemma find_cons q x l : find_watch q (x :: l) = if beqb (w_qid x) q then Some x else find_watch q l.
Proof. reflexivity. Qed.
Lemma register_find ok w l q : by_id l ->
  find_watch q (fst (register_at ok w l)) = (if beqb (w_qid w) q then if ok then Some w else None else find_watch q l) /\
  snd (register_at ok w l) = find_watch (w_qid w) l.
Proof.
  induction l as [|x l IH]; intros S.
  - cbn. destruct ok; cbn; destruct (beqb (w_qid w) q); auto.
  - pose proof (by_id_head x l S) as [S1 F]. cbn [register_at]. destruct (lex (w_qid w) (w_qid x)) eqn:L.
    + apply lex_eq in L. assert (beqb (w_qid x) (w_qid w) = true) as E by (apply beqb_eq; congruence). destruct ok; cbn [fst snd]; rewrite !find_cons, ?E; (split; [|reflexivity]).
      * rewrite <- L. destruct (beqb (w_qid w) q) eqn:Q; reflexivity.
      * rewrite <- L. destruct (beqb (w_qid w) q) eqn:Q; [|reflexivity]. apply beqb_eq in Q. rewrite <- Q, L. apply find_none. rewrite Forall_forall in F. exact F.
    + pose proof (find_above (w_qid w) x l S L) as N. split.
      * destruct ok; cbn [fst]; [reflexivity|]. destruct (beqb (w_qid w) q) eqn:Q; [|reflexivity]. apply beqb_eq in Q. now rewrite <- Q.
      * destruct ok; now rewrite N.
    + destruct (register_at ok w l) as [r' o] eqn:R. cbn [fst snd] in *. destruct (IH S1) as [A B]. rewrite !find_cons.
      assert (beqb (w_qid x) (w_qid w) = false) as E by (rewrite beqb_sym_, lex_beqb, L; reflexivity). rewrite E. split; [|exact B].
      rewrite A. destruct (beqb (w_qid x) q) eqn:Q; [|reflexivity]. apply beqb_eq in Q. subst q. now rewrite beqb_sym_, E.
Qed.
Lemma lex_gt_lt a b : lex a b = Gt <-> lex b a = Lt.
Proof. rewrite (lex_antisym a b). destruct (lex a b); cbn; split; congruence. Qed.
Lemma register_incl ok w l x : In x (fst (register_at ok w l)) -> x = w \/ In x l.
Proof.
  induction l as [|y l IH]; cbn [register_at].
  - destruct ok; cbn; intuition.
  - destruct (lex (w_qid w) (w_qid y)).
    + destruct ok; cbn; intuition.
    + destruct ok; cbn; intuition.
    + destruct (register_at ok w l) as [r' o]. cbn [fst] in *. cbn. intuition.
Qed.
Lemma register_sorted ok w l : by_id l -> by_id (fst (register_at ok w l)).
Proof.
  induction l as [|x l IH]; intros S; cbn [register_at].
  - destruct ok; [repeat constructor|constructor].
  - pose proof (by_id_head x l S) as [S1 F]. rewrite Forall_forall in F. destruct (lex (w_qid w) (w_qid x)) eqn:L.
    + apply lex_eq in L. destruct ok; cbn [fst]; [|exact S1]. constructor; [exact S1|]. apply Forall_forall. rewrite L. exact F.
    + destruct ok; cbn [fst]; [|exact S]. constructor; [exact S|]. constructor; [exact L|]. apply Forall_forall. intros y Y. eapply lex_trans_lt; eauto.
    + pose proof (register_incl ok w l) as I. destruct (register_at ok w l) as [r' o] eqn:R. cbn [fst] in *. constructor; [now apply IH|]. apply Forall_forall. intros y Y.
      destruct (I y Y) as [->|Z]; [now apply lex_gt_lt|auto].
Qed.
Lemma starts_with_le a p : starts_with a p = true -> lex p a <> Gt.
Proof.
  revert a. induction p as [|x p IH]; intros [|y a]; cbn; try discriminate. intros H. apply andb_prop in H as [E H]. apply N.eqb_eq in E as ->. rewrite N.compare_refl. auto.
Qed.
(** The strings with the prefix [p] are next to each other in the order. *)
Lemma starts_with_between p a b : lex p a <> Gt -> lex a b <> Gt -> starts_with b p = true -> starts_with a p = true.
Proof.
  revert a b. induction p as [|x p IH]; intros [|y a] [|z b]; cbn; try congruence. intros H1 H2 H. apply andb_prop in H as [E H]. apply N.eqb_eq in E as ->.
  destruct (N.compare_spec z y) as [->|L|L]; [|destruct (N.compare_spec y z); try lia; congruence|congruence].
  rewrite N.compare_refl in H2. rewrite N.eqb_refl. cbn. eauto.
Qed.
Lemma take_while_all {A} (f : A -> bool) m : take_while f m ++ drop_while f m = m.
Proof. induction m as [|a m IH]; [reflexivity|]. cbn. destruct (f a); [cbn; now rewrite IH|reflexivity]. Qed.
Lemma while_filter q l : by_id l -> Forall (fun y => lex q (w_qid y) <> Gt) l ->
  take_while (fun w => starts_with (w_qid w) q) l = filter (fun w => starts_with (w_qid w) q) l /\
  drop_while (fun w => starts_with (w_qid w) q) l = filter (fun w => negb (starts_with (w_qid w) q)) l.
Proof.
  induction l as [|x l IH]; intros S F; [split; reflexivity|]. pose proof (by_id_head x l S) as [S1 FX]. inversion F as [|? ? F1 F2]; subst. cbn [take_while drop_while filter].
  destruct (starts_with (w_qid x) q) eqn:E; cbn [negb].
  - destruct (IH S1 F2) as [-> ->]. auto.
  - assert (forall y, In y l -> starts_with (w_qid y) q = false) as G.
    { intros y Y. destruct (starts_with (w_qid y) q) eqn:Q; [|reflexivity]. rewrite Forall_forall in FX. specialize (FX y Y).
      rewrite (starts_with_between q (w_qid x) (w_qid y)) in E; [discriminate|exact F1|congruence|exact Q]. }
    assert (filter (fun w => starts_with (w_qid w) q) l = [] /\ filter (fun w => negb (starts_with (w_qid w) q)) l = l) as [-> ->]; [|auto].
    clear - G. induction l as [|y l IH]; [auto|]. cbn [filter]. rewrite (G y (or_introl eq_refl)). cbn [negb]. destruct IH as [-> ->]; [intros z Z; apply G; now right|auto].
Qed.
Lemma deregister_one q l : by_id l ->
  snd (deregister q false l) = match find_watch q l with Some x => [x] | None => [] end /\
  fst (deregister q false l) = filter (fun w => negb (beqb (w_qid w) q)) l.
Proof.
  induction l as [|x l IH]; intros S; [auto|]. pose proof (by_id_head x l S) as [S1 F]. cbn [deregister filter]. rewrite find_cons, (beqb_sym_ (w_qid x) q), lex_beqb.
  assert (forall m, (forall y, In y m -> lex q (w_qid y) = Lt) -> filter (fun w => negb (beqb (w_qid w) q)) m = m) as G.
  { clear. induction m as [|y m IH]; intros H; [reflexivity|]. cbn [filter]. rewrite beqb_sym_, lex_beqb, (H y (or_introl eq_refl)). cbn [negb]. now rewrite IH by (intros z Z; apply H; now right). }
  rewrite Forall_forall in F. destruct (lex q (w_qid x)) eqn:L; cbn [fst snd negb].
  - apply lex_eq in L. subst q. rewrite G by exact F. auto.
  - rewrite (find_none q l) by (intros y Y; eapply lex_trans_lt; [exact L|auto]). rewrite G by (intros y Y; eapply lex_trans_lt; [exact L|auto]). auto.
  - destruct (deregister q false l) as [k dr]. cbn [fst snd] in *. destruct (IH S1) as [-> ->]. auto.
Qed.
Lemma deregister_range q l : by_id l ->
  deregister q true l = match find_watch q l with
                        | Some _ => (filter (fun w => negb (starts_with (w_qid w) q)) l, filter (fun w => starts_with (w_qid w) q) l)
                        | None => (l, [])
                        end.
Proof.
  induction l as [|x l IH]; intros S; [auto|]. pose proof (by_id_head x l S) as [S1 F]. cbn [deregister]. rewrite find_cons, (beqb_sym_ (w_qid x) q), lex_beqb.
  rewrite Forall_forall in F. destruct (lex q (w_qid x)) eqn:L.
  - apply lex_eq in L. destruct (while_filter q (x :: l) S) as [-> ->]; [|reflexivity]. rewrite L. constructor; [rewrite lex_refl; discriminate|]. apply Forall_forall. intros y Y. rewrite (F y Y). discriminate.
  - rewrite (find_none q l); [reflexivity|]. intros y Y. eapply lex_trans_lt; [exact L|auto].
  - rewrite IH by exact S1. destruct (find_watch q l); [|reflexivity]. cbn [filter].
    destruct (starts_with (w_qid x) q) eqn:E; [|reflexivity]. apply starts_with_le in E. congruence.
Qed.
Lemma filter_sorted (f : Watch C -> bool) l : by_id l -> by_id (filter f l).
Proof.
  induction l as [|x l IH]; intros S; [constructor|]. pose proof (by_id_head x l S) as [S1 F]. cbn [filter]. destruct (f x); [|auto]. constructor; [exact (IH S1)|].
  rewrite Forall_forall in F. apply Forall_forall. intros y Y. apply filter_In in Y. apply F, Y.
Qed.
Lemma find_filter f q l : (forall w, In w l -> w_qid w = q -> f w = true) -> find_watch q (filter f l) = find_watch q l.
Proof.
  induction l as [|x l IH]; intros H; [reflexivity|]. cbn [filter]. rewrite find_cons. destruct (beqb (w_qid x) q) eqn:E.
  - rewrite (H x) by (now left || now apply beqb_eq). now rewrite find_cons, E.
  - destruct (f x); [rewrite find_cons, E|]; apply IH; intros w W; apply H; now right.
Qed.
Lemma find_filter_none f q l : (forall w, In w l -> w_qid w = q -> f w = false) -> find_watch q (filter f l) = None.
Proof.
  intros H. unfold find_watch. destruct (find _ (filter f l)) as [x|] eqn:E; [|reflexivity]. apply find_some in E as [I B]. apply filter_In in I as [I FX]. apply beqb_eq in B. rewrite (H x I B) in FX. discriminate.
Qed.
Lemma deregister_sorted q range l : by_id l -> by_id (fst (deregister q range l)).
Proof.
  intros S. destruct range.
  - rewrite deregister_range by exact S. destruct (find_watch q l); cbn [fst]; [now apply filter_sorted|exact S].
  - destruct (deregister_one q l S) as [_ ->]. now apply filter_sorted.
Qed.
(** A watch that is not the target stays as it is. *)
Lemma deregister_other q' range q l : by_id l -> ~ touches q (@CStop C q' range) -> find_watch q (fst (deregister q' range l)) = find_watch q l.
Proof.
  intros S T. cbn in T. destruct range.
  - rewrite deregister_range by exact S. destruct (find_watch q' l) as [z|]; cbn [fst]; [|reflexivity]. apply find_filter. intros w _ <-. destruct (starts_with (w_qid w) q'); [congruence|reflexivity].
  - destruct (deregister_one q' l S) as [_ ->]. apply find_filter. intros w _ E. rewrite E. destruct (beqb q q') eqn:B; [|reflexivity]. apply beqb_eq in B. congruence.
Qed.
End Map.
