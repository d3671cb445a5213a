(** Lemmas about the files of an instance. *)
From Coq Require Import Lia.
From Verif Require Import Bytes ModelAbe ModelEval ModelFn ModelKey SpecKey ProofKey ModelFile SpecFile.
Local Open Scope N_scope.

(** ** Lists *)
Definition pre (q p : list bytes) : Prop := exists r, p = q ++ r.
Lemma path_eqb_iff a b : path_eqb a b = true <-> a = b.
Proof.
  revert b. induction a as [|x a IH]; intros [|y b]; cbn [path_eqb]; try (split; [discriminate|discriminate]); [split; reflexivity|].
  split; [intros H; apply andb_prop in H as [H1 H2]; apply beqb_eq in H1; apply IH in H2; congruence|]. intros H. injection H as -> ->. rewrite beqb_refl. now apply IH.
Qed.
Lemma put_same m p e : put m p e p = Some e.
Proof. unfold put. now rewrite (proj2 (path_eqb_iff p p) eq_refl). Qed.
Lemma put_other m p e q : p <> q -> put m p e q = m q.
Proof. intros N. unfold put. destruct (path_eqb p q) eqn:E; [apply path_eqb_iff in E; contradiction|reflexivity]. Qed.
Lemma list_end {A} (l : list A) : l = [] \/ exists l' x, l = l' ++ [x].
Proof. destruct l as [|y l]; [now left|right]. destruct (@exists_last A (y :: l)) as (l' & x & E); [discriminate|eauto]. Qed.
Lemma pre_snoc q p n : pre q (p ++ [n]) <-> q = p ++ [n] \/ pre q p.
Proof.
  split.
  - intros [r E]. destruct (list_end r) as [->|(r' & x & ->)]; [left; now rewrite app_nil_r in E|].
    right. exists r'. rewrite app_assoc in E. apply app_inj_tail in E as [E _]. exact E.
  - intros [->|[r ->]]; [exists []; now rewrite app_nil_r|exists (r ++ [n]); now rewrite app_assoc].
Qed.

(** ** Lookup *)
Definition keeps (g : bytes) : bool := negb (beqb g [] || beqb g DOT).
Definition keep (gs : list bytes) : list bytes := filter keeps gs.
Definition clear (m : fs) (p : list bytes) : Prop := forall q, pre q p -> m q = None \/ m q = Some Dir.
Definition filed (m : fs) (p : list bytes) : Prop := exists q b, pre q p /\ m q = Some (File b).
Lemma up m a b : fs_ok m -> m (a ++ b) <> None -> b <> [] -> m a = Some Dir.
Proof.
  intros [R U]. revert a. induction b as [|n b IH]; intros a N NE; [contradiction|]. destruct b as [|k b]; [apply (U a n N)|].
  apply (U a n). rewrite (IH (a ++ [n])); [discriminate|now rewrite <- app_assoc|discriminate].
Qed.
Lemma absent_clear m p : fs_ok m -> absent m p -> clear m p /\ m p = None.
Proof.
  intros OK (q & n & r & -> & D & N). assert (B : forall x, m (q ++ n :: x) = None).
  { intros x. destruct (m (q ++ n :: x)) as [e|] eqn:E; [|reflexivity]. exfalso. destruct x as [|k x]; [congruence|].
    assert (m (q ++ [n]) = Some Dir) as C; [|congruence]. apply (up m (q ++ [n]) (k :: x) OK); [rewrite <- app_assoc; cbn [app]; congruence|discriminate]. }
  split; [|apply B]. intros s [t E]. destruct (le_lt_dec (List.length s) (List.length q)) as [L|L].
  - right. assert (exists u, q = s ++ u) as [u ->].
    { exists (skipn (List.length s) q). assert (H : firstn (List.length s) (q ++ n :: r) = firstn (List.length s) (s ++ t)) by now rewrite E. rewrite !firstn_app, firstn_all in H.
      replace (List.length s - List.length q)%nat with 0%nat in H by lia. rewrite Nat.sub_diag in H. cbn [firstn] in H. rewrite !app_nil_r in H. rewrite <- H at 1. now rewrite firstn_skipn. }
    destruct u as [|x u]; [now rewrite app_nil_r in D|]. apply (up m s (x :: u) OK); [congruence|discriminate].
  - left. assert (exists u, s = q ++ n :: u) as [u ->]; [|apply B].
    assert (H : firstn (List.length q + 1) (q ++ n :: r) = firstn (List.length q + 1) (s ++ t)) by now rewrite E.
    rewrite firstn_app_2 in H. change (firstn 1 (n :: r)) with [n] in H. rewrite firstn_app in H. replace (List.length q + 1 - List.length s)%nat with 0%nat in H by lia.
    change (firstn 0 t) with (@nil bytes) in H. rewrite app_nil_r in H. exists (skipn (List.length q + 1) s). change (q ++ n :: ?x) with (q ++ [n] ++ x). rewrite app_assoc, H. symmetry. apply firstn_skipn.
Qed.
Lemma clear_filed m p : clear m p -> filed m p -> False.
Proof. intros C (q & b & Q & F). destruct (C q Q); congruence. Qed.
Lemma absent_more m p r : absent m p -> absent m (p ++ r).
Proof. intros (q & n & s & -> & D). exists q, n, (s ++ r). split; [now rewrite <- app_assoc|exact D]. Qed.
Lemma filed_more m p r : filed m p -> filed m (p ++ r).
Proof. intros (q & b & [s ->] & D). exists q, b. split; [exists (s ++ r); now rewrite <- app_assoc|exact D]. Qed.
Lemma filed_here m p b : m p = Some (File b) -> filed m p.
Proof. intros E. exists p, b. split; [exists []; now rewrite app_nil_r|exact E]. Qed.
Lemma walk_snoc m cur gs g : walk m cur (gs ++ [g]) = obind (walk m cur gs) (fun c => match m c with Some Dir => Ok (step c g) | Some (File _) => Err ENOTDIR | None => Err ENOENT end).
Proof. revert cur. induction gs as [|h gs IH]; intros cur; [reflexivity|]. cbn [app walk]. destruct (m cur) as [[|b]|]; [apply IH|reflexivity..]. Qed.
Lemma keep_app a b : keep (a ++ b) = keep a ++ keep b.
Proof. apply filter_app. Qed.
Lemma step_keep c g : g <> DOTDOT -> step c g = c ++ keep [g].
Proof.
  intros N. unfold step, keep, keeps. cbn [filter]. destruct (beqb g [] || beqb g DOT); cbn [negb]; [now rewrite app_nil_r|].
  destruct (beqb g DOTDOT) eqn:E; [apply beqb_eq in E; contradiction|reflexivity].
Qed.
Lemma keep_one g : keep [g] = [] \/ keep [g] = [g].
Proof. unfold keep. cbn [filter]. destruct (keeps g); auto. Qed.
Lemma walk_cases m gs : fs_ok m -> ~ In DOTDOT gs ->
  walk m [] gs = Ok (keep gs) /\ (gs = [] \/ m (keep (removelast gs)) = Some Dir) \/
  walk m [] gs = Err ENOENT /\ absent m (keep (removelast gs)) \/
  walk m [] gs = Err ENOTDIR /\ filed m (keep (removelast gs)).
Proof.
  intros OK. induction gs as [|g gs IH] using rev_ind; intros N; [left; split; [reflexivity|now left]|].
  assert (N1 : ~ In DOTDOT gs) by (intros I; apply N, in_or_app; now left). assert (N2 : g <> DOTDOT) by (intros ->; apply N, in_or_app; right; now left).
  rewrite walk_snoc, removelast_last. assert (KR : gs <> [] -> exists x, keep gs = keep (removelast gs) ++ x /\ (x = [] \/ exists n, x = [n])).
  { intros NE. destruct (exists_last NE) as (l & x & ->). rewrite removelast_last, keep_app. exists (keep [x]). split; [reflexivity|]. destruct (keep_one x) as [->| ->]; eauto. }
  destruct (IH N1) as [[E H]|[[E H]|[E H]]]; rewrite E; cbn [obind].
  - destruct (m (keep gs)) as [[|b]|] eqn:M.
    + left. rewrite (step_keep _ _ N2), keep_app. split; [reflexivity|now right].
    + right. right. split; [reflexivity|]. now apply (filed_here m _ b).
    + right. left. split; [reflexivity|]. destruct H as [->|H]; [destruct OK as [R _]; cbn in M; congruence|].
      destruct gs as [|g0 gs0]; [destruct OK as [R _]; cbn in M; congruence|]. destruct (KR ltac:(discriminate)) as (x & K & [->|[n ->]]); [rewrite app_nil_r in K; congruence|].
      exists (keep (removelast (g0 :: gs0))), n, []. rewrite K in M |- *. auto.
  - right. left. split; [reflexivity|]. destruct gs as [|g0 gs0]; [discriminate E|]. destruct (KR ltac:(discriminate)) as (x & -> & _). now apply absent_more.
  - right. right. split; [reflexivity|]. destruct gs as [|g0 gs0]; [discriminate E|]. destruct (KR ltac:(discriminate)) as (x & -> & _). now apply filed_more.
Qed.
