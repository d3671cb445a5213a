(** Proofs about the bus. *)
From Verif Require Import Bytes ModelBus SpecBus.
From Coq Require Import Lia.

Lemma upd_length {A} i (x : A) l : (i < length l)%nat -> length (upd i x l) = length l.
Proof. intros H. unfold upd. rewrite !app_length, firstn_length, skipn_length. cbn [length]. lia. Qed.
Lemma nth_upd {A} i (x y : A) l k : nth_error l i = Some y -> nth_error (upd i x l) k = if Nat.eqb k i then Some x else nth_error l k.
Proof.
  intros H. assert (L : (i < length l)%nat) by (apply nth_error_Some; congruence).
  assert (F : length (firstn i l) = i) by (rewrite firstn_length; lia).
  unfold upd. destruct (Nat.eqb_spec k i) as [->|NE].
  - rewrite nth_error_app2 by lia. rewrite F, Nat.sub_diag. reflexivity.
  - destruct (Nat.lt_ge_cases k i).
    + rewrite nth_error_app1 by lia. rewrite <- (firstn_skipn i l) at 2. rewrite nth_error_app1 by lia. reflexivity.
    + rewrite nth_error_app2 by lia. rewrite F. rewrite nth_error_app2 by (cbn; lia). cbn [length].
      rewrite <- (firstn_skipn (S i) l) at 2. rewrite nth_error_app2 by (rewrite firstn_length; lia).
      f_equal. rewrite firstn_length. lia.
Qed.
Lemma nth_snoc {A} (l : list A) x k y : nth_error (l ++ [x]) k = Some y -> nth_error l k = Some y \/ (k = length l /\ y = x).
Proof.
  destruct (Nat.lt_ge_cases k (length l)).
  - rewrite nth_error_app1 by lia. auto.
  - rewrite nth_error_app2 by lia. destruct (k - length l)%nat eqn:E; cbn.
    + intros K; injection K as <-. right. split; [lia|reflexivity].
    + destruct n; discriminate.
Qed.
Lemma nth_snoc_old {A} (l : list A) x k y : nth_error l k = Some y -> nth_error (l ++ [x]) k = Some y.
Proof. intros H. rewrite nth_error_app1; [exact H|]. apply nth_error_Some. congruence. Qed.

(** ** What one step does to a process *)
Inductive move (p : proc) : proc -> Prop :=
| MThread lossy n j t p' ms : nth_error (p_threads p) j = Some t -> tstep lossy n p j t p' ms -> move p p'
| MAdd t : (exists v sk, t = ELoad v sk) \/ t = WStart -> move p (add_thread p t)
| MSame : move p p.
Lemma step_move lossy s s' k p : step lossy s s' -> nth_error (s_procs s) k = Some p ->
  exists p', nth_error (s_procs s') k = Some p' /\ move p p'.
Proof.
  intros H Hk.
  destruct H as [ps net i q j t p' ms Hi Hj T|ps net i q v Hi|ps net i q Hi|ps a m b q Hi E|ps a m b q Hi E|ps a m b];
    cbn [s_procs] in *; try (exists p; split; [exact Hk|apply MSame]);
    (rewrite (nth_upd _ _ _ _ _ Hi); match goal with |- context [Nat.eqb k ?i] => destruct (Nat.eqb_spec k i) as [->|NE] end; [|exists p; split; [exact Hk|apply MSame]];
     assert (q = p) by congruence; subst q; eexists; split; [reflexivity|]).
  - eapply MThread; eauto.
  - apply MAdd. eauto.
  - apply MAdd. auto.
  - apply MAdd. eauto.
Qed.
Lemma step_procs lossy s s' : step lossy s s' -> length (s_procs s') = length (s_procs s).
Proof.
  intros H. destruct H as [ps net i q j t p' ms Hi Hj T|ps net i q v Hi|ps net i q Hi|ps a m b q Hi E|ps a m b q Hi E|ps a m b];
    cbn [s_procs]; auto; apply upd_length; apply nth_error_Some; congruence.
Qed.
(** Back: a process after the step comes from the one before. *)
Lemma step_back lossy s s' k p' : step lossy s s' -> nth_error (s_procs s') k = Some p' ->
  exists p, nth_error (s_procs s) k = Some p /\ move p p'.
Proof.
  intros H Hk. assert (L : (k < length (s_procs s))%nat).
  { rewrite <- (step_procs _ _ _ H). apply nth_error_Some. congruence. }
  destruct (nth_error (s_procs s) k) as [p|] eqn:E; [|apply nth_error_None in E; lia].
  destruct (step_move _ _ _ _ _ H E) as (q & E' & M). exists p. split; [reflexivity|]. congruence.
Qed.

Definition tok (x : N) (t : pc) : Prop :=
  match t with
  | ELoop v _ old => old <= x
  | ESend v _ | ENotify v _ => v <= x
  | EDone v _ r => v <= r /\ r <= x
  | _ => True
  end.
Lemma tok_mono x y t : x <= y -> tok x t -> tok y t.
Proof. destruct t; cbn; intros; lia. Qed.
Definition pok (p : proc) : Prop := forall j t, nth_error (p_threads p) j = Some t -> tok (p_val p) t.
Lemma move_val p p' : pok p -> move p p' -> p_val p <= p_val p'.
Proof.
  intros P M. destruct M as [lossy n j t p' ms Hj T| |]; cbn; try lia.
  specialize (P _ _ Hj). destruct T; cbn in *; lia.
Qed.
Lemma move_pid p p' : move p p' -> p_pid p' = p_pid p.
Proof. intros M. destruct M as [lossy n j t p' ms Hj T| |]; try destruct T; reflexivity. Qed.
Lemma wake_tok x t : tok x t -> tok x (wake t).
Proof. destruct t; auto. Qed.
Lemma wake_nth p j t : nth_error (map wake (p_threads p)) j = Some t -> exists t0, nth_error (p_threads p) j = Some t0 /\ t = wake t0.
Proof. rewrite nth_error_map. destruct (nth_error (p_threads p) j); [|discriminate]. intros H; injection H as <-. eauto. Qed.

Lemma move_pok p p' : pok p -> move p p' -> pok p'.
Proof.
  intros P M k u Hk. pose proof (move_val _ _ P M) as V.
  destruct M as [lossy n j t p' ms Hj T|t Ht|].
  - pose proof (P _ _ Hj) as Pj.
    assert (C : nth_error (p_threads p) k = Some u \/ (exists t0, nth_error (p_threads p) k = Some t0 /\ u = wake t0) \/ tok (p_val p') u).
    { destruct T; cbn [with_thread with_val notify_all p_threads p_val] in *;
        (erewrite nth_upd in Hk by (first [exact Hj | rewrite nth_error_map, Hj; reflexivity]));
        (destruct (Nat.eqb_spec k j) as [->|NE]; [injection Hk as <-; right; right; cbn in *; lia|]).
      all: try (left; exact Hk).
      right; left. apply wake_nth. exact Hk. }
    destruct C as [C|[(t0 & C & ->)|C]]; [| |exact C].
    + eapply tok_mono; [exact V|]. eauto.
    + apply wake_tok. eapply tok_mono; [exact V|]. eauto.
  - cbn in Hk. apply nth_snoc in Hk. destruct Hk as [Hk|[_ ->]]; [exact (P _ _ Hk)|].
    destruct Ht as [(v & sk & ->)| ->]; exact Logic.I.
  - exact (P _ _ Hk).
Qed.

Definition sok (s : sys) : Prop := forall i p, nth_error (s_procs s) i = Some p -> pok p.
Lemma step_sok lossy s s' : sok s -> step lossy s s' -> sok s'.
Proof. intros S H i p' Hi. destruct (step_back _ _ _ _ _ H Hi) as (p & E & M). eapply move_pok; eauto. Qed.
Lemma start_sok pids : sok (start pids).
Proof.
  intros i p Hi j t Hj. cbn in Hi. rewrite nth_error_map in Hi. destruct (nth_error pids i); [|discriminate].
  injection Hi as <-. destruct j; discriminate.
Qed.
Lemma exec_sok lossy s s' : exec lossy s s' -> sok s -> sok s'.
Proof. induction 1 as [|s1 s2 s3 H IH HS]; intros S; [exact S|exact (step_sok _ _ _ (IH S) HS)]. Qed.
Lemma exec_trans lossy a b c : exec lossy a b -> exec lossy b c -> exec lossy a c.
Proof. intros H1 H2. induction H2 as [|s1 s2 s3 H IH HS]; [exact H1|exact (exec_step _ _ _ _ (IH H1) HS)]. Qed.

Lemma exec_value lossy s s' i x : exec lossy s s' -> sok s -> value s i x -> exists y, value s' i y /\ x <= y.
Proof.
  induction 1 as [|s1 s2 s3 H IH HS]; intros S V; [exists x; split; [exact V|lia]|].
  destruct (IH S V) as (y & (p & E & <-) & L).
  destruct (step_move _ _ _ _ _ HS E) as (p' & E' & M). exists (p_val p'). split; [exists p'; auto|].
  pose proof (move_val p p' (exec_sok _ _ _ H S _ _ E) M). lia.
Qed.

(** ** Threads persist *)
Definition evolves (t u : pc) : Prop :=
  match t, u with
  | ELoad v sk, (ELoad w sk' | ELoop w sk' _) => v = w /\ sk = sk'
  | ELoop v sk _, (ELoop w sk' _ | ESend w sk' | EDone w sk' _) => v = w /\ sk = sk'
  | ESend v sk, (ESend w sk' | ENotify w sk') => v = w /\ sk = sk'
  | ENotify v sk, (ENotify w sk' | EDone w sk' _) => v = w /\ sk = sk'
  | EDone v sk r, EDone w sk' r' => v = w /\ sk = sk' /\ r = r'
  | WStart, (WStart | WWait false) => True
  | WWait _, (WWait _ | WDone None) => True
  | WWait true, WLoad => True
  | WLoad, (WLoad | WDone (Some _)) => True
  | WDone r, WDone r' => r = r'
  | _, _ => False
  end.
Lemma evolves_refl t : evolves t t.
Proof. destruct t; cbn; auto. destruct notified; auto. Qed.
Lemma evolves_wake t : evolves t (wake t).
Proof. destruct t; cbn; auto. destruct notified; auto. Qed.
Lemma move_thread p p' j t : move p p' -> nth_error (p_threads p) j = Some t -> exists u, nth_error (p_threads p') j = Some u /\ evolves t u.
Proof.
  intros M Hj. destruct M as [lossy n k t0 p' ms Hk T|t0 Ht|].
  - destruct T; cbn [with_thread with_val notify_all p_threads];
      (erewrite nth_upd by (first [exact Hk | rewrite nth_error_map, Hk; reflexivity]));
      (destruct (Nat.eqb_spec j k) as [->|NE];
       [assert (X : Some t = Some _) by (rewrite <- Hj; exact Hk); injection X as ->; eexists; split; [reflexivity|]; cbn; auto; try (destruct b; exact Logic.I)|]).
    all: try (exists t; split; [exact Hj|apply evolves_refl]).
    exists (wake t). split; [rewrite nth_error_map, Hj; reflexivity|apply evolves_wake].
  - exists t. cbn. split; [apply nth_snoc_old; exact Hj|apply evolves_refl].
  - exists t. split; [exact Hj|apply evolves_refl].
Qed.
Lemma at_pc_step lossy s s' i j t : step lossy s s' -> at_pc s i j t -> exists u, at_pc s' i j u /\ evolves t u.
Proof.
  intros H (p & E & Ej). destruct (step_move _ _ _ _ _ H E) as (p' & E' & M).
  destruct (move_thread _ _ _ _ M Ej) as (u & Eu & V). exists u. split; [exists p'; auto|exact V].
Qed.
Definition emits (v : N) (sk : bool) (t : pc) : Prop :=
  match t with ELoad w s | ELoop w s _ | ESend w s | ENotify w s | EDone w s _ => w = v /\ s = sk | _ => False end.
Lemma evolves_emits t u v sk : evolves t u -> emits v sk t -> emits v sk u.
Proof.
  destruct t; cbn; try tauto; destruct u; cbn; try tauto; intros E [E1 E2]; subst; destruct E; subst; auto.
  destruct H0; subst; auto.
Qed.
Lemma called_iff s i v : called_emit s i v <-> exists j t, at_pc s i j t /\ emits v false t.
Proof.
  split; intros (j & t & A & H); exists j, t; (split; [exact A|]); destruct t; cbn in *; try tauto; destruct skip; try tauto; destruct H; congruence.
Qed.
Lemma called_step lossy s s' i v : step lossy s s' -> called_emit s i v -> called_emit s' i v.
Proof.
  intros H C. apply called_iff in C. destruct C as (j & t & A & E). apply called_iff.
  destruct (at_pc_step _ _ _ _ _ _ H A) as (u & A' & V). exists j, u. split; [exact A'|]. eapply evolves_emits; eauto.
Qed.

(** ** No value comes from nowhere *)
Definition known (s : sys) (v : N) : Prop := v = 0 \/ exists i, called_emit s i v.
Definition gok (s : sys) : Prop :=
  (forall i x, value s i x -> known s x) /\
  (forall i j t v, at_pc s i j t -> emits v true t -> known s v) /\
  (forall m, In m (s_net s) -> known s (m_val m)).
Lemma known_step lossy s s' v : step lossy s s' -> known s v -> known s' v.
Proof. intros H [K|(i & K)]; [left; exact K|right; exists i; eapply called_step; eauto]. Qed.
(** a thread after the step is an old one that moved, or a new one *)
Lemma move_thread_back p p' j u : move p p' -> nth_error (p_threads p') j = Some u ->
  (exists t, nth_error (p_threads p) j = Some t /\ evolves t u) \/ (p' = add_thread p u /\ j = length (p_threads p)).
Proof.
  intros M Hj. destruct (nth_error (p_threads p) j) as [t|] eqn:E.
  - left. exists t. split; [reflexivity|]. destruct (move_thread _ _ _ _ M E) as (u' & E' & V). congruence.
  - right. destruct M as [lossy n k t0 p' ms Hk T|t0 Ht|]; [exfalso| |congruence].
    + apply nth_error_None in E. assert (L : (j < length (p_threads p'))%nat) by (apply nth_error_Some; congruence).
      assert (X : length (p_threads p') = length (p_threads p)).
      { assert (K : (k < length (p_threads p))%nat) by (apply nth_error_Some; congruence).
        destruct T; cbn [with_thread with_val notify_all p_threads]; rewrite upd_length; rewrite ?map_length; auto. }
      lia.
    + cbn in Hj. apply nth_snoc in Hj. destruct Hj as [Hj|[Hj ->]]; [congruence|auto].
Qed.
Lemma evolves_emits_back t u v sk : evolves t u -> emits v sk u -> emits v sk t.
Proof. destruct t; cbn; try tauto; destruct u; cbn; try tauto; try (destruct notified; tauto); intros E [E1 E2]; subst; destruct E; subst; auto; destruct H0; subst; auto. Qed.
Lemma move_val_back p p' : move p p' -> p_val p' = p_val p \/ exists j sk, emits (p_val p') sk (nth j (p_threads p) WStart) /\ nth_error (p_threads p) j = Some (nth j (p_threads p) WStart).
Proof.
  intros M. destruct M as [lossy n j t p' ms Hj T|t Ht|]; auto.
  destruct T; cbn; auto. right. exists j, skip. rewrite (nth_error_nth _ _ WStart Hj). split; [cbn; auto|exact Hj].
Qed.

Lemma step_gok lossy s s' : gok s -> step lossy s s' -> gok s'.
Proof.
  intros (G1 & G2 & G3) H. split; [|split].
  - intros i x (p' & E & <-). destruct (step_back _ _ _ _ _ H E) as (p & E0 & M).
    apply (known_step _ _ _ _ H). destruct (move_val_back _ _ M) as [->|(j & sk & Em & Hj)]; [apply (G1 i); exists p; auto|].
    assert (A : at_pc s i j (nth j (p_threads p) WStart)) by (exists p; auto).
    destruct sk; [eapply G2; eauto|]. right. exists i. apply called_iff. eauto.
  - intros i j u v (p' & E & Hj) Em.
    destruct (step_back _ _ _ _ _ H E) as (p & E0 & M).
    destruct (move_thread_back _ _ _ _ M Hj) as [(t & Ht & V)|(-> & ->)].
    + apply (known_step _ _ _ _ H). eapply (G2 i j t); [exists p; auto|]. eapply evolves_emits_back; eauto.
    + destruct H as [ps net i0 q j0 t p' ms Hi Hj0 T|ps net i0 q w Hi|ps net i0 q Hi|ps a m b q Hi Eq|ps a m b q Hi Eq|ps a m b Lo];
        cbn [s_procs] in *.
      * exfalso. rewrite (nth_upd _ _ _ _ _ Hi) in E. destruct (Nat.eqb_spec i i0) as [->|NE].
        -- assert (q = p) by congruence. subst q. injection E as ->.
           assert (X : length (p_threads (add_thread p u)) = length (p_threads p)).
           { assert (K : (j0 < length (p_threads p))%nat) by (apply nth_error_Some; congruence).
             remember (add_thread p u) as ap. destruct T; subst; cbn [with_thread with_val notify_all p_threads]; rewrite upd_length; rewrite ?map_length; auto. }
           cbn in X. rewrite app_length in X. cbn in X. lia.
        -- assert (X : p = add_thread p u) by congruence. apply (f_equal (fun q => length (p_threads q))) in X. cbn in X. rewrite app_length in X. cbn in X. lia.
      * rewrite (nth_upd _ _ _ _ _ Hi) in E. destruct (Nat.eqb_spec i i0) as [->|NE].
        -- assert (q = p) by congruence. subst q. assert (X : add_thread p (ELoad w false) = add_thread p u) by congruence.
           apply (f_equal p_threads) in X. cbn in X. apply app_inv_head in X. injection X as <-. destruct Em. discriminate.
        -- assert (X : p = add_thread p u) by congruence. apply (f_equal (fun q => length (p_threads q))) in X. cbn in X. rewrite app_length in X. cbn in X. lia.
      * rewrite (nth_upd _ _ _ _ _ Hi) in E. destruct (Nat.eqb_spec i i0) as [->|NE].
        -- assert (q = p) by congruence. subst q. assert (X : add_thread p WStart = add_thread p u) by congruence.
           apply (f_equal p_threads) in X. cbn in X. apply app_inv_head in X. injection X as <-. destruct Em.
        -- assert (X : p = add_thread p u) by congruence. apply (f_equal (fun q => length (p_threads q))) in X. cbn in X. rewrite app_length in X. cbn in X. lia.
      * assert (X : p = add_thread p u) by congruence. apply (f_equal (fun q => length (p_threads q))) in X. cbn in X. rewrite app_length in X. cbn in X. lia.
      * rewrite (nth_upd _ _ _ _ _ Hi) in E. destruct (Nat.eqb_spec i (m_to m)) as [->|NE].
        -- assert (q = p) by congruence. subst q. assert (X : add_thread p (ELoad (m_val m) true) = add_thread p u) by congruence.
           apply (f_equal p_threads) in X. cbn in X. apply app_inv_head in X. injection X as <-. destruct Em as [<- _].
           eapply (known_step lossy); [eapply SDeliver; eauto|]. apply G3. cbn. apply in_or_app. right. left. reflexivity.
        -- assert (X : p = add_thread p u) by congruence. apply (f_equal (fun q => length (p_threads q))) in X. cbn in X. rewrite app_length in X. cbn in X. lia.
      * assert (X : p = add_thread p u) by congruence. apply (f_equal (fun q => length (p_threads q))) in X. cbn in X. rewrite app_length in X. cbn in X. lia.
  - intros m Hm.
    assert (C : In m (s_net s) \/ exists i, called_emit s i (m_val m)).
    { destruct H as [ps net i0 q j0 t p' ms Hi Hj0 T|ps net i0 q w Hi|ps net i0 q Hi|ps a m0 b q Hi Eq|ps a m0 b q Hi Eq|ps a m0 b Lo];
        cbn [s_net] in *; auto.
      - apply in_app_or in Hm. destruct Hm as [Hm|Hm]; [auto|]. right. exists i0. apply called_iff. exists j0, t. split; [exists q; auto|].
        destruct T; try destruct Hm. apply in_map_iff in Hm. destruct Hm as (k & <- & _). cbn. auto.
      - left. apply in_app_or in Hm. apply in_or_app. cbn. tauto.
      - left. apply in_app_or in Hm. apply in_or_app. cbn. tauto.
      - left. apply in_app_or in Hm. apply in_or_app. cbn. tauto. }
    apply (known_step _ _ _ _ H). destruct C as [C|C]; [auto|right; exact C].
Qed.
Lemma start_gok pids : gok (start pids).
Proof.
  split; [|split].
  - intros i x (p & E & <-). cbn in E. rewrite nth_error_map in E. destruct (nth_error pids i); [|discriminate]. injection E as <-. left. reflexivity.
  - intros i j t v (p & E & Ej). cbn in E. rewrite nth_error_map in E. destruct (nth_error pids i); [|discriminate]. injection E as <-. destruct j; discriminate.
  - intros m [].
Qed.
Lemma exec_gok lossy s s' : exec lossy s s' -> gok s -> gok s'.
Proof. induction 1 as [|s1 s2 s3 H IH HS]; intros S; [exact S|exact (step_gok _ _ _ (IH S) HS)]. Qed.

(** ** Waiting *)
Lemma step_waiter lossy s s' i j x : step lossy s s' -> value s i x -> at_pc s i j (WWait false) -> at_pc s' i j (WWait false) ->
  (forall k v sk, ~ at_pc s' i k (ESend v sk) /\ ~ at_pc s' i k (ENotify v sk)) ->
  (forall k v sk, ~ at_pc s i k (ESend v sk) /\ ~ at_pc s i k (ENotify v sk)) /\ value s' i x.
Proof.
  intros H (p & Ep & Hx) (p0 & Ep0 & Hj) (p' & Ep' & Hj') Q.
  assert (p0 = p) by congruence. subst p0.
  destruct (step_move _ _ _ _ _ H Ep) as (p1 & Ep1 & M). assert (p1 = p') by congruence. subst p1.
  assert (Q' : forall k v sk, nth_error (p_threads p') k <> Some (ESend v sk) /\ nth_error (p_threads p') k <> Some (ENotify v sk)).
  { intros k v sk. destruct (Q k v sk) as [Q1 Q2]. split; intros C; [apply Q1|apply Q2]; exists p'; auto. }
  assert (R : (forall k v sk, nth_error (p_threads p) k <> Some (ESend v sk) /\ nth_error (p_threads p) k <> Some (ENotify v sk)) /\ p_val p' = p_val p).
  { clear Q. destruct M as [lossy' n k0 t p' ms Hk T|t Ht|].
    - assert (NE : k0 <> j \/ t = WWait false) by (destruct (Nat.eq_dec k0 j) as [->|]; [right; congruence|auto]).
      assert (Hnew : forall u, (forall k, nth_error (p_threads p') k = if Nat.eqb k k0 then Some u else nth_error (p_threads p) k) ->
        (forall v sk, t <> ESend v sk /\ t <> ENotify v sk) ->
        forall k v sk, nth_error (p_threads p) k <> Some (ESend v sk) /\ nth_error (p_threads p) k <> Some (ENotify v sk)).
      { intros u Hu Nt k v sk. specialize (Q' k v sk). rewrite Hu in Q'. destruct (Nat.eqb_spec k k0) as [->|]; [|exact Q'].
        rewrite Hk. destruct (Nt v sk). split; congruence. }
      destruct T; cbn [with_thread with_val notify_all p_threads p_val] in *.
      + split; [|reflexivity]. eapply Hnew; [exact (fun k => nth_upd _ _ _ _ k Hk)|split; discriminate].
      + split; [|reflexivity]. eapply Hnew; [exact (fun k => nth_upd _ _ _ _ k Hk)|split; discriminate].
      + exfalso. destruct (Q' k0 v skip) as [X _]. apply X. rewrite (nth_upd _ _ _ _ _ Hk), Nat.eqb_refl. reflexivity.
      + split; [|reflexivity]. eapply Hnew; [exact (fun k => nth_upd _ _ _ _ k Hk)|split; discriminate].
      + exfalso. destruct (Q' k0 v false) as [_ X]. apply X. rewrite (nth_upd _ _ _ _ _ Hk), Nat.eqb_refl. reflexivity.
      + exfalso. destruct (Q' k0 v false) as [_ X]. apply X. rewrite (nth_upd _ _ _ _ _ Hk), Nat.eqb_refl. reflexivity.
      + exfalso. destruct (Q' k0 v true) as [_ X]. apply X. rewrite (nth_upd _ _ _ _ _ Hk), Nat.eqb_refl. reflexivity.
      + exfalso. destruct NE as [NE|NE]; [|discriminate].
        assert (Hk' : nth_error (map wake (p_threads p)) k0 = Some (ENotify v skip)) by (rewrite nth_error_map, Hk; reflexivity).
        rewrite (nth_upd _ _ _ _ _ Hk') in Hj'. destruct (Nat.eqb_spec j k0); [congruence|]. rewrite nth_error_map, Hj in Hj'. discriminate.
      + split; [|reflexivity]. eapply Hnew; [exact (fun k => nth_upd _ _ _ _ k Hk)|split; discriminate].
      + split; [|reflexivity]. eapply Hnew; [exact (fun k => nth_upd _ _ _ _ k Hk)|split; discriminate].
      + split; [|reflexivity]. eapply Hnew; [exact (fun k => nth_upd _ _ _ _ k Hk)|split; discriminate].
      + split; [|reflexivity]. eapply Hnew; [exact (fun k => nth_upd _ _ _ _ k Hk)|split; discriminate].
    - split; [|reflexivity]. intros k v sk. specialize (Q' k v sk). cbn in Q'.
      split; intros C; [apply (proj1 Q')|apply (proj2 Q')]; apply nth_snoc_old; exact C.
    - split; [exact Q'|reflexivity]. }
  destruct R as [R1 R2]. split; [|exists p'; split; [exact Ep'|congruence]].
  intros k v sk. destruct (R1 k v sk) as [X1 X2]. split; intros (q & Eq & C); assert (q = p) by congruence; subst q; contradiction.
Qed.
Lemma at_pc_fun s i j t u : at_pc s i j t -> at_pc s i j u -> t = u.
Proof. intros (p & E & H) (q & E' & H'). congruence. Qed.
(** a waiter that is waiting un-notified now was so ever since *)
Lemma waiter_back lossy s s' i j : step lossy s s' -> at_pc s' i j (WWait false) -> (exists t, at_pc s i j t) ->
  at_pc s i j WStart \/ at_pc s i j (WWait false).
Proof.
  intros H A (t & At). destruct (at_pc_step _ _ _ _ _ _ H At) as (u & Au & V).
  rewrite (at_pc_fun _ _ _ _ _ Au A) in V. destruct t; cbn in V; try tauto.
  destruct notified; [|right; exact At].
  exfalso. destruct At as (p & E & Ej). destruct A as (p' & E' & Ej').
  destruct (step_move _ _ _ _ _ H E) as (p1 & E1 & M). assert (p1 = p') by congruence. subst p1.
  destruct M as [lossy' n k0 t p' ms Hk T|t Ht|].
  - destruct T; cbn [with_thread with_val notify_all p_threads p_val] in *;
      (erewrite nth_upd in Ej' by (first [exact Hk | rewrite nth_error_map, Hk; reflexivity]));
      (destruct (Nat.eqb_spec j k0) as [->|NE]; [congruence|]); try congruence.
    rewrite nth_error_map, Ej in Ej'. discriminate.
  - cbn in Ej'. rewrite (nth_snoc_old _ _ _ _ Ej) in Ej'. discriminate.
  - congruence.
Qed.
Lemma exec_not_start lossy s s' i j t : exec lossy s s' -> at_pc s i j t -> t <> WStart -> exists u, at_pc s' i j u /\ u <> WStart.
Proof.
  induction 1 as [|s1 s2 s3 H IH HS]; [eauto|]. intros A N. destruct (IH A N) as (u & Au & Nu).
  destruct (at_pc_step _ _ _ _ _ _ HS Au) as (w & Aw & Ev). exists w. split; [exact Aw|]. intros ->.
  destruct u; cbn in Ev; try tauto. destruct notified; tauto.
Qed.
Lemma exec_waiter lossy s s' i j x : exec lossy s s' -> value s i x -> at_pc s i j (WWait false) -> at_pc s' i j (WWait false) ->
  (forall k v sk, ~ at_pc s' i k (ESend v sk) /\ ~ at_pc s' i k (ENotify v sk)) ->
  (forall k v sk, ~ at_pc s i k (ESend v sk) /\ ~ at_pc s i k (ENotify v sk)) /\ value s' i x.
Proof.
  intros H V A0. induction H as [s|s1 s2 s3 H IH HS]; intros A Q; [auto|].
  assert (N : WWait false <> WStart) by discriminate.
  destruct (exec_not_start _ _ _ _ _ _ H A0 N) as (u & Au & Nu).
  destruct (waiter_back _ _ _ _ _ HS A (ex_intro _ u Au)) as [W|W]; [exfalso; apply Nu; eapply at_pc_fun; eauto|].
  assert (V2 : exists y, value s2 i y) by (destruct W as (p & E & _); exists (p_val p), p; auto). destruct V2 as (y & V2).
  destruct (step_waiter _ _ _ _ _ _ HS V2 W A Q) as (Q2 & V3).
  destruct (IH V A0 W Q2) as (Q1 & V2'). split; [exact Q1|].
  assert (x = y) by (destruct V2 as (? & ? & ?), V2' as (? & ? & ?); congruence). subst y. exact V3.
Qed.
