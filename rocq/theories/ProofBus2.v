(** Agreement of the processes when nothing is lost; the shared-memory bus; the file of ports; messages. *)
From Verif Require Import Bytes ModelBus SpecBus ProofBus.
From Coq Require Import Lia.

Lemma step_pids lossy s s' : step lossy s s' -> map p_pid (s_procs s') = map p_pid (s_procs s).
Proof.
  intros H. apply nth_ext with (d := 0) (d' := 0); rewrite !map_length; [apply (step_procs _ _ _ H)|].
  intros k Hk. destruct (nth_error (s_procs s') k) as [p'|] eqn:E'; [|apply nth_error_None in E'; lia].
  destruct (step_back _ _ _ _ _ H E') as (p & E & M).
  apply (map_nth_error p_pid) in E, E'. rewrite (nth_error_nth _ _ 0 E), (nth_error_nth _ _ 0 E'). apply move_pid. exact M.
Qed.

(** Process [k] has, or will get, a value of at least [x]. *)
Definition carries (v : N) (t : pc) : Prop :=
  match t with ELoad w _ | ELoop w _ _ => v = w | _ => False end.
Definition covers (s : sys) (k : nat) (x : N) : Prop :=
  exists v, x <= v /\
    (value s k v \/ (exists m, In m (s_net s) /\ m_to m = k /\ m_val m = v) \/
     (exists j t, at_pc s k j t /\ carries v t) \/ (exists i j, at_pc s i j (ESend v false))).
Definition own_ok (s : sys) : Prop :=
  forall m p, In m (s_net s) -> nth_error (s_procs s) (m_to m) = Some p -> p_pid p = m_pid m -> m_val m <= p_val p.
(** the values that must reach everyone *)
Definition spreading (s : sys) (x : N) : Prop :=
  (exists i, value s i x) \/ (exists m, In m (s_net s) /\ m_val m = x) \/ (exists i j t, at_pc s i j t /\ carries x t /\ emits x true t).
Definition aok (s : sys) : Prop :=
  own_ok s /\ forall x k, spreading s x -> (k < length (s_procs s))%nat -> covers s k x.

Lemma value_of s k p : nth_error (s_procs s) k = Some p -> value s k (p_val p).
Proof. intros H. exists p. auto. Qed.

Lemma covers_value s k x y : value s k y -> x <= y -> covers s k x.
Proof. intros V L. exists y. auto. Qed.

(** every thread of a process after a step by thread [j] of process [i] *)
Lemma step_covers s s' k x : sok s -> own_ok s -> (k < length (s_procs s))%nat -> step false s s' -> covers s k x -> covers s' k x.
Proof.
  intros S O L H C.
  assert (Hval : forall y, value s k y -> x <= y -> covers s' k x).
  { intros y (p & E & <-) Ly. destruct (step_move _ _ _ _ _ H E) as (p' & E' & M).
    eapply covers_value; [apply value_of; exact E'|]. pose proof (move_val _ _ (S _ _ E) M). lia. }
  destruct C as (v & Lx & [V|[(m & Im & <- & <-)|[(j & t & A & Ca)|(i & j & A)]]]).
  - eauto.
  - assert (X : In m (s_net s') \/ covers s' (m_to m) x).
    { destruct (nth_error (s_procs s) (m_to m)) as [pk|] eqn:Ek; [|apply nth_error_None in Ek; lia].
      pose proof (fun E => O m pk Im Ek E) as Om.
      destruct H as [ps net i q j t p' ms Hi Hj T|ps net i q w Hi|ps net i q Hi|ps a m0 b q Hi Eq|ps a m0 b q Hi Eq|ps a m0 b Lo];
        cbn [s_net s_procs] in *; try (left; apply in_or_app; auto; fail); try (left; exact Im); [| |discriminate].
      - apply in_app_or in Im. cbn in Im. destruct Im as [Im|[->|Im]]; [left; apply in_or_app; auto| |left; apply in_or_app; auto].
        right. assert (q = pk) by congruence. subst q. eapply Hval; [apply value_of; exact Ek|]. specialize (Om Eq). lia.
      - apply in_app_or in Im. cbn in Im. destruct Im as [Im|[->|Im]]; [left; apply in_or_app; auto| |left; apply in_or_app; auto].
        right. assert (q = pk) by congruence. subst q. exists (m_val m). split; [exact Lx|]. right; right; left.
        exists (length (p_threads pk)), (ELoad (m_val m) true). split; [|reflexivity].
        exists (add_thread pk (ELoad (m_val m) true)). cbn [s_procs p_threads add_thread]. rewrite (nth_upd _ _ _ _ _ Hi), Nat.eqb_refl.
        split; [reflexivity|]. rewrite nth_error_app2, Nat.sub_diag by lia. reflexivity. }
    destruct X as [X|X]; [|exact X]. exists (m_val m). split; [exact Lx|]. right; left. eauto.
  - destruct A as (p & E & Ej). destruct (step_move _ _ _ _ _ H E) as (p' & E' & M).
    destruct (move_thread _ _ _ _ M Ej) as (u & Eu & V).
    pose proof (move_pok _ _ (S _ _ E) M _ _ Eu) as Pu.
    destruct t; cbn in Ca; try tauto; subst v0.
    + destruct u; cbn in V; try tauto; destruct V as [<- <-]; exists v; (split; [exact Lx|]); right; right; left; exists j; eexists; (split; [exists p'; split; [exact E'|exact Eu]|reflexivity]).
    + destruct u; cbn in V; try tauto; destruct V as [<- <-].
      * exists v; (split; [exact Lx|]); right; right; left; exists j; eexists; (split; [exists p'; split; [exact E'|exact Eu]|reflexivity]).
      * eapply covers_value; [apply value_of; exact E'|]. cbn in Pu. lia.
      * eapply covers_value; [apply value_of; exact E'|]. cbn in Pu. lia.
  - destruct A as (p & E & Ej).
    destruct H as [ps net i0 q j0 t p' ms Hi Hj T|ps net i0 q w Hi|ps net i0 q Hi|ps a m0 b q Hi Eq|ps a m0 b q Hi Eq|ps a m0 b Lo];
      cbn [s_net s_procs] in *; [| | | | |discriminate].
    + destruct (Nat.eq_dec i i0) as [->|NE]; [destruct (Nat.eq_dec j j0) as [->|NEj]|].
      * assert (q = p) by congruence. subst q. assert (t = ESend v false) by congruence. subst t.
        inversion T; subst; [|discriminate].
        exists v. split; [exact Lx|]. right; left. exists (mkMsg k (p_pid p) v). split; [|split; reflexivity].
        cbn [s_net]. apply in_or_app. right. apply in_map_iff. exists k. split; [reflexivity|]. apply in_seq. lia.
      * assert (q = p) by congruence. subst q. exists v. split; [exact Lx|]. right; right; right. exists i0, j.
        exists p'. cbn [s_procs]. rewrite (nth_upd _ _ _ _ _ Hi), Nat.eqb_refl. split; [reflexivity|].
        assert (NB : Nat.eqb j j0 = false) by (apply Nat.eqb_neq; exact NEj).
        destruct T; cbn [with_thread with_val notify_all p_threads];
          (erewrite nth_upd by (first [exact Hj | rewrite nth_error_map, Hj; reflexivity])); rewrite NB; try exact Ej.
        rewrite nth_error_map, Ej. reflexivity.
      * exists v. split; [exact Lx|]. right; right; right. exists i, j, p. cbn [s_procs]. rewrite (nth_upd _ _ _ _ _ Hi).
        destruct (Nat.eqb_spec i i0); [contradiction|]. auto.
    + exists v. split; [exact Lx|]. right; right; right. exists i, j.
      destruct (Nat.eq_dec i i0) as [->|NE]; eexists; cbn [s_procs]; rewrite (nth_upd _ _ _ _ _ Hi).
      * rewrite Nat.eqb_refl. split; [reflexivity|]. cbn. apply nth_snoc_old. congruence.
      * destruct (Nat.eqb_spec i i0); [contradiction|]. eauto.
    + exists v. split; [exact Lx|]. right; right; right. exists i, j.
      destruct (Nat.eq_dec i i0) as [->|NE]; eexists; cbn [s_procs]; rewrite (nth_upd _ _ _ _ _ Hi).
      * rewrite Nat.eqb_refl. split; [reflexivity|]. cbn. apply nth_snoc_old. congruence.
      * destruct (Nat.eqb_spec i i0); [contradiction|]. eauto.
    + exists v. split; [exact Lx|]. right; right; right. exists i, j, p. auto.
    + exists v. split; [exact Lx|]. right; right; right. exists i, j.
      destruct (Nat.eq_dec i (m_to m0)) as [->|NE]; eexists; cbn [s_procs]; rewrite (nth_upd _ _ _ _ _ Hi).
      * rewrite Nat.eqb_refl. split; [reflexivity|]. cbn. apply nth_snoc_old. congruence.
      * destruct (Nat.eqb_spec i (m_to m0)); [contradiction|]. eauto.
Qed.

Lemma step_own s s' : NoDup (map p_pid (s_procs s)) -> sok s -> own_ok s -> step false s s' -> own_ok s'.
Proof.
  intros ND S O H m p' Im E' Ep.
  destruct (step_back _ _ _ _ _ H E') as (p & E & M).
  pose proof (move_val _ _ (S _ _ E) M) as V. pose proof (move_pid _ _ M) as P.
  assert (X : In m (s_net s) \/ m_val m <= p_val p).
  { destruct H as [ps net i0 q j0 t p1 ms Hi Hj T|ps net i0 q w Hi|ps net i0 q Hi|ps a m0 b q Hi Eq|ps a m0 b q Hi Eq|ps a m0 b Lo];
      cbn [s_net s_procs] in *; auto.
    - apply in_app_or in Im. destruct Im as [Im|Im]; [auto|]. right.
      pose proof (S _ _ Hi _ _ Hj) as Tk.
      destruct T; try destruct Im. apply in_map_iff in Im. destruct Im as (k & <- & _). cbn [m_pid m_val m_to] in *.
      assert (X : m_to (mkMsg k (p_pid q) v) = i0).
      { cbn. apply (proj1 (NoDup_nth_error _) ND); [rewrite map_length; apply nth_error_Some; congruence|].
        rewrite !nth_error_map, E, Hi. cbn. congruence. }
      cbn in X. subst k. assert (q = p) by congruence. subst q. cbn in Tk. exact Tk.
    - left. apply in_app_or in Im. apply in_or_app. cbn. tauto.
    - left. apply in_app_or in Im. apply in_or_app. cbn. tauto.
    - left. apply in_app_or in Im. apply in_or_app. cbn. tauto. }
  destruct X as [X|X]; [|lia]. specialize (O m p X E). rewrite P in Ep. specialize (O Ep). lia.
Qed.

Lemma step_aok s s' : NoDup (map p_pid (s_procs s)) -> sok s -> aok s -> step false s s' -> aok s'.
Proof.
  intros ND S (O & A) H. split; [eapply step_own; eauto|].
  intros x k Sp L. rewrite (step_procs _ _ _ H) in L.
  assert (K : (exists y, x <= y /\ spreading s y) \/ (exists i j, at_pc s' i j (ESend x false)) \/ covers s k x).
  { destruct Sp as [(i & (p' & E' & <-))|[(m & Im & <-)|(i & j & t & (p' & E' & Ej') & Ca & Em)]].
    - destruct (step_back _ _ _ _ _ H E') as (p & E & M).
      destruct M as [lossy n j t p' ms Hj T|t Ht|].
      + assert (Y : p_val p' = p_val p \/ exists v sk old, t = ELoop v sk old /\ p_val p' = v /\ nth_error (p_threads p') j = Some (ESend v sk)).
        { destruct T; auto. right. exists v, skip, old. split; [reflexivity|]. split; [reflexivity|]. cbn [with_thread with_val p_threads]. rewrite (nth_upd _ _ _ _ _ Hj), Nat.eqb_refl. reflexivity. }
        destruct Y as [->|(v & sk & old & -> & -> & Hs)]; [left; exists (p_val p); split; [lia|]; left; exists i, p; auto|].
        destruct sk; [|right; left; exists i, j, p'; auto].
        left. exists v. split; [lia|]. right; right. exists i, j, (ELoop v true old). split; [exists p; auto|cbn; auto].
      + left. exists (p_val p). split; [cbn; lia|]. left. exists i, p. auto.
      + left. exists (p_val p). split; [lia|]. left. exists i, p. auto.
    - assert (X : In m (s_net s) \/ exists i, exists y, m_val m <= y /\ value s i y).
      { destruct H as [ps net i0 q j0 t p1 ms Hi Hj T|ps net i0 q w Hi|ps net i0 q Hi|ps a m0 b q Hi Eq|ps a m0 b q Hi Eq|ps a m0 b Lo];
          cbn [s_net s_procs] in *; auto; try (left; apply in_app_or in Im; apply in_or_app; cbn; tauto).
        apply in_app_or in Im. destruct Im as [Im|Im]; [auto|]. right. exists i0, (p_val q). split; [|exists q; auto].
        pose proof (S _ _ Hi _ _ Hj) as Tk. destruct T; try destruct Im. apply in_map_iff in Im. destruct Im as (k0 & <- & _). exact Tk. }
      destruct X as [X|(i & y & Ly & Vy)]; left; [exists (m_val m); split; [lia|]; right; left; eauto|exists y; split; [exact Ly|left; eauto]].
    - destruct (step_back _ _ _ _ _ H E') as (p & E & M).
      destruct (move_thread_back _ _ _ _ M Ej') as [(t0 & Ht & V)|(-> & ->)].
      + left. exists x. split; [lia|]. right; right. exists i, j, t0. split; [exists p; auto|].
        split; [|eapply evolves_emits_back; eauto].
        destruct t; cbn in Ca; try tauto; destruct t0; cbn in V; try tauto; try (destruct notified; tauto); destruct V; subst; reflexivity.
      + (* a new thread with a value from elsewhere: a message *)
        assert (NA : forall q w, q <> add_thread q w).
        { intros q w C. apply (f_equal (fun z => length (p_threads z))) in C. cbn in C. rewrite app_length in C. cbn in C. lia. }
        destruct H as [ps net i0 q j0 t1 p1 ms Hi Hj T|ps net i0 q w Hi|ps net i0 q Hi|ps a m0 b q Hi Eq|ps a m0 b q Hi Eq|ps a m0 b Lo];
          cbn [s_net s_procs] in *.
        * exfalso. rewrite (nth_upd _ _ _ _ _ Hi) in E'. destruct (Nat.eqb_spec i i0) as [->|NE]; [|apply (NA p t); congruence].
          assert (q = p) by congruence. subst q. injection E' as ->.
          assert (X : length (p_threads (add_thread p t)) = length (p_threads p)).
          { assert (K : (j0 < length (p_threads p))%nat) by (apply nth_error_Some; congruence).
            remember (add_thread p t) as ap. destruct T; subst; cbn [with_thread with_val notify_all p_threads]; rewrite upd_length; rewrite ?map_length; auto. }
          cbn in X. rewrite app_length in X. cbn in X. lia.
        * exfalso. rewrite (nth_upd _ _ _ _ _ Hi) in E'. destruct (Nat.eqb_spec i i0) as [->|NE]; [|apply (NA p t); congruence].
          assert (q = p) by congruence. subst q. injection E' as X. apply app_inv_head in X. injection X as <-. destruct Em. discriminate.
        * exfalso. rewrite (nth_upd _ _ _ _ _ Hi) in E'. destruct (Nat.eqb_spec i i0) as [->|NE]; [|apply (NA p t); congruence].
          assert (q = p) by congruence. subst q. injection E' as X. apply app_inv_head in X. injection X as <-. destruct Em.
        * exfalso. apply (NA p t). congruence.
        * rewrite (nth_upd _ _ _ _ _ Hi) in E'. destruct (Nat.eqb_spec i (m_to m0)) as [->|NE]; [|exfalso; apply (NA p t); congruence].
          assert (q = p) by congruence. subst q. injection E' as X. apply app_inv_head in X. injection X as <-. cbn in Ca. subst x.
          left. exists (m_val m0). split; [lia|]. right; left. exists m0. split; [|reflexivity]. cbn. apply in_or_app. cbn. auto.
        * discriminate. }
  destruct K as [(y & Ly & Sy)|[(i & j & B)|K]].
  - destruct (step_covers s s' k y S O L H (A y k Sy L)) as (v & Lv & Cv). exists v. split; [lia|exact Cv].
  - exists x. split; [lia|]. right; right; right. eauto.
  - exact (step_covers s s' k x S O L H K).
Qed.

Lemma start_aok pids : aok (start pids).
Proof.
  split; [intros m p []|].
  intros x k Sp L. destruct (nth_error (s_procs (start pids)) k) as [p|] eqn:E; [|apply nth_error_None in E; lia].
  assert (Hx : x = 0).
  { destruct Sp as [(i & (q & Eq & <-))|[(m & [] & _)|(i & j & t & (q & Eq & Ej) & _)]].
    - cbn in Eq. rewrite nth_error_map in Eq. destruct (nth_error pids i); [|discriminate]. injection Eq as <-. reflexivity.
    - cbn in Eq. rewrite nth_error_map in Eq. destruct (nth_error pids i); [|discriminate]. injection Eq as <-. destruct j; discriminate. }
  subst x. eapply covers_value; [apply value_of; exact E|lia].
Qed.
Lemma start_pids pids : map p_pid (s_procs (start pids)) = pids.
Proof. cbn. rewrite map_map. apply map_id. Qed.
Lemma exec_aok s s' : exec false s s' -> NoDup (map p_pid (s_procs s)) -> sok s -> aok s -> aok s' /\ map p_pid (s_procs s') = map p_pid (s_procs s).
Proof.
  induction 1 as [|s1 s2 s3 H IH HS]; intros ND S A; [auto|].
  destruct (IH ND S A) as [A2 P2]. split; [|rewrite (step_pids _ _ _ HS); exact P2].
  eapply step_aok; [rewrite P2; exact ND|exact (exec_sok _ _ _ H S)|exact A2|exact HS].
Qed.

Lemma agree pids s : NoDup pids -> exec false (start pids) s -> s_net s = [] -> (forall i, settled s i) ->
  forall k x, value s k x -> largest (fun v => exists i, called_emit s i v) x.
Proof.
  intros ND H Nn St k x V.
  assert (S := exec_sok _ _ _ H (start_sok pids)). assert (G := exec_gok _ _ _ H (start_gok pids)).
  destruct (exec_aok _ _ H) as [(O & A) P]; [rewrite start_pids; exact ND|apply start_sok|apply start_aok|].
  split; [|destruct G as (G & _); exact (G _ _ V)].
  intros v (i & C). apply called_iff in C. destruct C as (j & t & B & Em).
  destruct B as (p & E & Ej). assert (D : v <= p_val p).
  { pose proof (S _ _ E _ _ Ej) as Tk. assert (NB := St i j t (ex_intro _ p (conj E Ej))).
    destruct t; cbn in *; try tauto. destruct Em as [-> _]. lia. }
  assert (L : (k < length (s_procs s))%nat) by (destruct V as (q & Eq & _); apply nth_error_Some; congruence).
  destruct (A (p_val p) k (or_introl (ex_intro _ i (value_of _ _ _ E))) L) as (y & Ly & Cy).
  assert (value s k y).
  { destruct Cy as [Cy|[(m & Im & _)|[(j' & t' & B & Ca)|(i' & j' & B)]]]; [exact Cy|rewrite Nn in Im; destruct Im| |].
    - exfalso. apply (St _ _ _ B). destruct t'; cbn in *; tauto.
    - exfalso. apply (St _ _ _ B). exact Logic.I. }
  assert (x = y) by (destruct V as (? & ? & ?), H0 as (? & ? & ?); congruence). lia.
Qed.
