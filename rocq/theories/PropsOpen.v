(** C103: opening a linkspace. *)
From Verif Require Import Bytes ModelOpen SpecOpen.

Section C103.
Variable handle_of : list bytes -> bytes -> option N.
Variable makes : list bytes -> bytes -> bool.
Variable opens : list bytes -> bytes -> bool -> bool.
Variable lkd home : option bytes.
Notation turn := (turn handle_of makes opens lkd home).
Notation run := (run handle_of makes opens lkd home).
Notation call := (call handle_of makes lkd home).
Notation chosen := (chosen lkd home).

(** The path of a call is the one chosen *)
Definition the_path (c : Call) : option bytes := match c_dir c with Some p => Some p | None => lk_dir lkd home end.
Lemma join_in_home h : in_home h (join_linkspace h).
Proof.
  unfold join_linkspace, in_home. destruct (rev h) as [|x l] eqn:R.
  - exists []. assert (h = []) by (rewrite <- (rev_involutive h), R; reflexivity). subst. split; [reflexivity|]. right. auto.
  - assert (H : h = rev l ++ [x]) by (rewrite <- (rev_involutive h), R; reflexivity).
    destruct (N.eqb_spec x 47) as [->|].
    + exists []. split; [reflexivity|]. right. split; [reflexivity|]. right. now exists (rev l).
    + exists [47]. split; [reflexivity|]. left. split; [reflexivity|]. split; [intros ->; now destruct (rev l)|].
      intros (y & Y). rewrite Y in H. apply app_inj_tail in H. destruct H as (_ & E). congruence.
Qed.
Lemma in_home_fun h p q : in_home h p -> in_home h q -> p = q.
Proof.
  intros (s1 & -> & [(-> & A & B)|(-> & [A|A])]) (s2 & -> & [(-> & C & D)|(-> & [C|C])]); try reflexivity; contradiction.
Qed.
Lemma path_chosen c p : the_path c = Some p -> chosen c p.
Proof.
  unfold the_path, SpecOpen.chosen. destruct (c_dir c) as [q|]; [intros [= ->]; now left|].
  unfold lk_dir. destruct lkd as [q|]; [intros [= ->]; right; split; [reflexivity|now left]|].
  destruct home as [h|]; cbn; [|discriminate]. intros [= <-]. right. split; [reflexivity|]. right. split; [reflexivity|].
  exists h. split; [reflexivity|]. apply join_in_home.
Qed.
Lemma chosen_path c p : chosen c p -> the_path c = Some p.
Proof.
  unfold the_path, SpecOpen.chosen, lk_dir. intros [->|(-> & [->|(-> & h & -> & I)])]; [reflexivity|reflexivity|].
  cbn. f_equal. exact (in_home_fun h _ _ (join_in_home h) I).
Qed.
Lemma path_none c : the_path c = None <-> no_choice lkd home c.
Proof.
  unfold the_path, no_choice, lk_dir. destruct (c_dir c), lkd, home; cbn; split; intros H; try discriminate; try (destruct H as (? & ? & ?); discriminate); auto.
Qed.

(** What a turn may do *)
Inductive step (s : St) : Turn -> St -> list (N * Call * Res) -> Prop :=
| step_idle x : step s x s []
| step_fail t c p m : the_path c = Some p -> m = s_made s \/ c_create c = true /\ m = p :: s_made s ->
    step s (Begin t c) (mkSt m (s_envs s) (s_next s) (s_thr s)) [(t, c, RErr)]
| step_nopath t c : the_path c = None -> step s (Begin t c) s [(t, c, RErr)]
| step_default t c r : c_kind c = GetLk -> t_lk (s_thr s t) = Some r -> step s (Begin t c) s [(t, c, ROk r)]
| step_hit t c p m h e : t_wait (s_thr s t) = None -> the_path c = Some p -> (c_kind c = GetLk -> t_lk (s_thr s t) = None) ->
    m = s_made s \/ c_create c = true /\ m = p :: s_made s ->
    handle_of m p = Some h -> env_get h (s_envs s) = Some e ->
    step s (Begin t c) (fst (finish (mkSt m (s_envs s) (s_next s) (s_thr s)) t c e)) [(t, c, ROk (mkRt (s_next s) e))]
| step_wait t c p m h : t_wait (s_thr s t) = None -> the_path c = Some p -> (c_kind c = GetLk -> t_lk (s_thr s t) = None) ->
    m = s_made s \/ c_create c = true /\ m = p :: s_made s ->
    handle_of m p = Some h -> env_get h (s_envs s) = None ->
    step s (Begin t c) (wait (mkSt m (s_envs s) (s_next s) (s_thr s)) t c p h) []
| step_badopen t c p h : t_wait (s_thr s t) = Some (c, p, h) ->
    step s (Resume t) (mkSt (s_made s) (s_envs s) (s_next s) (upd (s_thr s) t (mkThr None (t_lk (s_thr s t)) (t_eval (s_thr s t))))) [(t, c, RErr)]
| step_open t c p h : t_wait (s_thr s t) = Some (c, p, h) -> opens (s_made s) p (c_create c) = true ->
    step s (Resume t) (fst (finish (mkSt (s_made s) (env_insert h (mkEnv (s_next s) h) (s_envs s)) (s_next s + 1) (s_thr s)) t c (mkEnv (s_next s) h)))
      [(t, c, ROk (mkRt (s_next s + 1) (mkEnv (s_next s) h)))].

Lemma st_eta s : mkSt (s_made s) (s_envs s) (s_next s) (s_thr s) = s.
Proof. now destruct s. Qed.
Lemma turn_step s x s' a : turn s x = (s', a) -> step s x s' a.
Proof.
  destruct x as [t c|t]; cbn [ModelOpen.turn]; intros T.
  - destruct (t_wait (s_thr s t)) eqn:W; [injection T as <- <-; apply step_idle|].
    assert (G : forall s'' o, (match the_path c with Some p => look handle_of makes s t c p | None => (s, Some RErr) end) = (s'', o) ->
      (c_kind c = GetLk -> t_lk (s_thr s t) = None) ->
      step s (Begin t c) s'' (match o with Some r => [(t, c, r)] | None => [] end)).
    { intros s'' o E D. destruct (the_path c) as [p|] eqn:P; [|injection E as <- <-; now apply step_nopath].
      unfold look in E. destruct (handle_of (s_made s) p) as [h|] eqn:H.
      - destruct (env_get h (s_envs s)) as [e|] eqn:V; injection E as <- <-; cbn [app].
        + pose proof (step_hit s t c p (s_made s) h e W P D (or_introl eq_refl) H V) as X. rewrite st_eta in X. exact X.
        + pose proof (step_wait s t c p (s_made s) h W P D (or_introl eq_refl) H V) as X. rewrite st_eta in X. exact X.
      - assert (F : step s (Begin t c) s [(t, c, RErr)]).
        { pose proof (step_fail s t c p (s_made s) P (or_introl eq_refl)) as X. rewrite st_eta in X. exact X. }
        destruct (c_create c) eqn:CR; [|injection E as <- <-; exact F].
        destruct (makes (s_made s) p) eqn:MK; [|injection E as <- <-; exact F].
        cbn [s_made] in E. destruct (handle_of (p :: s_made s) p) as [h|] eqn:H'; cbn [s_envs] in E.
        + destruct (env_get h (s_envs s)) as [e|] eqn:V; injection E as <- <-.
          * apply (step_hit s t c p (p :: s_made s) h e); auto.
          * apply (step_wait s t c p (p :: s_made s) h); auto.
        + injection E as <- <-. apply (step_fail s t c p); auto. }
    unfold ModelOpen.call in T. fold (the_path c) in T.
    destruct (c_kind c) eqn:K.
    + destruct (match the_path c with Some p => look handle_of makes s t c p | None => (s, Some RErr) end) as [s'' o] eqn:E.
      pose proof (G s'' o eq_refl ltac:(discriminate)) as X. destruct o; injection T as <- <-; exact X.
    + destruct (t_lk (s_thr s t)) as [r|] eqn:L; [injection T as <- <-; now apply step_default|].
      destruct (match the_path c with Some p => look handle_of makes s t c p | None => (s, Some RErr) end) as [s'' o] eqn:E.
      pose proof (G s'' o eq_refl ltac:(reflexivity)) as X. destruct o; injection T as <- <-; exact X.
  - destruct (t_wait (s_thr s t)) as [[[c p] h]|] eqn:W; [|injection T as <- <-; apply step_idle].
    unfold resume in T. rewrite W in T. destruct (opens (s_made s) p (c_create c)) eqn:O; injection T as <- <-.
    + now apply (step_open s t c p h).
    + now apply (step_badopen s t c p h).
Qed.

(** An invariant of states and the results so far, kept by every step, holds of every run *)
Lemma run_inv (I : St -> list (N * Call * Res) -> Prop) (Q : Turn -> Prop) :
  (forall s acc x s' a, Q x -> I s acc -> step s x s' a -> I s' (acc ++ a)) ->
  forall xs s acc s' b, Forall Q xs -> I s acc -> run s xs = (s', b) -> I s' (acc ++ b).
Proof.
  intros K. induction xs as [|x xs IH]; intros s acc s' b F H R; cbn [ModelOpen.run] in R.
  - injection R as <- <-. now rewrite app_nil_r.
  - destruct (turn s x) as [s1 a1] eqn:T. destruct (run s1 xs) as [s2 b2] eqn:R2. injection R as <- <-.
    inversion F; subst. rewrite app_assoc. apply (IH s1 (acc ++ a1) s2 b2); auto. apply (K s acc x s1 a1); auto. now apply turn_step.
Qed.
Lemma run_app s xs ys : run s (xs ++ ys) = let '(s1, a) := run s xs in let '(s2, b) := run s1 ys in (s2, a ++ b).
Proof.
  revert s. induction xs as [|x xs IH]; intros s; cbn [app ModelOpen.run].
  - destruct (run s ys). reflexivity.
  - destruct (turn s x) as [s1 a]. rewrite IH. destruct (run s1 xs) as [s2 b]. destruct (run s2 ys) as [s3 d]. now rewrite app_assoc.
Qed.

(** ** Which directory *)
Lemma given_app t a b : given t (a ++ b) = given t a ++ given t b.
Proof. unfold given. now rewrite flat_map_app. Qed.
Lemma upd_same f t x : upd f t x t = x.
Proof. unfold upd. now rewrite N.eqb_refl. Qed.
Lemma upd_other f t x u : u <> t -> upd f t x u = f u.
Proof. unfold upd. intros H. destruct (N.eqb_spec u t); congruence. Qed.

Definition inv_dir (s : St) (acc : list (N * Call * Res)) : Prop :=
  (forall h e, env_get h (s_envs s) = Some e -> env_dir e = h) /\
  (forall t c p h, t_wait (s_thr s t) = Some (c, p, h) -> chosen c p /\ handle_of (s_made s) p = Some h) /\
  (forall t c r, In (t, c, ROk r) acc -> c_kind c = LkOpen -> exists p, chosen c p /\ handle_of (s_made s) p = Some (env_dir (rt_env r))).
Lemma made_mono m s c p q h : fs_ok handle_of -> m = s_made s \/ c_create c = true /\ m = p :: s_made s ->
  handle_of (s_made s) q = Some h -> handle_of m q = Some h.
Proof. intros F [->|(_ & ->)] H; [exact H|]. now apply F. Qed.
Lemma dir_step : fs_ok handle_of -> forall s acc x s' a, True -> inv_dir s acc -> step s x s' a -> inv_dir s' (acc ++ a).
Proof.
  intros FS s acc x s' a _ (IE & IW & IR) ST.
  assert (OLD : forall m c0 p0, m = s_made s \/ c_create c0 = true /\ m = p0 :: s_made s ->
    forall t c r, In (t, c, ROk r) acc -> c_kind c = LkOpen -> exists p, chosen c p /\ handle_of m p = Some (env_dir (rt_env r))).
  { intros m c0 p0 M t c r X K. destruct (IR t c r X K) as (p & C & H). exists p. split; [exact C|]. now apply (made_mono m s c0 p0). }
  destruct ST as [x|t c p m P M|t c P|t c r K L|t c p m h e W P D M H V|t c p m h W P D M H V|t c p h W|t c p h W O].
  - rewrite app_nil_r. now split.
  - split; [exact IE|]. split.
    + intros u c' p' h' X. destruct (IW u c' p' h' X) as (A & B). split; [exact A|]. now apply (made_mono m s c p).
    + intros u c' r X K. apply in_app_or in X. destruct X as [X|[[= ]|[]]]. exact (OLD m c p M u c' r X K).
  - split; [exact IE|]. split; [exact IW|]. intros u c' r X K. apply in_app_or in X. destruct X as [X|[[= ]|[]]]. exact (IR u c' r X K).
  - split; [exact IE|]. split; [exact IW|]. intros u c' r' X K'. apply in_app_or in X. destruct X as [X|[[= _ <- _]|[]]]; [exact (IR u c' r' X K')|congruence].
  - split; [exact IE|]. cbn [finish fst s_thr s_made s_envs]. split.
    + intros u c' p' h' X. destruct (N.eq_dec u t) as [->|N]; [rewrite upd_same in X; discriminate|]. rewrite upd_other in X by exact N.
      destruct (IW u c' p' h' X) as (A & B). split; [exact A|]. now apply (made_mono m s c p).
    + intros u c' r X K. apply in_app_or in X. destruct X as [X|[[= _ <- <-]|[]]]; [exact (OLD m c p M u c' r X K)|].
      exists p. split; [now apply path_chosen|]. cbn [rt_env]. now rewrite (IE h e V).
  - split; [exact IE|]. cbn [wait s_thr s_made]. rewrite app_nil_r. split; [|exact (OLD m c p M)].
    intros u c' p' h' X. destruct (N.eq_dec u t) as [->|N].
    + rewrite upd_same in X. injection X as <- <- <-. split; [now apply path_chosen|exact H].
    + rewrite upd_other in X by exact N. destruct (IW u c' p' h' X) as (A & B). split; [exact A|]. now apply (made_mono m s c p).
  - split; [exact IE|]. cbn [s_thr s_made]. split.
    + intros u c' p' h' X. destruct (N.eq_dec u t) as [->|N]; [rewrite upd_same in X; discriminate|]. rewrite upd_other in X by exact N. now apply (IW u).
    + intros u c' r X K. apply in_app_or in X. destruct X as [X|[[= ]|[]]]. exact (IR u c' r X K).
  - unfold inv_dir. cbn [finish fst s_thr s_made s_envs]. split; [|split].
    + intros h' e'. cbn [env_insert env_get]. destruct (N.eqb_spec h h') as [E|N]; [intros X; injection X as X; subst e'; exact E|apply IE].
    + intros u c' p' h' X. destruct (N.eq_dec u t) as [->|N]; [rewrite upd_same in X; discriminate|]. rewrite upd_other in X by exact N. now apply (IW u).
    + intros u c' r X K. apply in_app_or in X. destruct X as [X|[[= _ <- <-]|[]]]; [exact (IR u c' r X K)|].
      destruct (IW t c p h W) as (A & B). exists p. split; [exact A|exact B].
Qed.
Lemma all_true (xs : list Turn) : Forall (fun _ => True) xs.
Proof. apply Forall_forall. auto. Qed.
Theorem C103_dir xs s res t c r : fs_ok handle_of -> run start xs = (s, res) -> In (t, c, ROk r) res -> c_kind c = LkOpen ->
  exists p, chosen c p /\ handle_of (s_made s) p = Some (env_dir (rt_env r)).
Proof.
  intros FS R X K.
  assert (I : inv_dir s ([] ++ res)).
  { apply (run_inv inv_dir (fun _ => True) (dir_step FS) xs start [] s res (all_true xs)); [|exact R]. split; [discriminate|]. split; [discriminate|]. intros ? ? ? []. }
  exact (proj2 (proj2 I) t c r X K).
Qed.

(** ** The first of a thread *)
Definition inv_first (s : St) (acc : list (N * Call * Res)) : Prop :=
  (forall t, t_lk (s_thr s t) = option_map snd (hd_error (given t acc)) /\ t_eval (s_thr s t) = option_map snd (hd_error (by_open (given t acc)))).
Lemma hd_app {A} (l m : list A) : hd_error (l ++ m) = match hd_error l with Some x => Some x | None => hd_error m end.
Proof. now destruct l. Qed.
Lemma first_finish s s0 acc t c e : inv_first s acc -> s_thr s0 = s_thr s ->
  inv_first (fst (finish s0 t c e)) (acc ++ [(t, c, ROk (mkRt (s_next s0) e))]).
Proof.
  intros I E u. destruct (I u) as (L & V). cbn [finish fst s_thr]. rewrite E, given_app.
  cbn [given flat_map]. rewrite app_nil_r. unfold by_open in *. rewrite filter_app, !hd_app. destruct (N.eq_dec u t) as [->|N].
  - rewrite upd_same, N.eqb_refl. cbn [t_lk t_eval hd_error filter fst]. rewrite L, V. split.
    + now destruct (hd_error (given t acc)).
    + destruct (c_kind c); cbn [hd_error]; now destruct (hd_error (filter _ (given t acc))).
  - rewrite upd_other by exact N. destruct (N.eqb_spec t u); [congruence|]. cbn [hd_error filter]. rewrite L, V.
    split; [now destruct (hd_error (given u acc))|now destruct (hd_error (filter _ (given u acc)))].
Qed.
Lemma first_err s acc t c s' : inv_first s acc -> (forall u, t_lk (s_thr s' u) = t_lk (s_thr s u) /\ t_eval (s_thr s' u) = t_eval (s_thr s u)) ->
  inv_first s' (acc ++ [(t, c, RErr)]).
Proof. intros I E u. destruct (E u) as (-> & ->). rewrite given_app. cbn [given flat_map]. rewrite !app_nil_r. apply I. Qed.
Lemma first_step : forall s acc x s' a, True -> inv_first s acc -> step s x s' a -> inv_first s' (acc ++ a).
Proof.
  intros s acc x s' a _ I ST.
  destruct ST as [x|t c p m P M|t c P|t c r K L|t c p m h e W P D M H V|t c p m h W P D M H V|t c p h W|t c p h W O].
  - now rewrite app_nil_r.
  - apply (first_err s); auto.
  - apply (first_err s); auto.
  - intros u. destruct (I u) as (A & B). rewrite given_app. cbn [given flat_map]. rewrite app_nil_r. unfold by_open in *. rewrite filter_app, !hd_app.
    destruct (N.eqb_spec t u) as [->|N].
    + cbn [filter fst]. rewrite K. cbn [hd_error]. rewrite A in *. split; [now destruct (hd_error (given u acc))|]. rewrite B. now destruct (hd_error (filter _ (given u acc))).
    + cbn [filter hd_error]. rewrite A, B. split; [now destruct (hd_error (given u acc))|now destruct (hd_error (filter _ (given u acc)))].
  - pose proof (first_finish s (mkSt m (s_envs s) (s_next s) (s_thr s)) acc t c e I eq_refl) as X. exact X.
  - rewrite app_nil_r. intros u. cbn [wait s_thr]. destruct (N.eq_dec u t) as [->|N]; [rewrite upd_same; apply I|rewrite upd_other by exact N; apply I].
  - apply (first_err s); auto. intros u. cbn [s_thr]. destruct (N.eq_dec u t) as [->|N]; [rewrite upd_same; auto|rewrite upd_other by exact N; auto].
  - pose proof (first_finish s (mkSt (s_made s) (env_insert h (mkEnv (s_next s) h) (s_envs s)) (s_next s + 1) (s_thr s)) acc t c (mkEnv (s_next s) h) I eq_refl) as X. exact X.
Qed.
Lemma first_inv xs s res : run start xs = (s, res) -> inv_first s res.
Proof. intros R. apply (run_inv inv_first (fun _ => True) first_step xs start [] s res (all_true xs)); [|exact R]. intros t. split; reflexivity. Qed.
Theorem C103_default xs s res t : run start xs = (s, res) ->
  t_lk (s_thr s t) = option_map snd (hd_error (given t res)) /\ t_eval (s_thr s t) = option_map snd (hd_error (by_open (given t res))).
Proof. intros R. exact (first_inv xs s res R t). Qed.
Theorem C103_get xs s res t c first : run start xs = (s, res) -> hd_error (given t res) = Some first -> t_wait (s_thr s t) = None ->
  c_kind c = GetLk -> run start (xs ++ [Begin t c]) = (s, res ++ [(t, c, ROk (snd first))]).
Proof.
  intros R F W K. rewrite run_app, R. cbn [ModelOpen.run ModelOpen.turn]. rewrite W. unfold ModelOpen.call. rewrite K.
  rewrite (proj1 (C103_default xs s res t R)), F. reflexivity.
Qed.

(** ** A new runtime each time *)
Definition inv_new (s : St) (acc : list (N * Call * Res)) : Prop :=
  (forall t c r, In (t, c, ROk r) acc -> rt_id r < s_next s) /\ (forall t r, t_lk (s_thr s t) = Some r -> rt_id r < s_next s) /\
  (forall a b t c r, acc = a ++ (t, c, ROk r) :: b -> c_kind c = LkOpen -> forall t' c' r', In (t', c', ROk r') a -> rt_id r' < rt_id r).
Lemma snoc_split {A} (acc a b : list A) x y : acc ++ [x] = a ++ y :: b -> acc = a /\ x = y \/ exists b', b = b' ++ [x] /\ acc = a ++ y :: b'.
Proof.
  intros E. destruct (exists_last (l := y :: b) ltac:(discriminate)) as (b' & z & Z). rewrite Z, app_assoc in E. apply app_inj_tail in E. destruct E as (E & ->).
  destruct b' as [|w b'].
  - injection Z as Z1 Z2. left. rewrite app_nil_r in E. auto.
  - injection Z as Z1 Z2. right. exists b'. subst. auto.
Qed.
Lemma new_add s s' acc t c r :
  inv_new s acc -> s_next s <= s_next s' -> (forall u x, t_lk (s_thr s' u) = Some x -> rt_id x < s_next s') ->
  (forall x, r = ROk x -> rt_id x < s_next s' /\ (c_kind c = LkOpen -> s_next s <= rt_id x)) ->
  inv_new s' (acc ++ [(t, c, r)]).
Proof.
  intros (A & B & C) LE L N. split; [|split; [exact L|]].
  - intros u c' x X. apply in_app_or in X. destruct X as [X|[[= -> -> ->]|[]]]; [pose proof (A u c' x X); lia|]. exact (proj1 (N x eq_refl)).
  - intros a b u c' x E K t' c'' r' X. apply snoc_split in E. destruct E as [(<- & E)|(b' & -> & E)].
    + injection E as -> -> ->. pose proof (proj2 (N x eq_refl) K). pose proof (A t' c'' r' X). lia.
    + exact (C a b' u c' x E K t' c'' r' X).
Qed.
Lemma new_step : forall s acc x s' a, True -> inv_new s acc -> step s x s' a -> inv_new s' (acc ++ a).
Proof.
  intros s acc x s' a _ I ST. pose proof I as (A & B & C).
  destruct ST as [x|t c p m P M|t c P|t c r K L|t c p m h e W P D M H V|t c p m h W P D M H V|t c p h W|t c p h W O].
  - now rewrite app_nil_r.
  - apply (new_add s); [exact I|cbn; lia|exact B|discriminate].
  - apply (new_add s); [exact I|cbn; lia|exact B|discriminate].
  - apply (new_add s); [exact I|lia|exact B|]. intros x [= <-]. split; [exact (B t r L)|congruence].
  - apply (new_add s); [exact I|cbn; lia| |].
    + intros u x. cbn [finish fst s_thr s_next]. destruct (N.eq_dec u t) as [->|N]; [rewrite upd_same|rewrite upd_other by exact N; intros X; pose proof (B u x X); lia].
      cbn [t_lk]. destruct (t_lk (s_thr s t)) as [y|] eqn:L; intros [= <-]; [pose proof (B t y L); lia|cbn; lia].
    + intros x [= <-]. cbn. split; intros; lia.
  - rewrite app_nil_r. split; [exact A|]. split; [|exact C]. intros u x. cbn [wait s_thr]. destruct (N.eq_dec u t) as [->|N]; [rewrite upd_same|rewrite upd_other by exact N]; apply B.
  - apply (new_add s); [exact I|cbn; lia| |discriminate]. intros u x. cbn [s_thr]. destruct (N.eq_dec u t) as [->|N]; [rewrite upd_same|rewrite upd_other by exact N]; apply B.
  - apply (new_add s); [exact I|cbn; lia| |].
    + intros u x. cbn [finish fst s_thr s_next]. destruct (N.eq_dec u t) as [->|N]; [rewrite upd_same|rewrite upd_other by exact N; intros X; pose proof (B u x X); lia].
      cbn [t_lk]. destruct (t_lk (s_thr s t)) as [y|] eqn:L; intros [= <-]; [pose proof (B t y L); lia|cbn; lia].
    + intros x [= <-]. cbn. split; intros; lia.
Qed.
Theorem C103_new xs s a t c r b t' c' r' : run start xs = (s, a ++ (t, c, ROk r) :: b) -> c_kind c = LkOpen -> In (t', c', ROk r') a -> rt_id r' <> rt_id r.
Proof.
  intros R K X.
  assert (I : inv_new s ([] ++ a ++ (t, c, ROk r) :: b)).
  { apply (run_inv inv_new (fun _ => True) new_step xs start [] s _ (all_true xs)); [|exact R].
    split; [intros ? ? ? []|]. split; [discriminate|]. intros a0 b0 ? ? ? E. destruct a0; discriminate. }
  pose proof (proj2 (proj2 I) a b t c r eq_refl K t' c' r' X). lia.
Qed.

(** ** One session for each directory *)
Definition shared (s : St) (acc : list (N * Call * Res)) : Prop :=
  (forall h e, env_get h (s_envs s) = Some e -> env_dir e = h) /\
  (forall t c r, In (t, c, ROk r) acc -> env_get (env_dir (rt_env r)) (s_envs s) = Some (rt_env r)) /\
  (forall t r, t_lk (s_thr s t) = Some r -> env_get (env_dir (rt_env r)) (s_envs s) = Some (rt_env r)).
Definition alone (s : St) (t : N) : Prop :=
  (forall u, u <> t -> t_wait (s_thr s u) = None) /\ (forall c p h, t_wait (s_thr s t) = Some (c, p, h) -> env_get h (s_envs s) = None).
Definition turn_of (x : Turn) : N := match x with Begin t _ => t | Resume t => t end.
Lemma shared_step s acc x s' a : alone s (turn_of x) -> shared s acc -> step s x s' a -> shared s' (acc ++ a) /\ alone s' (turn_of x).
Proof.
  intros (U & H0) (E & R & L) ST.
  destruct ST as [x|t c p m P M|t c P|t c r K D|t c p m h e W P D M H V|t c p m h W P D M H V|t c p h W|t c p h W O]; cbn [turn_of] in *.
  - rewrite app_nil_r. split; [now split|now split].
  - split; [|split; [exact U|exact H0]]. split; [exact E|]. split; [|exact L]. intros u c' r X. apply in_app_or in X. destruct X as [X|[[= ]|[]]]. exact (R u c' r X).
  - split; [|split; [exact U|exact H0]]. split; [exact E|]. split; [|exact L]. intros u c' r X. apply in_app_or in X. destruct X as [X|[[= ]|[]]]. exact (R u c' r X).
  - split; [|split; [exact U|exact H0]]. split; [exact E|]. split; [|exact L]. intros u c' r' X. apply in_app_or in X. destruct X as [X|[[= <- <- <-]|[]]]; [exact (R u c' r' X)|exact (L t r D)].
  - pose proof (E h e V) as EH. split.
    + unfold shared. cbn [finish fst s_thr s_envs]. split; [exact E|]. split.
      * intros u c' r X. apply in_app_or in X. destruct X as [X|[[= <- <- <-]|[]]]; [exact (R u c' r X)|]. cbn [rt_env]. now rewrite EH.
      * intros u x. destruct (N.eq_dec u t) as [->|N]; [rewrite upd_same|rewrite upd_other by exact N; apply L].
        cbn [t_lk]. destruct (t_lk (s_thr s t)) as [y|] eqn:T; intros [= <-]; [exact (L t y T)|]. cbn [rt_env]. now rewrite EH.
    + split; cbn [finish fst s_thr s_envs].
      * intros u N. rewrite upd_other by exact N. now apply U.
      * intros c' p' h'. rewrite upd_same. discriminate.
  - rewrite app_nil_r. split.
    + split; [exact E|]. split; [exact R|]. intros u x. cbn [wait s_thr]. destruct (N.eq_dec u t) as [->|N]; [rewrite upd_same|rewrite upd_other by exact N]; apply L.
    + split; cbn [wait s_thr s_envs].
      * intros u N. rewrite upd_other by exact N. now apply U.
      * intros c' p' h'. rewrite upd_same. cbn [t_wait]. intros [= <- <- <-]. exact V.
  - split.
    + split; [exact E|]. split; [|intros u x; cbn [s_thr]; destruct (N.eq_dec u t) as [->|N]; [rewrite upd_same|rewrite upd_other by exact N]; apply L].
      intros u c' r X. apply in_app_or in X. destruct X as [X|[[= ]|[]]]. exact (R u c' r X).
    + split; cbn [s_thr s_envs].
      * intros u N. rewrite upd_other by exact N. now apply U.
      * intros c' p' h'. rewrite upd_same. discriminate.
  - pose proof (H0 c p h W) as FR.
    assert (K : forall k e, env_get k (s_envs s) = Some e -> env_get k (env_insert h (mkEnv (s_next s) h) (s_envs s)) = Some e).
    { intros k e X. cbn [env_insert env_get]. destruct (N.eqb_spec h k) as [<-|]; [congruence|exact X]. }
    assert (NW : env_get h (env_insert h (mkEnv (s_next s) h) (s_envs s)) = Some (mkEnv (s_next s) h)) by (cbn [env_insert env_get]; now rewrite N.eqb_refl).
    split.
    + unfold shared. cbn [finish fst s_thr s_envs s_next]. split; [|split].
      * intros k e. cbn [env_insert env_get]. destruct (N.eqb_spec h k) as [Q|Q]; [intros X; injection X as X; subst e; exact Q|apply E].
      * intros u c' r X. apply in_app_or in X. destruct X as [X|[[= <- <- <-]|[]]]; [apply K, (R u c' r X)|exact NW].
      * intros u x. destruct (N.eq_dec u t) as [->|N]; [rewrite upd_same|rewrite upd_other by exact N; intros X; apply K, (L u x X)].
        cbn [t_lk]. destruct (t_lk (s_thr s t)) as [y|] eqn:T; intros [= <-]; [apply K, (L t y T)|exact NW].
    + split; cbn [finish fst s_thr s_envs].
      * intros u N. rewrite upd_other by exact N. now apply U.
      * intros c' p' h'. rewrite upd_same. discriminate.
Qed.
Lemma resume_done s t s' a : turn s (Resume t) = (s', a) -> t_wait (s_thr s' t) = None.
Proof.
  cbn [ModelOpen.turn]. destruct (t_wait (s_thr s t)) as [[[c p] h]|] eqn:W; [|now intros [= <- <-]].
  unfold resume. rewrite W. destruct (opens (s_made s) p (c_create c)); intros [= <- <-]; cbn [s_thr finish fst]; now rewrite upd_same.
Qed.
Definition quiet (s : St) : Prop := forall u, t_wait (s_thr s u) = None.
Lemma pair_shared s acc t c s' a : quiet s -> shared s acc -> run s [Begin t c; Resume t] = (s', a) -> quiet s' /\ shared s' (acc ++ a).
Proof.
  intros Q S. cbn [ModelOpen.run]. destruct (turn s (Begin t c)) as [s1 a1] eqn:T1. destruct (turn s1 (Resume t)) as [s2 a2] eqn:T2.
  rewrite app_nil_r. intros [= <- <-].
  destruct (shared_step s acc (Begin t c) s1 a1) as (S1 & A1); [split; [intros; apply Q|intros c0 p0 h0 X; cbn [turn_of] in X; rewrite (Q t) in X; discriminate]|exact S|now apply turn_step|].
  destruct (shared_step s1 (acc ++ a1) (Resume t) s2 a2 A1 S1) as (S2 & (U & _)); [now apply turn_step|].
  split; [|now rewrite app_assoc]. intros u. destruct (N.eq_dec u t) as [->|N]; [exact (resume_done s1 t s2 a2 T2)|now apply U].
Qed.
Lemma one_by_one_shared cs : forall s acc s' a, quiet s -> shared s acc -> run s (one_by_one cs) = (s', a) -> quiet s' /\ shared s' (acc ++ a).
Proof.
  induction cs as [|[t c] cs IH]; intros s acc s' a Q S R.
  - cbn in R. injection R as <- <-. now rewrite app_nil_r.
  - change (one_by_one ((t, c) :: cs)) with ([Begin t c; Resume t] ++ one_by_one cs) in R. rewrite run_app in R.
    destruct (run s [Begin t c; Resume t]) as [s1 a1] eqn:R1. destruct (run s1 (one_by_one cs)) as [s2 a2] eqn:R2. injection R as <- <-.
    destruct (pair_shared s acc t c s1 a1 Q S R1) as (Q1 & S1). rewrite app_assoc. now apply (IH s1 (acc ++ a1) s2 a2).
Qed.
Theorem C103_once_partial cs s res t c r t' c' r' : run start (one_by_one cs) = (s, res) -> In (t, c, ROk r) res -> In (t', c', ROk r') res ->
  env_dir (rt_env r) = env_dir (rt_env r') -> rt_env r = rt_env r'.
Proof.
  intros R X X' E. destruct (one_by_one_shared cs start [] s res) as (_ & (_ & S & _)); [intros u; reflexivity| |exact R|].
  - split; [discriminate|]. split; [intros ? ? ? []|discriminate].
  - cbn [app] in S. pose proof (S t c r X) as A. pose proof (S t' c' r' X') as B. rewrite E, B in A. now injection A.
Qed.
Theorem C103_once_refuted t u p h : t <> u -> handle_of [] p = Some h -> opens [] p false = true ->
  let c := mkCall LkOpen (Some p) false in
  exists s r r', run start [Begin t c; Begin u c; Resume t; Resume u] = (s, [(t, c, ROk r); (u, c, ROk r')]) /\
    env_dir (rt_env r) = h /\ env_dir (rt_env r') = h /\ env_id (rt_env r) <> env_id (rt_env r').
Proof.
  intros N H O c. assert (TU : (t =? u) = false) by now apply N.eqb_neq. assert (UT : (u =? t) = false) by (apply N.eqb_neq; congruence).
  eexists. exists (mkRt 1 (mkEnv 0 h)), (mkRt 3 (mkEnv 2 h)). split; [|split; [reflexivity|split; [reflexivity|cbn; discriminate]]].
  unfold c. repeat (progress (unfold ModelOpen.run, ModelOpen.turn, ModelOpen.call, resume, look, finish, wait, env_insert, start, upd; cbn; rewrite ?H, ?O, ?TU, ?UT, ?N.eqb_refl)).
  reflexivity.
Qed.

(** ** Directories are made only when asked *)
Theorem C103_made xs s res p : run start xs = (s, res) -> In p (s_made s) -> exists t c, In (Begin t c) xs /\ c_create c = true /\ chosen c p.
Proof.
  intros R X.
  set (I := fun (s : St) (_ : list (N * Call * Res)) => forall p, In p (s_made s) -> exists t c, In (Begin t c) xs /\ c_create c = true /\ chosen c p).
  assert (H : I s ([] ++ res)).
  { apply (run_inv I (fun x => In x xs)) with (xs := xs) (s := start); [|apply Forall_forall; auto|intros q []|exact R].
    intros s0 acc x s1 a Q J ST.
    assert (M : forall t c q m, x = Begin t c -> the_path c = Some q -> m = s_made s0 \/ c_create c = true /\ m = q :: s_made s0 ->
      forall p, In p m -> exists t c, In (Begin t c) xs /\ c_create c = true /\ chosen c p).
    { intros t c q m -> P [->|(C & ->)] p0 Y; [exact (J p0 Y)|]. destruct Y as [<-|Y]; [|exact (J p0 Y)]. exists t, c. split; [exact Q|]. split; [exact C|now apply path_chosen]. }
    destruct ST as [x|t c q m P D|t c P|t c r K L|t c q m h e W P D N H V|t c q m h W P D N H V|t c q h W|t c q h W O]; unfold I; cbn [finish fst wait s_made]; try exact J.
    - now apply (M t c q m).
    - now apply (M t c q m).
    - now apply (M t c q m). }
  exact (H p X).
Qed.

(** ** When it succeeds and when it fails *)
Theorem C103_runs xs s res t c p h : run start xs = (s, res) -> t_wait (s_thr s t) = None -> c_kind c = LkOpen -> chosen c p ->
  handle_of (s_made s) p = Some h -> opens (s_made s) p (c_create c) = true ->
  exists s' r, run start (xs ++ [Begin t c; Resume t]) = (s', res ++ [(t, c, ROk r)]).
Proof.
  intros R W K P H O. rewrite run_app, R. apply chosen_path in P. unfold the_path in P.
  cbn [ModelOpen.run ModelOpen.turn]. rewrite W. unfold ModelOpen.call. rewrite K. rewrite P. unfold look. rewrite H.
  destruct (env_get h (s_envs s)) as [e|] eqn:V.
  - cbn [finish s_thr]. rewrite upd_same. cbn [t_wait]. eexists. eexists. reflexivity.
  - cbn [wait s_thr]. rewrite upd_same. cbn [t_wait]. unfold resume. cbn [wait s_thr]. rewrite upd_same. cbn [t_wait wait s_made]. rewrite O.
    eexists. eexists. cbn [finish app]. reflexivity.
Qed.
Theorem C103_fails xs s res t c : run start xs = (s, res) -> t_wait (s_thr s t) = None -> c_kind c = LkOpen ->
  no_choice lkd home c \/ (exists p, chosen c p /\ handle_of (s_made s) p = None /\ (c_create c = false \/ makes (s_made s) p = false)) ->
  run start (xs ++ [Begin t c]) = (s, res ++ [(t, c, RErr)]).
Proof.
  intros R W K D. rewrite run_app, R. cbn [ModelOpen.run ModelOpen.turn]. rewrite W. unfold ModelOpen.call. rewrite K. fold (the_path c).
  destruct D as [D|(p & P & H & D)].
  - apply path_none in D. rewrite D. reflexivity.
  - apply chosen_path in P. rewrite P. unfold look. rewrite H. destruct (c_create c); [|reflexivity]. destruct D as [D|D]; [discriminate|]. rewrite D. reflexivity.
Qed.

(** The comment on [open_linkspace_dir], that without a path the first opened is cloned, is not so: the default directory is opened. *)
Theorem C103_clone_refuted t p q h k : handle_of [] p = Some h -> lkd = Some q -> handle_of [] q = Some k -> h <> k ->
  opens [] p false = true -> opens [] q false = true ->
  let c := mkCall LkOpen (Some p) false in let d := mkCall LkOpen None false in
  exists s r r', run start (one_by_one [(t, c); (t, d)]) = (s, [(t, c, ROk r); (t, d, ROk r')]) /\
    env_dir (rt_env r) = h /\ env_dir (rt_env r') = k /\ t_lk (s_thr s t) = Some r.
Proof.
  intros H L K N O O' c d. assert (HK : (h =? k) = false) by now apply N.eqb_neq.
  eexists. exists (mkRt 1 (mkEnv 0 h)), (mkRt 3 (mkEnv 2 k)). split.
  - unfold c, d, one_by_one. repeat (progress (unfold ModelOpen.run, ModelOpen.turn, ModelOpen.call, lk_dir, resume, look, finish, wait, env_insert, start, upd; cbn; rewrite ?L, ?H, ?K, ?O, ?O', ?HK, ?N.eqb_refl)).
    reflexivity.
  - cbn. unfold upd. rewrite ?N.eqb_refl. cbn. auto.
Qed.
(** [get_lk], which the command line uses, gives the thread's runtime whatever directory is asked for. *)
Theorem C103_get_refuted t p q h k : handle_of [] p = Some h -> handle_of [] q = Some k -> h <> k -> opens [] p false = true -> opens [] q false = true ->
  let c := mkCall LkOpen (Some p) false in let d := mkCall GetLk (Some q) false in
  exists s r, run start (one_by_one [(t, c); (t, d)]) = (s, [(t, c, ROk r); (t, d, ROk r)]) /\ env_dir (rt_env r) = h.
Proof.
  intros H K N O O' c d.
  eexists. exists (mkRt 1 (mkEnv 0 h)). split; [|reflexivity].
  unfold c, d, one_by_one. repeat (progress (unfold ModelOpen.run, ModelOpen.turn, ModelOpen.call, resume, look, finish, wait, env_insert, start, upd; cbn; rewrite ?H, ?K, ?O, ?O', ?N.eqb_refl)).
  reflexivity.
Qed.
End C103.

(** ** Examples: two paths of one directory, another made when asked for, three threads *)
Definition ex_handle (made : list bytes) (p : bytes) : option N :=
  match p with
  | [47;97] => Some 1 | [47;98] => Some 1 | [47;99] => Some 2
  | _ => if existsb (fun q => if list_eq_dec N.eq_dec q p then true else false) made then Some 9 else None
  end.
Definition ex_run := run ex_handle (fun _ _ => true) (fun _ _ _ => true) None (Some [47]) start.
Definition o (d : option bytes) (cr : bool) : Call := mkCall LkOpen d cr.
Definition g (d : option bytes) : Call := mkCall GetLk d false.
Example C103_ex :
  fs_ok ex_handle /\
  snd (ex_run (one_by_one [(1, o (Some [47;97]) false); (2, o (Some [47;98]) false); (1, o None false); (1, o None true); (1, g (Some [47;99])); (3, g (Some [47;99]))])) =
    [(1, o (Some [47;97]) false, ROk (mkRt 1 (mkEnv 0 1))); (2, o (Some [47;98]) false, ROk (mkRt 2 (mkEnv 0 1))); (1, o None false, RErr);
     (1, o None true, ROk (mkRt 4 (mkEnv 3 9))); (1, g (Some [47;99]), ROk (mkRt 1 (mkEnv 0 1))); (3, g (Some [47;99]), ROk (mkRt 6 (mkEnv 5 2)))] /\
  s_made (fst (ex_run (one_by_one [(1, o None true)]))) = [47 :: [108;105;110;107;115;112;97;99;101]] /\
  chosen None (Some [47]) (o None true) (47 :: [108;105;110;107;115;112;97;99;101]).
Proof.
  split; [|split; [vm_compute; reflexivity|split; [vm_compute; reflexivity|]]].
  - intros made p q h E. assert (D : forall l, ex_handle [] q <> None /\ ex_handle l q = ex_handle [] q \/ ex_handle [] q = None /\
      ex_handle l q = if existsb (fun x => if list_eq_dec N.eq_dec x q then true else false) l then Some 9 else None).
    { intros l. unfold ex_handle. cbn [existsb]. repeat match goal with |- context [match ?x with _ => _ end] => is_var x; destruct x end; first [right; split; reflexivity | left; split; [discriminate|reflexivity]]. }
    destruct (D (p :: made)) as [(N1 & A)|(N1 & A)], (D made) as [(N2 & B)|(N2 & B)]; try congruence.
    rewrite B in E. rewrite A. cbn [existsb]. destruct (existsb _ made); [|discriminate]. destruct (list_eq_dec N.eq_dec p q); exact E.
  - right. split; [reflexivity|]. right. split; [reflexivity|]. exists [47]. split; [reflexivity|]. exists []. split; [reflexivity|]. right. split; [reflexivity|]. right. now exists [].
Qed.
Print Assumptions C103_dir.
Print Assumptions C103_default.
Print Assumptions C103_get.
Print Assumptions C103_new.
Print Assumptions C103_once_partial.
Print Assumptions C103_once_refuted.
Print Assumptions C103_made.
Print Assumptions C103_runs.
Print Assumptions C103_fails.
Print Assumptions C103_clone_refuted.
Print Assumptions C103_get_refuted.
Print Assumptions C103_ex.
