From Coq Require Import Sorting.Sorted.
From Verif Require Import Bytes ModelSpace ModelPkt ModelTree ModelStore SpecPkt SpecTree SpecStore ProofTree.

(** ** Ordered tables *)
Definition total_cmp {A} (cmp : A -> A -> comparison) : Prop :=
  (forall a b, cmp b a = CompOpp (cmp a b)) /\ (forall a b c, cmp a b = Lt -> cmp b c = Lt -> cmp a c = Lt) /\
  (forall a b c, cmp a b = Eq -> cmp b c = Lt -> cmp a c = Lt).
Lemma hash_cmp_total : total_cmp hash_cmp.
Proof.
  split; [|split]; unfold hash_cmp; intros.
  - apply lex_antisym.
  - eapply lex_trans_lt; eassumption.
  - apply lex_eq in H. congruence.
Qed.
Lemma tree_cmp_total : total_cmp tree_cmp.
Proof.
  split; [|split]; unfold tree_cmp.
  - intros [ka va] [kb vb]; cbn. rewrite (lex_antisym ka kb). destruct (lex ka kb); cbn; try reflexivity. apply lex_antisym.
  - intros [ka va] [kb vb] [kc vc]; cbn. intros H1 H2. destruct (lex ka kb) eqn:E1; try discriminate.
    + apply lex_eq in E1. subst kb. destruct (lex ka kc); try discriminate; [|reflexivity]. eapply lex_trans_lt; eassumption.
    + destruct (lex kb kc) eqn:E2; try discriminate.
      * apply lex_eq in E2. subst kc. now rewrite E1.
      * now rewrite (lex_trans_lt _ _ _ E1 E2).
  - intros [ka va] [kb vb] [kc vc]; cbn. intros H1 H2. destruct (lex ka kb) eqn:E1; try discriminate.
    apply lex_eq in E1, H1. now subst.
Qed.
Lemma tree_cmp_eq a b : tree_cmp a b = Eq -> a = b.
Proof.
  destruct a as [ka va], b as [kb vb]. unfold tree_cmp; cbn. destruct (lex ka kb) eqn:E; try discriminate. intros H. apply lex_eq in E, H. congruence.
Qed.
Lemma insert_in {A} cmp (x y : A) l : (forall z, In z l -> cmp x z = Eq -> z = x) -> (In y (insert cmp x l) <-> y = x \/ In y l).
Proof.
  induction l as [|z l IH]; intros H; cbn [insert]; [cbn; firstorder|].
  destruct (cmp x z) eqn:E.
  - pose proof (H z (or_introl eq_refl) E) as ->. cbn. firstorder.
  - cbn. firstorder.
  - cbn. rewrite IH; [firstorder|]. intros w W. apply H. now right.
Qed.
Lemma insert_ordered {A} cmp (x : A) l : total_cmp cmp -> ordered_by cmp l -> (forall z, In z l -> cmp x z = Eq -> z = x) -> ordered_by cmp (insert cmp x l).
Proof.
  intros (A1 & A2 & A3). unfold ordered_by. induction l as [|z l IH]; intros S H; cbn [insert]; [repeat constructor|].
  apply StronglySorted_inv in S as [S F]. destruct (cmp x z) eqn:E.
  - constructor; assumption.
  - constructor; [constructor; assumption|]. constructor; [assumption|]. eapply Forall_impl; [|exact F]. cbn. intros w W. now apply A2 with z.
  - constructor.
    + apply IH; [assumption|]. intros w W. apply H. now right.
    + apply Forall_forall. intros w W. apply insert_in in W; [|intros v V; apply H; now right].
      destruct W as [->|W]; [rewrite A1, E; reflexivity|]. rewrite Forall_forall in F. now apply F.
Qed.
Lemma ordered_hash_unique h k a b : ordered_by hash_cmp h -> In (k, a) h -> In (k, b) h -> a = b.
Proof.
  unfold ordered_by. induction 1 as [|z l S IH F]; [contradiction|]. rewrite Forall_forall in F.
  intros [->|I] [E|J].
  - congruence.
  - apply F in J. unfold hash_cmp in J; cbn in J. now rewrite lex_refl in J.
  - subst z. apply F in I. unfold hash_cmp in I; cbn in I. now rewrite lex_refl in I.
  - auto.
Qed.
Lemma hash_get_iff h k s : ordered_by hash_cmp h -> (hash_get h k = Some s <-> In (k, s) h).
Proof.
  intros O. unfold hash_get. split.
  - destruct (find _ h) as [[k' s']|] eqn:E; [|discriminate]. apply find_some in E as [I B]. apply beqb_eq in B. cbn in *. intros Q. injection Q as <-. now subst.
  - intros I. destruct (find _ h) as [[k' s']|] eqn:E.
    + apply find_some in E as [J B]. apply beqb_eq in B. cbn in *. subst k'. f_equal. now apply (ordered_hash_unique h k).
    + exfalso. apply (find_none _ _ E) in I. cbn in I. rewrite beqb_refl in I. discriminate.
Qed.
Lemma hash_get_none h k : hash_get h k = None <-> forall s, ~ In (k, s) h.
Proof.
  unfold hash_get. split.
  - destruct (find _ h) as [[k' s']|] eqn:E; [discriminate|]. intros _ s I. apply (find_none _ _ E) in I. cbn in I. rewrite beqb_refl in I. discriminate.
  - intros H. destruct (find _ h) as [[k' s']|] eqn:E; [|reflexivity]. apply find_some in E as [I B]. apply beqb_eq in B. cbn in *. subst. exfalso. now apply (H s').
Qed.
Lemma log_last_app l e : log_last (l ++ [e]) = Some (fst e).
Proof. induction l as [|x [|y l] IH]; [reflexivity|reflexivity|]. cbn [app]. cbn [app] in IH. exact IH. Qed.
Lemma log_last_none l : log_last l = None -> l = [].
Proof. induction l as [|x [|y l] IH]; [auto|discriminate|]. intros H. specialize (IH H). discriminate. Qed.
Lemma log_last_max l s : increasing (map fst l) -> log_last l = Some s -> (exists b, In (s, b) l) /\ Forall (fun x => x <= s) (map fst l).
Proof.
  induction l as [|x [|y l] IH]; [discriminate| |].
  - cbn. intros _ E. injection E as <-. destruct x; cbn. split; [eauto|]. repeat constructor. lia.
  - intros S E. apply StronglySorted_inv in S as [S F]. destruct (IH S E) as [[b I] M]. split; [exists b; now right|].
    cbn [map]. constructor; [|exact M]. cbn [map] in F. rewrite Forall_forall in F, M. specialize (F (fst y) (or_introl eq_refl)).
    specialize (M (fst y) (or_introl eq_refl)). lia.
Qed.

(** ** The three passes *)
Fixpoint mid (seen : list bytes) (ps : list item) : list item :=
  match ps with
  | [] => []
  | (p, Pending) :: r => if existsb (beqb (np_hash p)) seen then (p, Exists) :: mid seen r
                         else (p, Pending) :: mid (np_hash p :: seen) r
  | x :: r => x :: mid seen r
  end.
Fixpoint pending (ps : list item) : list NetPktParts :=
  match ps with [] => [] | (p, Pending) :: r => p :: pending r | _ :: r => pending r end.
Definition written1 (i : item) : item := match i with (p, Pending) => (p, Written) | x => x end.
Lemma expected_mid seen ps : expected seen ps = (map written1 (mid seen ps), pending (mid seen ps)).
Proof.
  revert seen. induction ps as [|[p st] r IH]; intros seen; [reflexivity|]. cbn [expected mid]. destruct st; try (rewrite IH; reflexivity).
  destruct (existsb _ seen); rewrite IH; reflexivity.
Qed.
Lemma existsb_beqb k l : existsb (beqb k) l = true <-> In k l.
Proof.
  rewrite existsb_exists. split; [intros (x & I & E); apply beqb_eq in E; now subst|]. intros I. exists k. split; [assumption|apply beqb_refl].
Qed.
Definition knows (h : list (bytes * N)) (seen : list bytes) : Prop := forall k, In k seen <-> exists s, In (k, s) h.
Lemma hash_pass_spec f : forall ps i at_ h ps1 h' at' seen, ordered_by hash_cmp h -> knows h seen ->
  hash_pass f i at_ h ps = (ps1, Ok (h', at')) ->
  ps1 = mid seen ps /\ at' = at_ + lenN (pending ps1) /\ ordered_by hash_cmp h' /\
  (forall k s, In (k, s) h' <-> In (k, s) h \/ exists p, In (s, p) (number at_ (pending ps1)) /\ np_hash p = k).
Proof.
  induction ps as [|[p st] r IH]; intros i at_ h ps1 h' at' seen O K E.
  - cbn in E. injection E as <- <- <-. split; [reflexivity|]. split; [cbn; change (lenN (@nil NetPktParts)) with 0; lia|].
    split; [assumption|]. intros k s. cbn. split; [auto|]. intros [|(q & [] & _)]; assumption.
  - assert (forall st', st' = st -> st <> Pending -> forall r' o, hash_pass f (S i) at_ h r = (r', o) -> (ps1, Ok (h', at')) = ((p, st') :: r', o) ->
      ps1 = (p, st) :: mid seen r /\ at' = at_ + lenN (pending ps1) /\ ordered_by hash_cmp h' /\
      (forall k s, In (k, s) h' <-> In (k, s) h \/ exists q, In (s, q) (number at_ (pending ps1)) /\ np_hash q = k)) as Skip.
    { intros st' -> NP r' o R Q. injection Q as -> <-.
      destruct (IH _ _ _ _ _ _ seen O K R) as (A & B & C & D). subst r'.
      split; [reflexivity|]. assert (pending ((p, st) :: mid seen r) = pending (mid seen r)) as -> by (destruct st; try reflexivity; congruence). auto. }
    cbn [hash_pass] in E. cbn [mid]. destruct st.
    2,3,4: destruct (hash_pass f (S i) at_ h r) as [r' o] eqn:R; eapply Skip; eauto; congruence.
    clear Skip. destruct (f i); [discriminate|].
    destruct (hash_get h (np_hash p)) as [x|] eqn:G.
    + apply hash_get_iff in G; [|assumption]. assert (In (np_hash p) seen) as I by (apply K; eauto).
      apply existsb_beqb in I. rewrite I. destruct (hash_pass f (S i) at_ h r) as [r' o] eqn:R. injection E as <- ->.
      destruct (IH _ _ _ _ _ _ seen O K R) as (A & B & C & D). subst r'. auto.
    + rewrite hash_get_none in G. assert (existsb (beqb (np_hash p)) seen = false) as ->.
      { apply not_true_is_false. rewrite existsb_beqb. intros I. apply K in I as [s I]. exact (G s I). }
      assert (forall z, In z h -> hash_cmp (np_hash p, at_) z = Eq -> z = (np_hash p, at_)) as U.
      { intros [k s] I Q. unfold hash_cmp in Q; cbn in Q. apply lex_eq in Q. subst k. exfalso. exact (G s I). }
      destruct (hash_pass f (S i) (at_ + 1) (insert hash_cmp (np_hash p, at_) h) r) as [r' o] eqn:R. injection E as <- ->.
      assert (knows (insert hash_cmp (np_hash p, at_) h) (np_hash p :: seen)) as K'.
      { intros k. split.
        - intros [<-|I]; [exists at_; apply insert_in; auto|]. apply K in I as [s I]. exists s. apply insert_in; auto.
        - intros [s I]. apply insert_in in I; [|assumption]. destruct I as [I|I]; [injection I as -> ->; now left|]. right. apply K. eauto. }
      destruct (IH _ _ _ _ _ _ (np_hash p :: seen) (insert_ordered hash_cmp _ h hash_cmp_total O U) K' R) as (A & B & C & D).
      subst r'. split; [reflexivity|]. cbn [pending number]. split.
      { rewrite B. assert (lenN (p :: pending (mid (np_hash p :: seen) r)) = 1 + lenN (pending (mid (np_hash p :: seen) r))) as -> by (unfold lenN; cbn [length]; lia). lia. }
      split; [assumption|]. intros k s. rewrite D, insert_in by assumption. cbn [In]. split.
      * intros [[Q|I]|(q & I & Q)]; [injection Q as -> ->; right; exists p; auto|now left|right; exists q; auto].
      * intros [I|(q & [Q|I] & H)]; [auto|injection Q as <- <-; left; left; congruence|right; exists q; auto].
Qed.
Definition logged (l : list (N * NetPktParts)) : list (N * bytes) := map (fun e => (fst e, np_bytes (snd e))) l.
Lemma log_append_ok l s b l' : log_append l s b = Ok l' -> l' = l ++ [(s, b)] /\ forall x, log_last l = Some x -> x < s.
Proof.
  unfold log_append. destruct (log_last l) as [x|] eqn:E.
  - destruct (N.ltb_spec x s); [|discriminate]. intros Q; injection Q as <-. split; [reflexivity|]. intros y Y; congruence.
  - intros Q; injection Q as <-. apply log_last_none in E. subst l. split; [reflexivity|discriminate].
Qed.
Lemma log_pass_spec f : forall ps i at_ l l', log_pass f i at_ l ps = Ok l' ->
  l' = l ++ logged (number at_ (pending ps)) /\ (pending ps <> [] -> forall x, log_last l = Some x -> x < at_).
Proof.
  induction ps as [|[p st] r IH]; intros i at_ l l' E.
  - cbn in E. injection E as <-. cbn. rewrite app_nil_r. split; [reflexivity|congruence].
  - cbn [log_pass] in E. destruct st; cbn [pending]; try (apply IH in E; assumption).
    destruct (f i); [discriminate|]. destruct (log_append l at_ (np_bytes p)) as [l1| | |] eqn:A; try discriminate. cbn [obind] in E.
    apply log_append_ok in A as [-> A]. apply IH in E as [-> _]. cbn [number logged map fst snd]. rewrite <- app_assoc. split; [reflexivity|auto].
Qed.
Lemma tree_pass_spec f : forall ps i at_ t ps2 t' at', ordered_by tree_cmp t ->
  tree_pass f i at_ t ps = (ps2, Ok (t', at')) ->
  ps2 = map written1 ps /\ at' = at_ + lenN (pending ps) /\ ordered_by tree_cmp t' /\
  (forall e, In e t' <-> In e t \/ exists s p, In (s, p) (number at_ (pending ps)) /\ tree_entry s p = Ok (Some e)).
Proof.
  induction ps as [|[p st] r IH]; intros i at_ t ps2 t' at' O E.
  - cbn in E. injection E as <- <- <-. split; [reflexivity|]. split; [cbn; change (lenN (@nil NetPktParts)) with 0; lia|].
    split; [assumption|]. intros e. cbn. split; [auto|]. intros [|(s & q & [] & _)]; assumption.
  - cbn [tree_pass] in E. destruct st.
    2,3,4: destruct (tree_pass f (S i) at_ t r) as [r' o] eqn:R; injection E as <- ->; destruct (IH _ _ _ _ _ _ O R) as (-> & B & C & D); auto.
    cbn [map written1 pending].
    assert (lenN (p :: pending r) = 1 + lenN (pending r)) as LE by (unfold lenN; cbn [length]; lia).
    destruct (tree_entry at_ p) as [[e|]| | |] eqn:T; try discriminate.
    + destruct (f i); [discriminate|]. destruct (tree_pass f (S i) (at_ + 1) (insert tree_cmp e t) r) as [r' o] eqn:R. injection E as <- ->.
      assert (forall z, In z t -> tree_cmp e z = Eq -> z = e) as U by (intros z _ Q; now apply tree_cmp_eq in Q).
      destruct (IH _ _ _ _ _ _ (insert_ordered tree_cmp e t tree_cmp_total O U) R) as (-> & B & C & D).
      split; [reflexivity|]. split; [lia|]. split; [assumption|]. intros x. rewrite D, insert_in by assumption. cbn [number In]. split.
      * intros [[->|I]|(s & q & I & Q)]; [right; exists at_, p; auto|now left|right; exists s, q; auto].
      * intros [I|(s & q & [Q|I] & H)]; [auto|injection Q as <- <-; left; left; congruence|right; exists s, q; auto].
    + destruct (tree_pass f (S i) (at_ + 1) t r) as [r' o] eqn:R. injection E as <- ->.
      destruct (IH _ _ _ _ _ _ O R) as (-> & B & C & D).
      split; [reflexivity|]. split; [lia|]. split; [assumption|]. intros x. rewrite D. cbn [number In]. split.
      * intros [I|(s & q & I & Q)]; [now left|right; exists s, q; auto].
      * intros [I|(s & q & [Q|I] & H)]; [auto|injection Q as <- <-; congruence|right; exists s, q; auto].
Qed.

(** ** Numbering *)
Lemma number_fst s ps : map fst (number s ps) = map (fun i => s + N.of_nat i) (seq 0 (length ps)).
Proof.
  revert s. induction ps as [|p r IH]; intros s; [reflexivity|]. cbn [number map length seq fst]. f_equal; [lia|].
  rewrite IH, <- seq_shift, map_map. apply map_ext. intros a. lia.
Qed.
Lemma number_snd s ps : map snd (number s ps) = ps.
Proof. revert s. induction ps as [|p r IH]; intros s; cbn; [reflexivity|]. now rewrite IH. Qed.
Lemma number_ge s ps e : In e (number s ps) -> s <= fst e /\ fst e < s + lenN ps /\ In (snd e) ps.
Proof.
  revert s. induction ps as [|p r IH]; intros s; [contradiction|]. assert (lenN (p :: r) = 1 + lenN r) as E by (unfold lenN; cbn [length]; lia).
  cbn [number In]. intros [<-|I]; [cbn [fst snd]; split; [lia|split; [lia|now left]]|]. apply IH in I as (A & B & C). split; [lia|]. split; [lia|]. now right.
Qed.
Lemma number_increasing s ps : increasing (map fst (number s ps)).
Proof.
  unfold increasing. revert s. induction ps as [|p r IH]; intros s; cbn; constructor; [apply IH|].
  apply Forall_forall. intros x I. apply in_map_iff in I as (e & <- & I). apply number_ge in I. lia.
Qed.
Lemma increasing_app a b : increasing a -> increasing b -> (forall x y, In x a -> In y b -> x < y) -> increasing (a ++ b).
Proof.
  unfold increasing. induction 1 as [|x a S IH F]; cbn; intros B H; [assumption|]. constructor.
  - apply IH; [assumption|]. intros u v U V. apply H; [now right|assumption].
  - apply Forall_app. split; [assumption|]. apply Forall_forall. intros y Y. apply H; [now left|assumption].
Qed.
Lemma increasing_unique l s a b : increasing (map fst l) -> In (s, a) l -> In (s, b) l -> (a : NetPktParts) = b.
Proof.
  unfold increasing. induction l as [|[u x] l IH]; cbn; [contradiction|]. intros S. apply StronglySorted_inv in S as [S F]. rewrite Forall_forall in F.
  intros [E1|I1] [E2|I2].
  - congruence.
  - injection E1 as -> ->. specialize (F s (in_map fst _ _ I2)). lia.
  - injection E2 as -> ->. specialize (F s (in_map fst _ _ I1)). lia.
  - auto.
Qed.
Lemma mid_fresh seen ps : NoDup seen -> NoDup (map np_hash (pending (mid seen ps))) /\ (forall p, In p (pending (mid seen ps)) -> ~ In (np_hash p) seen).
Proof.
  revert seen. induction ps as [|[p st] r IH]; intros seen N; [split; [constructor|contradiction]|]. cbn [mid].
  destruct st; try (apply IH in N; exact N). destruct (existsb (beqb (np_hash p)) seen) eqn:E; [apply IH in N; exact N|].
  assert (~ In (np_hash p) seen) as NI by (rewrite <- existsb_beqb; congruence).
  destruct (IH (np_hash p :: seen)) as [A B]; [now constructor|]. cbn [pending map]. split.
  - constructor; [|assumption]. intros I. apply in_map_iff in I as (q & Q & I). apply (B q I). left. congruence.
  - intros q [<-|I]; [assumption|]. intros J. apply (B q I). now right.
Qed.
Lemma nodup_app {A} (a b : list A) : NoDup a -> NoDup b -> (forall x, In x a -> ~ In x b) -> NoDup (a ++ b).
Proof.
  induction 1 as [|x a N H IH]; cbn; intros B D; [assumption|]. constructor.
  - intros I. apply in_app_or in I as [I|I]; [contradiction|]. apply (D x); [now left|assumption].
  - apply IH; [assumption|]. intros y Y. apply D. now right.
Qed.

(** ** [save] *)
Lemma represents_knows d l : represents d l -> knows (hash_t d) (hashes l) /\ NoDup (hashes l).
Proof.
  intros (A & B & C & D & E & _). split; [|assumption]. intros k. unfold hashes. rewrite in_map_iff. split.
  - intros ([s p] & <- & I). exists s. apply E. eauto.
  - intros (s & I). apply E in I as (p & I & <-). exists (s, p). auto.
Qed.
Lemma logged_fst l : map fst (logged l) = map fst l.
Proof. unfold logged. rewrite map_map. reflexivity. Qed.
Lemma save_start_ge now l : now <= save_start now l.
Proof. unfold save_start. destruct (log_last l) as [x|]; [|lia]. destruct (N.ltb_spec now x); lia. Qed.
Lemma save_ok f now d ps d' ps' a b l : represents d l -> save f now d ps = (d', ps', Ok (a, b)) ->
  let ex := expected (hashes l) ps in
  ps' = fst ex /\ now <= a /\ b = a + lenN (snd ex) /\ represents d' (l ++ number a (snd ex)) /\
  (snd ex = [] -> d' = d) /\ (snd ex <> [] -> Forall (fun s => s < a) (map fst l)).
Proof.
  intros R E. pose proof (represents_knows d l R) as [K ND]. destruct R as (R1 & R2 & R3 & R4 & R5 & R6 & R7).
  unfold save in E. rewrite expected_mid. cbn [fst snd]. pose proof (save_start_ge now (log_t d)) as GE. set (start := save_start now (log_t d)) in *.
  destruct (hash_pass (f_hash f) 0 start (hash_t d) ps) as [ps1 o1] eqn:H1. destruct o1 as [[h' at1]| | |]; try discriminate.
  apply (hash_pass_spec (f_hash f) ps 0 start (hash_t d) ps1 h' at1 (hashes l) R4 K) in H1 as (-> & A2 & A3 & A4).
  set (m := mid (hashes l) ps) in *. destruct (N.eqb_spec (at1 - start) 0) as [Z|Z].
  - injection E as <- <- <- ->. assert (pending m = []) as P.
    { destruct (pending m); [reflexivity|]. unfold lenN in A2; cbn [length] in A2. lia. }
    rewrite P in *. change (lenN (@nil NetPktParts)) with 0 in *. split.
    { clear - P. induction m as [|[p st] r IH]; [reflexivity|]. destruct st; cbn [map written1]; try discriminate; f_equal; apply IH; exact P. }
    split; [assumption|]. split; [lia|]. cbn [number]. rewrite app_nil_r. split; [repeat (split; [assumption|]); assumption|]. split; [reflexivity|congruence].
  - destruct (log_pass (f_log f) 0 start (log_t d) m) as [l'| | |] eqn:H2; try discriminate.
    apply log_pass_spec in H2 as [L1 L2].
    destruct (tree_pass (f_tree f) 0 start (tree_t d) m) as [ps2 o2] eqn:H3. destruct o2 as [[t' at2]| | |]; try discriminate.
    apply (tree_pass_spec (f_tree f) m 0 start (tree_t d) ps2 t' at2 R6) in H3 as (-> & T2 & T3 & T4).
    destruct (f_commit f); [discriminate|]. injection E as <- <- <- ->.
    assert (pending m <> []) as P. { intros P. rewrite P in A2. change (lenN (@nil NetPktParts)) with 0 in A2. lia. }
    assert (forall s, In s (map fst l) -> s < start) as LT.
    { specialize (L2 P). intros s S. destruct (log_last (log_t d)) as [x|] eqn:X.
      - apply log_last_max in X as [_ M]; [|rewrite R3; change (map _ l) with (logged l); now rewrite logged_fst].
        rewrite R3 in M. change (map (fun e => (fst e, np_bytes (snd e))) l) with (logged l) in M. rewrite logged_fst, Forall_forall in M.
        apply M in S. specialize (L2 x eq_refl). lia.
      - apply log_last_none in X. rewrite R3 in X. destruct l; [contradiction|discriminate]. }
    split; [reflexivity|]. split; [assumption|]. split; [assumption|]. split; [|split; [congruence|intros _; apply Forall_forall; exact LT]].
    split.
    { rewrite map_app. apply increasing_app; [assumption|apply number_increasing|].
      intros x y X Y. apply in_map_iff in Y as (e & <- & Y). apply number_ge in Y. apply LT in X. lia. }
    split.
    { rewrite map_app. apply nodup_app; [assumption| |].
      - rewrite <- (map_map snd np_hash), number_snd. now apply mid_fresh.
      - intros x X Y. rewrite <- (map_map snd np_hash), number_snd in Y. apply in_map_iff in Y as (p & <- & Y). now apply (proj2 (mid_fresh (hashes l) ps ND) p Y). }
    cbn [log_t hash_t tree_t]. split.
    { rewrite map_app, L1, R3. reflexivity. }
    split; [assumption|]. split.
    { intros h s. rewrite A4, R5. split.
      - intros [(p & I & Q)|(p & I & Q)]; exists p; (split; [apply in_or_app; auto|assumption]).
      - intros (p & I & Q). apply in_app_or in I as [I|I]; eauto. }
    split; [assumption|]. intros e. rewrite T4, R7. split.
    + intros [(s & p & I & Q)|(s & p & I & Q)]; exists s, p; (split; [apply in_or_app; auto|assumption]).
    + intros (s & p & I & Q). apply in_app_or in I as [I|I]; eauto.
Qed.
Lemma save_not_ok f now d ps d' ps' o : save f now d ps = (d', ps', o) -> (forall r, o <> Ok r) -> d' = d.
Proof.
  unfold save. destruct (hash_pass _ _ _ _ _) as [ps1 [[h' at1]|e| |]]; try (intros E _; congruence).
  destruct (_ =? 0); [intros E _; congruence|].
  destruct (log_pass _ _ _ _ _) as [l'|e| |]; try (intros E _; congruence).
  destruct (tree_pass _ _ _ _ _) as [ps2 [[t' at2]|e| |]]; try (intros E _; congruence).
  destruct (f_commit f); [intros E _; congruence|]. intros E N. injection E as _ _ <-. exfalso. now apply (N (save_start now (log_t d), at2)).
Qed.

(** Reading. *)
Lemma log_get_iff l s b : increasing (map fst l) -> (log_get (logged l) s = Some b <-> exists p, In (s, p) l /\ b = np_bytes p).
Proof.
  intros S. unfold log_get. split.
  - destruct (find _ (logged l)) as [[s' b']|] eqn:E; [|discriminate]. apply find_some in E as [I B]. apply N.eqb_eq in B. cbn in *. intros Q; injection Q as <-.
    unfold logged in I. apply in_map_iff in I as ([u p] & Q & I). cbn [fst snd] in Q. injection Q as -> <-. subst. eauto.
  - intros (p & I & ->). destruct (find _ (logged l)) as [[s' b']|] eqn:E.
    + apply find_some in E as [J B]. apply N.eqb_eq in B. cbn in *. subst s'. unfold logged in J. apply in_map_iff in J as ([u q] & Q & J). cbn [fst snd] in Q. injection Q as -> <-.
      now rewrite (increasing_unique l s p q S I J).
    + exfalso. assert (In (s, np_bytes p) (logged l)) as J by (unfold logged; apply in_map_iff; exists (s, p); auto).
      apply (find_none _ _ E) in J. cbn in J. rewrite N.eqb_refl in J. discriminate.
Qed.
Lemma read_iff d l h s b : represents d l -> (read d h = Some (s, b) <-> exists p, In (s, p) l /\ np_hash p = h /\ b = np_bytes p).
Proof.
  intros (R1 & R2 & R3 & R4 & R5 & _). unfold read, read_ptr, read_at. split.
  - destruct (hash_get (hash_t d) h) as [s'|] eqn:E; [|discriminate]. apply hash_get_iff in E; [|assumption]. apply R5 in E as (p & I & H).
    rewrite R3. change (map _ l) with (logged l). destruct (log_get (logged l) s') as [b'|] eqn:G; [|discriminate]. intros Q; injection Q as -> ->.
    apply log_get_iff in G as (q & J & ->); [|assumption]. exists p. rewrite (increasing_unique l s q p R1 J I). auto.
  - intros (p & I & H & ->). assert (hash_get (hash_t d) h = Some s) as -> by (apply hash_get_iff; [assumption|]; apply R5; eauto).
    rewrite R3. change (map _ l) with (logged l). assert (log_get (logged l) s = Some (np_bytes p)) as -> by (apply log_get_iff; eauto). reflexivity.
Qed.

(** No faults: the passes succeed. *)
Lemma hash_pass_total : forall ps i at_ h, exists ps1 r, hash_pass (fun _ => false) i at_ h ps = (ps1, Ok r).
Proof.
  induction ps as [|[p st] r IH]; intros i at_ h; cbn [hash_pass]; [eauto|].
  destruct st; [destruct (hash_get h (np_hash p))| | |];
  match goal with |- context [hash_pass ?f ?i ?a ?h r] => destruct (IH i a h) as (x & y & ->) end; eauto.
Qed.
Lemma log_pass_total : forall ps i at_ l, (forall x, log_last l = Some x -> x < at_) -> exists l', log_pass (fun _ => false) i at_ l ps = Ok l'.
Proof.
  induction ps as [|[p st] r IH]; intros i at_ l H; cbn [log_pass]; [eauto|]. destruct st; try (apply IH; assumption).
  assert (log_append l at_ (np_bytes p) = Ok (l ++ [(at_, np_bytes p)])) as ->.
  { unfold log_append. destruct (log_last l) as [x|] eqn:E; [specialize (H x eq_refl); destruct (N.ltb_spec x at_); [reflexivity|lia]|].
    apply log_last_none in E. now subst l. }
  cbn [obind]. apply IH. intros x. rewrite log_last_app. cbn. intros E; injection E as <-. lia.
Qed.
Lemma tree_pass_total : forall ps i at_ t, Forall (fun p => forall s, exists e, tree_entry s p = Ok e) (pending ps) ->
  exists ps2 r, tree_pass (fun _ => false) i at_ t ps = (ps2, Ok r).
Proof.
  induction ps as [|[p st] r IH]; intros i at_ t H; cbn [tree_pass]; [eauto|].
  destruct st; cbn [pending] in H.
  2,3,4: destruct (IH (S i) at_ t H) as (x & y & ->); eauto.
  inversion H as [|? ? H1 H2]; subst. destruct (H1 at_) as [[e|] ->].
  - destruct (IH (S i) (at_ + 1) (insert tree_cmp e t) H2) as (x & y & ->); eauto.
  - destruct (IH (S i) (at_ + 1) t H2) as (x & y & ->); eauto.
Qed.
Lemma mid_pending_in seen ps p : In p (pending (mid seen ps)) -> In p (map fst ps).
Proof.
  revert seen. induction ps as [|[q st] r IH]; intros seen; [contradiction|]. cbn [mid map fst].
  destruct st; try destruct (existsb _ seen); cbn [pending In]; try (intros I; right; eapply IH; exact I).
  intros [<-|I]; [now left|right; eapply IH; exact I].
Qed.
Lemma save_total hash now d l ps : represents d l -> items_valid hash ps -> log_last (log_t d) <> Some now ->
  exists d' ps' r, save no_faults now d ps = (d', ps', Ok r).
Proof.
  intros R V NL. pose proof (represents_knows d l R) as [K ND]. destruct R as (R1 & R2 & R3 & R4 & R5 & R6 & R7). unfold save. cbn [no_faults f_hash f_log f_tree f_commit].
  destruct (hash_pass_total ps 0 (save_start now (log_t d)) (hash_t d)) as (ps1 & [h' at1] & H1). rewrite H1.
  apply (hash_pass_spec _ ps 0 _ (hash_t d) ps1 h' at1 (hashes l) R4 K) in H1 as (-> & _).
  destruct (_ =? 0); [eauto|].
  destruct (log_pass_total (mid (hashes l) ps) 0 (save_start now (log_t d)) (log_t d)) as [l' ->].
  { intros x X. unfold save_start. rewrite X in *. destruct (N.ltb_spec now x); [lia|]. assert (x <> now) by congruence. lia. }
  destruct (tree_pass_total (mid (hashes l) ps) 0 (save_start now (log_t d)) (tree_t d)) as (ps2 & [t' at2] & ->); [|eauto].
  apply Forall_forall. intros p I s. apply mid_pending_in in I. apply in_map_iff in I as (it & <- & I).
  unfold items_valid in V. rewrite Forall_forall in V. destruct (V it I) as [q C]. eapply entry_total; exact C.
Qed.
