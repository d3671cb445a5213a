(** Lemmas about reading and writing files. *)
From Coq Require Import Lia.
From Verif Require Import Bytes ModelAbe ModelEval ModelFn ModelKey SpecKey ProofKey ModelFile SpecFile ProofFile ProofFile2.
Local Open Scope N_scope.

Lemma last_end (l : list bytes) g d : last (l ++ [g]) d = g.
Proof. induction l as [|x l IH]; [reflexivity|]. cbn [app last]. destruct (l ++ [g]) eqn:E; [destruct l; discriminate E|exact IH]. Qed.
Lemma absent_snoc m p n : absent m (p ++ [n]) <-> absent m p \/ m p = Some Dir /\ m (p ++ [n]) = None.
Proof.
  split.
  - intros (q & k & r & E & D & N). destruct (list_end r) as [->|(r' & x & ->)].
    + right. apply app_inj_tail in E as [-> ->]. auto.
    + left. change (q ++ k :: r' ++ [x]) with (q ++ (k :: r') ++ [x]) in E. rewrite app_assoc in E. apply app_inj_tail in E as [-> _]. exists q, k, r'. auto.
  - intros [A|[D N]]; [now apply absent_more|]. exists p, n, []. auto.
Qed.
(** ** Reading *)
Lemma read_result m gs : fs_ok m -> ~ In DOTDOT gs -> gs <> [] ->
  let r := obind (walk m [] gs) (fun p => match m p with Some (File b) => Ok b | Some Dir => Err EISDIR | None => Err ENOENT end) in
  (forall b, r = Ok b <-> m (keep gs) = Some (File b) /\ ~ says_dir gs) /\ (r = Err ENOENT <-> absent m (keep gs)) /\ r <> Panic /\ r <> OutOfFuel.
Proof.
  intros OK N NE r. assert (SD := says_iff gs NE). destruct (exists_last NE) as (l & g & E).
  assert (KG : keep gs = keep l ++ keep [g]) by (rewrite E; apply keep_app). assert (RL : removelast gs = l) by (rewrite E; apply removelast_last). assert (LG : last gs [] = g) by (rewrite E; apply last_end). rewrite LG in SD.
  destruct (walk_cases m gs OK N) as [[W H]|[[W H]|[W H]]]; rewrite RL in H; unfold r; rewrite W; cbn [obind].
  - destruct H as [H|H]; [contradiction|]. destruct (keep_one g) as [K|K]; rewrite K in *.
    + rewrite app_nil_r in KG. rewrite KG, H. split; [intros b; split; [discriminate|intros [X _]; congruence]|]. split; [|split; discriminate].
      split; [discriminate|]. intros A. apply (absent_clear m _ OK) in A as [_ A]. congruence.
    + assert (ND : ~ says_dir gs) by (intros X; apply SD in X; discriminate X). destruct (m (keep gs)) as [[|b]|] eqn:M.
      * split; [intros b; split; [discriminate|intros [X _]; congruence]|]. split; [|split; discriminate]. split; [discriminate|]. intros A. apply (absent_clear m _ OK) in A as [_ A]. congruence.
      * split; [intros b'; split; [intros X; split; [congruence|exact ND]|intros [X _]; congruence]|]. split; [|split; discriminate]. split; [discriminate|]. intros A. apply (absent_clear m _ OK) in A as [_ A]. congruence.
      * split; [intros b; split; [discriminate|intros [X _]; congruence]|]. split; [|split; discriminate]. split; [|reflexivity]. intros _. rewrite KG in M |- *. apply absent_snoc. auto.
  - assert (absent m (keep gs)) as A by (rewrite KG; now apply absent_more). split; [intros b; split; [discriminate|intros [X _]; apply (absent_clear m _ OK) in A as [_ A]; congruence]|]. split; [split; auto|split; discriminate].
  - split; [|split; [|split; discriminate]].
    + intros b. split; [discriminate|]. intros [M ND]. exfalso. destruct (keep_one g) as [K|K]; rewrite K in *; [apply ND, SD; reflexivity|].
      assert (m (keep l) = Some Dir) as D by (apply (up m _ [g] OK); [congruence|discriminate]). destruct H as (q & b' & [x X] & F). destruct x as [|y x]; [rewrite app_nil_r in X; congruence|].
      assert (m q = Some Dir) as D2 by (apply (up m q (y :: x) OK); [congruence|discriminate]). congruence.
    + split; [discriminate|]. intros A. exfalso. apply (absent_clear m _ OK) in A as [A _]. apply (clear_filed m (keep gs) A). rewrite KG. now apply filed_more.
Qed.

(** ** Directories *)
Definition plain_name (n : bytes) : Prop := keeps n = true /\ n <> DOTDOT /\ has_nul n = false.
Lemma plain_keep qs : Forall plain_name qs -> keep qs = qs.
Proof. induction 1 as [|n ls (O & _) F IH]; [reflexivity|]. unfold keep. cbn [filter]. rewrite O. f_equal. exact IH. Qed.
Lemma plain_dots qs : Forall plain_name qs -> ~ In DOTDOT qs.
Proof. intros F I. apply (proj1 (Forall_forall _ _) F) in I as (_ & H & _). now apply H. Qed.
Lemma plain_nul qs : Forall plain_name qs -> existsb has_nul qs = false.
Proof. induction 1 as [|n ls (_ & _ & O) F IH]; [reflexivity|]. cbn [existsb]. now rewrite O. Qed.
Lemma plain_removelast qs : Forall plain_name qs -> keep (removelast qs) = removelast qs.
Proof. intros F. destruct (list_end qs) as [->|(l & n & ->)]; [reflexivity|]. rewrite removelast_last. apply Forall_app in F as [F _]. now apply plain_keep. Qed.
Lemma put_ok m p n e : fs_ok m -> m p = Some Dir -> (forall b, m (p ++ [n]) <> Some Dir \/ e <> File b) -> fs_ok (put m (p ++ [n]) e).
Proof.
  intros [R U] D T. split; [rewrite put_other; [exact R|intros H; destruct p; discriminate H]|]. intros q k Q. destruct (list_eq_dec (list_eq_dec N.eq_dec) (p ++ [n]) (q ++ [k])) as [E|E].
  - apply app_inj_tail in E as [<- <-]. rewrite put_other; [exact D|]. intros H. apply (f_equal (@List.length _)) in H. rewrite app_length in H. cbn in H. lia.
  - rewrite put_other in Q by exact E. pose proof (U q k Q) as DQ. destruct (list_eq_dec (list_eq_dec N.eq_dec) (p ++ [n]) q) as [<-|E2]; [|now rewrite put_other].
    rewrite put_same. destruct e as [|b]; [reflexivity|]. destruct (T b); [contradiction|congruence].
Qed.
Lemma walk_plain m qs : fs_ok m -> Forall plain_name qs -> m qs <> None -> walk m [] qs = Ok qs.
Proof.
  intros OK F M. pose proof (plain_keep qs F) as K. destruct (walk_cases m qs OK (plain_dots qs F)) as [[W _]|[[W H]|[W H]]]; [congruence|exfalso..]; rewrite (plain_removelast qs F) in H;
    (destruct (list_end qs) as [->|(l & n & ->)]; [discriminate W|]); rewrite removelast_last in H; assert (m l = Some Dir) as D by (apply (up m l [n] OK M); discriminate).
  - apply (absent_clear m _ OK) in H as [_ H]. congruence.
  - destruct H as (q & b & [x ->] & B). destruct x as [|y x]; [rewrite app_nil_r in D; congruence|]. assert (m q = Some Dir) as D2 by (apply (up m q (y :: x) OK); [congruence|discriminate]). congruence.
Qed.
Lemma pre_up m q p : fs_ok m -> m p = Some Dir -> pre q p -> m q = Some Dir.
Proof. intros OK D [r ->]. destruct r as [|x r]; [now rewrite app_nil_r in D|]. apply (up m q (x :: r) OK); [congruence|discriminate]. Qed.
Lemma mkdir_cases m qs n : fs_ok m -> Forall plain_name (qs ++ [n]) ->
  (m qs = Some Dir /\ mkdir m (qs ++ [n]) = match m (qs ++ [n]) with Some _ => (m, Some EEXIST) | None => (put m (qs ++ [n]) Dir, None) end) \/
  (absent m qs /\ mkdir m (qs ++ [n]) = (m, Some ENOENT)) \/ (filed m qs /\ mkdir m (qs ++ [n]) = (m, Some ENOTDIR)).
Proof.
  intros OK F. unfold mkdir. rewrite (plain_nul _ F), removelast_last.
  assert (X : forall r : fs * option errno, match qs ++ [n] with [] => (m, Some EEXIST) | _ :: _ => r end = r) by (intros r; destruct qs; reflexivity). rewrite X. clear X.
  apply Forall_app in F as [F _]. destruct (m qs) as [[|b]|] eqn:M.
  - left. rewrite (walk_plain m qs OK F) by congruence. rewrite M. auto.
  - right. right. rewrite (walk_plain m qs OK F) by congruence. rewrite M. split; [now apply (filed_here m _ b)|reflexivity].
  - right. destruct (list_end qs) as [->|(l & k & E)]; [destruct OK; congruence|].
    destruct (walk_cases m qs OK (plain_dots qs F)) as [[W H]|[[W H]|[W H]]]; rewrite (plain_removelast qs F) in H; rewrite W, ?(plain_keep qs F), ?M.
    + left. split; [|reflexivity]. destruct H as [->|H]; [destruct OK; congruence|]. rewrite E in *. rewrite removelast_last in H. apply absent_snoc. auto.
    + left. split; [|reflexivity]. rewrite E in *. rewrite removelast_last in H. now apply absent_more.
    + right. split; [|reflexivity]. rewrite E in *. rewrite removelast_last in H. now apply filed_more.
Qed.
Lemma is_dir_iff m qs : fs_ok m -> Forall plain_name qs -> is_dir m qs = true <-> m qs = Some Dir.
Proof.
  intros OK F. unfold is_dir. rewrite (plain_nul qs F). split.
  - destruct (walk_cases m qs OK (plain_dots qs F)) as [[W _]|[[W H]|[W H]]]; rewrite W; [|discriminate..]. rewrite (plain_keep qs F). destruct (m qs) as [[]|]; congruence.
  - intros D. rewrite (walk_plain m qs OK F) by congruence. now rewrite D.
Qed.
Definition filled (m m' : fs) (qs : list bytes) : Prop := forall q, pre q qs /\ m' q = Some Dir \/ ~ pre q qs /\ m' q = m q.
Lemma pre_dec q p : pre q p \/ ~ pre q p.
Proof.
  revert q. induction p as [|n p IH]; intros [|k q]; [left; now exists []|right; intros [r H]; discriminate H|left; now exists (n :: p)|].
  destruct (list_eq_dec N.eq_dec n k) as [->|N]; [|right; intros [r H]; cbn [app] in H; injection H as H _; contradiction]. destruct (IH q) as [[r ->]|X]; [left; now exists r|right]. intros [r H]. cbn [app] in H. injection H as ->. apply X. now exists r.
Qed.
Lemma filled_same m qs : fs_ok m -> m qs = Some Dir -> filled m m qs.
Proof. intros OK D q. destruct (pre_dec q qs) as [P|P]; [left; split; [exact P|now apply (pre_up m q qs)]|right; auto]. Qed.
Lemma create_cases m qs : fs_ok m -> Forall plain_name qs ->
  (clear m qs /\ exists m', create_dir_all m (rev qs) = (m', None) /\ fs_ok m' /\ filled m m' qs) \/ (filed m qs /\ exists e, create_dir_all m (rev qs) = (m, Some e)).
Proof.
  intros OK. induction qs as [|n qs IH] using rev_ind; intros F.
  - left. split; [intros q [r E]; destruct q; [right; apply OK|discriminate E]|]. exists m. split; [|split; [exact OK|apply filled_same; [exact OK|apply OK]]].
    cbn [rev create_dir_all]. change (mkdir m []) with (m, Some EEXIST). cbn iota. now rewrite (proj2 (is_dir_iff m [] OK ltac:(constructor)) (proj1 OK)).
  - rewrite rev_app_distr. change (rev [n] ++ rev qs) with (n :: rev qs). cbn [create_dir_all]. assert (R : rev (n :: rev qs) = qs ++ [n]) by (cbn [rev]; now rewrite rev_involutive). rewrite R.
    pose proof F as F'. apply Forall_app in F' as [FQ _]. destruct (mkdir_cases m qs n OK F) as [[D E]|[[A E]|[B E]]]; rewrite E.
    + destruct (m (qs ++ [n])) as [e|] eqn:M.
      * destruct (is_dir m (qs ++ [n])) eqn:I.
        -- apply (is_dir_iff m _ OK F) in I. left. split; [intros q P; right; now apply (pre_up m q (qs ++ [n]))|]. exists m. split; [reflexivity|]. split; [exact OK|now apply filled_same].
        -- right. destruct e as [|b]; [apply (is_dir_iff m _ OK F) in M; congruence|]. split; [now apply (filed_here m _ b)|]. eauto.
      * left. split; [intros q P; apply pre_snoc in P as [->|P]; [now left|right; now apply (pre_up m q qs)]|]. exists (put m (qs ++ [n]) Dir). split; [reflexivity|]. split; [apply put_ok; [exact OK|exact D|intros b; right; discriminate]|].
        intros q. destruct (pre_dec q (qs ++ [n])) as [P|P].
        -- left. split; [exact P|]. apply pre_snoc in P as [->|P]; [apply put_same|]. destruct (list_eq_dec (list_eq_dec N.eq_dec) (qs ++ [n]) q) as [<-|NE]; [apply put_same|]. rewrite put_other by exact NE. now apply (pre_up m q qs).
        -- right. split; [exact P|]. apply put_other. intros <-. apply P. exists []. now rewrite app_nil_r.
    + destruct (IH FQ) as [(C & m' & CE & OK' & FL)|(B & _)]; [|exfalso; apply (absent_clear m _ OK) in A as [A _]; exact (clear_filed m qs A B)].
      assert (m qs = None) as MN by (apply (absent_clear m _ OK) in A as [_ A]; exact A).
      assert (m (qs ++ [n]) = None) as MN2. { destruct (m (qs ++ [n])) eqn:X; [|reflexivity]. exfalso. assert (m qs = Some Dir) by (apply (up m qs [n] OK); [congruence|discriminate]). congruence. }
      assert (m' qs = Some Dir) as D. { destruct (FL qs) as [[_ D]|[N _]]; [exact D|]. exfalso. apply N. exists []. now rewrite app_nil_r. }
      assert (NP : ~ pre (qs ++ [n]) qs). { intros [r X]. apply (f_equal (@List.length _)) in X. rewrite !app_length in X. cbn in X. lia. }
      assert (m' (qs ++ [n]) = None) as DN by (destruct (FL (qs ++ [n])) as [[P _]|[_ X]]; [contradiction|congruence]).
      rewrite CE. destruct (mkdir_cases m' qs n OK' F) as [[_ E2]|[[A2 _]|[B2 _]]].
      * rewrite E2, DN. left. split; [intros q P; apply pre_snoc in P as [->|P]; [now left|now apply C]|]. exists (put m' (qs ++ [n]) Dir). split; [reflexivity|]. split; [apply put_ok; [exact OK'|exact D|intros b; right; discriminate]|].
        intros q. destruct (list_eq_dec (list_eq_dec N.eq_dec) (qs ++ [n]) q) as [<-|NE]; [left; split; [exists []; now rewrite app_nil_r|apply put_same]|]. rewrite put_other by exact NE.
        destruct (FL q) as [[P X]|[P X]]; [left; split; [apply pre_snoc; auto|exact X]|right; split; [|exact X]]. intros Q. apply pre_snoc in Q as [->|Q]; contradiction.
      * exfalso. apply (absent_clear m' _ OK') in A2 as [_ A2]. congruence.
      * exfalso. destruct B2 as (q & b & P & X). pose proof (pre_up m' q qs OK' D P). congruence.
    + assert (filed m (qs ++ [n])) as B' by now apply filed_more. right. split; [exact B'|]. destruct (is_dir m (qs ++ [n])) eqn:I; [|eauto]. exfalso. apply (is_dir_iff m _ OK F) in I.
      destruct B' as (q & b & P & X). pose proof (pre_up m q _ OK I P). congruence.
Qed.
