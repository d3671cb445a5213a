(** * Proofs about reading data: lines *)
From Coq Require Import List NArith ZArith Lia Bool Arith.
From Verif Require Import Bytes ModelPkt ModelAbe ModelEval ModelReader SpecReader ProofReader ProofReader2.
Import ListNotations.
Local Open Scope N_scope.

Lemma forall2_len {A B} (R : A -> B -> Prop) l l' : Forall2 R l l' -> List.length l = List.length l'.
Proof. induction 1; cbn; congruence. Qed.

Section Lines.
  Variables (fuel : nat) (s : scope) (o : DataReadOpts) (f : nat -> N) (d : N).
  Hypothesis DL : o_delim o = Some d.

  Definition line_fits (l : bytes) : Prop := forall k, lenN l <= at_once o (f k).

  (** One line is one read, and its value is what is checked. *)
  Lemma line_call all T l ls v lim k : lines d T (l :: ls) -> lenN T < 2 ^ 64 - 1 -> line_fits l -> lim <> 0 ->
    value_of fuel s (o_eval o) l v ->
    exists T', lines d T' ls /\ lenN T' < lenN T /\
      read_next_data fuel s (st o all T lim None) (f k) =
      match checked o all T' (lim - 1) v (f k) with
      | (r, Ok b) => (r, Ok (Some b))
      | (r, Err e) => (r, Err e)
      | (r, Panic) => (r, Panic)
      | (r, OutOfFuel) => (r, OutOfFuel)
      end.
  Proof.
    intros H B FI L V. destruct (read_line all d T l ls _ H B (FI k)) as (got & T' & R & NE & SG & H' & LT).
    rewrite <- DL in R. exists T'. split; [assumption|]. split; [assumption|].
    rewrite (call_reads fuel s o _ _ _ _ _ _ R NE L). unfold block_of. rewrite DL, SG.
    unfold value_of in V. destruct (o_eval o); [rewrite V|subst v]; reflexivity.
  Qed.
  Lemma line_again T l ls v lim k : o_repeat o = true ->
    lines d T (l :: ls) -> lenN T < 2 ^ 64 - 1 -> line_fits l -> lim <> 0 -> value_of fuel s (o_eval o) l v ->
    exists T', lines d T' ls /\ lenN T' < lenN T /\
      read_next_data fuel s (st o (Some T) [] lim None) (f k) =
      match checked o (Some T) T' (lim - 1) v (f k) with
      | (r, Ok b) => (r, Ok (Some b))
      | (r, Err e) => (r, Err e)
      | (r, Panic) => (r, Panic)
      | (r, OutOfFuel) => (r, OutOfFuel)
      end.
  Proof.
    intros CY H B FI L V. destruct (read_line (Some T) d T l ls _ H B (FI k)) as (got & T' & R & NE & SG & H' & LT).
    rewrite <- DL in R. exists T'. split; [assumption|]. split; [assumption|].
    rewrite (call_again fuel s o _ _ _ _ _ CY R NE L). unfold block_of. rewrite DL, SG.
    unfold value_of in V. destruct (o_eval o); [rewrite V|subst v]; reflexivity.
  Qed.

  Definition cut (k : nat) (v : bytes) : bytes := takeN (f k) v.
  Fixpoint cuts (k : nat) (vs : list bytes) : list bytes :=
    match vs with [] => [] | v :: vs => cut k v :: cuts (S k) vs end.
  Lemma cuts_fit : forall vs k, Forall (fun v => forall j, lenN v <= f j) vs -> cuts k vs = vs.
  Proof.
    induction vs as [|v vs IH]; intros k H; [reflexivity|]. inversion_clear H. cbn [cuts]. unfold cut.
    rewrite takeN_all by auto. now rewrite IH.
  Qed.
  Lemma checked_cut all T lim v k : mode_of o = MTrim \/ lenN v <= f k ->
    checked o all T lim v (f k) = (st o all T lim None, Ok (cut k v)).
  Proof.
    intros H. unfold checked, cut. destruct (N.ltb_spec (f k) (lenN v)) as [Q|Q].
    - destruct H as [->|H]; [reflexivity|lia].
    - now rewrite takeN_all.
  Qed.

  (** The calls up to a place in the lines. *)
  Lemma line_run all : forall ls1 ls2 T vs lim k, lines d T (ls1 ++ ls2) -> lenN T < 2 ^ 64 - 1 -> Forall line_fits ls1 ->
    Forall2 (value_of fuel s (o_eval o)) ls1 vs -> N.of_nat (List.length ls1) <= lim ->
    (mode_of o = MTrim \/ Forall (fun v => forall j, lenN v <= f j) vs) ->
    exists T', lines d T' ls2 /\ lenN T' < 2 ^ 64 - 1 /\
      reading fuel s (st o all T lim None) (from f k (List.length ls1)) (cuts k vs)
              (st o all T' (lim - N.of_nat (List.length ls1)) None).
  Proof.
    induction ls1 as [|l ls1 IH]; intros ls2 T vs lim k H B FI V L MO.
    - inversion V; subst. exists T. split; [assumption|]. split; [assumption|].
      rewrite N.sub_0_r. constructor.
    - inversion V as [|? v ? vs' V1 V2]; subst. inversion_clear FI as [|? ? F1 F2]. cbn [app] in H.
      cbn [List.length] in *.
      destruct (line_call all T l _ v lim k H B F1 ltac:(lia) V1) as (T1 & H1 & LT & C).
      assert (MV : mode_of o = MTrim \/ lenN v <= f k).
      { destruct MO as [MO|MO]; [now left|]. inversion_clear MO. now right. }
      rewrite (checked_cut _ _ _ _ _ MV) in C.
      destruct (IH ls2 T1 vs' (lim - 1) (S k) H1 ltac:(lia) F2 V2 ltac:(lia)) as (T' & H' & B' & R).
      { destruct MO as [MO|MO]; [now left|]. inversion_clear MO. now right. }
      exists T'. split; [assumption|]. split; [assumption|].
      rewrite from_S. cbn [cuts]. econstructor; [exact C|].
      replace (lim - N.of_nat (S (List.length ls1))) with (lim - 1 - N.of_nat (List.length ls1)) by lia. exact R.
  Qed.

  (** Starting again at the end. *)
  Lemma cycle_run T ls vs : o_repeat o = true -> lines d T ls -> ls <> [] -> lenN T < 2 ^ 64 - 1 -> Forall line_fits ls ->
    Forall2 (value_of fuel s (o_eval o)) ls vs -> (mode_of o = MTrim \/ Forall (fun v => forall j, lenN v <= f j) vs) ->
    forall n R k i lim, lines d R (skipn i ls) -> lenN R < 2 ^ 64 - 1 -> (i <= List.length ls)%nat -> N.of_nat n <= lim ->
    exists bs r', reading fuel s (st o (Some T) R lim None) (from f k n) bs r' /\
      forall j, (j < n)%nat -> nth j bs [] = cut (k + j) (nth ((i + j) mod List.length ls) vs []).
  Proof.
    intros CY HT NE B FI V MO. assert (LP : (0 < List.length ls)%nat) by (destruct ls; [congruence|cbn; lia]).
    assert (VF : forall i, (i < List.length ls)%nat ->
      value_of fuel s (o_eval o) (nth i ls []) (nth i vs []) /\ line_fits (nth i ls []) /\
      forall k, mode_of o = MTrim \/ lenN (nth i vs []) <= f k).
    { intros i I. assert (EL : List.length ls = List.length vs) by (eapply forall2_len; eassumption). split.
      - clear -V I. revert i I. induction V as [|l v ls vs V1 V2 IH]; intros i I; [cbn in I; lia|].
        destruct i as [|i]; [exact V1|]. cbn [nth]. apply IH. cbn in I. lia.
      - split.
        + rewrite Forall_forall in FI. apply FI, nth_In, I.
        + intros k. destruct MO as [MO|MO]; [now left|]. right. rewrite Forall_forall in MO. apply MO, nth_In. lia. }
    induction n as [|n IH]; intros R k i lim HR BR I L.
    { exists [], (st o (Some T) R lim None). split; [constructor|]. intros j J. lia. }
    assert (STEP : exists R' i', lines d R' (skipn i' ls) /\ lenN R' < 2 ^ 64 - 1 /\ (i' <= List.length ls)%nat /\
       (forall j, ((i + S j) mod List.length ls = (i' + j) mod List.length ls)%nat) /\
       read_next_data fuel s (st o (Some T) R lim None) (f k) =
         (st o (Some T) R' (lim - 1) None, Ok (Some (cut k (nth (i mod List.length ls) vs []))))).
    { destruct (Nat.eq_dec i (List.length ls)) as [E|E].
      - subst i. rewrite skipn_all in HR. inversion HR; subst.
        rewrite Nat.mod_same by lia. destruct (VF 0%nat LP) as (V0 & F0 & M0).
        destruct ls as [|l ls]; [congruence|].
        destruct (line_again T l ls (nth 0 vs []) lim k CY HT B F0 ltac:(lia) V0) as (R' & H' & LT & C).
        rewrite (checked_cut _ _ _ _ _ (M0 k)) in C. exists R', 1%nat. split; [exact H'|]. split; [lia|].
        split; [cbn; lia|]. split; [|exact C].
        intros j. replace (List.length (l :: ls) + S j)%nat with (1 + j + 1 * List.length (l :: ls))%nat by lia.
        apply Nat.mod_add. cbn; lia.
      - assert (I' : (i < List.length ls)%nat) by lia. rewrite Nat.mod_small by lia.
        destruct (VF i I') as (V0 & F0 & M0).
        assert (SK : skipn i ls = nth i ls [] :: skipn (S i) ls).
        { clear -I'. revert ls I'. induction i as [|i IH]; intros [|l ls] I'; cbn in I'; [lia|reflexivity|lia|].
          cbn [skipn nth]. apply (IH ls). lia. }
        rewrite SK in HR.
        destruct (line_call (Some T) R _ _ (nth i vs []) lim k HR BR F0 ltac:(lia) V0) as (R' & H' & LT & C).
        rewrite (checked_cut _ _ _ _ _ (M0 k)) in C. exists R', (S i). split; [exact H'|]. split; [lia|].
        split; [lia|]. split; [|exact C]. intros j. f_equal. lia. }
    destruct STEP as (R' & i' & HR' & BR' & I' & SH & C).
    destruct (IH R' (S k) i' (lim - 1) HR' BR' I' ltac:(lia)) as (bs & r' & RD & N1).
    exists (cut k (nth (i mod List.length ls) vs []) :: bs), r'. split.
    - rewrite from_S. econstructor; [exact C|exact RD].
    - intros [|j] J; cbn [nth]; [now rewrite !Nat.add_0_r|]. rewrite N1 by lia. rewrite SH.
      now rewrite Nat.add_succ_r.
  Qed.

  (** What does not fit in a point goes to the next ones. *)
  Lemma drain all T lim : mode_of o = MSplit -> lim <> 0 -> (forall k, 0 < f k) ->
    forall m x k, (List.length x <= m)%nat -> x <> [] ->
    exists n bs, reading fuel s (st o all T lim (Some x)) (from f k n) bs (st o all T lim None) /\
      List.concat bs = x /\ Forall2 (fun b free => lenN b <= free) bs (from f k n).
  Proof.
    intros M L F. induction m as [|m IH]; intros x k LE NE; [destruct x; [congruence|cbn in LE; lia]|].
    pose proof (call_pending fuel s o all T lim x (f k) M L) as C. specialize (F k) as Fk.
    destruct (N.ltb_spec (f k) (lenN x)) as [Q|Q].
    - assert (D : (List.length (dropN (f k) x) < List.length x)%nat).
      { assert (lenN (dropN (f k) x) < lenN x) by (rewrite lenN_dropN; lia). unfold lenN in *. lia. }
      destruct (IH (dropN (f k) x) (S k)) as (n & bs & R & CC & F2).
      { lia. }
      { intros E. apply (f_equal lenN) in E. rewrite lenN_dropN in E. change (lenN (@nil N)) with 0 in E. lia. }
      exists (S n), (takeN (f k) x :: bs). rewrite from_S. split; [econstructor; eassumption|].
      split; [cbn [List.concat]; rewrite CC; apply takeN_dropN|]. constructor; [rewrite lenN_takeN; lia|assumption].
    - exists 1%nat, [x]. rewrite from_S. split; [econstructor; [exact C|constructor]|].
      split; [cbn; apply app_nil_r|]. constructor; [assumption|constructor].
  Qed.
  Lemma from_app k n m : from f k (n + m) = from f k n ++ from f (k + n) m.
  Proof. unfold from. rewrite seq_app, map_app. reflexivity. Qed.
  Lemma reading_app r fs bs r1 fs' bs' r2 : reading fuel s r fs bs r1 -> reading fuel s r1 fs' bs' r2 ->
    reading fuel s r (fs ++ fs') (bs ++ bs') r2.
  Proof. intros H1 H2. induction H1; [exact H2|]. cbn [app]. econstructor; eauto. Qed.
  Lemma split_run all : mode_of o = MSplit -> (forall k, 0 < f k) ->
    forall ls T vs lim k, lines d T ls -> lenN T < 2 ^ 64 - 1 -> Forall line_fits ls ->
    Forall2 (value_of fuel s (o_eval o)) ls vs -> N.of_nat (List.length ls) < lim ->
    exists n bs, reading fuel s (st o all T lim None) (from f k n) bs (st o all [] (lim - N.of_nat (List.length ls)) None) /\
      List.concat bs = List.concat vs /\ Forall2 (fun b free => lenN b <= free) bs (from f k n).
  Proof.
    intros M F. induction ls as [|l ls IH]; intros T vs lim k H B FI V L.
    - inversion H; subst. inversion V; subst. exists 0%nat, []. rewrite N.sub_0_r.
      split; [constructor|]. split; [reflexivity|constructor].
    - inversion V as [|? v ? vs' V1 V2]; subst. inversion_clear FI as [|? ? F1 F2]. cbn [List.length] in *.
      destruct (line_call all T l _ v lim k H B F1 ltac:(lia) V1) as (T1 & H1 & LT & C).
      unfold checked in C. destruct (N.ltb_spec (f k) (lenN v)) as [Q|Q].
      + rewrite M in C. destruct (drain all T1 (lim - 1) M ltac:(lia) F (List.length (dropN (f k) v)) (dropN (f k) v) (S k))
          as (n1 & bs1 & R1 & C1 & S1); [lia| |].
        { intros E. apply (f_equal lenN) in E. rewrite lenN_dropN in E. change (lenN (@nil N)) with 0 in E. lia. }
        destruct (IH T1 vs' (lim - 1) (S k + n1)%nat H1 ltac:(lia) F2 V2 ltac:(lia)) as (n2 & bs2 & R2 & C2 & S2).
        exists (S (n1 + n2)), (takeN (f k) v :: bs1 ++ bs2). rewrite from_S, from_app.
        replace (lim - N.of_nat (S (List.length ls))) with (lim - 1 - N.of_nat (List.length ls)) by lia.
        split; [econstructor; [exact C|eapply reading_app; eassumption]|]. split.
        * cbn [List.concat]. rewrite concat_app, C1, C2, app_assoc, takeN_dropN. reflexivity.
        * constructor; [rewrite lenN_takeN; lia|]. now apply Forall2_app.
      + destruct (IH T1 vs' (lim - 1) (S k) H1 ltac:(lia) F2 V2 ltac:(lia)) as (n2 & bs2 & R2 & C2 & S2).
        exists (S n2), (v :: bs2). rewrite from_S.
        replace (lim - N.of_nat (S (List.length ls))) with (lim - 1 - N.of_nat (List.length ls)) by lia.
        split; [econstructor; [exact C|eassumption]|]. split; [cbn [List.concat]; now rewrite C2|].
        constructor; assumption.
  Qed.
End Lines.
