(** * Proofs about reading data: many calls *)
From Coq Require Import List NArith ZArith Lia Bool Arith.
From Verif Require Import Bytes ModelPkt ModelAbe ModelEval ModelReader SpecReader ProofReader.
Import ListNotations.
Local Open Scope N_scope.

Lemma filter_shorter {A} (g : A -> bool) l : (List.length (filter g l) <= List.length l)%nat.
Proof. induction l as [|a l IH]; cbn [filter List.length]; [lia|]. destruct (g a); cbn [List.length]; lia. Qed.

Section Reader.
  Variables (fuel : nat) (s : scope) (o : DataReadOpts) (f : nat -> N).

  Definition from (k n : nat) : list N := map f (seq k n).
  Lemma from_S k n : from k (S n) = f k :: from (S k) n.
  Proof. reflexivity. Qed.

  (** The size check of a block behind nothing. *)
  Definition checked (all : option bytes) (rest : bytes) (lim : N) (buf : bytes) (free : N)
    : Reader * outcome ReadError bytes :=
    if free <? lenN buf then
      match mode_of o with
      | MError => (st o all rest lim None, Err ETooBig)
      | MTrim => (st o all rest lim None, Ok (takeN free buf))
      | MSplit | MCarry => (st o all rest lim (Some (dropN free buf)), Ok (takeN free buf))
      end
    else (st o all rest lim None, Ok buf).
  Lemma check_none all rest lim buf free :
    check_size (st o all rest lim None) buf free = checked all rest lim buf free.
  Proof.
    unfold check_size, checked. cbn [st r_on_overflow r_next].
    replace (match mode_of o with MCarry => (st o all rest lim None, buf) | _ => (st o all rest lim None, buf) end)
      with (st o all rest lim None, buf) by (destruct (mode_of o); reflexivity).
    destruct (free <? lenN buf); [|reflexivity]. cbn [st r_on_overflow]. destruct (mode_of o); reflexivity.
  Qed.

  Lemma limit_zero all rest next k : ended fuel s (st o all rest 0 next) k.
  Proof. exists (st o all rest 0 next). reflexivity. Qed.
  Lemma at_end all lim free : o_repeat o = false ->
    ended fuel s (st o all [] lim None) free.
  Proof.
    intros C. unfold ended, read_next_data, read_new. cbn [st r_call_limit r_next r_input with_limit r_take_max r_delim r_cycle].
    destruct (lim =? 0); [eauto|]. rewrite read_nothing, C. cbn [negb]. eauto.
  Qed.

  (** One call that reads [got] from the source. *)
  Definition block_of (all : option bytes) (rest' : bytes) (lim : N) (got : bytes) (free : N)
    : Reader * outcome ReadError (option bytes) :=
    match (if o_eval o then of_lk (lk_eval fuel s (strip (o_delim o) got) false) else Ok (strip (o_delim o) got)) with
    | Ok buf => match checked all rest' lim buf free with
                | (r, Ok b) => (r, Ok (Some b))
                | (r, Err e) => (r, Err e)
                | (r, Panic) => (r, Panic)
                | (r, OutOfFuel) => (r, OutOfFuel)
                end
    | Err e => (st o all rest' lim None, Err e)
    | Panic => (st o all rest' lim None, Panic)
    | OutOfFuel => (st o all rest' lim None, OutOfFuel)
    end.
  Lemma take_block_eq all rest' lim got free :
    take_block fuel s (st o all rest' lim None) got free = block_of all rest' lim got free.
  Proof.
    unfold take_block, block_of. cbn [st r_delim r_eval]. fold (strip (o_delim o) got).
    destruct (if o_eval o then _ else _) as [buf|e| |]; [|reflexivity..].
    change (mkReader None (o_bufsize o) lim (Some (mkSource all rest')) (o_repeat o) (o_eval o) (o_delim o) (mode_of o))
      with (st o all rest' lim None). now rewrite check_none.
  Qed.
  Lemma call_reads all rest lim free got rest' :
    source_read (mkSource all rest) (at_once o free) (o_delim o) = (got, mkSource all rest') ->
    got <> [] -> lim <> 0 ->
    read_next_data fuel s (st o all rest lim None) free = block_of all rest' (lim - 1) got free.
  Proof.
    intros R NE L. unfold read_next_data, read_new.
    cbn [st r_call_limit r_next r_input with_limit r_take_max r_delim r_cycle].
    rewrite (proj2 (N.eqb_neq _ _) L). unfold at_once in R. rewrite R.
    destruct got as [|b got]; [congruence|]. rewrite <- take_block_eq. reflexivity.
  Qed.
  (** ... and one that starts again. *)
  Lemma call_again T lim free got rest' :
    o_repeat o = true ->
    source_read (mkSource (Some T) T) (at_once o free) (o_delim o) = (got, mkSource (Some T) rest') ->
    got <> [] -> lim <> 0 ->
    read_next_data fuel s (st o (Some T) [] lim None) free = block_of (Some T) rest' (lim - 1) got free.
  Proof.
    intros C R NE L. unfold read_next_data, read_new.
    cbn [st r_call_limit r_next r_input with_limit r_take_max r_delim r_cycle].
    rewrite (proj2 (N.eqb_neq _ _) L). rewrite read_nothing, C. cbn [negb rewind s_all].
    unfold at_once in R. rewrite R.
    destruct got as [|b got]; [congruence|]. rewrite <- take_block_eq. reflexivity.
  Qed.
  (** One call that returns what is left of a block. *)
  Lemma call_pending all rest lim x free : mode_of o = MSplit -> lim <> 0 ->
    read_next_data fuel s (st o all rest lim (Some x)) free =
    if free <? lenN x then (st o all rest lim (Some (dropN free x)), Ok (Some (takeN free x)))
    else (st o all rest lim None, Ok (Some x)).
  Proof.
    intros M L. unfold read_next_data.
    change (with_next (st o all rest lim (Some x)) None) with (st o all rest lim None).
    change (r_call_limit (st o all rest lim (Some x))) with lim.
    change (r_next (st o all rest lim (Some x))) with (Some x).
    change (r_on_overflow (st o all rest lim None)) with (mode_of o).
    rewrite (proj2 (N.eqb_neq _ _) L), M. cbv iota beta.
    rewrite check_none. unfold checked. rewrite M. destruct (free <? lenN x); reflexivity.
  Qed.

  Definition left (next : option bytes) : bytes := match next with Some x => x | None => [] end.

  Lemma data_blocks : o_eval o = false -> o_repeat o = false ->
    (o_delim o = None -> o_bufsize o <> Some 0) -> (forall k, 0 < f k) ->
    (mode_of o = MSplit \/ (o_delim o = None /\ forall k, at_once o (f k) <= f k)) ->
    forall m all (rest : bytes) lim next k,
    (2 * List.length rest + List.length (left next) <= m)%nat -> lenN rest < lim ->
    (next <> None -> mode_of o = MSplit /\ next <> Some []) ->
    exists n bs r', reading fuel s (st o all rest lim next) (from k n) bs r' /\ ended fuel s r' (f (k + n)) /\
      List.concat bs = left next ++ undelimited (o_delim o) rest /\
      Forall2 (fun b free => lenN b <= free) bs (from k n) /\
      (o_delim o = None -> Forall (fun b => b <> []) bs) /\
      (o_delim o = None -> o_bufsize o = None -> next = None ->
       forall i, (S i < n)%nat -> lenN (nth i bs []) = f (k + i)%nat) /\
      (forall m, o_delim o = None -> o_bufsize o = Some m -> lenN (left next) <= m -> Forall (fun b => lenN b <= m) bs).
  Proof.
    intros EV CY TK F MO. induction m as [m IH] using lt_wf_ind. intros all rest lim next k M L NX.
    assert (L0 : lim <> 0) by lia.
    destruct next as [x|].
    - destruct NX as [MS XE]; [discriminate|]. cbn [left] in *. specialize (F k).
      pose proof (call_pending all rest lim x (f k) MS L0) as C.
      destruct (N.ltb_spec (f k) (lenN x)) as [Q|Q].
      + assert (D : (List.length (dropN (f k) x) < List.length x)%nat).
        { assert (lenN (dropN (f k) x) < lenN x) by (rewrite lenN_dropN; lia). unfold lenN in *. lia. }
        destruct (IH (2 * List.length rest + List.length (dropN (f k) x))%nat ltac:(lia) all rest lim (Some (dropN (f k) x)) (S k))
          as (n & bs & r' & R & E & CC & F2 & NE & _ & AM).
        { cbn [left]. lia. }
        { assumption. }
        { intros _. split; [assumption|]. intros E. injection E as E. apply (f_equal lenN) in E.
          rewrite lenN_dropN in E. change (lenN (@nil N)) with 0 in E. lia. }
        exists (S n), (takeN (f k) x :: bs), r'. rewrite from_S. cbn [left] in CC.
        split; [econstructor; eassumption|]. split; [now rewrite Nat.add_succ_r|].
        split; [cbn [List.concat]; rewrite CC, app_assoc, takeN_dropN; reflexivity|].
        split; [constructor; [rewrite lenN_takeN; lia|assumption]|]. split; [|split; [discriminate|]].
        { intros DN. constructor; [|auto]. intros E0. apply (f_equal lenN) in E0. rewrite lenN_takeN in E0.
          change (lenN (@nil N)) with 0 in E0. lia. }
        intros q DN BQ LQ. constructor; [rewrite lenN_takeN; lia|]. apply AM; [assumption|assumption|].
        cbn [left]. rewrite lenN_dropN. lia.
      + assert (X0 : x <> []) by (intros ->; now apply XE).
        assert (0 < List.length x)%nat by (destruct x; [congruence|cbn; lia]).
        destruct (IH (2 * List.length rest)%nat ltac:(lia) all rest lim None (S k))
          as (n & bs & r' & R & E & CC & F2 & NE & _ & AM).
        { cbn [left List.length]. lia. }
        { assumption. }
        { congruence. }
        exists (S n), (x :: bs), r'. rewrite from_S.
        split; [econstructor; eassumption|]. split; [now rewrite Nat.add_succ_r|].
        split; [cbn [List.concat]; now rewrite CC|].
        split; [constructor; assumption|]. split; [|split; [discriminate|]].
        { intros DN. constructor; auto. }
        intros q DN BQ LQ. constructor; [assumption|]. apply AM; [assumption|assumption|]. apply N.le_0_l.
    - destruct (list_eq_dec N.eq_dec rest []) as [->|RN].
      { exists 0%nat, [], (st o all [] lim None). split; [constructor|].
        split; [now apply at_end|]. split; [destruct (o_delim o); reflexivity|].
        split; [constructor|]. split; [intros _; constructor|]. split; [intros _ _ _ i I; lia|]. intros; constructor. }
      destruct (read_some all rest (at_once o (f k)) (o_delim o)) as (got & rest' & R & SP & GN & ST & LG); [assumption| |].
      { intros DN. unfold at_once. specialize (TK DN). destruct (o_bufsize o) as [[|p]|]; [congruence|lia|apply F]. }
      pose proof (call_reads all rest lim (f k) got rest' R GN L0) as C. unfold block_of in C. rewrite EV in C.
      rewrite <- ST in C. set (buf := undelimited (o_delim o) got) in *.
      assert (BL : (List.length buf <= List.length got)%nat).
      { unfold buf, undelimited. destruct (o_delim o); [apply filter_shorter|lia]. }
      assert (GL : (0 < List.length got)%nat) by (destruct got; [congruence|cbn; lia]).
      assert (RL : List.length rest = (List.length got + List.length rest')%nat) by (rewrite SP, app_length; reflexivity).
      assert (L1 : lenN rest' < lim - 1) by (unfold lenN in *; lia).
      assert (BN : o_delim o = None -> buf = got) by (intros DN; unfold buf; rewrite DN; reflexivity).
      unfold checked in C. destruct (N.ltb_spec (f k) (lenN buf)) as [Q|Q].
      + assert (MS : mode_of o = MSplit).
        { destruct MO as [MS|[DN FT]]; [assumption|]. exfalso. specialize (LG DN). rewrite (BN DN) in Q.
          specialize (FT k). lia. }
        rewrite MS in C. specialize (F k).
        assert (D : (List.length (dropN (f k) buf) < List.length buf)%nat).
        { assert (lenN (dropN (f k) buf) < lenN buf) by (rewrite lenN_dropN; lia). unfold lenN in *. lia. }
        destruct (IH (2 * List.length rest' + List.length (dropN (f k) buf))%nat ltac:(cbn [left List.length] in M; lia)
                     all rest' (lim - 1) (Some (dropN (f k) buf)) (S k))
          as (n & bs & r' & R' & E & CC & F2 & NE & _ & AM).
        { cbn [left]. lia. }
        { assumption. }
        { intros _. split; [assumption|]. intros E. injection E as E. apply (f_equal lenN) in E.
          rewrite lenN_dropN in E. change (lenN (@nil N)) with 0 in E. lia. }
        exists (S n), (takeN (f k) buf :: bs), r'. rewrite from_S. cbn [left] in *.
        split; [econstructor; eassumption|]. split; [now rewrite Nat.add_succ_r|].
        split. { cbn [List.concat]. rewrite CC, app_assoc, takeN_dropN. rewrite SP, undelimited_app. reflexivity. }
        split; [constructor; [rewrite lenN_takeN; lia|assumption]|]. split.
        * intros DN. constructor; [|auto]. intros E0. apply (f_equal lenN) in E0. rewrite lenN_takeN in E0.
          change (lenN (@nil N)) with 0 in E0. lia.
        * split.
          { intros DN BS. exfalso. specialize (LG DN). rewrite (BN DN) in Q. unfold at_once in LG. rewrite BS in LG. lia. }
          intros q DN BQ _. specialize (LG DN). unfold at_once in LG. rewrite BQ, <- (BN DN) in LG.
          constructor; [rewrite lenN_takeN; lia|]. apply AM; [assumption|assumption|]. rewrite lenN_dropN. lia.
      + destruct (IH (2 * List.length rest')%nat ltac:(cbn [left List.length] in M; lia) all rest' (lim - 1) None (S k))
          as (n & bs & r' & R' & E & CC & F2 & NE & FU & AM).
        { cbn [left List.length]. lia. }
        { assumption. }
        { congruence. }
        exists (S n), (buf :: bs), r'. rewrite from_S. cbn [left] in *.
        split; [econstructor; eassumption|]. split; [now rewrite Nat.add_succ_r|].
        split. { cbn [List.concat app]. rewrite CC. rewrite SP, undelimited_app. reflexivity. }
        split; [constructor; assumption|]. split.
        * intros DN. constructor; [rewrite (BN DN); assumption|auto].
        * split.
          2: { intros q DN BQ _. specialize (LG DN). unfold at_once in LG. rewrite BQ, <- (BN DN) in LG.
               constructor; [lia|]. apply AM; [assumption|assumption|]. apply N.le_0_l. }
          intros DN BS _ i I. destruct i as [|i].
          -- cbn [nth]. rewrite Nat.add_0_r. specialize (LG DN). rewrite (BN DN). unfold at_once in LG. rewrite BS in LG.
             rewrite LG. apply N.min_l. destruct (N.leb_spec (f k) (lenN rest)) as [|Q']; [assumption|].
             exfalso. rewrite N.min_r in LG by lia.
             assert (Z : rest' = []).
             { destruct rest' as [|b rest']; [reflexivity|]. apply (f_equal lenN) in SP.
               rewrite lenN_app, lenN_cons in SP. lia. }
             subst rest'. destruct n as [|n]; [lia|]. rewrite from_S in R'. inversion R' as [|? ? ? r1 ? ? ? HH _]; subst.
             destruct (at_end all (lim - 1) (f (S k)) CY) as [r2 Y]. congruence.
          -- cbn [nth]. rewrite Nat.add_succ_r. apply (FU DN BS eq_refl i). lia.
  Qed.
End Reader.
