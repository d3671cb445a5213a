(** * Proofs about reading data: the commands *)
From Coq Require Import List NArith ZArith Lia Bool Arith.
From Verif Require Import Bytes ModelPkt ModelAbe ModelEval ModelReader SpecSpace SpecPkt ProofPkt ProofPkt2 PropsPkt
  SpecReader ProofReader ProofReader2 ProofReader3.
Import ListNotations.
Local Open Scope N_scope.

Section Commands.
  Variables (fuel : nat) (s : scope) (c : crypto) (nh : bytes).

  Lemma datapoints_run : forall r fs bs r', reading fuel s r fs bs r' ->
    Forall (fun x => x = 65020) fs -> Forall2 (fun b free => lenN b <= free) bs fs -> ended fuel s r' 65020 ->
    forall n, (List.length bs < n)%nat ->
    write_datapoint fuel s c nh n r = (map (fun b => net_of c nh (PData b)) bs, Ok tt).
  Proof.
    induction 1 as [r|r x b r1 fs bs r2 C R IH]; intros FX F2 E n L.
    - destruct n as [|n]; [cbn in L; lia|]. cbn [write_datapoint]. change MAX_CONTENT_SIZE with 65020.
      destruct E as [r' E]. rewrite E. reflexivity.
    - inversion_clear FX as [|? ? X FX']. subst x. inversion_clear F2 as [|? ? ? ? B F2'].
      destruct n as [|n]; [cbn in L; lia|]. cbn [write_datapoint]. change MAX_CONTENT_SIZE with 65020.
      rewrite C, try_datapoint_eval. rewrite (proj2 (N.leb_le _ _) B).
      rewrite (IH FX' F2' E n) by (cbn in L; lia). reflexivity.
  Qed.

  Variables (g dm : bytes) (cs : list bytes) (key : option (skey c)) (stamp : nat -> N) (ls : list (bytes * bytes)) (tag : option bytes).
  Hypotheses (SO : space_ok cs) (S8 : (List.length cs <= 8)%nat) (LO : Forall link_ok ls)
             (TO : forall t, tag = Some t -> lenN t = 16) (HC : forall b, lenN (hash c b) = 32).

  Definition signed : bool := match key with Some _ => true | None => false end.
  (** The point made of a block, with or without a key. *)
  Definition made (k : nat) (ls : list (bytes * bytes)) (b : bytes) : point :=
    match key with
    | Some sk => key_point c g dm (stamp k) ls (wire_rooted cs) b sk
    | None => PLink g dm (stamp k) ls (wire_rooted cs) b
    end.
  Definition with_prev (prev : option bytes) : list (bytes * bytes) :=
    match tag, prev with Some t, Some h => ls ++ [(t, h)] | _, _ => ls end.
  Fixpoint chain (k : nat) (prev : option bytes) (bs : list bytes) : list point :=
    match bs with
    | [] => []
    | b :: bs => let p := made k (with_prev prev) b in p :: chain (S k) (Some (hash c (content p))) bs
    end.
  Definition link_count (k : nat) : N := match tag, k with Some _, S _ => lenN ls + 1 | _, _ => lenN ls end.
  Definition free (k : nat) : N :=
    (if signed then 64924 else 64960) - 48 * link_count k - lenN (wire_rooted cs).
  Hypothesis FR : 48 * (lenN ls + 1) + lenN (wire_rooted cs) < (if signed then 64924 else 64960).

  Lemma with_prev_ok prev : (forall h, prev = Some h -> lenN h = 32) -> Forall link_ok (with_prev prev).
  Proof.
    intros H. unfold with_prev. destruct tag as [t|]; [|assumption]. destruct prev as [h|]; [|assumption].
    apply Forall_app. split; [assumption|]. constructor; [|constructor]. split; [now apply TO|now apply H].
  Qed.
  Lemma with_prev_len k prev : (prev = None <-> k = 0%nat) -> lenN (with_prev prev) = link_count k.
  Proof.
    clear SO S8 LO TO HC FR. intros H. unfold with_prev, link_count. destruct tag as [t|]; [|reflexivity]. destruct prev as [h|], k as [|k].
    - destruct H as [_ H]. now discriminate H.
    - now rewrite lenN_app.
    - reflexivity.
    - destruct H as [H _]. discriminate (H eq_refl).
  Qed.
  Lemma build_point k prev r r1 b : (prev = None <-> k = 0%nat) -> (forall h, prev = Some h -> lenN h = 32) ->
    read_next_data fuel s r (free k) = (r1, Ok (Some b)) ->
    (if signed then 160 else 64) + 48 * link_count k + lenN (wire_rooted cs) + lenN b <= 65024 ->
    build_with_reader fuel s c nh g dm (wire_space cs) (wire_rooted cs) key stamp k (with_prev prev) r =
    (r1, Ok (Some (net_of c nh (made k (with_prev prev) b)))).
  Proof.
    intros PK PH R SZ. unfold build_with_reader. fold signed. rewrite calc_eval.
    pose proof (with_prev_len k prev PK) as PL. pose proof (with_prev_ok prev PH) as PO.
    pose proof (wire_rooted_ok cs SO S8) as RO.
    rewrite PL. change (lenN (@nil N)) with 0.
    match goal with |- context [(?z <? 0)%Z] => assert (E : z = Z.of_N (free k)) end.
    { unfold free, link_count in *. destruct signed, tag, k; lia. }
    rewrite E, N2Z.id. destruct (Z.ltb_spec (Z.of_N (free k)) 0) as [Q|Q]; [lia|]. clear Q E. rewrite R.
    unfold try_point, made, signed in *. destruct key as [sk|].
    - rewrite try_keypoint_eval by assumption. unfold key_point at 1. cbn [point_size]. rewrite PL.
      rewrite (proj2 (N.leb_le _ _)) by lia. reflexivity.
    - rewrite try_linkpoint_eval by assumption. cbn [point_size]. rewrite PL.
      rewrite (proj2 (N.leb_le _ _)) by lia. reflexivity.
  Qed.
  Lemma build_end k prev r : (prev = None <-> k = 0%nat) -> ended fuel s r (free k) ->
    exists r', build_with_reader fuel s c nh g dm (wire_space cs) (wire_rooted cs) key stamp k (with_prev prev) r = (r', Ok None).
  Proof.
    intros PK [r' R]. exists r'. unfold build_with_reader. fold signed. rewrite calc_eval.
    rewrite (with_prev_len k prev PK). change (lenN (@nil N)) with 0.
    match goal with |- context [(?z <? 0)%Z] => assert (E : z = Z.of_N (free k)) end.
    { unfold free, link_count in *. destruct signed, tag, k; lia. }
    rewrite E, N2Z.id. destruct (Z.ltb_spec (Z.of_N (free k)) 0) as [Q|Q]; [lia|]. now rewrite R.
  Qed.

  Definition sized (k : nat) (b : bytes) : Prop :=
    (if signed then 160 else 64) + 48 * link_count k + lenN (wire_rooted cs) + lenN b <= 65024.
  Lemma loop_run : forall r fs bs r', reading fuel s r fs bs r' ->
    forall k h n, lenN h = 32 -> fs = from free (S k) (List.length bs) -> ended fuel s r' (free (S k + List.length bs)) ->
    (forall i b, nth_error bs i = Some b -> sized (S k + i) b) -> (List.length bs < n)%nat ->
    linkpoint_loop fuel s c nh g dm (wire_space cs) (wire_rooted cs) key stamp n (S k) ls tag h r =
    (map (net_of c nh) (chain (S k) (Some h) bs), Ok tt).
  Proof.
    induction 1 as [r|r x b r1 fs bs r2 C R IH]; intros k h n HH FX E SZ L; (destruct n as [|n]; [cbn in L; lia|]);
      cbn [linkpoint_loop].
    - change (match tag with Some t => ls ++ [(t, h)] | None => ls end) with (with_prev (Some h)).
      cbn [List.length] in E. rewrite Nat.add_0_r in E.
      destruct (build_end (S k) (Some h) r) as [r' B]; [split; discriminate|assumption|]. rewrite B. reflexivity.
    - change (match tag with Some t => ls ++ [(t, h)] | None => ls end) with (with_prev (Some h)).
      cbn [List.length] in *. rewrite from_S in FX. injection FX as FX1 FX2. subst x.
      rewrite (build_point (S k) (Some h) r r1 b); [|split; discriminate|now intros ? [= <-]|assumption|].
      + cbn [net_of np_hash].
        rewrite (IH (S k) (hash c (content (made (S k) (with_prev (Some h)) b))) n); [reflexivity|apply HC|exact FX2| | |lia].
        * now rewrite Nat.add_succ_r in E.
        * intros i b' I. specialize (SZ (S i) b' I). now rewrite Nat.add_succ_r in SZ.
      + specialize (SZ 0%nat b eq_refl). rewrite Nat.add_0_r in SZ. exact SZ.
  Qed.
  Lemma linkpoint_run r bs r' n : reading fuel s r (from free 0 (List.length bs)) bs r' -> bs <> [] ->
    ended fuel s r' (free (List.length bs)) -> (forall i b, nth_error bs i = Some b -> sized i b) -> (List.length bs <= n)%nat ->
    linkpoint fuel s c nh g dm (wire_space cs) (wire_rooted cs) key stamp n ls true tag r =
    (map (net_of c nh) (chain 0 None bs), Ok tt).
  Proof.
    intros R NE E SZ L. destruct bs as [|b bs]; [congruence|]. cbn [List.length] in *. rewrite from_S in R.
    inversion R as [|? ? ? r1 ? ? ? C R1]; subst. unfold linkpoint.
    assert (WP : with_prev None = ls) by (unfold with_prev; destruct tag; reflexivity).
    assert (B := build_point 0 None r r1 b ltac:(split; reflexivity) ltac:(discriminate) C (SZ 0%nat b eq_refl)).
    rewrite WP in B. rewrite B. cbn [net_of np_hash].
    rewrite (loop_run r1 _ bs r' R1 0%nat _ n); [|apply HC|reflexivity|exact E| |lia].
    - cbn [chain map]. rewrite WP. reflexivity.
    - intros i b' I. exact (SZ (S i) b' I).
  Qed.
  Lemma linkpoint_one r b r' n t : reading fuel s r [free 0] [b] r' -> sized 0 b ->
    linkpoint fuel s c nh g dm (wire_space cs) (wire_rooted cs) key stamp n ls false t r =
    ([net_of c nh (made 0 ls b)], Ok tt).
  Proof.
    intros R SZ. inversion R as [|? ? ? r1 ? ? ? C R1]; subst. unfold linkpoint.
    assert (WP : with_prev None = ls) by (unfold with_prev; destruct tag; reflexivity).
    assert (B := build_point 0 None r r1 b ltac:(split; reflexivity) ltac:(discriminate) C SZ).
    rewrite WP in B. rewrite B. reflexivity.
  Qed.
End Commands.

Lemma chain_eq c g dm cs key stamp ls tag : forall bs k prev,
  chain c g dm cs key stamp ls tag k (match prev with Some q => Some (hash c (content q)) | None => None end) bs =
  chain_of (hash c) (point_with c g dm (wire_rooted cs) key stamp) ls tag k prev bs.
Proof.
  induction bs as [|b bs IH]; intros k prev; [reflexivity|]. cbn [chain chain_of].
  assert (E : made c g dm cs key stamp k (with_prev ls tag (match prev with Some q => Some (hash c (content q)) | None => None end)) b =
              point_with c g dm (wire_rooted cs) key stamp k
                (ls ++ match tag, prev with Some t, Some q => [(t, hash c (content q))] | _, _ => [] end) b).
  { unfold made, point_with, with_prev, key_point.
    destruct tag, prev; rewrite ?app_nil_r; reflexivity. }
  rewrite E. f_equal. rewrite <- (IH (S k) (Some _)). reflexivity.
Qed.

Lemma chain_sizes c g dm cs key stamp ls tag : forall bs k prev, (prev = None <-> k = 0%nat) ->
  (forall i b, nth_error bs i = Some b -> sized c cs key ls tag (k + i) b) ->
  forall p, In p (chain c g dm cs key stamp ls tag k prev bs) -> point_size p <= 65024.
Proof.
  induction bs as [|b bs IH]; intros k prev PK SZ p I; [destruct I|]. cbn [chain] in I. destruct I as [<-|I].
  - specialize (SZ 0%nat b eq_refl). rewrite Nat.add_0_r in SZ. unfold sized in SZ.
    pose proof (with_prev_len ls tag k prev PK) as PL. unfold made, signed in *.
    destruct key as [sk|]; unfold key_point; cbn [point_size]; rewrite PL; lia.
  - eapply (IH (S k) (Some _)); [split; discriminate| |exact I].
    intros i b' I'. specialize (SZ (S i) b' I'). now rewrite Nat.add_succ_r in SZ.
Qed.
