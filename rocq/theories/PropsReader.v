(** * C86: reading data into points *)
From Coq Require Import List NArith ZArith Lia Bool Arith.
From Verif Require Import Bytes ModelPkt ModelAbe ModelEval ModelReader SpecSpace SpecPkt ProofPkt ProofPkt2 PropsPkt
  SpecReader ProofReader ProofReader2 ProofReader3 ProofReader4.
Import ListNotations.
Local Open Scope N_scope.

(** The data in blocks: nothing lost, nothing added, in order (without the delimiters, if one
    is set); no block larger than the free space it was asked for.  With no limit on a read
    every block but the last fills its point.  [all] is what a rewind would go back to. *)
Theorem C86_data : forall fuel s o f all T,
  o_eval o = false -> o_repeat o = false -> (o_delim o = None -> o_bufsize o <> Some 0) ->
  (forall k, 0 < f k) -> lenN T < limit_of o ->
  (mode_of o = MSplit \/ (o_delim o = None /\ forall k, at_once o (f k) <= f k)) ->
  exists n bs r',
    reading fuel s (open_reader o (Some (mkSource all T))) (spaces f n) bs r' /\ ended fuel s r' (f n) /\
    List.concat bs = undelimited (o_delim o) T /\
    Forall2 (fun b free => lenN b <= free) bs (spaces f n) /\
    (o_delim o = None -> Forall (fun b => b <> []) bs) /\
    (o_delim o = None -> o_bufsize o = None -> forall i, (S i < n)%nat -> lenN (nth i bs []) = f i) /\
    (forall m, o_delim o = None -> o_bufsize o = Some m -> Forall (fun b => lenN b <= m) bs).
Proof.
  intros fuel s o f all T EV CY TK F L MO.
  destruct (data_blocks fuel s o f EV CY TK F MO _ all T (limit_of o) None 0 (Nat.le_refl _) L)
    as (n & bs & r' & R & E & CC & F2 & NE & FU & AM); [congruence|].
  exists n, bs, r'. split; [exact R|]. split; [exact E|]. split; [exact CC|]. split; [exact F2|]. split; [exact NE|].
  split; [intros DN BN; exact (FU DN BN eq_refl)|]. intros m DN BM. exact (AM m DN BM (N.le_0_l _)).
Qed.
Definition plain_opts : DataReadOpts := mkDataOpts None None None None false false.
Example C86_data_ex : forall fuel s, exists r',
  reading fuel s (open_reader plain_opts (Some (mkSource None [1; 2; 3; 4; 5]))) (spaces (fun _ => 2) 3)
          [[1; 2]; [3; 4]; [5]] r' /\ ended fuel s r' 2.
Proof.
  intros. eexists. split; [repeat (econstructor; [vm_compute; reflexivity|]); constructor|].
  eexists; vm_compute; reflexivity.
Qed.

(** One block for each line, the lines (or the values of the expressions they are) in order, up
    to the limit on the reads, whatever the overflow mode, when they all fit. *)
Theorem C86_lines : forall fuel s o f d all T ls vs,
  o_delim o = Some d -> o_repeat o = false -> lines d T ls -> lenN T < 2 ^ 64 - 1 ->
  Forall (fun l => forall k, lenN l <= at_once o (f k)) ls ->
  Forall2 (value_of fuel s (o_eval o)) ls vs -> Forall (fun v => forall k, lenN v <= f k) vs ->
  let n := Nat.min (N.to_nat (limit_of o)) (List.length ls) in
  exists r', reading fuel s (open_reader o (Some (mkSource all T))) (spaces f n) (firstn n vs) r' /\
             ended fuel s r' (f n).
Proof.
  intros fuel s o f d all T ls vs DL CY H B FI V FV n.
  assert (VL : List.length ls = List.length vs) by (eapply forall2_len; eassumption).
  assert (NL : (n <= List.length ls)%nat) by (unfold n; lia).
  rewrite <- (firstn_skipn n ls) in H, V. rewrite <- (firstn_skipn n vs) in V.
  assert (LF : List.length (firstn n ls) = n) by (rewrite firstn_length; lia).
  assert (V1 : Forall2 (value_of fuel s (o_eval o)) (firstn n ls) (firstn n vs)).
  { apply Forall2_app_inv_l in V as (a & b & A1 & A2 & A3).
    assert (a = firstn n vs); [|now subst].
    apply (f_equal (firstn n)) in A3. rewrite firstn_app in A3.
    assert (List.length (firstn n vs) = n) by (rewrite firstn_length; lia).
    rewrite H0, Nat.sub_diag, firstn_firstn, Nat.min_id in A3. cbn [firstn] in A3. rewrite app_nil_r in A3.
    apply forall2_len in A1. rewrite firstn_app in A3. rewrite <- A1, LF, Nat.sub_diag in A3. cbn [firstn] in A3.
    rewrite app_nil_r in A3. rewrite A3. rewrite firstn_all2; [reflexivity|lia]. }
  assert (FV1 : Forall (fun v => forall k, lenN v <= f k) (firstn n vs)).
  { rewrite <- (firstn_skipn n vs) in FV. now apply Forall_app in FV as [A _]. }
  assert (FI1 : Forall (line_fits o f) (firstn n ls)).
  { rewrite <- (firstn_skipn n ls) in FI. now apply Forall_app in FI as [A _]. }
  destruct (line_run fuel s o f d DL all (firstn n ls) (skipn n ls) T (firstn n vs) (limit_of o) 0%nat H B FI1 V1)
    as (T' & H' & _ & R).
  { rewrite LF. unfold n. lia. }
  { now right. }
  rewrite LF, cuts_fit in R by assumption. eexists. split; [exact R|].
  destruct (Nat.le_gt_cases (List.length ls) (N.to_nat (limit_of o))) as [Q|Q].
  - assert (n = List.length ls) by (unfold n; lia). rewrite skipn_all2 in H' by lia. inversion H'; subst.
    now apply at_end.
  - replace (limit_of o - N.of_nat n) with 0 by (unfold n; lia). apply limit_zero.
Qed.
Definition line_opts : DataReadOpts := mkDataOpts (Some 10) None (Some 3) (Some MCarry) false false.
Example C86_lines_ex : lines 10 [97; 10; 10; 98; 99; 10; 100] [[97]; []; [98; 99]; [100]] /\
  forall fuel s, exists r',
  reading fuel s (open_reader line_opts (Some (mkSource None [97; 10; 10; 98; 99; 10; 100]))) (spaces (fun _ => 2) 3)
          [[97]; []; [98; 99]] r' /\ ended fuel s r' 2.
Proof.
  split.
  - apply (lines_more 10 [97]); [now intros [|[]]|]. apply (lines_more 10 []); [intros []|].
    apply (lines_more 10 [98; 99]); [now intros [|[|[]]]|]. apply lines_last; [discriminate|now intros [|[]]].
  - intros. eexists. split; [repeat (econstructor; [vm_compute; reflexivity|]); constructor|].
    eexists; vm_compute; reflexivity.
Qed.

(** Values that do not fit: cut off in mode Trim, ... *)
Theorem C86_trim : forall fuel s o f d all T ls vs,
  o_delim o = Some d -> o_repeat o = false -> mode_of o = MTrim -> lines d T ls -> lenN T < 2 ^ 64 - 1 ->
  Forall (fun l => forall k, lenN l <= at_once o (f k)) ls ->
  Forall2 (value_of fuel s (o_eval o)) ls vs -> N.of_nat (List.length ls) <= limit_of o ->
  exists bs r', reading fuel s (open_reader o (Some (mkSource all T))) (spaces f (List.length ls)) bs r' /\
    ended fuel s r' (f (List.length ls)) /\ List.length bs = List.length vs /\
    forall i, (i < List.length vs)%nat -> nth i bs [] = takeN (f i) (nth i vs []).
Proof.
  intros fuel s o f d all T ls vs DL CY M H B FI V L.
  rewrite <- (app_nil_r ls) in H.
  destruct (line_run fuel s o f d DL all ls [] T vs (limit_of o) 0%nat H B FI V L (or_introl M)) as (T' & H' & _ & R).
  inversion H'; subst. eexists. eexists. split; [exact R|]. split; [now apply at_end|].
  assert (X : forall vs k, List.length (cuts f k vs) = List.length vs /\
     forall i, (i < List.length vs)%nat -> nth i (cuts f k vs) [] = takeN (f (k + i)%nat) (nth i vs [])).
  { clear. induction vs as [|v vs IH]; intros k; [split; [reflexivity|intros i I; cbn in I; lia]|].
    destruct (IH (S k)) as [A1 A2]. cbn [cuts List.length]. split; [now rewrite A1|].
    intros [|i] I; cbn [nth]; [now rewrite Nat.add_0_r|]. rewrite A2 by lia. now rewrite Nat.add_succ_r. }
  destruct (X vs 0%nat) as [A1 A2]. split; [exact A1|exact A2].
Qed.
(** ... given to the next blocks in mode Split, ... *)
Theorem C86_split : forall fuel s o f d all T ls vs,
  o_delim o = Some d -> o_repeat o = false -> mode_of o = MSplit -> lines d T ls -> lenN T < 2 ^ 64 - 1 ->
  (forall k, 0 < f k) -> Forall (fun l => forall k, lenN l <= at_once o (f k)) ls ->
  Forall2 (value_of fuel s (o_eval o)) ls vs -> N.of_nat (List.length ls) < limit_of o ->
  exists n bs r', reading fuel s (open_reader o (Some (mkSource all T))) (spaces f n) bs r' /\ ended fuel s r' (f n) /\
    List.concat bs = List.concat vs /\ Forall2 (fun b free => lenN b <= free) bs (spaces f n).
Proof.
  intros fuel s o f d all T ls vs DL CY M H B F FI V L.
  destruct (split_run fuel s o f d DL all M F ls T vs (limit_of o) 0%nat H B FI V L) as (n & bs & R & CC & F2).
  exists n, bs. eexists. split; [exact R|]. split; [now apply at_end|]. split; assumption.
Qed.
(** ... and refused in mode Error, the default, after the blocks before. *)
Theorem C86_error : forall fuel s o f d all T ls1 l ls2 vs1 v,
  o_delim o = Some d -> mode_of o = MError -> lines d T (ls1 ++ l :: ls2) -> lenN T < 2 ^ 64 - 1 ->
  Forall (fun l => forall k, lenN l <= at_once o (f k)) (ls1 ++ [l]) ->
  Forall2 (value_of fuel s (o_eval o)) ls1 vs1 -> Forall (fun v => forall k, lenN v <= f k) vs1 ->
  value_of fuel s (o_eval o) l v -> f (List.length ls1) < lenN v -> N.of_nat (List.length ls1) < limit_of o ->
  exists r', reading fuel s (open_reader o (Some (mkSource all T))) (spaces f (List.length ls1)) vs1 r' /\
    fails_with fuel s r' (f (List.length ls1)) ETooBig.
Proof.
  intros fuel s o f d all T ls1 l ls2 vs1 v DL M H B FI V FV V1 BIG L.
  apply Forall_app in FI as [FI1 FI2]. inversion_clear FI2.
  destruct (line_run fuel s o f d DL all ls1 (l :: ls2) T vs1 (limit_of o) 0%nat H B FI1 V) as (T' & H' & B' & R);
    [lia|now right|].
  rewrite cuts_fit in R by assumption. eexists. split; [exact R|].
  destruct (line_call fuel s o f d DL all T' l ls2 v (limit_of o - N.of_nat (List.length ls1)) (List.length ls1) H' B')
    as (T2 & _ & _ & C); [assumption|lia|assumption|].
  unfold checked in C. rewrite (proj2 (N.ltb_lt _ _) BIG), M in C. eexists. exact C.
Qed.
(** With [--data-repeat] the lines come again and again, in order. *)
Theorem C86_repeat : forall fuel s o f d T ls vs n,
  o_delim o = Some d -> o_repeat o = true -> lines d T ls -> ls <> [] -> lenN T < 2 ^ 64 - 1 ->
  Forall (fun l => forall k, lenN l <= at_once o (f k)) ls ->
  Forall2 (value_of fuel s (o_eval o)) ls vs -> Forall (fun v => forall k, lenN v <= f k) vs ->
  N.of_nat n <= limit_of o ->
  exists bs r', reading fuel s (open_reader o (Some (mkSource (Some T) T))) (spaces f n) bs r' /\
    forall i, (i < n)%nat -> nth i bs [] = nth (i mod List.length ls) vs [].
Proof.
  intros fuel s o f d T ls vs n DL CY H NE B FI V FV L.
  destruct (cycle_run fuel s o f d DL T ls vs CY H NE B FI V (or_intror FV) n T 0%nat 0%nat (limit_of o) H B
     (Nat.le_0_l _) L) as (bs & r' & R & X).
  exists bs, r'. split; [exact R|]. intros i I. rewrite X by assumption. cbn [Nat.add]. unfold cut. apply takeN_all.
  rewrite Forall_forall in FV. apply FV, nth_In. rewrite <- (forall2_len _ _ _ V). apply Nat.mod_upper_bound.
  destruct ls; [congruence|discriminate].
Qed.

(** Mode Carry does not keep the order: a line longer than the free space is taken apart and
    put together wrongly.  abcdefghijklmno comes out as abcd jefg ohik lmn. *)
Theorem C86_carry_refuted : exists o T bs,
  o_delim o = Some 10 /\ mode_of o = MCarry /\ o_eval o = false /\ o_bufsize o = None /\
  (forall fuel s, exists r', reading fuel s (open_reader o (Some (mkSource None T))) (spaces (fun _ => 4) (List.length bs)) bs r' /\
                             ended fuel s r' 4) /\
  List.concat bs <> undelimited (Some 10) T.
Proof.
  exists (mkDataOpts (Some 10) None None (Some MCarry) false false),
         [97; 98; 99; 100; 101; 102; 103; 104; 105; 106; 107; 108; 109; 110; 111; 10].
  exists [[97; 98; 99; 100]; [106; 101; 102; 103]; [111; 104; 105; 107]; [108; 109; 110]].
  repeat (split; [reflexivity|]). split.
  - intros. eexists. split; [repeat (econstructor; [vm_compute; reflexivity|]); constructor|].
    eexists; vm_compute; reflexivity.
  - vm_compute. discriminate.
Qed.

(** [lk datapoint]: the datapoints written hold the data, each a valid packet. *)
Theorem C86_datapoints : forall fuel s c nh o all T,
  o_eval o = false -> o_repeat o = false -> (o_delim o = None -> o_bufsize o <> Some 0) -> lenN T < limit_of o ->
  (mode_of o = MSplit \/ (o_delim o = None /\ at_once o 65020 <= 65020)) ->
  exists bs, List.concat bs = undelimited (o_delim o) T /\ Forall (fun b => lenN b <= 65020) bs /\
    (o_delim o = None -> o_bufsize o = None -> forall i, (S i < List.length bs)%nat -> lenN (nth i bs []) = 65020) /\
    forall n, (List.length bs < n)%nat -> exists ps,
      write_datapoint fuel s c nh n (open_reader o (Some (mkSource all T))) = (ps, Ok tt) /\
      map (fun p => seg_bytes (np_byte_segments p)) ps = map (fun b => packet (hash c) nh (PData b)) bs.
Proof.
  intros fuel s c nh o all T EV CY TK L MO.
  destruct (C86_data fuel s o (fun _ => 65020) all T EV CY TK ltac:(intros; reflexivity) L) as (n & bs & r' & R & E & CC & F2 & _ & FU & _).
  { destruct MO as [M|[M1 M2]]; [now left|right; now split]. }
  assert (BL : List.length bs = n).
  { apply forall2_len in F2. unfold spaces in F2. now rewrite map_length, seq_length in F2. }
  assert (FX : Forall (fun x => x = 65020) (spaces (fun _ => 65020) n)).
  { apply Forall_forall. intros x X. unfold spaces in X. apply in_map_iff in X as (? & <- & _). reflexivity. }
  exists bs. split; [assumption|].
  assert (FB : Forall (fun b => lenN b <= 65020) bs).
  { clear -F2 FX. induction F2; [constructor|]. inversion_clear FX. subst. constructor; auto. }
  split; [assumption|]. split; [rewrite BL; exact FU|].
  intros m ML. eexists. split; [apply (datapoints_run fuel s c nh _ _ _ _ R FX F2 E m ML)|].
  rewrite map_map. apply map_ext_in. intros b IB. rewrite Forall_forall in FB. specialize (FB b IB).
  apply seg_net. cbn [point_size]. lia.
Qed.
Example C86_datapoints_ex : lenN [1; 2; 3] < limit_of plain_opts /\ mode_of plain_opts = MError /\
  at_once plain_opts 65020 <= 65020 /\
  forall fuel s c nh, fst (write_datapoint fuel s c nh 2 (open_reader plain_opts (Some (mkSource None [1; 2; 3])))) =
                      [net_of c nh (PData [1; 2; 3])].
Proof. repeat split; try (vm_compute; reflexivity). vm_compute. discriminate. Qed.

Lemma within (f : nat -> N) : forall (bs : list bytes) k n, Forall2 (fun b free => lenN b <= free) bs (map f (seq k n)) ->
  forall i b, nth_error bs i = Some b -> lenN b <= f (k + i)%nat.
Proof.
  induction bs as [|x bs IH]; intros k n H i b I; [destruct i; discriminate|].
  inversion H as [|? y ? fs' H1 H2 E1 E2]; subst. destruct n as [|n]; [discriminate|].
  cbn [seq map] in E2. injection E2 as -> ->.
  destruct i as [|i]; [injection I as <-; now rewrite Nat.add_0_r|]. cbn [nth_error] in I.
  rewrite Nat.add_succ_r. exact (IH (S k) n H2 i b I).
Qed.
(** The free space of the k-th point of [lk link --multi]. *)
Definition free_at (signed : bool) (cs : list bytes) (ls : list (bytes * bytes)) (tag : option bytes) (k : nat) : N :=
  (if signed then 64924 else 64960) -
  48 * (match tag, k with Some _, S _ => lenN ls + 1 | _, _ => lenN ls end) - lenN (wire_rooted cs).
Lemma free_at_eq c key cs ls tag k :
  free c cs key ls tag k = free_at (match key with Some _ => true | None => false end) cs ls tag k.
Proof. destruct key; reflexivity. Qed.

(** [lk link --multi]: the points hold the data, and with [--multi-link] each one links the
    one before it.  Signed points need [--data-bufsize] with 60 bytes to spare: see below. *)
Theorem C86_points_partial : forall fuel s c nh g dm cs key stamp ls tag o all T,
  crypto_ok c -> space_ok cs -> (List.length cs <= 8)%nat -> Forall link_ok ls -> (forall t, tag = Some t -> lenN t = 16) ->
  48 * (lenN ls + 1) + lenN (wire_rooted cs) < 64960 ->
  o_delim o = None -> o_eval o = false -> o_repeat o = false -> o_bufsize o <> Some 0 -> T <> [] -> lenN T < limit_of o ->
  (mode_of o = MSplit \/ forall k, at_once o (free_at false cs ls tag k) <= free_at false cs ls tag k) ->
  (key <> None -> exists m, o_bufsize o = Some m /\ 160 + 48 * (lenN ls + 1) + lenN (wire_rooted cs) + m <= 65024) ->
  exists bs, List.concat bs = T /\ Forall (fun b => b <> []) bs /\
    forall n, (List.length bs <= n)%nat -> exists ps,
      linkpoint fuel s c nh g dm (wire_space cs) (wire_rooted cs) key stamp n ls true tag
                (open_reader o (Some (mkSource all T))) = (ps, Ok tt) /\
      map (fun p => seg_bytes (np_byte_segments p)) ps =
      map (packet (hash c) nh) (chain_of (hash c) (point_with c g dm (wire_rooted cs) key stamp) ls tag 0 None bs).
Proof.
  intros fuel s c nh g dm cs key stamp ls tag o all T CO SO S8 LO TO FR DN EV CY TK TN L MO KM.
  set (f := free c cs key ls tag).
  assert (FR' : 48 * (lenN ls + 1) + lenN (wire_rooted cs) < (if signed c key then 64924 else 64960)).
  { destruct key as [sk|]; [|exact FR]. destruct (KM ltac:(discriminate)) as (m & BM & MM). cbn [signed]. lia. }
  assert (FP : forall k, 0 < f k).
  { intros k. unfold f, free, link_count. destruct (signed c key), tag, k; lia. }
  assert (MO' : mode_of o = MSplit \/ (o_delim o = None /\ forall k, at_once o (f k) <= f k)).
  { destruct MO as [M|M]; [now left|]. right. split; [assumption|]. intros k.
    destruct key as [sk|].
    - destruct (KM ltac:(discriminate)) as (m & BM & MM). unfold at_once. rewrite BM.
      unfold f, free, link_count, signed. destruct tag, k; lia.
    - unfold f. rewrite free_at_eq. apply M. }
  destruct (C86_data fuel s o f all T EV CY ltac:(now intros _) FP L MO') as (n & bs & r' & R & E & CC & F2 & NE & _ & AM).
  rewrite DN in CC. cbn [undelimited] in CC.
  assert (BL : List.length bs = n).
  { apply forall2_len in F2. unfold spaces in F2. now rewrite map_length, seq_length in F2. }
  assert (SZ : forall i b, nth_error bs i = Some b -> sized c cs key ls tag i b).
  { intros i b I. unfold sized. destruct key as [sk|].
    - destruct (KM ltac:(discriminate)) as (m & BM & MM). cbn [signed].
      assert (BB : lenN b <= m).
      { specialize (AM m DN BM). rewrite Forall_forall in AM. apply AM. eapply nth_error_In; eassumption. }
      unfold link_count. destruct tag, i; lia.
    - assert (FB : lenN b <= f i).
      { exact (within f bs 0%nat n F2 i b I). }
      cbn [signed]. unfold f, free, link_count, signed in FB. unfold link_count. cbn [signed] in FR'.
      destruct tag, i; lia. }
  assert (BN : bs <> []) by (intros ->; now apply TN; symmetry).
  exists bs. split; [assumption|]. split; [auto|]. intros m ML. subst n.
  destruct CO as (HC & _).
  eexists. split; [apply (linkpoint_run fuel s c nh g dm cs key stamp ls tag SO S8 LO TO HC FR' _ bs r' m R BN E SZ ML)|].
  rewrite map_map. rewrite <- (chain_eq c g dm cs key stamp ls tag bs 0 None).
  apply map_ext_in. intros p IP. apply seg_net.
  eapply (chain_sizes c g dm cs key stamp ls tag bs 0 None); [split; reflexivity|exact SZ|exact IP].
Qed.
Example C86_points_ex : 48 * (lenN ex_links + 1) + lenN (wire_rooted [[104; 105]]) < 64960 /\
  (forall k, at_once plain_opts (free_at false [[104; 105]] ex_links (Some (repeat 7 16)) k) <=
             free_at false [[104; 105]] ex_links (Some (repeat 7 16)) k) /\
  forall fuel s, List.length (fst (linkpoint fuel s toy ex_nh ex_group ex_domain (wire_space [[104; 105]]) (wire_rooted [[104; 105]])
     None (fun k => N.of_nat k) 5 ex_links true (Some (repeat 7 16))
     (open_reader (mkDataOpts None (Some 2) None None false false) (Some (mkSource None [1; 2; 3; 4; 5]))))) = 3%nat.
Proof. split; [vm_compute; reflexivity|]. split; [intros; apply N.le_refl|]. intros. vm_compute. reflexivity. Qed.

(** Without [--multi] one point is made of the start of the data and the rest is not used. *)
Theorem C86_one : forall fuel s c nh g dm cs stamp ls tag o all T n,
  crypto_ok c -> space_ok cs -> (List.length cs <= 8)%nat -> Forall link_ok ls ->
  48 * (lenN ls + 1) + lenN (wire_rooted cs) < 64960 ->
  o_delim o = None -> o_eval o = false -> o_bufsize o = None -> T <> [] -> limit_of o <> 0 ->
  linkpoint fuel s c nh g dm (wire_space cs) (wire_rooted cs) None stamp n ls false tag (open_reader o (Some (mkSource all T))) =
  ([net_of c nh (PLink g dm (stamp 0%nat) ls (wire_rooted cs) (takeN (64960 - 48 * lenN ls - lenN (wire_rooted cs)) T))], Ok tt).
Proof.
  intros fuel s c nh g dm cs stamp ls tag o all T n (HC & _) SO S8 LO FR DN EV BN TN L.
  set (fr := 64960 - 48 * lenN ls - lenN (wire_rooted cs)).
  assert (FE : free c cs None ls None 0 = fr) by (unfold free, signed, link_count; reflexivity).
  assert (P : 0 < fr) by (unfold fr; lia).
  destruct (read_some all T fr None) as (got & rest & R & SP & GN & _ & LG); [assumption|lia|].
  assert (GE : got = takeN fr T).
  { unfold source_read in R. cbn [s_rest s_all] in R. now injection R as <- _. }
  assert (C := call_reads fuel s o all T (limit_of o) fr got rest).
  rewrite DN in C. unfold at_once in C. rewrite BN in C. specialize (C R GN L).
  unfold block_of in C. rewrite EV, DN in C. cbn [strip] in C. unfold checked in C.
  assert (LE : lenN got <= fr) by (rewrite GE, lenN_takeN; lia).
  rewrite (proj2 (N.ltb_ge _ _) LE) in C. rewrite <- GE.
  change (PLink g dm (stamp 0%nat) ls (wire_rooted cs) got) with (made c g dm cs None stamp 0 ls got).
  eapply (linkpoint_one fuel s c nh g dm cs None stamp ls None SO S8 LO); [discriminate|exact HC|exact FR| |].
  - rewrite FE. econstructor; [exact C|constructor].
  - unfold sized. cbn [signed]. unfold link_count. unfold fr in LE. lia.
Qed.

(** Signed points do not: the free space promised is 60 bytes too much (C07), and with that
    many bytes at hand [lk link --sign] panics. *)
Theorem C86_sign_refuted : exists T, forall fuel s c nh g dm k stamp n tag multi all,
  linkpoint fuel s c nh g dm [] [] (Some k) stamp n [] multi tag (open_reader plain_opts (Some (mkSource all T))) = ([], Panic).
Proof.
  exists (repeat 0 (N.to_nat 64924)). intros. unfold linkpoint, build_with_reader.
  set (T := repeat 0 (N.to_nat 64924)).
  assert (TL : lenN T = 64924) by (unfold T; rewrite lenN_repeat; apply N2Nat.id). clearbody T.
  change (calc_free_space [] [] [] true) with 64924%Z. change (64924 <? 0)%Z with false.
  change (Z.to_N 64924) with 64924.
  assert (R : source_read (mkSource all T) (at_once plain_opts 64924) (o_delim plain_opts) = (T, mkSource all [])).
  { unfold source_read. cbn [plain_opts o_delim s_rest s_all at_once o_bufsize]. change (at_once _ 64924) with 64924.
    rewrite takeN_all by lia. now rewrite dropN_all by lia. }
  assert (TN : T <> []) by (intros E; rewrite E in TL; discriminate TL).
  assert (C := call_reads fuel s plain_opts all T (limit_of plain_opts) 64924 T [] R TN ltac:(discriminate)).
  change (open_reader plain_opts (Some (mkSource all T))) with (st plain_opts all T (limit_of plain_opts) None).
  rewrite C. unfold block_of. change (strip (o_delim plain_opts) T) with T. change (o_eval plain_opts) with false.
  cbv iota. unfold checked. rewrite TL. change (64924 <? 64924) with false. cbv iota. cbn [try_point].
  rewrite (proj2 (C06_keypoint_limit c g dm [] [] T (stamp 0%nat) k nh (Forall_nil _) (or_introl eq_refl))).
  - reflexivity.
  - change (lenN (@nil (bytes * bytes))) with 0. change (lenN (@nil N)) with 0. rewrite TL. reflexivity.
Qed.

(** F113: a limit on the reads drops what a block left over. *)
Theorem F113_limit_drops : exists o, o_reads o = Some 1 /\ mode_of o = MSplit /\ o_bufsize o = Some 4 /\
  forall fuel s, exists r', reading fuel s (open_reader o (Some (mkSource None [1; 2; 3; 4]))) [2] [[1; 2]] r' /\ ended fuel s r' 2.
Proof.
  exists (mkDataOpts None (Some 4) (Some 1) (Some MSplit) false false). repeat (split; [reflexivity|]).
  intros. eexists. split; [repeat (econstructor; [vm_compute; reflexivity|]); constructor|].
  eexists; vm_compute; reflexivity.
Qed.
(** F114: without a source there is no end: every call gives an empty block, up to the limit
    on the reads, which is [2^64-1] by default. *)
Theorem F114_no_data_no_end : forall fuel s o fs, N.of_nat (List.length fs) <= limit_of o ->
  exists r', reading fuel s (open_reader o None) fs (repeat [] (List.length fs)) r'.
Proof.
  intros fuel s o fs. unfold open_reader. fold (limit_of o) (mode_of o). generalize (limit_of o) as lim.
  induction fs as [|x fs IH]; intros lim L; [eexists; constructor|]. cbn [List.length] in L.
  destruct (IH (lim - 1) ltac:(lia)) as [r' R]. exists r'. cbn [List.length repeat]. econstructor; [|exact R].
  unfold read_next_data, read_new. cbn [r_call_limit r_next r_input with_limit r_take_max].
  rewrite (proj2 (N.eqb_neq lim 0)) by lia. reflexivity.
Qed.
(** F115: a read of nothing is taken for the end of the data. *)
Theorem F115_empty_read_is_end : forall fuel s o all T, o_bufsize o = Some 0 -> o_delim o = None -> o_repeat o = false ->
  forall free, ended fuel s (open_reader o (Some (mkSource all T))) free.
Proof.
  intros fuel s o all T B D C free. unfold ended, read_next_data, read_new, open_reader.
  cbn [r_call_limit r_next r_input with_limit r_take_max r_delim r_cycle]. rewrite B, D, C.
  destruct (_ =? 0); [eauto|]. unfold source_read. cbn [s_rest s_all]. change (takeN 0 T) with (@nil N).
  cbv iota beta zeta. eexists. reflexivity.
Qed.

Print Assumptions C86_data.
Print Assumptions C86_lines.
Print Assumptions C86_trim.
Print Assumptions C86_split.
Print Assumptions C86_error.
Print Assumptions C86_repeat.
Print Assumptions C86_carry_refuted.
Print Assumptions C86_datapoints.
Print Assumptions C86_points_partial.
Print Assumptions C86_one.
Print Assumptions C86_sign_refuted.
Print Assumptions F113_limit_drops.
Print Assumptions F114_no_data_no_end.
Print Assumptions F115_empty_read_is_end.
