(** * Proofs about collecting packets *)
From Coq Require Import List NArith ZArith Lia Bool Arith.
From Verif Require Import Bytes ModelPkt ModelAbe ModelEval ModelReader SpecSpace SpecPkt ProofPkt ProofPkt2 PropsPkt
  SpecReader ProofReader3 ProofReader4 ModelCollect SpecCollect.
Import ListNotations.
Local Open Scope N_scope.

Lemma check_write_ok private p b : check_write private p = Ok b -> b = shown private p.
Proof.
  unfold check_write, shown, check_private. destruct private as [[|]|].
  - congruence.
  - destruct (parts_group (point_parts p)) as [g|]; [destruct (beqb g PRIVATE)|]; cbn; congruence.
  - destruct (parts_group (point_parts p)) as [g|]; [destruct (beqb g PRIVATE)|]; cbn; congruence.
Qed.
Lemma write_ok private ds p : forall o o', write_multi_dest private true ds p o = Ok o' ->
  o' = mkOut (o_log o ++ direct private ds p) (o_buf o ++ buffered private ds p).
Proof.
  induction ds as [|d ds IH]; intros o o' W; cbn [write_multi_dest] in W.
  - injection W as <-. unfold direct, buffered. destruct (shown private p); cbn; rewrite !app_nil_r; now destruct o.
  - unfold write_dest in W. destruct (check_write private p) as [ok| | |] eqn:E; try discriminate.
    apply check_write_ok in E. cbn [obind] in W.
    destruct (shown private p) eqn:SH; subst ok; cbn [negb obind] in W.
    + assert (Q : exists o1, write_multi_dest private true ds p o1 = Ok o' /\
        o_log o1 = o_log o ++ (if is_buffer d then [] else [(d, p)]) /\ o_buf o1 = o_buf o ++ (if is_buffer d then [p] else [])).
      { destruct d; cbn [obind] in W; eexists; (split; [exact W|]); cbn; rewrite ?app_nil_r; auto. }
      destruct Q as (o1 & W1 & L1 & B1). apply IH in W1. rewrite W1, L1, B1. unfold direct, buffered. rewrite SH.
      destruct d; cbn; rewrite <- ?app_assoc; cbn; reflexivity.
    + apply IH in W. rewrite W. unfold direct, buffered. now rewrite SH.
Qed.

Section Collect.
  Variables (fuel : nat) (s : scope) (c : crypto) (nh : bytes).
  Variables (g dm : bytes) (cs : list bytes) (key : option (skey c)) (stamp : nat -> N).
  Variables (private : option bool) (forward write : list Dest) (allow_empty : bool) (max_links : N) (interval : bool).
  Variables (collect_tag : NetPktParts -> option bytes) (chain_tag : option (NetPktParts -> option bytes))
            (build_links : NetPktParts -> option (list (bytes * bytes))).
  Hypotheses (HC : forall b, lenN (hash c b) = 32)
    (TO : forall p t, collect_tag p = Some t -> lenN t = 16)
    (CO : forall f p t, chain_tag = Some f -> f p = Some t -> lenN t = 16)
    (BO : forall p l, build_links p = Some l -> Forall link_ok l).

  Notation mk := (point_with c g dm (wire_rooted cs) key stamp).
  Notation room := ((match key with Some _ => 64924 | None => 64960 end) - lenN (wire_rooted cs)).
  Notation collect_now := (collect_now fuel s c nh g dm (wire_space cs) (wire_rooted cs) key stamp private write allow_empty chain_tag build_links).
  Notation at_end := (at_end fuel s c nh g dm (wire_space cs) (wire_rooted cs) key stamp private write allow_empty chain_tag build_links).
  Notation new_pkt := (new_pkt private forward max_links collect_tag).
  Notation collect_loop := (collect_loop fuel s c nh g dm (wire_space cs) (wire_rooted cs) key stamp private forward write
                              allow_empty max_links interval collect_tag chain_tag build_links).
  Notation results := (results c nh mk room collect_tag chain_tag build_links).

  Lemma built k ls r r1 res : Forall link_ok ls ->
    build_with_reader fuel s c nh g dm (wire_space cs) (wire_rooted cs) key stamp k ls r = (r1, Ok res) ->
    exists f, f + 48 * lenN ls = room /\
      match res with
      | None => read_next_data fuel s r f = (r1, Ok None)
      | Some p => exists b, read_next_data fuel s r f = (r1, Ok (Some b)) /\ is_packet c nh p (mk k ls b)
      end.
  Proof.
    intros LO B. unfold build_with_reader in B. rewrite calc_eval in B. change (lenN (@nil N)) with 0 in B.
    set (z := ((if match key with Some _ => true | None => false end then 64924 else 64960) - 48 * Z.of_N (lenN ls) -
      Z.of_N (lenN (wire_rooted cs)) - Z.of_N 0)%Z) in B.
    destruct (Z.ltb_spec z 0) as [Q|Q]; [discriminate|].
    exists (Z.to_N z). split; [unfold z in *; destruct key; lia|].
    destruct (read_next_data fuel s r (Z.to_N z)) as [r' [[b|]| | |]] eqn:R; try discriminate.
    - destruct (try_point c g dm (wire_rooted cs) ls b (stamp k) key nh) as [p| | |] eqn:T; try discriminate.
      injection B as <- <-. exists b. split; [reflexivity|]. unfold try_point in T. unfold is_packet, point_with.
      destruct key as [sk|].
      + apply keypoint_inv in T as (_ & SZ & ->); [|assumption]. unfold key_point. split; [|reflexivity].
        apply seg_net. cbn [point_size]. lia.
      + apply linkpoint_inv in T as (_ & SZ & ->); [|assumption]. split; [|reflexivity].
        apply seg_net. cbn [point_size]. lia.
    - injection B as <- <-. reflexivity.
  Qed.

  (** What one call of [collect] does. *)
  Lemma collected k k' made more : Forall link_ok (c_links k) -> (forall p, lenN (hash c p) = 32) -> collect_now k = Ok (k', made, more) ->
    (c_links k = [] /\ allow_empty = false /\ k' = k /\ made = None /\ more = true) \/
    (exists f, f + 48 * lenN (c_links k) = room /\ (allow_empty = true \/ c_links k <> []) /\
     ((more = false /\ made = None /\ read_next_data fuel s (c_reader k) f = (c_reader k', Ok None) /\ c_out k' = c_out k) \/
      (exists p b, more = true /\ made = Some p /\ read_next_data fuel s (c_reader k) f = (c_reader k', Ok (Some b)) /\
         is_packet c nh p (mk (c_count k) (c_links k) b) /\ starts_after chain_tag build_links p (c_links k') /\
         Forall link_ok (c_links k') /\ c_current k' = 0 /\ c_count k' = S (c_count k) /\
         c_out k' = mkOut (o_log (c_out k) ++ direct private write p ++
                           map (fun q => (DOut 0, q)) (o_buf (c_out k) ++ buffered private write p)) []))).
  Proof.
    intros LO _ C. unfold ModelCollect.collect_now in C.
    destruct (negb allow_empty && match c_links k with [] => true | _ => false end) eqn:E.
    - left. apply andb_true_iff in E as [E1 E2]. destruct (c_links k) as [|x l] eqn:L; [|discriminate].
      injection C as <- <- <-. rewrite negb_true_iff in E1. auto.
    - right. assert (NE : allow_empty = true \/ c_links k <> []).
      { destruct allow_empty; [now left|right]. intros H. rewrite H in E. discriminate. }
      destruct (build_with_reader fuel s c nh g dm (wire_space cs) (wire_rooted cs) key stamp (c_count k) (c_links k) (c_reader k))
        as [r1 [[p|]| | |]] eqn:B; try discriminate.
      + apply built in B as (f & FR & b & R & IP); [|assumption]. exists f. split; [assumption|]. split; [assumption|]. right.
        destruct (write_multi_dest private true write p (c_out k)) as [o| | |] eqn:W; try discriminate.
        apply write_ok in W. cbn [obind] in C. subst o. cbn [o_log o_buf] in C.
        assert (HP : lenN (np_hash p) = 32) by (destruct IP as [_ ->]; apply HC).
        destruct chain_tag as [ft|] eqn:CT.
        * destruct (ft p) as [t|] eqn:FT; [|discriminate]. destruct (build_links p) as [ex|] eqn:BL; [|discriminate].
          injection C as <- <- <-. exists p, b. cbn [c_links c_out c_reader c_current c_count].
          repeat (split; [reflexivity || assumption|]).
          split; [exists [(t, np_hash p)], ex; split; [exists t; auto|auto]|].
          split; [constructor; [split; [cbn; now apply (CO ft p)|exact HP]|now apply (BO p)]|].
          repeat (split; [reflexivity|]). now rewrite <- app_assoc.
        * destruct (build_links p) as [ex|] eqn:BL; [|discriminate].
          injection C as <- <- <-. exists p, b. cbn [c_links c_out c_reader c_current c_count].
          repeat (split; [reflexivity || assumption|]).
          split; [exists [], ex; auto|]. split; [now apply (BO p)|].
          repeat (split; [reflexivity|]). now rewrite <- app_assoc.
      + apply built in B as (f & FR & R); [|assumption]. exists f. split; [assumption|]. split; [assumption|]. left.
        injection C as <- <- <-. cbn. auto.
  Qed.

  (** The state between two results: the links to start with, and the packets since. *)
  Record pending (k : Collector) (pre : list (bytes * bytes)) (g0 : list NetPktParts) (L0 : list (Dest * NetPktParts)) : Prop := mkPending {
    pd_links : exists ls, c_links k = pre ++ ls /\ tagged collect_tag g0 ls;
    pd_ok : Forall link_ok (c_links k);
    pd_current : c_current k = lenN g0;
    pd_log : o_log (c_out k) = L0 ++ flat_map (direct private forward) g0;
    pd_buf : o_buf (c_out k) = flat_map (buffered private forward) g0 }.
  Definition limit : N := N.max 1 max_links.

  (** The whole result of a run from such a state. *)
  Definition outcome_of (k : Collector) (pre : list (bytes * bytes)) (g0 : list NetPktParts) (L0 : list (Dest * NetPktParts))
    (recv : list NetPktParts) (timed : Prop) (k' : Collector) (rs : list NetPktParts) (e : Finish) : Prop :=
    exists gs lost unread fs bs r',
      g0 ++ recv = List.concat gs ++ lost ++ unread /\
      results (c_count k) pre gs fs bs rs /\
      reading fuel s (c_reader k) fs bs r' /\
      (e = InputEnd -> lost = [] /\ unread = []) /\
      (e = DataEnd -> exists f, ended fuel s r' f) /\
      o_log (c_out k') = L0 ++ groups_log private forward write gs rs ++ flat_map (direct private forward) lost /\
      o_buf (c_out k') = flat_map (buffered private forward) lost /\
      Forall (fun x => lenN x <= limit) gs /\
      (~ timed -> forall i, (S i < List.length gs)%nat -> lenN (nth i gs []) = limit) /\
      (allow_empty = false -> chain_tag = None -> (forall p l, build_links p = Some l -> l = []) -> pre = [] ->
       Forall (fun x => x <> []) gs).

  Lemma pending_nil k : Forall link_ok (c_links k) -> c_current k = 0 -> o_buf (c_out k) = [] ->
    pending k (c_links k) [] (o_log (c_out k)).
  Proof.
    intros LO C B. constructor; auto.
    - exists []. split; [now rewrite app_nil_r|constructor].
    - cbn. now rewrite app_nil_r.
  Qed.

  (** A call that makes a result, followed by a run. *)
  Lemma then_collect k pre g0 L0 recv timed f p b k1 k' rs e :
    pending k pre g0 L0 -> lenN g0 <= limit -> (~ timed -> lenN g0 = limit \/ rs = []) ->
    f + 48 * lenN (c_links k) = room -> (allow_empty = true \/ c_links k <> []) ->
    read_next_data fuel s (c_reader k) f = (c_reader k1, Ok (Some b)) ->
    is_packet c nh p (mk (c_count k) (c_links k) b) -> starts_after chain_tag build_links p (c_links k1) ->
    c_count k1 = S (c_count k) ->
    c_out k1 = mkOut (o_log (c_out k) ++ direct private write p ++
                      map (fun q => (DOut 0, q)) (o_buf (c_out k) ++ buffered private write p)) [] ->
    outcome_of k1 (c_links k1) [] (o_log (c_out k1)) recv timed k' rs e ->
    outcome_of k pre g0 L0 recv timed k' (p :: rs) e.
  Proof.
    intros PD GL SZ FR NE R IP SA CN CO1 (gs & lost & unread & fs & bs & r' & RV & RS & RD & IE & DE & LG & BF & LI & EX & NN).
    destruct PD as [(ls & LK & TG) PO PC PL PB].
    exists (g0 :: gs), lost, unread, (f :: fs), (b :: bs), r'. cbn [List.concat]. cbn [app] in RV.
    split; [rewrite RV; now rewrite <- app_assoc|].
    split; [rewrite LK in FR, IP; rewrite CN in RS; econstructor; eassumption|].
    split; [econstructor; eassumption|]. split; [assumption|]. split; [assumption|].
    split; [rewrite LG, CO1; cbn [o_log groups_log]; unfold group_log; rewrite PL, PB, <- !app_assoc; reflexivity|].
    split; [assumption|]. split; [constructor; assumption|]. split.
    - intros NT i I. destruct i as [|i]; cbn [nth].
      + destruct (SZ NT) as [E|E]; [assumption|]. subst rs. inversion RS; subst gs. cbn in I. lia.
      + apply EX; [assumption|]. cbn [List.length] in I. lia.
    - intros AE CE BE PE. constructor.
      + intros ->. inversion TG; subst ls. rewrite LK, PE in NE. destruct NE as [NE|NE]; [congruence|now apply NE].
      + apply NN; auto. destruct SA as (ch & ex & A & B & ->). rewrite CE in A. now rewrite A, (BE _ _ B).
  Qed.
  Lemma no_more k pre L0 timed : o_log (c_out k) = L0 -> o_buf (c_out k) = [] -> outcome_of k pre [] L0 [] timed k [] InputEnd.
  Proof.
    intros L B. exists [], [], [], [], [], (c_reader k). cbn.
    split; [reflexivity|]. split; [constructor|]. split; [constructor|]. split; [auto|]. split; [discriminate|].
    split; [now rewrite app_nil_r|]. split; [assumption|]. split; [constructor|]. split; [intros; lia|constructor].
  Qed.
  (** A call that finds no data. *)
  Lemma data_ends k pre g0 L0 recv timed f k' : pending k pre g0 L0 ->
    read_next_data fuel s (c_reader k) f = (c_reader k', Ok None) -> c_out k' = c_out k ->
    outcome_of k pre g0 L0 recv timed k' [] DataEnd.
  Proof.
    intros PD R O. exists [], g0, recv, [], [], (c_reader k). destruct PD as [_ _ _ PL PB]. cbn.
    split; [reflexivity|]. split; [constructor|]. split; [constructor|]. split; [discriminate|].
    split; [intros _; exists f; eexists; exact R|]. rewrite O.
    split; [assumption|]. split; [assumption|]. split; [constructor|]. split; [intros; lia|constructor].
  Qed.

  Lemma end_run k pre g0 L0 timed k' rs e : pending k pre g0 L0 -> lenN g0 <= limit ->
    at_end k = Ok (k', rs, e) -> outcome_of k pre g0 L0 [] timed k' rs e.
  Proof.
    intros PD GL E. unfold ModelCollect.at_end in E.
    assert (Q : (c_links k = [] /\ k' = k /\ rs = [] /\ e = InputEnd) \/
                (c_links k <> [] /\ exists made more, collect_now k = Ok (k', made, more) /\
                 rs = match made with Some q => [q] | None => [] end /\ e = if more then InputEnd else DataEnd)).
    { destruct (c_links k) as [|x l]; [left; injection E as <- <- <-; auto|right]. split; [discriminate|].
      destruct (collect_now k) as [[[k1 made] more]| | |]; try discriminate. cbn [obind] in E. injection E as <- <- <-. eauto. }
    destruct Q as [(LK & -> & -> & ->)|(LK & made & more & C & -> & ->)].
    - destruct PD as [(ls & LS & TG) PO PC PL PB]. rewrite LK in LS. symmetry in LS. apply app_eq_nil in LS as [-> ->].
      inversion TG; subst g0. apply no_more; [|assumption]. rewrite PL. cbn. apply app_nil_r.
    - apply collected in C; [|apply PD|exact HC].
      destruct C as [(LN & _)|(f & FR & NE & [(-> & -> & R & O)|(p & b & -> & -> & R & IP & SA & LO & CC & CN & O)])].
      + contradiction.
      + eapply data_ends; eassumption.
      + eapply then_collect; try eassumption; [now right|]. apply no_more; [reflexivity|]. now rewrite O.
  Qed.

  Lemma loop_run : forall vs k pre g0 L0 k' rs e, pending k pre g0 L0 -> lenN g0 < limit ->
    (forall p, In (VPkt p) vs -> lenN (np_hash p) = 32) ->
    collect_loop k vs = Ok (k', rs, e) ->
    outcome_of k pre g0 L0 (received vs) (exists b, In (VTimeout b) vs) k' rs e.
  Proof.
    induction vs as [|v vs IH]; intros k pre g0 L0 k' rs e PD GL HP C; [discriminate|].
    assert (HP' : forall p, In (VPkt p) vs -> lenN (np_hash p) = 32) by (intros; apply HP; now right).
    assert (CONT : forall k k1 pre g0 L0 made more rest, pending k pre g0 L0 -> lenN g0 <= limit ->
      ((~ exists b, In (VTimeout b) (v :: vs)) -> lenN g0 = limit) ->
      lenN g0 < limit \/ c_links k <> [] ->
      collect_now k = Ok (k1, made, more) ->
      (if more then obind (collect_loop k1 vs) (fun '(k2, l, e2) => Ok (k2, (match made with Some q => q :: l | None => l end), e2))
       else Ok (k1, [], DataEnd)) = Ok (k', rs, e) -> rest = received vs ->
      outcome_of k pre g0 L0 rest (exists b, In (VTimeout b) (v :: vs)) k' rs e).
    { clear C PD GL k pre g0 L0. intros k k1 pre g0 L0 made more rest PD GL EQ LT C1 C2 ->.
      apply collected in C1; [|apply PD|exact HC].
      destruct C1 as [(LN & AE & -> & -> & ->)|(f & FR & NE & [(-> & -> & R & O)|(p & b & -> & -> & R & IP & SA & LO & CC & CN & O)])].
      - destruct (collect_loop k vs) as [[[k2 l] e2]| | |] eqn:CL; try discriminate. cbn [obind] in C2. injection C2 as <- <- <-.
        destruct LT as [LT|LT]; [|contradiction].
        destruct (IH _ _ _ _ _ _ _ PD LT HP' CL) as (gs & lost & unread & fs & bs & r' & RV & RS & RD & IE & DE & LG & BF & LI & EX & NN).
        exists gs, lost, unread, fs, bs, r'. repeat (split; [assumption|]). split; [|assumption].
        intros NT. apply EX. intros [x I]. apply NT. exists x. now right.
      - injection C2 as <- <- <-. eapply data_ends; eassumption.
      - destruct (collect_loop k1 vs) as [[[k2 l] e2]| | |] eqn:CL; try discriminate. cbn [obind] in C2. injection C2 as <- <- <-.
        eapply then_collect; try eassumption.
        + intros NT. left. now apply EQ.
        + assert (P1 : pending k1 (c_links k1) [] (o_log (c_out k1))) by (apply pending_nil; auto; now rewrite O).
          assert (L1 : lenN (@nil NetPktParts) < limit) by (unfold limit, lenN; cbn; lia).
          destruct (IH _ _ _ _ _ _ _ P1 L1 HP' CL) as (gs & lost & unread & fs & bs & r' & RV & RS & RD & IE & DE & LG & BF & LI & EX & NN).
          exists gs, lost, unread, fs, bs, r'. repeat (split; [assumption|]). split; [|assumption].
          intros NT. apply EX. intros [x I]. apply NT. exists x. now right. }
    destruct v as [p|st| |]; cbn [ModelCollect.collect_loop] in C.
    - unfold ModelCollect.new_pkt in C. destruct (collect_tag p) as [t|] eqn:CT; [|discriminate].
      destruct (write_multi_dest private true forward p (c_out k)) as [o| | |] eqn:W; try discriminate.
      apply write_ok in W. cbn [obind] in C.
      set (k0 := mkCol (c_links k ++ [(t, np_hash p)]) (c_current k + 1) o (c_reader k) (c_count k)) in C.
      assert (P0 : pending k0 pre (g0 ++ [p]) L0).
      { destruct PD as [(ls & LK & TG) PO PC PL PB]. unfold k0. constructor; cbn [c_links c_current c_out].
        - exists (ls ++ [(t, np_hash p)]). split; [now rewrite LK, app_assoc|]. apply Forall2_app; [assumption|].
          constructor; [now split|constructor].
        - apply Forall_app. split; [assumption|]. constructor; [|constructor]. split; [cbn; now apply (TO p)|cbn; apply HP; now left].
        - rewrite PC, lenN_app. reflexivity.
        - subst o. cbn [o_log]. rewrite PL, flat_map_app, <- app_assoc. cbn. now rewrite app_nil_r.
        - subst o. cbn [o_buf]. rewrite PB, flat_map_app. cbn. now rewrite app_nil_r. }
      assert (CU : c_current k0 = lenN (g0 ++ [p])) by apply P0. unfold k0 in CU. cbn [c_current] in CU. rewrite CU in C.
      rewrite lenN_app in *. change (lenN [p]) with 1 in *.
      assert (RE : forall e', outcome_of k0 pre (g0 ++ [p]) L0 (received vs) (exists b, In (VTimeout b) (VPkt p :: vs)) k' rs e' ->
                   outcome_of k pre g0 L0 (received (VPkt p :: vs)) (exists b, In (VTimeout b) (VPkt p :: vs)) k' rs e').
      { intros e' (gs & lost & unread & fs & bs & r' & RV & RS & RD & Q). exists gs, lost, unread, fs, bs, r'.
        split; [cbn [received]; rewrite <- RV, <- app_assoc; reflexivity|]. split; [exact RS|]. split; [exact RD|exact Q]. }
      destruct (N.leb_spec max_links (lenN g0 + 1)) as [FU|FU].
      + destruct (collect_now k0) as [[[k1 made] more]| | |] eqn:CN; try discriminate. cbn [obind] in C.
        apply RE. eapply CONT; try eassumption; try reflexivity; rewrite ?lenN_app; change (lenN [p]) with 1.
        * unfold limit in *; lia.
        * intros _. unfold limit in *; lia.
        * right. unfold k0. cbn [c_links]. now destruct (c_links k).
      + apply RE. assert (LT : lenN (g0 ++ [p]) < limit) by (rewrite lenN_app; change (lenN [p]) with 1; unfold limit; lia).
        destruct (IH _ _ _ _ _ _ _ P0 LT HP' C) as (gs & lost & unread & fs & bs & r' & RV & RS & RD & IE & DE & LG & BF & LI & EX & NN).
        exists gs, lost, unread, fs, bs, r'. repeat (split; [assumption|]). split; [|assumption].
        intros NT. apply EX. intros [x I]. apply NT. exists x. now right.
    - destruct st.
      + destruct (collect_now k) as [[[k1 made] more]| | |] eqn:CN; try discriminate. cbn [obind] in C.
        eapply CONT; try eassumption; try reflexivity; [lia| |now left].
        intros NT. destruct NT. exists true. now left.
      + cbn [received]. destruct (IH _ _ _ _ _ _ _ PD GL HP' C) as (gs & lost & unread & fs & bs & r' & RV & RS & RD & IE & DE & LG & BF & LI & EX & NN).
        exists gs, lost, unread, fs, bs, r'. repeat (split; [assumption|]). split; [|assumption].
        intros NT. apply EX. intros [x I]. apply NT. exists x. now right.
    - cbn [received]. apply end_run; [assumption|lia|assumption].
    - cbn [received]. destruct interval; [|discriminate]. apply end_run; [assumption|lia|assumption].
  Qed.
End Collect.
