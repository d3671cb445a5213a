(** Watching a status: the first pass, the request and the later replies. *)
From Coq Require Import Sorting.Sorted.
From Verif Require Import ProofFuel.
From Verif Require Import Bytes ModelAbe ModelEval ModelSpace SpecSpace ProofSpace ProofTree SpecPkt ModelPkt ProofPkt2 PropsPkt ModelTestSet SpecTestSet ProofTestSet ModelTree SpecTree ModelStore SpecStore ProofStore PropsStore ModelPred SpecPred ProofPred ProofPred2 PropsPred.
From Verif Require Import ModelQText SpecQText ProofQText ModelLns ModelQuery SpecQuery ProofQuery ProofQuery2 ProofQuery3 ProofQuery4 PropsQuery ModelWatch SpecWatch ProofWatch ProofWatch2 ProofWatch3 ProofWatch4 ProofWatch5 ProofWatch6 PropsWatch.
From Verif Require Import ModelStatus SpecStatus ProofStatus ProofStatus2.

Lemma seen_possible st age now : status_ok st -> possible (seen_preds st age now).
Proof.
  intros S. pose proof (status_place_ok st S) as SP. pose proof (place_short st) as PS. destruct S as (_ & _ & LD & BD & _).
  assert (DS : be_decode (st_domain st) < 2 ^ 128) by (change 128 with (8 * N.of_nat 16); apply decode_small; [exact BD|unfold lenN in LD; lia]).
  apply (fields_possible _ 8 0 (be_decode (st_domain st)) 0); try lia; try exact DS; unfold seen_preds; allowed.
  exists (status_place st). split; [exact SP|]. split; [reflexivity|]. unfold lenN. lia.
Qed.
Lemma first_pass_seen {C} req handle xs : forall (c : C) asked called c', first_pass req handle c xs = (asked, called, c') ->
  (forall x, In x asked -> In x xs /\ req x = true) /\ (forall x, In x called -> In x xs /\ req x = false).
Proof.
  induction xs as [|x xs IH]; cbn [first_pass]; intros c asked called c' E.
  - injection E as <- <- <-. split; intros x [].
  - destruct (req x) eqn:R.
    + destruct (first_pass req handle c xs) as [[a b] c2] eqn:F. injection E as <- <- <-. destruct (IH _ _ _ _ F) as [A B]. split; [intros y [<-|Y]; [split; [now left|exact R]|destruct (A y Y); split; [now right|assumption]]|intros y Y; destruct (B y Y); split; [now right|assumption]].
    + destruct (handle c x) as [[c1 brk] cs]. destruct brk.
      * injection E as <- <- <-. split; [intros y []|intros y [<-|[]]; split; [now left|exact R]].
      * destruct (first_pass req handle c1 xs) as [[a b] c2] eqn:F. injection E as <- <- <-. destruct (IH _ _ _ _ F) as [A B]. split; [intros y Y; destruct (A y Y); split; [now right|assumption]|intros y [<-|Y]; [split; [now left|exact R]|destruct (B y Y); split; [now right|assumption]]].
Qed.
Lemma last_in {A} (l : list A) d : l <> [] -> In (last l d) l.
Proof. induction l as [|x l IH]; [easy|]. intros _. destruct l as [|y l]; [now left|]. right. apply IH. discriminate. Qed.
Lemma last_map_in {A B} (f : A -> B) l d : l <> [] -> exists y, l = removelast l ++ [y] /\ last (map f l) d = f y.
Proof.
  intros NE. destruct l as [|x l] using rev_ind; [easy|]. exists x. rewrite removelast_last, map_app. cbn [map]. now rewrite last_last.
Qed.

Lemma status_watch_main C handle stopped qfuel stale fuel fuel' f k st age t0 t1 t2 nh c (s s1 : rt C) ok cs s' l0 l1 :
  hash32 (hash k) -> status_ok st -> t0 < 2 ^ 64 -> t1 < 2 ^ 64 -> Inv C s ->
  lk_status_watch C handle stopped qfuel stale fuel f k st age t0 t1 t2 nh c s = Ok (s1, ok) -> exec handle stopped qfuel stale fuel' Free s1 cs = Ok s' ->
  leave_alone handle stopped (st_qid st) cs -> never_process handle stopped -> pending_clear (st_qid st) s ->
  honest_store (hash k) (r_snap s) l0 -> valid_store (hash k) (r_snap s') (l0 ++ l1) -> Forall (fun e => 0 < fst e) l1 ->
  exists found, (forall e, In e found -> In e l0 /\ seen_packet (hash k) st age t0 e) /\
  (exists asked called c1 from,
    first_pass no_content handle c (map answer found) = (asked, called, c1) /\ (ok = true <-> called <> []) /\
    match asked with
    | [] => from = t1 /\ exists l e, represents (r_db s1) l /\ In e l /\ np_hash (snd e) = hash k (content (request_point st t1))
    | _ => exists before e nh' p, asked = before ++ [answer e] /\ In e l0 /\ packet_at (hash k) e nh' p /\ point_create p = Some from
    end /\
    (r_now s1 + 1 < capped_sum from age -> exists t ms, r_trace s' = r_trace s ++ t /\
      exactly l1 (reply_packet (hash k) st age t0 (capped_sum from age)) (recv_before true) ms /\
      calls (st_qid st) t = called ++ fst (until_break handle c1 (map answer ms)))).
Proof.
  intros HL S T0 T1 I W E2 LA NP PC HS VS POS. pose proof LA as (_ & HA & HST).
  destruct (watch_parts C handle stopped qfuel stale fuel f k st age t0 t1 t2 nh c s s1 ok S T0 T1 W) as (P & xs & sa & c1 & l & sb & P2 & z & AP & QX & SC & SB & AP2 & WW).
  assert (AC : accepted (seen_preds st age t0) P) by (split; [now apply seen_ok|exact AP]).
  assert (LN : 0 + lenN l0 <= 2 ^ 32). { destruct HS as [(_ & LV & _) _]. unfold stored in *. lia. }
  assert (NB : no_pred (RLimit QBranch) (seen_preds st age t0)) by (repeat (constructor; [discriminate|]); constructor).
  destruct (C32_tree_query_sound_partial (hash k) (r_snap s) l0 (seen_preds st age t0) P false stale 0 HL HS AC (seen_possible st age t0 S) (or_intror NB) LN) as (found & out & n0 & _ & FS & AN & QQ).
  assert (out = map answer found) as ->. { destruct AN as (mid & A1 & A2). apply picks_all in A1; [|intros j _ _; allowed; discriminate]. apply picks_all in A2; [|intros j _ _; allowed; discriminate]. congruence. }
  exists found. split.
  { intros e IN. destruct (FS e IN) as [IL ((nh' & p & PA & F) & _)]. split; [exact IL|]. exists nh', p. split; [exact PA|]. apply (seen_iff (hash k) _ nh' p (fst e) st age t0 HL (proj1 PA) S). exact F. }
  pose proof (query_unique qfuel n0 (r_snap s) TTree false P stale 0 ltac:(rewrite QX; discriminate) ltac:(rewrite (QQ n0 (le_n n0)); discriminate)) as QU. rewrite QX, (QQ n0 (le_n n0)) in QU. apply ProofQText7.ok_inj in QU as ->. clear QX.
  destruct (status_scan_calls C handle stopped qfuel stale (st_qid st) HA HST NP fuel _ _ _ _ _ _ _ _ _ SC I PC) as (ta & asked & called & TA & CA & FP & STI & IA & PCA & FW & GA & OK & LA0).
  cbn [orb] in OK. pose proof (first_pass_seen _ _ _ _ _ _ _ FP) as [FA _].
  assert (ASK : forall x, In x asked -> exists e nh' p, x = answer e /\ In e l0 /\ packet_at (hash k) e nh' p /\ point_create p = Some (created x) /\ 0 < created x).
  { intros x IN. destruct (FA x IN) as [IX _]. apply in_map_iff in IX as (e & <- & IE). destruct (FS e IE) as [IL ((nh' & p & PA & F) & _)].
    apply (seen_iff (hash k) _ nh' p (fst e) st age t0 HL (proj1 PA) S) in F as (_ & cc & CC & LT). exists e, nh', p. change (answer e) with (fst e, np_bytes (snd e)). rewrite (created_is (hash k) (np_bytes (snd e)) nh' p (fst e) cc HL (proj1 PA) CC). repeat (split; [assumption || reflexivity|]). lia. }
  exists asked, called, c1, (if l =? 0 then t1 else l). split; [exact FP|]. split; [rewrite OK; destruct called; split; congruence|].
  assert (L0 : l =? 0 = match asked with [] => true | _ => false end).
  { destruct asked as [|x a]; [now subst l|]. rewrite LA0. destruct (last_map_in created (x :: a) 0 ltac:(discriminate)) as (y & AY & ->). destruct (ASK y) as (_ & _ & _ & _ & _ & _ & _ & POSY); [rewrite AY; apply in_app_iff; right; now left|]. apply N.eqb_neq. lia. }
  assert (GB : Inv C sb /\ pending_clear (st_qid st) sb /\ r_snap sb = r_snap s /\ r_trace sb = r_trace sa).
  { rewrite L0 in SB. destruct asked; [|subst sb; split; [exact IA|]; split; [exact PCA|]; split; [apply STI|reflexivity]]. destruct SB as (d & b & SV & ->). split; [apply set_db_inv; [exact IA|eapply lk_save_grows, SV]|]. split; [exact PCA|]. split; [apply STI|reflexivity]. }
  destruct GB as (IB & PCB & SNB & TRB).
  assert (WE : exec handle stopped qfuel stale (Datatypes.S fuel) Free sb [CWatch (st_qid st) TTree false P2 c1] = Ok s1).
  { cbn [exec run_cmds exec1]. rewrite WW. reflexivity. }
  pose proof (exec_step C handle stopped qfuel stale _ _ _ _ _ WE IB) as (I1 & G1 & _).
  set (until := capped_sum (if l =? 0 then t1 else l) age) in *.
  split.
  - rewrite L0. rewrite L0 in SB. destruct asked as [|x a].
    + split; [reflexivity|]. destruct SB as (d & b & SV & ->). cbn [r_db set_db] in G1. destruct IA as (_ & _ & la & lb & _ & RA).
      destruct (C26_lk_save_truthful f t2 (r_db sa) _ _ d b RA SV) as (NEW & OLD & ADD). destruct b.
      * destruct (ADD eq_refl) as (u & RU). destruct (G1 _ RU) as (lm & RM). exists (((la ++ lb) ++ [(u, net_of k nh (request_point st t1))]) ++ lm), (u, net_of k nh (request_point st t1)). split; [exact RM|]. split; [|reflexivity].
        apply in_app_iff. left. apply in_app_iff. right. now left.
      * rewrite (OLD eq_refl) in G1. destruct (G1 _ RA) as (lm & RM). 
        assert (IN : In (hash k (content (request_point st t1))) (hashes (la ++ lb))). { destruct (existsb (beqb (hash k (content (request_point st t1)))) (hashes (la ++ lb))) eqn:X; [now apply existsb_beqb in X|]. exfalso. assert (false = true) as Y; [|discriminate]. apply NEW. rewrite <- existsb_beqb. change (np_hash (net_of k nh (request_point st t1))) with (hash k (content (request_point st t1))). congruence. }
        unfold hashes in IN. apply in_map_iff in IN as (e & HE & IE). exists ((la ++ lb) ++ lm), e. split; [exact RM|]. split; [apply in_app_iff; now left|exact HE].
    + rewrite LA0. destruct (last_map_in created (x :: a) 0 ltac:(discriminate)) as (y & AY & ->). destruct (ASK y) as (e & nh' & p & -> & IL & PA & PCR & _); [rewrite AY; apply in_app_iff; right; now left|].
      exists (removelast (x :: a)), e, nh', p. auto.
  - intros NOW. assert (UB : until < 2 ^ 64) by (unfold until, capped_sum; destruct (N.ltb_spec ((if l =? 0 then t1 else l) + age) (2 ^ 64)); lia).
    assert (AC2 : accepted (watch_preds st age t0 until) P2). { split; [|exact AP2]. unfold watch_preds. apply Forall_app. split; [now apply seen_ok|now apply more_ok]. }
    assert (CK : check_db P2 = false).
    { unfold check_db. destruct (has_any 32 (p_limits P2 QIndex)) eqn:HAN; [|apply andb_false_r]. exfalso. assert (LO : limit_ops (watch_preds st age t0 until) QIndex) by (unfold limit_ops, watch_preds, seen_preds; cbn [app]; repeat (constructor; [cbn; intros; try discriminate; try exact Logic.I|]); constructor).
      pose proof (high_allowed _ P2 QIndex AC2 LO HAN) as PO. unfold position_ok in PO. rewrite Forall_forall in PO. specialize (PO (mkPred (RLimit QIndex) Less (PNum 0))). cbn in PO. specialize (PO ltac:(tauto) eq_refl). lia. }
    assert (R0 : represents (r_snap sb) l0) by (rewrite SNB; apply HS).
    assert (SPC : spaces_clear (hash k) (l0 ++ l1) (watch_preds st age t0 until)). { left. unfold no_spacename, watch_preds, seen_preds. cbn [app]. repeat (constructor; [discriminate|]). constructor. }
    assert (LN2 : lenN (@nil (N * bytes)) + lenN l1 < 2 ^ 32). { pose proof VS as (_ & LV & _). rewrite lenN_app in LV. change (lenN (@nil (N * bytes))) with 0. unfold stored in *. lia. }
    assert (UU : exists u, r_now s1 < u /\ u < 2 ^ 64 /\ recv_allowed (watch_preds st age t0 until) u).
    { exists (until - 1). split; [lia|]. split; [lia|]. unfold recv_allowed, watch_preds, seen_preds. cbn [app]. repeat (constructor; [cbn; try exact Logic.I; try lia|]). constructor. }
    destruct (history_new C handle stopped qfuel stale (hash k) (st_qid st) _ fuel' sb TTree false P2 c1 [] s1 cs s' _ l0 l1 HL IB WE E2 LA NP PCB AC2 ltac:(rewrite CK; discriminate) ltac:(auto) R0 VS SPC POS LN2 UU) as (t & ms & xs & ys & T & EM & _ & X & PY & K).
    cbn [zip_members app] in X, K. subst xs. cbn [app] in K. apply picks_all in PY; [|intros j _ _; split; unfold watch_preds, seen_preds; cbn [app]; allowed; discriminate]. subst ys.
    exists (ta ++ t), ms. split; [rewrite T, TRB, TA; now rewrite app_assoc|]. split; [|now rewrite calls_app, CA, K].
    destruct EM as [SO EM]. split; [exact SO|]. intros e. rewrite EM. split; intros [IL M]; (split; [exact IL|]); destruct M as (nh' & p & PA & M); exists nh', p; (split; [exact PA|]); apply (watch_iff (hash k) _ nh' p (fst e) st age t0 until HL (proj1 PA) S); exact M.
Qed.
Lemma set_iff hash b nh p recv st : hash32 hash -> packet_of hash b nh p -> status_ok (with_instance st None) ->
  (Forall (satisfies hash recv nh p) (set_preds st) <-> asks_below (with_instance st None) p).
Proof.
  intros HL PK S. pose proof (status_place_ok _ S) as SP. assert (NE : status_place (with_instance st None) <> []) by discriminate. unfold set_preds. rewrite !Forall_cons_iff, (below_iff hash b nh p recv _ PK SP NE). clear NE. unfold asks_below, asks, satisfies. cbn [p_kind p_val p_op holds]. split.
  - intros ((a & A & ->) & (d & D & ->) & (rs & more & R & H & L) & _). exists rs, more. split; [exact R|]. split; [exact H|]. split; [exact L|]. destruct p; try discriminate; cbn [num_field point_links point_data] in *; rewrite <- !len0; split; congruence.
  - intros (rs & more & R & H & L & A & B). assert (K : forall x, satisfies hash recv nh p (mkPred (RLimit QIndex) Less (PNum x))) by (intros; exact Logic.I).
    destruct p; try discriminate; cbn [num_field point_links point_data] in *; subst; (split; [exists 0; split; reflexivity|]); (split; [exists 0; split; reflexivity|]); (split; [exists rs, more; auto|]); (split; [exact Logic.I|constructor]).
Qed.
Lemma handled_ours U update f hash st sp prev (u : U) r nh p : hash32 hash -> updates_well hash update -> packet_of hash (snd r) nh p -> for_us st p ->
  lk_status_space st = Ok sp -> st_instance st <> None ->
  exists u' np t, status_handle U update f st sp (prev, u) r = ((np_hash np, u'), false, [CSave f t [(np, Pending)]]) /\ reply_made hash (st_domain st) (repeat 0 32) sp (repeat 0 12 ++ str "prev", prev) np.
Proof.
  intros HL UW PK FU SPE IN. apply status_space_iff in SPE as [SP ->]. unfold status_handle. rewrite (view_packet hash (snd r) nh p HL PK).
  assert (GR : forall rs, point_rspace p = Some rs -> get_rspace (np_of hash nh p) = rs) by (intros rs R; destruct p; cbn in *; congruence).
  set (sp := wire_rooted (status_place st)) in *.
  assert (O : (rs_depth (get_rspace (np_of hash nh p)) =? rs_depth sp) && match rs_space (get_rspace (np_of hash nh p)), rs_space sp with Ok a, Ok b => negb (beqb a b) | _, _ => false end = false).
  { destruct FU as [R|R]; rewrite (GR _ R); unfold sp.
    - rewrite (proj2 (rs_space_wire _)), (proj2 (rs_space_wire _)). destruct st as [? ? ? [i|] ?]; [|cbn in IN; congruence]. reflexivity.
    - rewrite (proj1 (rs_space_wire _)), beqb_refl. apply andb_false_r. }
  rewrite O. destruct (UW u (st_domain st) PRIVATE sp (repeat 0 12 ++ str "prev", prev)) as (u' & np & t & UE & RM). unfold checked_update. rewrite UE.
  assert (IS : is_status_reply st sp np = true).
  { destruct RM as (q & c & ls & data & (HF & _) & ND & IL & E). unfold is_status_reply, get_domain, get_group, get_rspace, get_header, pkt_links, pf. unfold has_fields in HF.
    destruct E as [->|(pk & sg & ->)]; destruct (fields (point_parts np)) as [x|x|lp|lp s0|x]; try discriminate; try contradiction; injection HF as H1 H2 H3 H4 H5 H6; try (clear H8); cbn [ModelTree.get_links ModelTree.get_data];
      rewrite <- ?H1, <- ?H2, <- ?H4, <- ?H5, <- ?H6, !beqb_refl; cbn [andb]; (rewrite (proj2 (N.eqb_neq _ _)); [|rewrite len0; intros ->; destruct IL]); (rewrite (proj2 (N.eqb_neq _ _)); [|now rewrite len0]); reflexivity. }
  rewrite IS. exists u', np, t. split; [reflexivity|exact RM].
Qed.
Lemma handled_other U update f hash st sp c r nh p : hash32 hash -> packet_of hash (snd r) nh p -> for_other st p -> st_instance st <> None -> lk_status_space st = Ok sp ->
  status_handle U update f st sp c r = (c, false, []).
Proof.
  intros HL PK (i & NI & SI & R) IN SPE. apply status_space_iff in SPE as [SP ->]. unfold status_handle. destruct c as [prev u]. rewrite (view_packet hash (snd r) nh p HL PK).
  assert (get_rspace (np_of hash nh p) = wire_rooted (status_place (with_instance st (Some i)))) as -> by (destruct p; cbn in *; congruence).
  rewrite !(proj1 (rs_space_wire _)), !(proj2 (rs_space_wire _)). destruct st as [d g o [j|] id]; [|cbn in IN; congruence].
  replace (lenN (status_place (with_instance (mkStatus d g o (Some j) id) (Some i))) =? lenN (status_place (mkStatus d g o (Some j) id))) with true by reflexivity. cbn [andb].
  destruct (beqb (wire_space _) (wire_space _)) eqn:B; [|reflexivity]. apply beqb_eq in B. apply wire_space_inj in B; [|apply SI|apply SP]. cbn [status_place with_instance st_group st_objtype st_instance app] in B. injection B as ->. cbn in NI. congruence.
Qed.
