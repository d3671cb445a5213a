(** Property C78: the options [follow] and [notify-close] of watches. *)
From Verif Require Import ProofStore ProofPred ProofHand ProofStatus2 PropsPkt PropsPred ExStore PropsStatus.
From Verif Require Import Bytes ModelAbe ModelEval ModelPkt SpecPkt SpecTree ModelStore SpecStore ModelPred SpecPred ModelQuery SpecQuery ModelQText ModelLns ModelWatch SpecStatus.
From Verif Require Import ModelFollow SpecFollow.

Lemma not_linked_byte b : flag_byte false b (not_linked b).
Proof.
  unfold flag_byte, not_linked, flag_remove, LINKED_IN_PREVIOUS_PKT, LINKED_IN_FUTURE_PKT. rewrite !N.ldiff_spec. split; [|split].
  - change (N.testbit 2 1) with true. cbn. now rewrite andb_false_r.
  - change (N.testbit 4 2) with true. cbn. now rewrite andb_false_r.
  - intros i A B. rewrite !N.ldiff_spec. change 2 with (2 ^ 1) at 1. change 4 with (2 ^ 2). rewrite !N.pow2_bits_false by auto. cbn. now rewrite !andb_true_r.
Qed.
Lemma linked_in_byte b : flag_byte true b (linked_in b).
Proof.
  unfold flag_byte, linked_in, flag_remove, flag_insert, LINKED_IN_PREVIOUS_PKT, LINKED_IN_FUTURE_PKT. rewrite !N.ldiff_spec, !N.lor_spec. split; [|split].
  - change (N.testbit 2 1) with true. change (N.testbit 4 1) with false. cbn. now rewrite orb_true_r.
  - change (N.testbit 4 2) with true. cbn. now rewrite andb_false_r.
  - intros i A B. rewrite !N.ldiff_spec, !N.lor_spec. change 2 with (2 ^ 1) at 1. change 4 with (2 ^ 2). rewrite !N.pow2_bits_false by auto. cbn. now rewrite andb_true_r, orb_false_r.
Qed.
Lemma header_parts (nh : bytes) : lenN nh = 32 -> exists pre b post, nh = pre ++ b :: post /\ lenN pre = 3.
Proof.
  intros L. do 4 (destruct nh as [|? nh]; [discriminate L|]). match goal with |- exists _ _ _, ?a :: ?b :: ?c :: ?d :: _ = _ /\ _ => exists [a; b; c], d, nh end. now split.
Qed.
Lemma map_flags_at f pre b post : lenN pre = 3 -> map_flags f (pre ++ b :: post) = pre ++ f b :: post.
Proof.
  intros L. do 3 (destruct pre as [|? pre]; [discriminate L|]). destruct pre; [|rewrite !lenN_cons in L; lia]. unfold map_flags, takeN, dropN, sliceN. reflexivity.
Qed.
Lemma shown_flags hash k f e nh p : (forall b, flag_byte k b (f b)) -> packet_at hash e nh p -> shown hash k e (Some (fst e), map_flags f (snd (answer e))).
Proof.
  intros F H. pose proof H as ((E & L & _) & _). destruct (header_parts nh L) as (pre & b & post & -> & L3). exists pre, b, (f b), post, p.
  split; [exact H|]. split; [exact L3|]. split; [apply F|]. f_equal. unfold answer. cbn [snd]. rewrite E. unfold packet. rewrite <- !app_assoc, <- !app_comm_cons. now apply map_flags_at.
Qed.

(** [follow]: the callback is called with the packet, its flags saying that it is not a linked one, and then with the
    stored packets it links to, in order, with the flag saying that they are; nothing else differs from the packets
    stored.  It is not called again after it breaks. *)
Theorem C78_follow : forall C (h h' : handler C) q v hash d l e nh p c,
  hash32 hash -> get_option q (str "follow") = Ok (Some v) -> watch_handler q h = Ok h' ->
  valid_store hash d l -> In e l -> packet_at hash e nh p ->
  exists xs, Forall2 (fun k x => shown hash (fst k) (snd k) x) ((false, e) :: map (pair true) (targets l p)) xs /\
    h_pkt h' d c (Some (fst e), np_bytes (snd e)) = feed (h_pkt h d) c xs.
Proof.
  intros C h h' q v hash d l e nh p c HH Q W V IN P. unfold watch_handler in W. rewrite Q in W. cbn [obind] in W. injection W as <-.
  cbn [follow_handler h_pkt fst snd]. pose proof P as (PO & CA & _).
  assert (forall ls c, exists xs, Forall2 (fun k x => shown hash (fst k) (snd k) x)
     (map (pair true) (flat_map (fun k => filter (fun e => beqb (np_hash (snd e)) (snd k)) l) ls)) xs /\ follow_links h d ls c = feed (h_pkt h d) c xs) as H.
  { clear c. induction ls as [|k ls IH]; intros c; [exists []; split; [constructor|reflexivity]|]. cbn [flat_map follow_links].
    destruct V as (R & LL & VF). destruct (read d (snd k)) as [[s b]|] eqn:RD.
    - pose proof (proj1 (read_iff d l (snd k) s b R) RD) as (np & INs & HS & ->).
      assert (filter (fun e => beqb (np_hash (snd e)) (snd k)) l = [(s, np)]) as ->.
      { destruct R as (_ & ND & _). clear - ND INs HS. induction l as [|x l IH]; [destruct INs|]. cbn [map] in ND. apply NoDup_cons_iff in ND as [NI ND]. cbn [filter].
        destruct INs as [->|INs].
        - cbn [snd]. rewrite HS, beqb_refl. f_equal. cbn [snd] in NI. rewrite HS in NI. clear - NI. induction l as [|y l IH]; [reflexivity|]. cbn [filter map] in *.
          destruct (beqb (np_hash (snd y)) (snd k)) eqn:Bq; [|apply IH; intros X; apply NI; now right]. apply beqb_eq in Bq. exfalso. apply NI. now left.
        - destruct (beqb (np_hash (snd x)) (snd k)) eqn:Bq; [|now apply IH]. apply beqb_eq in Bq. exfalso. apply NI. rewrite Bq, <- HS.
          apply (in_map (fun e => np_hash (snd e)) l (s, np)). exact INs. }
      rewrite Forall_forall in VF. destruct (VF _ INs) as (nh2 & p2 & P2). cbn [app map].
      destruct (h_pkt h d c (Some s, map_flags linked_in (np_bytes np))) as [c' brk] eqn:HP. destruct (IH c') as (xs & FX & EX).
      exists ((Some s, map_flags linked_in (np_bytes np)) :: xs). split.
      + constructor; [|exact FX]. cbn [fst snd]. apply (shown_flags hash true linked_in (s, np) nh2 p2); [intros; apply linked_in_byte|exact P2].
      + cbn [feed]. rewrite HP. destruct brk; [reflexivity|exact EX].
    - assert (filter (fun e => beqb (np_hash (snd e)) (snd k)) l = []) as ->.
      { destruct (filter (fun e => beqb (np_hash (snd e)) (snd k)) l) as [|[s np] fl] eqn:F; [reflexivity|].
        assert (In (s, np) (filter (fun e => beqb (np_hash (snd e)) (snd k)) l)) as X by (rewrite F; now left). apply filter_In in X as [X1 X2]. cbn [snd] in X2. apply beqb_eq in X2.
        pose proof (proj2 (read_iff d l (snd k) s (np_bytes np) R) (ex_intro _ np (conj X1 (conj X2 eq_refl)))) as Y. congruence. }
      apply IH. }
  destruct (h_pkt h d c (Some (fst e), map_flags not_linked (np_bytes (snd e)))) as [c' brk] eqn:HP.
  rewrite (view_packet hash _ nh p HH PO). assert (pkt_links (np_of hash nh p) = point_links p) as -> by (destruct p; reflexivity).
  destruct (H (point_links p) c') as (xs & FX & EX).
  exists ((Some (fst e), map_flags not_linked (np_bytes (snd e))) :: xs). split.
  - constructor; [|exact FX]. cbn [fst snd]. apply (shown_flags hash false not_linked e nh p); [intros; apply not_linked_byte|exact P].
  - cbn [feed]. rewrite HP. destruct brk; [reflexivity|exact EX].
Qed.
Print Assumptions C78_follow.
(** Without the option the callback is given what the watch matches, as it is, and is told when it is stopped. *)
Theorem C78_plain : forall C (h : handler C) q, get_option q (str "follow") = Ok None -> watch_handler q h = Ok h.
Proof. intros C h q E. unfold watch_handler. now rewrite E. Qed.
Print Assumptions C78_plain.

(** [notify-close] without [follow]: at the end of a watch the callback is given the packet that asked for it, once, and
    is then stopped; before, it is given what the watch matches. *)
Theorem C78_notify : forall C (h : handler C) q v origin c h' c' rs d reason,
  get_option q (str "follow") = Ok None -> get_option q (str "notify-close") = Ok (Some v) ->
  multi_watch_handler q h origin c = Ok (h', c') ->
  fst (life h' rs d reason c') = h_stopped h d (fst (h_pkt h d (live h rs c) (None, origin))) reason.
Proof.
  intros C h q v origin c h' c' rs d reason F N E. unfold multi_watch_handler in E. rewrite C78_plain in E by exact F. cbn [obind] in E. injection E as <- <-.
  unfold notify_origin. rewrite N. unfold life. assert (forall rs c, live (notify_close h) rs (c, Some origin) = (live h rs c, Some origin)) as L.
  { clear. induction rs as [|[d r] rs IH]; intros c; [reflexivity|]. cbn [live notify_close h_pkt]. destruct (h_pkt h d c r) as [c' b]. destruct b; [reflexivity|apply IH]. }
  rewrite L. reflexivity.
Qed.
Print Assumptions C78_notify.
(** Neither is asked for: the callback is used as it is. *)
Theorem C78_no_notify : forall C (h : handler C) q origin c h' c' rs d reason,
  get_option q (str "follow") = Ok None -> get_option q (str "notify-close") = Ok None ->
  multi_watch_handler q h origin c = Ok (h', c') ->
  fst (life h' rs d reason c') = life h rs d reason c.
Proof.
  intros C h q origin c h' c' rs d reason F N E. unfold multi_watch_handler in E. rewrite C78_plain in E by exact F. cbn [obind] in E. injection E as <- <-.
  unfold notify_origin. rewrite N. unfold life. assert (forall rs c, live (notify_close h) rs (c, None) = (live h rs c, None)) as L.
  { clear. induction rs as [|[d r] rs IH]; intros c; [reflexivity|]. cbn [live notify_close h_pkt]. destruct (h_pkt h d c r) as [c' b]. destruct b; [reflexivity|apply IH]. }
  rewrite L. reflexivity.
Qed.
Print Assumptions C78_no_notify.

(** F98: with [follow] a callback is never told that its watch stopped, and with [notify-close] as well the packet
    that asked is never given. *)
Theorem C78_stopped_refuted : forall C (h h' : handler C) q v d c reason,
  get_option q (str "follow") = Ok (Some v) -> watch_handler q h = Ok h' -> h_stopped h' d c reason = c.
Proof. intros C h h' q v d c reason E W. unfold watch_handler in W. rewrite E in W. cbn [obind] in W. injection W as <-. reflexivity. Qed.
Print Assumptions C78_stopped_refuted.
Definition both_options : TQuery := add_option (add_option q_default (str "follow") [str "1"]) (str "notify-close") [str "1"].
Theorem C78_notify_refuted : exists h' c', multi_watch_handler both_options (recorder 9) (str "origin") [] = Ok (h', c') /\
  forall d reason, life h' [] d reason c' = ([], Some (str "origin")).
Proof. do 2 eexists. split; [vm_compute; reflexivity|reflexivity]. Qed.
Print Assumptions C78_notify_refuted.
(** Written as an option without a value neither is seen (F72): the callback is used as it is. *)
Theorem C78_bare_refuted : forall C (h : handler C) name, name = str "follow" \/ name = str "notify-close" ->
  watch_handler (add_option q_default name []) h = Ok h /\ forall origin, notify_origin (add_option q_default name []) origin = None.
Proof. intros C h name [-> | ->]; split; reflexivity. Qed.
Print Assumptions C78_bare_refuted.

(** A packet that links to a stored one, one that is not there, and the stored one again: the callback is called with
    the packet and two times with the linked one, and with only one of them if it breaks then. *)
Definition fol_to : point := spt 90 [[5]] [] [1].
Definition fol_from : point := spt 91 [[6]] [(repeat 0 16, toy_hash (content fol_to)); (repeat 0 16, repeat 3 32); (repeat 1 16, toy_hash (content fol_to))] [2].
Definition fol_notes (full : nat) : list note :=
  match watch_handler both_options (recorder full) with
  | Ok h => fst (h_pkt h (store_all 100 [fol_to; fol_from]) [] (Some 101, np_bytes (net_pkt fol_from)))
  | _ => []
  end.
Definition fol_seen (x : note) : option N * N := match x with NPkt r => (fst r, nth 3 (snd r) 0) | _ => (None, 0) end.
Example C78_ex : let l := stored_list 100 [fol_to; fol_from] in
  valid_store toy_hash (store_all 100 [fol_to; fol_from]) l /\ In (101, net_pkt fol_from) l /\ packet_at toy_hash (101, net_pkt fol_from) ex_nh fol_from /\
  map fst (targets l fol_from) = [100; 100] /\
  map fol_seen (fol_notes 9) = [(Some 101, 0); (Some 100, 2); (Some 100, 2)] /\ map fol_seen (fol_notes 1) = [(Some 101, 0); (Some 100, 2)].
Proof.
  assert (B : Forall good_point [fol_to; fol_from]).
  { apply Forall_cons; [|apply Forall_cons; [|apply Forall_nil]]; (eapply proj1; good_status). }
  cbv zeta. split; [apply store_all_valid; [vm_compute; reflexivity|vm_compute; reflexivity|exact B]|]. split; [right; left; reflexivity|].
  split; [apply at_point; [|reflexivity]; rewrite Forall_forall in B; apply B; right; left; reflexivity|]. split; [vm_compute; reflexivity|]. split; vm_compute; reflexivity.
Qed.
Example C78_notify_ex : exists h' c', multi_watch_handler (add_option q_default (str "notify-close") [str "1"]) (recorder 9) (str "origin") [] = Ok (h', c') /\
  fst (life h' [(empty_db, (Some 1, [7]))] empty_db SClosed c') = [NPkt (Some 1, [7]); NPkt (None, str "origin"); NStop SClosed].
Proof. do 2 eexists. split; [vm_compute; reflexivity|reflexivity]. Qed.
