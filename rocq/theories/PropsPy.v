(** C93: packets in Python. *)
From Coq Require Import Lia ZArith.
From Verif Require Import Bytes ModelSpace SpecSpace ProofSpace ProofRooted ModelPkt SpecPkt ProofPkt ProofPkt2 PropsPkt ModelTree SpecTree ProofTree PropsTree ModelPred SpecPred ProofPred PropsPred.
From Verif Require Import ModelAbe ModelLns ModelHtml ModelPktScope SpecPktScope ProofPktScope PropsPktScope ProofLkKey2 ProofQText7.
From Verif Require Import ModelPy SpecPy.
#[global] Arguments N.pow : simpl never.
Local Open Scope N_scope.

Section C93.
Variable hash : bytes -> bytes.
Hypothesis HL : hash32 hash.

Lemma parts_eq y nh p : packet_of hash (y_arc y) nh p -> parts y = Ok (np_of hash nh p).
Proof. intros P. unfold parts. now rewrite (view_packet hash _ nh p HL P). Qed.

(** ** The header *)
Definition run1 (y : PyPkt) (a : assign) : outcome unit PyPkt :=
  match a with
  | AFlags f => set_netflags f y
  | AHop v => Ok (set_hop v y)
  | AStamp v => Ok (set_stamp v y)
  | AU0 v => Ok (set_ubits 0 v y)
  | AU1 v => Ok (set_ubits 1 v y)
  | AU2 v => Ok (set_ubits 2 v y)
  | AU3 v => Ok (set_ubits 3 v y)
  end.
Fixpoint runs (y : PyPkt) (l : list assign) : outcome unit PyPkt :=
  match l with [] => Ok y | a :: l => obind (run1 y a) (fun y => runs y l) end.

Lemma flags_known f : N.testbit f 4 = false -> N.testbit f 5 = false -> N.testbit f 6 = false -> N.land f 112 = 0.
Proof.
  intros A B C. apply N.bits_inj_0. intros n. rewrite N.land_spec. destruct (N.eq_dec n 4) as [->|N4]; [now rewrite A|].
  destruct (N.eq_dec n 5) as [->|N5]; [now rewrite B|]. destruct (N.eq_dec n 6) as [->|N6]; [now rewrite C|].
  assert (N.testbit 112 n = false) as ->; [|apply Bool.andb_false_r].
  destruct (N.lt_ge_cases n 7) as [H|H]; [|apply N.bits_above_log2; change (N.log2 112) with 6; lia].
  assert (n = 0 \/ n = 1 \/ n = 2 \/ n = 3) as [->|[->|[->| ->]]] by lia; reflexivity.
Qed.
Lemma len4 (l : bytes) : lenN l = 4 -> exists a b c d, l = [a; b; c; d].
Proof. do 4 (destruct l as [|? l]; [discriminate|]). destruct l; [eauto 6|]. intros X. apply (f_equal N.to_nat) in X. unfold lenN in X. rewrite Nat2N.id in X. discriminate X. Qed.
Lemma len3 (l : bytes) : lenN l = 3 -> exists a b c, l = [a; b; c].
Proof. do 3 (destruct l as [|? l]; [discriminate|]). destruct l; [eauto 6|]. intros X. apply (f_equal N.to_nat) in X. unfold lenN in X. rewrite Nat2N.id in X. discriminate X. Qed.
Lemma len8 (l : bytes) : lenN l = 8 -> exists a b c d e f g h, l = [a; b; c; d; e; f; g; h].
Proof. do 8 (destruct l as [|? l]; [discriminate|]). destruct l; [eauto 10|]. intros X. apply (f_equal N.to_nat) in X. unfold lenN in X. rewrite Nat2N.id in X. discriminate X. Qed.
Ltac opened H := destruct H as (H1 & H2 & H3 & H4 & H5 & H6 & H7);
  apply len3 in H1 as (? & ? & ? & ->); apply len4 in H2 as (? & ? & ? & ? & ->); apply len8 in H3 as (? & ? & ? & ? & ? & ? & ? & ? & ->);
  apply len4 in H4 as (? & ? & ? & ? & ->); apply len4 in H5 as (? & ? & ? & ? & ->); apply len4 in H6 as (? & ? & ? & ? & ->); apply len4 in H7 as (? & ? & ? & ? & ->).
Lemma header_split (nh : bytes) : lenN nh = 32 -> exists h, header_ok h /\ nh = header_bytes h.
Proof.
  do 32 (destruct nh as [|? nh]; [discriminate|]). destruct nh; [|intros X; apply (f_equal N.to_nat) in X; unfold lenN in X; rewrite Nat2N.id in X; discriminate X]. intros _.
  match goal with |- exists h, _ /\ [?a1;?a2;?a3;?a4;?a5;?a6;?a7;?a8;?a9;?b0;?b1;?b2;?b3;?b4;?b5;?b6;?b7;?b8;?b9;?c0;?c1;?c2;?c3;?c4;?c5;?c6;?c7;?c8;?c9;?d0;?d1;?d2] = _ =>
    exists (mkHeader [a1;a2;a3] a4 [a5;a6;a7;a8] [a9;b0;b1;b2;b3;b4;b5;b6] [b7;b8;b9;c0] [c1;c2;c3;c4] [c5;c6;c7;c8] [c9;d0;d1;d2]) end.
  split; [repeat split|reflexivity].
Qed.
Lemma assigned_ok h a : header_ok h -> assign_ok a -> header_ok (assigned h a).
Proof. intros (H1 & H2 & H3 & H4 & H5 & H6 & H7) A. destruct h, a; cbn in *; repeat split; tauto. Qed.
Lemma run1_eq h a y : header_ok h -> assign_ok a -> y_header y = header_bytes h -> run1 y a = Ok (with_header y (header_bytes (assigned h a))).
Proof.
  intros H A E. destruct h as [pr fl ho st u0 u1 u2 u3]. unfold header_ok in H. cbn [h_prefix h_hop h_stamp h_u0 h_u1 h_u2 h_u3] in H. opened H.
  destruct a; cbn [assign_ok] in A; cbn [run1]; unfold set_netflags, set_hop, set_stamp, set_ubits; rewrite E.
  1: { destruct A as (_ & A4 & A5 & A6). rewrite (flags_known _ A4 A5 A6). reflexivity. }
  all: first [apply len4 in A as (? & ? & ? & ? & ->)|apply len8 in A as (? & ? & ? & ? & ? & ? & ? & ? & ->)]; reflexivity.
Qed.
Lemma runs_eq l : forall h y, header_ok h -> Forall assign_ok l -> y_header y = header_bytes h ->
  runs y l = Ok (with_header y (header_bytes (fold_left assigned l h))) /\ header_ok (fold_left assigned l h).
Proof.
  induction l as [|a l IH]; intros h y H F E.
  - split; [|exact H]. cbn. rewrite <- E. now destruct y.
  - inversion_clear F as [|? ? A F']. cbn [runs fold_left]. rewrite (run1_eq h a y H A E). cbn [obind].
    destruct (IH (assigned h a) (with_header y (header_bytes (assigned h a))) (assigned_ok h a H A) F' eq_refl) as [R O]. split; [exact R|exact O].
Qed.
(** Assigning to the attributes of the header changes these and no other; [lk_write] writes the packet with the header as assigned, and
    the same point. *)
Theorem C93_header b nh p recv now l : packet_of hash b nh p -> Forall assign_ok l ->
  exists h0 y, header_ok h0 /\ nh = header_bytes h0 /\ runs (from_dyn b recv now) l = Ok y /\
    (let h := fold_left assigned l h0 in
     netflags y = h_flags h /\ hop y = h_hop h /\ until y = h_stamp h /\
     ubits 0 y = h_u0 h /\ ubits 1 y = h_u1 h /\ ubits 2 y = h_u2 h /\ ubits 3 y = h_u3 h /\
     (forall allow, (allow = false -> ~ in_private_group p) -> py_write y allow = Ok (packet hash (header_bytes h) p)) /\
     (in_private_group p -> py_write y false = Err EPrivateGroup)) /\
    y_recv y = match recv with Some r => r | None => now end.
Proof.
  intros PK F. pose proof PK as (-> & LN & PO & _). destruct (header_split nh LN) as (h0 & H0 & ->). exists h0.
  assert (y_header (from_dyn (packet hash (header_bytes h0) p) recv now) = header_bytes h0) as E.
  { cbn [from_dyn y_header]. unfold packet. apply takeN_app_exact. now rewrite LN. }
  destruct (runs_eq l h0 _ H0 F E) as [R O]. eexists. split; [exact H0|]. split; [reflexivity|]. split; [exact R|]. split; [|reflexivity].
  cbv zeta. set (h := fold_left assigned l h0) in *. clearbody h. clear R.
  assert (W : reroute_ptr_bytes (header_bytes h) (packet hash (header_bytes h0) p) = packet hash (header_bytes h) p).
  { pose proof (reroute_ptr (mkCrypto hash unit (fun _ => []) (fun _ _ => []) (fun _ _ _ => true)) (header_bytes h0) (header_bytes h) p []) as X.
    rewrite app_nil_r in X. apply X; [exact HL|exact LN|exact PO]. }
  unfold py_write, with_header, netflags, hop, until, ubits. cbn [y_header y_arc from_dyn]. rewrite W.
  assert (G : ptr_group (nptr_point (packet hash (header_bytes h0) p)) = Ok (point_group p)).
  { exact (ptr_group_raw (mkCrypto hash unit (fun _ => []) (fun _ _ => []) (fun _ _ _ => true)) (header_bytes h0) p HL LN PO). }
  rewrite G. cbn [obind].
  destruct h as [pr fl ho st u0 u1 u2 u3]. unfold header_ok in O. cbn [h_prefix h_hop h_stamp h_u0 h_u1 h_u2 h_u3] in O. opened O.
  do 7 (split; [reflexivity|]). split.
  - intros [|] NP; [reflexivity|]. destruct (check_private_cases (point_group p)) as [-> |[_ X]]; [reflexivity|]. now destruct (NP eq_refl).
  - intros P. destruct (check_private_cases (point_group p)) as [X|[-> _]]; [|reflexivity]. apply check_private_iff in X. now destruct X.
Qed.
(** A packet whose flags hold a bit without a name can be read, but its flags cannot be assigned back. *)
Theorem C93_flags_refuted b nh p recv now : packet_of hash b nh p -> N.testbit (nth 3 nh 0) 4 = true ->
  netflags (from_dyn b recv now) = nth 3 nh 0 /\ set_netflags (netflags (from_dyn b recv now)) (from_dyn b recv now) = Panic.
Proof.
  intros (-> & LN & _) T. assert (netflags (from_dyn (packet hash nh p) recv now) = nth 3 nh 0) as E.
  { unfold netflags. cbn [from_dyn y_header]. unfold packet. now rewrite takeN_app_exact by exact LN. }
  split; [exact E|]. rewrite E. unfold set_netflags. destruct (N.land (nth 3 nh 0) 112 =? 0) eqn:Z; [|reflexivity].
  apply N.eqb_eq in Z. apply (f_equal (fun x => N.testbit x 4)) in Z. rewrite N.land_spec, T in Z. discriminate Z.
Qed.

(** ** Comparison *)
Definition holds (op : CompareOp) (o : comparison) (same : bool) : bool :=
  match op, o with
  | PyLt, Lt | PyGt, Gt | PyLe, (Lt | Eq) | PyGe, (Gt | Eq) => true
  | PyEq, _ => same
  | PyNe, _ => negb same
  | _, _ => false
  end.
(** Each operator has an answer, the answers fit one comparison, swapping the packets turns it round, and [==] is equality of the
    hashes.  Provided the hash of the two contents does not collide the comparison is equal exactly for [==]. *)
Theorem C93_compare x y nx ny p q : packet_of hash (y_arc x) nx p -> packet_of hash (y_arc y) ny q ->
  exists o, let same := beqb (hash (content p)) (hash (content q)) in
    (forall op, richcmp op x y = Ok (holds op o same)) /\
    (forall op, richcmp op y x = Ok (holds op (CompOpp o) same)) /\
    (o = Eq -> hash (content p) = hash (content q)) /\
    ((hash (content p) = hash (content q) -> content p = content q) -> hash (content p) = hash (content q) -> o = Eq).
Proof.
  intros P Q. pose proof (np_of_carries hash nx p (proj1 (proj2 (proj2 P)))) as A. pose proof (np_of_carries hash ny q (proj1 (proj2 (proj2 Q)))) as B.
  destruct (C19_total hash _ p _ q A B) as (o & E1 & E2). exists o. cbv zeta. destruct (C19_equal_iff_same_hash hash _ p _ q HL A B) as [S1 S2].
  assert (pkt_eq (np_of hash nx p) (np_of hash ny q) = beqb (hash (content p)) (hash (content q))) as PE by reflexivity.
  assert (pkt_eq (np_of hash ny q) (np_of hash nx p) = beqb (hash (content p)) (hash (content q))) as PE'.
  { unfold pkt_eq. change (beqb (hash (content q)) (hash (content p)) = beqb (hash (content p)) (hash (content q))).
    destruct (beqb (hash (content p)) (hash (content q))) eqn:Z.
    - apply beqb_eq in Z. rewrite Z. apply beqb_refl.
    - destruct (beqb (hash (content q)) (hash (content p))) eqn:Z2; [|reflexivity]. apply beqb_eq in Z2. rewrite Z2, beqb_refl in Z. discriminate Z. }
  split; [|split; [|split]].
  - intros op. unfold richcmp. rewrite (parts_eq _ _ _ P), (parts_eq _ _ _ Q). cbn [obind]. rewrite E1. cbn [or_panic obind]. rewrite PE. now destruct op, o.
  - intros op. unfold richcmp. rewrite (parts_eq _ _ _ P), (parts_eq _ _ _ Q). cbn [obind]. rewrite E2. cbn [or_panic obind]. rewrite PE'. now destruct op, o.
  - intros ->. apply S1 in E1. rewrite PE in E1. now apply beqb_eq.
  - intros NC H. specialize (S2 NC). rewrite PE in S2. specialize (S2 (proj2 (beqb_eq _ _) H)). rewrite E1 in S2. now apply ok_inj in S2.
Qed.
Theorem C93_transitive x y z nx ny nz p q r : packet_of hash (y_arc x) nx p -> packet_of hash (y_arc y) ny q -> packet_of hash (y_arc z) nz r ->
  richcmp PyLe x y = Ok true -> richcmp PyLe y z = Ok true -> richcmp PyLe x z = Ok true.
Proof.
  intros P Q R. pose proof (np_of_carries hash nx p (proj1 (proj2 (proj2 P)))) as A. pose proof (np_of_carries hash ny q (proj1 (proj2 (proj2 Q)))) as B.
  pose proof (np_of_carries hash nz r (proj1 (proj2 (proj2 R)))) as C.
  unfold richcmp. rewrite (parts_eq _ _ _ P), (parts_eq _ _ _ Q), (parts_eq _ _ _ R). cbn [obind].
  destruct (C19_total hash _ p _ q A B) as (o1 & E1 & _). destruct (C19_total hash _ q _ r B C) as (o2 & E2 & _). destruct (C19_total hash _ p _ r A C) as (o3 & E3 & _).
  pose proof (C19_transitive hash _ p _ q _ r o3 A B C) as T. rewrite E1, E2, E3 in *. cbn [or_panic obind]. intros H1 H2.
  assert (o3 <> Gt) as N3 by (apply T; [intros X; apply ok_inj in X; subst o1; discriminate H1|intros X; apply ok_inj in X; subst o2; discriminate H2|reflexivity]).
  destruct o3; congruence.
Qed.
(** The order is that of the tree: group, domain, depth, space, key, then create stamp and hash; points outside the tree come after. *)
Theorem C93_tree_order x y nx ny p q cp cq ip iq : packet_of hash (y_arc x) nx p -> packet_of hash (y_arc y) ny q ->
  in_tree p cp ip hash -> in_tree q cq iq hash -> (hash (content p) = hash (content q) -> content p = content q) ->
  (richcmp PyLt x y = Ok true <-> tree_compare ip iq = Lt) /\ (richcmp PyGt x y = Ok true <-> tree_compare ip iq = Gt).
Proof.
  intros P Q TP TQ NC. pose proof (np_of_carries hash nx p (proj1 (proj2 (proj2 P)))) as A. pose proof (np_of_carries hash ny q (proj1 (proj2 (proj2 Q)))) as B.
  unfold richcmp. rewrite (parts_eq _ _ _ P), (parts_eq _ _ _ Q). cbn [obind]. rewrite (C19_order hash _ p cp ip _ q cq iq HL A B TP TQ NC). cbn [or_panic obind].
  destruct (tree_compare ip iq); split; split; intros H; first [discriminate H|reflexivity].
Qed.
Theorem C93_outside_after x y nx ny p q : packet_of hash (y_arc x) nx p -> packet_of hash (y_arc y) ny q -> linked p -> ~ linked q ->
  richcmp PyLt x y = Ok true.
Proof.
  intros P Q LP LQ. pose proof (np_of_carries hash nx p (proj1 (proj2 (proj2 P)))) as A. pose proof (np_of_carries hash ny q (proj1 (proj2 (proj2 Q)))) as B.
  unfold richcmp. rewrite (parts_eq _ _ _ P), (parts_eq _ _ _ Q). cbn [obind]. pose proof (C19_others_after hash _ p _ q A B) as O.
  destruct p; try contradiction; destruct q; try (now destruct LQ); rewrite O; reflexivity.
Qed.
(** [hash(p)] fails for every packet, so a packet cannot be in a set or a key of a dictionary. *)
Theorem C93_hash_refuted y nh p : packet_of hash (y_arc y) nh p -> py_hash y = Panic.
Proof.
  intros P. unfold py_hash. rewrite (parts_eq _ _ _ P). reflexivity.
Qed.

(** ** Items *)
Lemma named name f : In (name, f) field_names -> field_named name = Some f.
Proof. intros I. cbn [field_names In] in I. repeat (destruct I as [I|I]; [injection I as <- <-; reflexivity|]). contradiction. Qed.
(** The item of a packet by the name of a field is that field of the packet as it was read: the header as assigned does not matter. *)
Theorem C93_item_partial b nh p cs recv now name fm v l y : packet_of hash b nh p -> pt_comps p cs -> In (name, fm, v) (fields_of_packet hash nh p cs) ->
  Forall assign_ok l -> runs (from_dyn b recv now) l = Ok y -> get_item y name = Ok v.
Proof.
  intros PK CS I F R. pose proof PK as (EB & LN & PO & _). destruct (header_split nh LN) as (h0 & H0 & EH).
  assert (y_header (from_dyn b recv now) = header_bytes h0) as E.
  { cbn [from_dyn y_header]. rewrite EB, <- EH. unfold packet. now apply takeN_app_exact. }
  destruct (runs_eq l h0 _ H0 F E) as [R' _]. rewrite R in R'. apply ok_inj in R' as ->.
  destruct (in_row hash HL b nh p cs name fm v PK CS I) as (f & FN & _ & _ & B & _). unfold get_item. rewrite (named _ _ FN).
  rewrite (parts_eq _ nh p) by exact PK. exact B.
Qed.
(** A name that is no field of a packet is an error. *)
Theorem C93_item_unknown y b nh p cs name : packet_of hash b nh p -> pt_comps p cs -> ~ In name (map (fun e => fst (fst e)) (fields_of_packet hash nh p cs)) ->
  get_item y name = Err tt.
Proof.
  intros PK CS NI. pose proof (rows hash HL b nh p cs PK CS) as R. unfold get_item, field_named.
  enough (find (fun x : bytes * Field => beqb (fst x) name) field_names = None) as -> by reflexivity.
  revert NI R. generalize (fields_of_packet hash nh p cs) field_names. intros l k NI R. induction R as [|x y' l k H R IH]; [reflexivity|].
  destruct x as [[n fm] v], y' as [n' f]. destruct H as (<- & _). cbn [map fst In] in NI. cbn [find fst].
  destruct (beqb n name) eqn:E; [apply beqb_eq in E; tauto|]. apply IH. tauto.
Qed.
(** So after an assignment the item is the old value. *)
Theorem C93_item_refuted b nh p recv now v : packet_of hash b nh p -> lenN v = 4 -> v <> part 4 4 nh ->
  hop (set_hop v (from_dyn b recv now)) = v /\ get_item (set_hop v (from_dyn b recv now)) (str "hop") = Ok (part 4 4 nh) /\
  get_item (set_hop v (from_dyn b recv now)) (str "hop") <> Ok v.
Proof.
  intros PK L NE. destruct (C79_components hash 0 (fun _ => []) (fun x => x) [] b nh p PK) as (cs & CS & _).
  assert (get_item (set_hop v (from_dyn b recv now)) (str "hop") = Ok (part 4 4 nh)) as G.
  { apply (C93_item_partial b nh p cs recv now (str "hop") AsNumber (part 4 4 nh) [AHop v]); [exact PK|exact CS|right; now left|constructor; [exact L|constructor]|reflexivity]. }
  split; [|split; [exact G|rewrite G; congruence]].
  destruct (C93_header b nh p recv now [AHop v] PK) as (h0 & y & _ & _ & R & H & _); [constructor; [exact L|constructor]|].
  apply ok_inj in R. subst y. destruct h0. apply H.
Qed.
(** What [lk_save] stores is the packet as it was read, whatever was assigned. *)
Theorem C93_save_refuted b nh p recv now v : packet_of hash b nh p -> lenN v = 4 -> v <> part 4 4 nh ->
  exists np, py_saved (set_hop v (from_dyn b recv now)) = Ok np /\ net_header np = nh /\
    sliceN 4 8 (net_header np) <> hop (set_hop v (from_dyn b recv now)).
Proof.
  intros PK L NE. exists (np_of hash nh p). split; [now apply parts_eq|]. split; [reflexivity|].
  destruct (C93_item_refuted b nh p recv now v PK L NE) as (-> & _). intros X. apply NE. rewrite <- X. reflexivity.
Qed.

(** ** Links *)
(** Data and error points have no links.  For the others [len] is their number, indexing is as in a list with [None] out of range, and going
    over them gives each of them once, in order, and then [None] for good. *)
Fixpoint taken (n : nat) (l : Links) : list (option Link) :=
  match n with O => [] | S n => fst (links_next l) :: taken n (snd (links_next l)) end.
Lemma taken_from n ls : forall i, taken n (mkLinks ls (N.of_nat i)) = map (fun k => nth_error ls k) (seq i n).
Proof.
  induction n as [|n IH]; intros i; [reflexivity|]. cbn [taken links_next fst snd l_list l_idx seq map]. rewrite Nat2N.id. f_equal.
  replace (N.of_nat i + 1) with (N.of_nat (S i)) by lia. apply IH.
Qed.
Lemma items_all {A} (ls : list A) : map (fun k => nth_error ls k) (seq 0 (List.length ls)) = map Some ls.
Proof.
  induction ls as [|x ls IH]; [reflexivity|]. cbn [List.length seq map nth_error]. f_equal. rewrite <- seq_shift, map_map. exact IH.
Qed.
Lemma items_none {A} (ls : list A) k : forall i, (List.length ls <= i)%nat -> map (fun k => nth_error ls k) (seq i k) = repeat None k.
Proof.
  induction k as [|k IH]; intros i H; [reflexivity|]. cbn [seq map repeat]. f_equal; [now apply nth_error_None|]. apply IH. lia.
Qed.
Theorem C93_links y nh p : packet_of hash (y_arc y) nh p ->
  (~ linked p -> links y = Ok None) /\
  (linked p -> exists l, links y = Ok (Some l) /\ links_len l = lenN (pt_links p) /\
    (forall i, (- 2 ^ 63 <= i < 2 ^ 63)%Z -> list_item (pt_links p) i (links_item l i)) /\
    forall k, taken (List.length (pt_links p) + k) l = map Some (pt_links p) ++ repeat None k).
Proof.
  intros P. split; intros LP.
  - unfold links. rewrite (parts_eq _ _ _ P). destruct p; try reflexivity; now destruct LP.
  - assert (links y = Ok (Some (mkLinks (pt_links p) 0))) as E by (unfold links; rewrite (parts_eq _ _ _ P); destruct p; try contradiction; reflexivity).
    exists (mkLinks (pt_links p) 0). split; [exact E|]. split; [reflexivity|]. split.
    + assert (Z.of_nat (List.length (pt_links p)) < 65536)%Z as LL.
      { destruct P as (_ & _ & (PS & _) & _). clear E. destruct p as [d|d|g dm c ls rs d|g dm c ls rs d pk sg]; try contradiction; cbn [pt_links]; unfold point_size in PS; cbn in PS |- *; unfold lenN in PS; lia. }
      intros i R. unfold list_item, links_item, links_len, wrapping_add_signed, lenN. cbn [l_list]. rewrite nat_N_Z.
      set (n := Z.of_nat (List.length (pt_links p))) in *. assert (0 <= n)%Z as N0 by (unfold n; lia).
      split; [|split].
      * intros H. rewrite (proj2 (Z.ltb_ge i 0) H). now rewrite Z_N_nat.
      * intros H H2. rewrite (proj2 (Z.ltb_lt i 0) H). apply nth_error_None. rewrite Z_N_nat.
        replace ((n + i) mod 2 ^ 64)%Z with (n + i + 2 ^ 64)%Z; [change (2 ^ 64)%Z with (2 * 2 ^ 63)%Z; unfold n in *; lia|].
        rewrite <- (Z_mod_plus_full (n + i) 1 (2 ^ 64)). rewrite Z.mod_small; [lia|]. change (2 ^ 64)%Z with (2 * 2 ^ 63)%Z. lia.
      * intros H H2. rewrite (proj2 (Z.ltb_lt i 0) H). rewrite Z_N_nat. rewrite Z.mod_small; [reflexivity|]. change (2 ^ 64)%Z with (2 * 2 ^ 63)%Z. lia.
    + intros k. rewrite (taken_from _ (pt_links p) 0). rewrite seq_app, map_app, items_all. f_equal. now apply items_none.
Qed.

(** ** Components *)
(** The list of components, for a packet whose depth byte is their number. *)
Theorem C93_comps_partial y nh p cs : packet_of hash (y_arc y) nh p ->
  (~ linked p -> comp_list y = Ok None) /\
  (linked p -> space_ok cs -> (List.length cs <= 8)%nat -> pt_rspace p = wire_rooted cs -> comp_list y = Ok (Some cs)).
Proof.
  intros P. split; intros LP.
  - unfold comp_list. rewrite (parts_eq _ _ _ P). destruct p; try reflexivity; now destruct LP.
  - intros S1 S2 R. assert (CS : pt_comps p cs).
    { split; [exact S1|]. split; [exact S2|]. rewrite R. destruct cs; [now left|right; eexists; reflexivity]. }
    unfold comp_list. rewrite (parts_eq _ _ _ P). cbn [obind]. assert (get_header (np_of hash nh p) <> None) as G by (destruct p; try contradiction; discriminate).
    destruct (get_header (np_of hash nh p)); [|now destruct G]. destruct (comps_pt hash nh p cs CS) as [_ C].
    assert (or_panic (F := unit) (rs_comps_bytes (get_rspace (np_of hash nh p))) = Ok (map (fun i => nth i cs []) (seq 0 8))) as ->.
    { unfold rs_comps_bytes. cbn [seq map]. 
      pose proof (C 0%nat ltac:(lia)) as X0. pose proof (C 1%nat ltac:(lia)) as X1. pose proof (C 2%nat ltac:(lia)) as X2. pose proof (C 3%nat ltac:(lia)) as X3.
      pose proof (C 4%nat ltac:(lia)) as X4. pose proof (C 5%nat ltac:(lia)) as X5. pose proof (C 6%nat ltac:(lia)) as X6. pose proof (C 7%nat ltac:(lia)) as X7. clear C.
      repeat match goal with X : or_panic (rs_comp ?r ?i) = Ok ?v |- _ =>
        assert (rs_comp r i = Ok v) as -> by (destruct (rs_comp r i); try discriminate X; cbn [or_panic] in X; now apply ok_inj in X; subst); clear X end.
      reflexivity. }
    cbn [obind]. rewrite get_rspace_pt, R.
    assert (rs_depth (wire_rooted cs) = lenN cs) as -> by (destruct cs; reflexivity).
    assert (lenN cs <=? 8 = true) as -> by (apply N.leb_le; unfold lenN; lia). do 2 f_equal.
    unfold takeN, lenN. rewrite Nat2N.id. clear - S2. do 8 (destruct cs as [|? cs]; [reflexivity|]). destruct cs; [reflexivity|cbn in S2; lia].
Qed.
(** A packet with eight components can have any depth byte: above eight the list fails, below it leaves out the rest. *)
Theorem C93_comps_refuted y nh p cs d : packet_of hash (y_arc y) nh p -> space_ok cs -> List.length cs = 8%nat -> pt_rspace p = rooted_with d cs -> linked p ->
  (8 < d -> comp_list y = Panic) /\ (d < 8 -> comp_list y = Ok (Some (takeN d cs))).
Proof.
  intros P S1 S2 R LP. assert (CS : pt_comps p cs).
  { split; [exact S1|]. split; [lia|]. right. now exists d. }
  unfold comp_list. rewrite (parts_eq _ _ _ P). cbn [obind]. assert (get_header (np_of hash nh p) <> None) as G by (destruct p; try contradiction; discriminate).
  destruct (get_header (np_of hash nh p)); [|now destruct G]. destruct (comps_pt hash nh p cs CS) as [_ C].
  assert (or_panic (F := unit) (rs_comps_bytes (get_rspace (np_of hash nh p))) = Ok cs) as ->.
  { replace cs with (map (fun i => nth i cs []) (seq 0 8)) at 1.
    2: { clear - S2. do 8 (destruct cs as [|? cs]; [discriminate S2|]). destruct cs; [reflexivity|discriminate S2]. }
    unfold rs_comps_bytes. cbn [seq map].
    pose proof (C 0%nat ltac:(lia)) as X0. pose proof (C 1%nat ltac:(lia)) as X1. pose proof (C 2%nat ltac:(lia)) as X2. pose proof (C 3%nat ltac:(lia)) as X3.
    pose proof (C 4%nat ltac:(lia)) as X4. pose proof (C 5%nat ltac:(lia)) as X5. pose proof (C 6%nat ltac:(lia)) as X6. pose proof (C 7%nat ltac:(lia)) as X7. clear C.
    repeat match goal with X : or_panic (rs_comp ?r ?i) = Ok ?v |- _ =>
      assert (rs_comp r i = Ok v) as -> by (destruct (rs_comp r i); try discriminate X; cbn [or_panic] in X; now apply ok_inj in X; subst); clear X end.
    reflexivity. }
  cbn [obind]. rewrite get_rspace_pt, R. change (rs_depth (rooted_with d cs)) with d. split; intros D.
  - assert (d <=? 8 = false) as -> by (apply N.leb_gt; exact D). reflexivity.
  - assert (d <=? 8 = true) as -> by (apply N.leb_le; lia). reflexivity.
Qed.
End C93.

(** The packet [ex_pkt] read in Python: its header assigned to, written and read back, its two links, its components. *)
Definition ex_y : PyPkt := from_dyn PropsPred.ex_pkt None 5.
Example C93_ex : exists nh, packet_of toy_hash (y_arc ex_y) nh PropsPred.ex_point /\ linked PropsPred.ex_point /\
  Forall assign_ok [AHop [1;2;3;4]; AFlags 9; AU2 [5;6;7;8]; AHop [0;0;0;1]] /\
  match runs ex_y [AHop [1;2;3;4]; AFlags 9; AU2 [5;6;7;8]; AHop [0;0;0;1]] with
  | Ok y => hop y = [0;0;0;1] /\ netflags y = 9 /\ py_write y true <> Ok PropsPred.ex_pkt /\ get_item y (str "hop") = Ok (part 4 4 nh)
  | _ => False
  end.
Proof.
  exists ex_nh. split; [exact ex_packet_of|]. split; [exact Logic.I|]. split; [repeat constructor|].
  vm_compute. split; [reflexivity|]. split; [reflexivity|]. split; [discriminate|reflexivity].
Qed.
Example C93_links_ex : match links ex_y, comp_list ex_y with
  | Ok (Some l), Ok (Some cs) => links_len l = 2 /\ links_item l (-1) = nth_error ex_links 1 /\ links_item l (-2) = nth_error ex_links 0 /\ links_item l 2 = None /\ cs = [[104;105];[121;111]]
  | _, _ => False
  end /\ richcmp PyLt ex_y (from_dyn (packet toy_hash ex_nh (PData ex_data)) None 5) = Ok true /\ py_hash ex_y = Panic /\ get_item ex_y (str "hops") = Err tt.
Proof. vm_compute. repeat split. Qed.
Print Assumptions C93_header.
Print Assumptions C93_flags_refuted.
Print Assumptions C93_compare.
Print Assumptions C93_transitive.
Print Assumptions C93_tree_order.
Print Assumptions C93_outside_after.
Print Assumptions C93_hash_refuted.
Print Assumptions C93_item_partial.
Print Assumptions C93_item_unknown.
Print Assumptions C93_item_refuted.
Print Assumptions C93_save_refuted.
Print Assumptions C93_links.
Print Assumptions C93_comps_partial.
Print Assumptions C93_comps_refuted.
