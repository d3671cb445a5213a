(** Properties of the alternatives of lk multi-watch: C92. *)
From Verif Require Import Bytes ModelAbe SpecAbe ProofAbe ModelFmt ModelEval SpecEval ModelFn ProofEval ModelSpace SpecSpace ProofSpace ProofTree SpecPkt ModelPkt PropsPkt ModelTestSet SpecTestSet ProofTestSet ModelPred SpecPred ProofPred PropsPred.
From Verif Require Import ModelQText SpecQText ProofQText ProofQText2 ProofQText3 ProofQText4 ProofQText5 ProofQText6 ProofQText7 ProofEval2 ProofEval3 PropsEval PropsQText ModelMulti ProofMulti.

Lemma parse_st_push fuel s l q : Forall stmt_ok l ->
  match query_parse_st (S fuel) s q (flat_map stmt_line l) with
  | (q', Ok _) => push_all q l = Ok q'
  | (_, Err e) => push_all q l = Err e
  | (_, Panic) => push_all q l = Panic
  | (_, OutOfFuel) => push_all q l = OutOfFuel
  end.
Proof.
  intros F. rewrite (parse_st fuel s l F), push_all_add by exact F. rewrite <- erase_all. unfold erase. destruct (add_all_st (q_preds q) (flat_map expand l)) as [P [u|e| |]]; reflexivity.
Qed.
Lemma push_all_app a b : forall q, push_all q (a ++ b) = obind (push_all q a) (fun q' => push_all q' b).
Proof. induction a as [|[[k o] v] a IH]; intros q; [reflexivity|]. cbn [app push_all]. destruct (lk_query_push _ _ _ _); cbn [obind]; [apply IH|reflexivity..]. Qed.

(** Without alternatives the query of the packet is the one that is watched: it accepts exactly the
    packets that satisfy every statement; a query that is refused as such is refused. *)
Theorem C92_none hash fuel core cli full l : hash32 hash -> Forall stmt_ok l ->
  match setup_query (S fuel) core cli full [] (flat_map stmt_line l) with
  | Ok q => push_all q_default l = Ok q /\
      forall b nh p recv, packet_of hash b nh p -> recv < 2 ^ 64 -> (passes (q_preds q) b recv <-> Forall (stmt_sat hash recv nh p) l)
  | Err (MQuery e) => push_all q_default l = Err e
  | Err MNoAlternative => False
  | Panic => push_all q_default l = Panic
  | OutOfFuel => push_all q_default l = OutOfFuel
  end.
Proof.
  intros HL F. unfold setup_query. pose proof (parse_st_push fuel (if full then cli else core) l q_default F) as H.
  destruct (query_parse_st _ _ _ _) as [q [u|e| |]]; try exact H. split; [exact H|]. intros b nh p recv PK R. now apply (C62_accepts_exactly hash l q b nh p recv).
Qed.
Print Assumptions C92_none.
(** When the first alternative can be added, the packets that are watched are exactly those that
    satisfy both. *)
Theorem C92_first_partial hash fuel core cli full l a alts q : hash32 hash -> Forall stmt_ok l -> Forall stmt_ok a ->
  push_all q_default (l ++ a) = Ok q ->
  setup_query (S fuel) core cli full (flat_map stmt_line a :: alts) (flat_map stmt_line l) = Ok q /\
  forall b nh p recv, packet_of hash b nh p -> recv < 2 ^ 64 ->
    (passes (q_preds q) b recv <-> Forall (stmt_sat hash recv nh p) l /\ Forall (stmt_sat hash recv nh p) a).
Proof.
  intros HL FL FA E. split.
  - rewrite push_all_app in E. unfold setup_query. pose proof (parse_st_push fuel (if full then cli else core) l q_default FL) as H.
    destruct (query_parse_st _ _ _ (flat_map stmt_line l)) as [q1 [u|e| |]]; rewrite H in E; cbn [obind] in E; try discriminate. cbn [constrain].
    pose proof (parse_st_push fuel cli a q1 FA) as H2. destruct (query_parse_st _ _ _ (flat_map stmt_line a)) as [q2 [u2|e| |]]; rewrite H2 in E; try discriminate. now injection E as <-.
  - intros b nh p recv PK R. rewrite (C62_accepts_exactly hash (l ++ a) q b nh p recv HL (proj2 (Forall_app _ _ _) (conj FL FA)) E PK R). apply Forall_app.
Qed.
Print Assumptions C92_first_partial.
(** Whatever alternatives failed before: only packets that satisfy some alternative are watched. *)
Theorem C92_enforced hash fuel core cli full l alts q b nh p recv : hash32 hash -> Forall stmt_ok l -> Forall (Forall stmt_ok) alts -> alts <> [] ->
  setup_query (S fuel) core cli full (map (flat_map stmt_line) alts) (flat_map stmt_line l) = Ok q ->
  packet_of hash b nh p -> recv < 2 ^ 64 -> passes (q_preds q) b recv ->
  exists a, In a alts /\ Forall (stmt_sat hash recv nh p) a.
Proof.
  intros HL FL FA NE E PK R PS. unfold setup_query in E. rewrite (parse_st fuel _ l FL) in E. pose proof (all_st_wok _ (expands_numeric l FL) _ wok_default) as W.
  cbn [q_default q_preds q_conf] in E. destruct (add_all_st preds_default (flat_map expand l)) as [P0 [u|e| |]]; cbn [up fst snd] in *; try discriminate.
  destruct alts as [|a0 alts0]; [contradiction|]. revert E. change (map (flat_map stmt_line) (a0 :: alts0)) with (flat_map stmt_line a0 :: map (flat_map stmt_line) alts0). cbv beta iota.
  change (flat_map stmt_line a0 :: map (flat_map stmt_line) alts0) with (map (flat_map stmt_line) (a0 :: alts0)).
  clear NE. generalize (@nil ABList). intros cf. revert P0 W. induction FA as [|a alts OK FA IH]; intros P0 W E; [discriminate|]. cbn [map constrain] in E.
  rewrite (parse_st fuel cli a OK) in E. cbn [q_preds q_conf] in E. pose proof (all_st_wok _ (expands_numeric a OK) _ W) as W1.
  pose proof (erase_all (flat_map expand a) P0) as EA. unfold erase in EA. destruct (add_all_st P0 (flat_map expand a)) as [P1 [u1|e| |]]; cbn [up fst snd] in *; try discriminate.
  - injection E as <-. cbn [q_preds] in PS. exists a. split; [now left|]. apply (expands_sat hash b nh p recv a HL PK R OK).
    destruct (all_good _ (expands_numeric a OK) P0 P1 W (eq_sym EA)) as (W2 & _ & G). pose proof (expands_numeric a OK) as NP. rewrite Forall_forall in *.
    intros r I. apply (good_satisfied hash HL P1 r b nh p recv W2); auto.
  - destruct (IH P1 W1 E) as (a' & I & S). exists a'. split; [now right|exact S].
Qed.
Print Assumptions C92_enforced.

(** ** The example of the documentation: public packets of one domain, or packets of another *)
Definition dom (t : bytes) : stmt := (RField DomainF, Op Equal, repeat 0 (16 - List.length t) ++ t).
Definition links_mask (o : TestOp) (n : N) : stmt := (RField LinksLenF, Op o, be_encode (size_of (RField LinksLenF)) n).
Definition ex_alts : list (list stmt) := [[(RField GroupIDF, Op Equal, repeat 7 32); dom (str "example")]; [dom (str "hello")]].
Lemma op_ok f o v : bytes_ok v -> List.length v = size_of (RField f) -> num_kind f -> stmt_ok (RField f, Op o, v).
Proof. intros B L K. split; [exact B|]. split; [now left|]. split; [exact K|intros []]. Qed.
Ltac stmts := repeat (first [apply Forall_nil | apply Forall_cons]); (apply op_ok; [apply bytes_okb; vm_compute; reflexivity|vm_compute; reflexivity|exact Logic.I]).
Example ex_alts_ok : Forall (Forall stmt_ok) ex_alts.
Proof. stmts. Qed.
Definition accepts (o : outcome MultiErr TQuery) (b : bytes) (recv : N) : bool :=
  match o, view b with
  | Ok q, Ok np => run_tests (compile_predicates (q_preds q)) np && bound_test (p_recv (q_preds q)) recv
  | _, _ => false
  end.
Lemma accepts_passes o b recv : accepts o b recv = true -> exists q, o = Ok q /\ passes (q_preds q) b recv.
Proof.
  unfold accepts. destruct o as [q|e| |]; try discriminate. destruct (view b) as [np|e| |] eqn:V; try discriminate. intros H. apply andb_prop in H as [A B].
  exists q. split; [reflexivity|]. exists np. auto.
Qed.
Definition watched (l : list stmt) (alts : list (list stmt)) : outcome MultiErr TQuery :=
  setup_query 1 snone snone false (map (flat_map stmt_line) alts) (flat_map stmt_line l).
Definition alt_pkt (g d : bytes) (links : list Link) : point := PLink g d 77 links (wire_rooted []) [1].
Example C92_ex :
  let pkt d := packet toy_hash ex_nh (alt_pkt (repeat 7 32) d ex_links) in
  let ex := repeat 0 9 ++ str "example" in let he := repeat 0 11 ++ str "hello" in
  accepts (watched [links_mask Greater 0] ex_alts) (pkt ex) 5 = true /\ accepts (watched [links_mask Greater 0] ex_alts) (pkt he) 5 = false /\
  accepts (watched [links_mask Greater 0] []) (pkt he) 5 = true /\ accepts (watched [links_mask Greater 9] []) (pkt he) 5 = false.
Proof. vm_compute. auto. Qed.
(** ** What a failing alternative leaves behind *)
(** The second alternative fits the query and is not found: the first one, which does not, has left
    no domain. *)
Theorem C92_unfit_refuted : exists q, Forall stmt_ok [dom (str "hello")] /\ Forall (Forall stmt_ok) ex_alts /\ push_all q_default ([dom (str "hello")] ++ [dom (str "hello")]) = Ok q /\ watched [dom (str "hello")] ex_alts = Err MNoAlternative /\ exists q', watched [dom (str "hello")] (rev ex_alts) = Ok q'.
Proof.
  destruct (push_all q_default ([dom (str "hello")] ++ [dom (str "hello")])) as [q|e| |] eqn:E; [|exfalso; revert E; vm_compute; discriminate..]. exists q.
  split; [stmts|]. split; [exact ex_alts_ok|]. split; [reflexivity|]. split; [vm_compute; reflexivity|].
  destruct (watched [dom (str "hello")] (rev ex_alts)) as [q'|e| |] eqn:E'; [now exists q'|exfalso; revert E'; vm_compute; discriminate..].
Qed.
Print Assumptions C92_unfit_refuted.
(** A query for packets with an odd number of links is given one with two: the first alternative
    fails, and the query is left with its number instead of the mask. *)
Definition ex_odd : list stmt := [links_mask Mask1 1].
Definition ex_alts2 : list (list stmt) := [[links_mask Equal 2]; [(RField GroupIDF, Op Equal, ex_group)]].
Lemma odd_not : ~ Forall (stmt_sat toy_hash 5 ex_nh ex_point) ex_odd.
Proof.
  intros F. apply Forall_inv in F. destruct F as (x & X & H). change (Some 2 = Some x) in X. injection X as <-.
  cbn [ext_holds links_mask holds] in H. rewrite be_decode_encode in H by (vm_compute; reflexivity). specialize (H 0 eq_refl). discriminate.
Qed.
Theorem C92_query_refuted : exists q, Forall stmt_ok ex_odd /\ Forall (Forall stmt_ok) ex_alts2 /\ watched ex_odd ex_alts2 = Ok q /\ packet_of toy_hash ex_pkt ex_nh ex_point /\ passes (q_preds q) ex_pkt 5 /\ ~ Forall (stmt_sat toy_hash 5 ex_nh ex_point) ex_odd.
Proof.
  assert (A : accepts (watched ex_odd ex_alts2) ex_pkt 5 = true) by (vm_compute; reflexivity). destruct (accepts_passes _ _ _ A) as (q & E & P). exists q.
  split; [stmts|]. split; [stmts|]. split; [exact E|]. split; [exact ex_packet_of|]. split; [exact P|].
  exact odd_not.
Qed.
Print Assumptions C92_query_refuted.
