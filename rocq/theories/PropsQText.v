(** Properties of queries as text: C62 and C69. *)
From Verif Require Import Bytes ModelAbe SpecAbe ProofAbe ModelFmt ModelEval SpecEval ModelFn ProofEval ModelSpace SpecSpace ProofSpace ProofTree SpecPkt ModelPkt PropsPkt ModelTestSet SpecTestSet ProofTestSet ModelPred SpecPred ProofPred PropsPred.
From Verif Require Import ModelQText SpecQText ProofQText ProofQText2 ProofQText3 ProofQText4 ProofQText5 ProofQText6 ProofQText7 ProofEval2 ProofEval3 PropsEval.

(** ** C62 *)
Lemma expands_ok l : Forall stmt_ok l -> Forall pred_ok (flat_map expand l).
Proof. intros F. apply Forall_flat_map. eapply Forall_impl; [|exact F]. apply expand_ok. Qed.
Lemma expands_sat hash b nh p recv l : hash32 hash -> packet_of hash b nh p -> recv < 2 ^ 64 -> Forall stmt_ok l ->
  (Forall (satisfies hash recv nh p) (flat_map expand l) <-> Forall (stmt_sat hash recv nh p) l).
Proof.
  intros HL PK R F. rewrite Forall_flat_map. rewrite !Forall_forall in *. split; intros H s I; specialize (H s I); specialize (F s I);
  now apply (expand_sat hash HL b nh p recv s PK R F).
Qed.
Lemma expands_position l q n : n < 2 ^ 32 -> Forall stmt_ok l -> (position_ok (flat_map expand l) q n <-> Forall (stmt_position q n) l).
Proof.
  intros Hn F. unfold position_ok. rewrite Forall_flat_map. rewrite !Forall_forall in *. split; intros H s I; specialize (H s I); specialize (F s I);
  now apply (expand_position s q n Hn F).
Qed.
Lemma expands_named l : Forall stmt_ok l -> no_spacename (flat_map expand l).
Proof.
  intros F. apply Forall_flat_map. eapply Forall_impl; [|exact F]. intros [[k o] b] OK. apply Forall_forall. intros r I.
  destruct (expand_num _ _ I) as [-> _]. cbn [fst]. pose proof (stmt_numeric _ _ _ OK) as K. intros ->. exact K.
Qed.
Lemma pushed l q : Forall stmt_ok l -> push_all q_default l = Ok q -> exists P, add_all preds_default (flat_map expand l) = Ok P /\ q = mkQ P [].
Proof.
  intros F E. rewrite push_all_add in E by exact F. cbn [q_default q_preds] in E. destruct (add_all preds_default (flat_map expand l)) as [P|e| |]; cbn in E; try discriminate.
  injection E as <-. eauto.
Qed.
(** A query accepts exactly the packets that every statement, with the operators meaning what they
    say, is true of. *)
Theorem C62_accepts_exactly hash l q b nh p recv : hash32 hash -> Forall stmt_ok l -> push_all q_default l = Ok q ->
  packet_of hash b nh p -> recv < 2 ^ 64 ->
  (passes (q_preds q) b recv <-> Forall (stmt_sat hash recv nh p) l).
Proof.
  intros HL F E PK R. destruct (pushed l q F E) as (P & A & ->). cbn [q_preds].
  rewrite (C60_accepts_exactly hash _ P b nh p recv HL (expands_ok l F) A PK R (expands_named l F)). now apply (expands_sat hash b).
Qed.
Print Assumptions C62_accepts_exactly.
(** The positions it allows are those that all the statements allow. *)
Theorem C62_positions l q sc n : Forall stmt_ok l -> push_all q_default l = Ok q -> n < 2 ^ 32 ->
  (test 32 (p_limits (q_preds q) sc) n = true <-> Forall (stmt_position sc n) l).
Proof.
  intros F E Hn. destruct (pushed l q F E) as (P & A & ->). cbn [q_preds].
  rewrite (C60_limits _ P sc n (expands_ok l F) A Hn). now apply expands_position.
Qed.
Print Assumptions C62_positions.
(** It is refused only if no packet, or no position, satisfies all the statements, *)
Definition no_place (l : list stmt) (sc : QScope) : Prop := forall n, n < 2 ^ 32 -> ~ Forall (stmt_position sc n) l.
Theorem C62_refused hash l e b nh p recv : hash32 hash -> Forall stmt_ok l -> push_all q_default l = Err e ->
  packet_of hash b nh p -> recv < 2 ^ 64 ->
  ~ Forall (stmt_sat hash recv nh p) l \/ no_place l QQuery \/ no_place l QNew /\ (no_place l QIndex \/ no_place l QBranch).
Proof.
  intros HL F E PK R. rewrite push_all_add in E by exact F. cbn [q_default q_preds] in E. destruct (add_all preds_default (flat_map expand l)) as [P|e'| |] eqn:A; cbn in E; try discriminate.
  assert (NP : forall sc, no_positions (flat_map expand l) sc -> no_place l sc) by (intros sc H n Hn X; apply (H n Hn); now apply expands_position).
  destruct (C60_refused_is_empty hash _ e' b nh p recv HL (expands_ok l F) A PK R) as [H|H].
  - left. intros X. apply H. now apply (expands_sat hash b).
  - right. destruct H as [H|[H [K|K]]]; auto.
Qed.
Print Assumptions C62_refused.
(** and never anything else. *)
Theorem C62_total l : Forall stmt_ok l -> match push_all q_default l with Ok _ | Err _ => True | _ => False end.
Proof.
  intros F. rewrite push_all_add by exact F. cbn [q_default q_preds]. destruct (C60_total (flat_map expand l) (expands_ok l F)) as (o & E & H). rewrite E. now destruct o.
Qed.
Print Assumptions C62_total.
(** The statements written as text, one per line, are the same query, in any scope. *)
Theorem C62_text l q : Forall stmt_ok l -> forall fuel s, (0 < fuel)%nat -> lk_query_parse fuel s q [flat_map stmt_line l] = push_all q l.
Proof.
  intros F [|fuel] s L; [lia|]. cbn [lk_query_parse]. rewrite parse_push.
  - destruct (push_all q l); reflexivity.
  - eapply Forall_impl; [|exact F]. intros [[k o] b] OK. split; [exact (stmt_numeric _ _ _ OK)|apply OK].
Qed.
Print Assumptions C62_text.
(** Several texts are the statements of all of them, in order. *)
Theorem C62_texts ls : forall q fuel s, Forall (Forall stmt_ok) ls -> (0 < fuel)%nat -> lk_query_parse fuel s q (map (flat_map stmt_line) ls) = push_all q (List.concat ls).
Proof.
  induction ls as [|l ls IH]; intros q fuel s F L; [reflexivity|]. inversion F as [|? ? F1 F2]; subst. cbn [map List.concat].
  assert (A : forall l2 q, push_all q (l ++ l2) = obind (push_all q l) (fun q' => push_all q' l2)). { clear. intros l2. induction l as [|[[k o] b] l IH]; intros q; [reflexivity|]. cbn [app push_all]. destruct (lk_query_push _ _ _ _); cbn [obind]; [apply IH|reflexivity..]. }
  rewrite A, <- (C62_text l q F1 fuel s L). cbn [lk_query_parse]. destruct (query_parse fuel s q (flat_map stmt_line l)) as [q'| | |]; cbn [obind]; [now apply IH|reflexivity..].
Qed.
Print Assumptions C62_texts.
(** An option is found under its name, and the predicates and the other options stay. *)
Theorem C62_option q name v : exists q', lk_query_push q [] name v = Ok q' /\ get_option q' name = Ok (Some (Some v)) /\ q_preds q' = q_preds q /\
  forall n, n <> name -> get_option q' n = get_option q n.
Proof.
  eexists. split; [reflexivity|].
  assert (Z : forall n, negb (lenN [(Some CColon, name); (Some CColon, v)] <? lenN [[]; n]) && zip_all [[]; n] (iter_bytes [(Some CColon, name); (Some CColon, v)]) = beqb n name).
  { intros n. change (negb (lenN [(Some CColon, name); (Some CColon, v)] <? lenN [[]; n])) with true. cbn [iter_bytes map snd zip_all andb]. rewrite andb_true_r. reflexivity. }
  unfold get_option, get_inner. cbn [q_conf add_option q_preds map]. rewrite rev_app_distr. cbn [rev app filter]. split; [|split; [reflexivity|]].
  - rewrite Z, beqb_refl. reflexivity.
  - intros n NE. rewrite Z. destruct (beqb n name) eqn:B; [apply beqb_eq in B; congruence|reflexivity].
Qed.
Print Assumptions C62_option.

(** A query on the packet of C60: the group starts with its first byte, the domain is at most the
    packet's, created at 77 or later, received before 9, and at most three of them. *)
Definition ex_stmts : list stmt :=
  [(RField GroupIDF, HeadMask, firstn 3 ex_group); (RField DomainF, LessEq, ex_domain); (RField CreateF, GreaterEq, [0; 0; 0; 0; 0; 0; 0; 77]);
   (RField PktTypeF, Op Mask1, [2]); (RRecv, Op Less, [0; 0; 0; 0; 0; 0; 0; 9]); (RLimit QQuery, LessEq, [0; 0; 0; 2])].
Definition push_passes (l : list stmt) (b : bytes) (recv : N) : bool :=
  match push_all q_default l, view b with
  | Ok q, Ok np => run_tests (compile_predicates (q_preds q)) np && bound_test (p_recv (q_preds q)) recv
  | _, _ => false
  end.
Lemma push_passes_iff l q b recv np : push_all q_default l = Ok q -> view b = Ok np -> (push_passes l b recv = true <-> passes (q_preds q) b recv).
Proof.
  intros E V. unfold push_passes. rewrite E, V. rewrite andb_true_iff. split; [intros []; exists np; auto|]. intros (np' & V' & A & B). rewrite V in V'. injection V' as <-. auto.
Qed.
Example C62_ex_ok : Forall stmt_ok ex_stmts.
Proof.
  assert (B : Forall (fun s => bytes_ok (snd s)) ex_stmts) by (repeat constructor; apply bytes_okb; vm_compute; reflexivity).
  unfold ex_stmts in *. repeat apply Forall_cons_iff in B as [? B].
  apply Forall_cons; [split; [assumption|split; [vm_compute; lia|split; [exact Logic.I|intros []]]]|].
  apply Forall_cons; [split; [assumption|split; [left; reflexivity|split; [exact Logic.I|]]]|].
  { cbn [vacuous]. intros V. rewrite Forall_forall in V. assert (255 = 0); [|discriminate]. apply V. vm_compute. tauto. }
  apply Forall_cons; [split; [assumption|split; [left; reflexivity|split; [exact Logic.I|]]]|].
  { cbn [vacuous]. intros V. rewrite Forall_forall in V. assert (0 = 77); [|discriminate]. apply V. vm_compute. tauto. }
  apply Forall_cons; [split; [assumption|split; [left; reflexivity|split; [exact Logic.I|intros []]]]|].
  apply Forall_cons; [split; [assumption|split; [left; reflexivity|exact Logic.I]]|].
  apply Forall_cons; [split; [assumption|split; [left; reflexivity|exact Logic.I]]|]. constructor.
Qed.
Example C62_ex : push_passes ex_stmts ex_pkt 8 = true /\ push_passes ex_stmts ex_pkt 9 = false /\
  push_passes ((RField GroupIDF, TailMask, [1; 2; 3]) :: ex_stmts) ex_pkt 8 = false /\
  push_passes [(RField CreateF, LessEq, [0; 0; 0; 0; 0; 0; 0; 76])] ex_pkt 8 = false /\
  push_passes [(RField CreateF, LessEq, [0; 0; 0; 0; 0; 0; 0; 77])] ex_pkt 8 = true /\
  is_err (push_all q_default [(RField CreateF, LessEq, [0; 0; 0; 0; 0; 0; 0; 76]); (RField CreateF, GreaterEq, [0; 0; 0; 0; 0; 0; 0; 77])]) = true.
Proof. vm_compute. repeat split. Qed.
(** The statements that are left out mean something else.  [>=] the least and [<=] the greatest value
    add nothing to the query, so that it also accepts packets that do not have the field: *)
Definition data_point : point := PData [1; 2; 3].
Definition data_pkt : bytes := packet toy_hash ex_nh data_point.
Lemma data_packet_of : packet_of toy_hash data_pkt ex_nh data_point.
Proof. split; [reflexivity|]. split; [reflexivity|]. split; [split; [vm_compute; discriminate|exact Logic.I]|]. apply bytes_okb. vm_compute. reflexivity. Qed.
Theorem C62_vacuous_refuted : exists s, operand_fits (fst (fst s)) (snd (fst s)) (snd s) /\ push_all q_default [s] = Ok q_default /\
  passes preds_default data_pkt 0 /\ packet_of toy_hash data_pkt ex_nh data_point /\ ~ stmt_sat toy_hash 0 ex_nh data_point s.
Proof.
  exists (RField PubKeyF, GreaterEq, repeat 0 32). split; [left; reflexivity|]. split; [vm_compute; reflexivity|]. split; [|split; [exact data_packet_of|]].
  - assert (passesb [] data_pkt 0 = true) as PB by (vm_compute; reflexivity). unfold passesb in PB. cbn [add_all] in PB. destruct (view data_pkt) as [np|e| |] eqn:E; try discriminate.
    apply andb_prop in PB as [A B]. exists np. auto.
  - cbn [stmt_sat]. intros (x & E & _). discriminate.
Qed.
Print Assumptions C62_vacuous_refuted.
(** a short domain of bytes 255 is no bound; the empty operand panics; the base64 text of a group is
    decremented as text, which is then no text of a group; masks on [recv] are ignored. *)
Theorem C62_operands_refuted :
  push_all q_default [(RField DomainF, LessEq, [255])] = Ok q_default /\
  (exists x, num_field toy_hash DomainF ex_nh ex_point = Some x /\ 255 < x) /\
  push_all q_default [(RField CreateF, GreaterEq, [])] = Panic /\
  push_all q_default [(RField GroupIDF, GreaterEq, base64 (repeat 0 31 ++ [1]))] = Err QValue /\
  (exists q, push_all q_default [(RField GroupIDF, Op Greater, base64 (repeat 0 31 ++ [1]))] = Ok q) /\
  push_all q_default [(RRecv, Op Mask1, repeat 255 8)] = Ok q_default.
Proof.
  split; [vm_compute; reflexivity|]. split; [eexists; split; [vm_compute; reflexivity|reflexivity]|]. split; [vm_compute; reflexivity|]. split; [vm_compute; reflexivity|].
  split; [eexists; vm_compute; reflexivity|vm_compute; reflexivity].
Qed.
Print Assumptions C62_operands_refuted.
(** [lk_query_push] knows fields that no statement can name; a predicate on them panics. *)
Theorem F71_push_panics v : Forall (fun f => lk_query_push q_default f (str "=") v = Panic) [str "data"; str "signature"; str "rspacename"; str "comp0"; str "comp7"] /\
  predicate_type (str "data") = None.
Proof. split; [|reflexivity]. repeat constructor. Qed.
Print Assumptions F71_push_panics.

(** ** C69 *)
(** A query that was made of any predicates, except orders on the hash, printed and parsed in any
    scope is a query that accepts the same packets and positions; its options are reversed.  The text
    may be refused, but only if the query has no results. *)
Lemma same_prefix (cs cs' : list bytes) : space_ok cs -> space_ok cs' -> wire_rooted cs = wire_rooted cs' -> cs = cs'.
Proof.
  intros S S' E. apply wire_space_inj; [apply S|apply S'|]. pose proof (proj1 (rs_space_wire cs)) as A. rewrite E, (proj1 (rs_space_wire cs')) in A. congruence.
Qed.
(** What a query that is read must be, for the one that was printed. *)
Definition reads_back (rs : list Predicate) (P : PktPredicates) (conf : list ABList) (r : outcome QErr TQuery) : Prop :=
  match r with
  | Ok q => q_conf q = rev conf /\
      (forall hash b nh p recv, hash32 hash -> packet_of hash b nh p -> recv < 2 ^ 64 -> (passes (q_preds q) b recv <-> passes P b recv)) /\
      (forall sc n, n < 2 ^ 32 -> test 32 (p_limits (q_preds q) sc) n = test 32 (p_limits P sc) n)
  | Err _ => forall hash b nh p recv, hash32 hash -> packet_of hash b nh p -> recv < 2 ^ 64 -> ~ passes P b recv \/ no_results rs
  | _ => False
  end.
Lemma added_bytes rs P cs : Forall pred_ok rs -> Forall pred_bytes rs -> add_all preds_default rs = Ok P -> Inv h0 P cs rs -> Forall bytes_ok cs.
Proof.
  intros OK PB E (_ & PX & _). pose proof (add_all_good rs P OK PB E) as (_ & _ & cs0 & PX0 & B0).
  apply wire_ok. pose proof (proj1 (rs_space_wire cs)) as A. rewrite <- PX, PX0, (proj1 (rs_space_wire cs0)) in A. injection A as <-. exact B0.
Qed.
Lemma iter_reads_back rs P cs conf : Forall pred_ok rs -> Forall pred_bytes rs -> hash_unordered rs -> add_all preds_default rs = Ok P -> Inv h0 P cs rs ->
  reads_back rs P conf (with_preds (mkQ preds_default (rev conf)) (lift (add_all preds_default (iter_preds P cs)))).
Proof.
  intros OK PB HU E IV. pose proof (add_all_good rs P OK PB E) as (T & _).
  pose proof (hash_limited rs P OK HU E) as HB. pose proof IV as (SO & PX & SK & L8 & DM & LO & LP & _).
  assert (ACC : forall hash b nh p recv, hash32 hash -> packet_of hash b nh p -> recv < 2 ^ 64 -> (Forall (satisfies hash recv nh p) (iter_preds P cs) <-> passes P b recv)).
  { intros hash b nh p recv HL PK R. destruct (added_inv hash rs P HL OK E) as [cs1 IV1]. pose proof IV1 as (_ & PX1 & SK1 & _).
    assert (cs1 = cs) as -> by (apply same_prefix; [exact SK1|exact SK|congruence]).
    rewrite (passes_acc hash P cs rs b nh p recv HL IV1 PK R). apply (iter_sat hash HL P cs rs recv nh p IV1 T). split; [exact R|]. now exists b. }
  pose proof (iter_ok P cs rs IV) as IOK.
  destruct (add_all preds_default (iter_preds P cs)) as [P'|e| |] eqn:A; cbn [lift with_preds obind reads_back].
  - cbn [q_conf q_preds]. split; [reflexivity|]. split.
    + intros hash b nh p recv HL PK R. rewrite (C60_accepts_exactly hash _ P' b nh p recv HL IOK A PK R (iter_no_spacename P cs)). now apply ACC.
    + intros sc n Hn. rewrite (test_member 32 (p_limits P sc) n eq_refl eq_refl (LO sc) Hn). apply eq_true_iff_eq. rewrite (C60_limits _ P' sc n IOK A Hn).
      now apply (iter_position P cs rs sc n IV Hn HB).
  - intros hash b nh p recv HL PK R. destruct (C60_refused_is_empty hash _ e b nh p recv HL IOK A PK R) as [H|H].
    + left. intros X. apply H. now apply (ACC hash b).
    + right. exact (iter_results P cs rs IV HB H).
  - destruct (C60_total _ IOK) as (o & EO & H). rewrite A in EO. now subst.
  - destruct (C60_total _ IOK) as (o & EO & H). rewrite A in EO. now subst.
Qed.
Theorem C69_print_parse rs P conf : Forall pred_ok rs -> Forall pred_bytes rs -> hash_unordered rs ->
  add_all preds_default rs = Ok P -> Forall option_ok conf ->
  exists t, lk_query_print (mkQ P conf) false = Ok t /\ forall fuel s, (0 < fuel)%nat ->
    reads_back rs P conf (lk_query_parse fuel s q_default [t]).
Proof.
  intros OK PB HU E OC. destruct (added_inv h0 rs P h0_ok OK E) as [cs IV]. pose proof (added_bytes rs P cs OK PB E IV) as B.
  destruct (print_read 0 snone P cs rs conf IV B OC) as (t & PR & _). exists t. split; [exact PR|]. intros [|fuel] s L; [lia|].
  destruct (print_read fuel s P cs rs conf IV B OC) as (t' & PR' & RD). assert (t' = t) as -> by congruence. rewrite RD. now apply iter_reads_back.
Qed.
Print Assumptions C69_print_parse.
(** The predicates of C60 with two options. *)
Definition ex_conf : list ABList := [[(Some CColon, str "qid"); (Some CColon, str "a/b")]; [(Some CColon, str "follow")]].
(** What is printed for the predicates, and whether the query that is read back lets the packet pass
    and which of some positions it allows. *)
Definition printed (rs : list Predicate) (conf : list ABList) : bytes :=
  match add_all preds_default rs with Ok P => match lk_query_print (mkQ P conf) false with Ok t => t | _ => [] end | _ => [] end.
Definition again (s : scope) (t b : bytes) (ns : list N) : option (bool * list bool) :=
  match lk_query_parse 5 s q_default [t], view b with
  | Ok q, Ok np => Some (run_tests (compile_predicates (q_preds q)) np, map (test 32 (p_limits (q_preds q) QQuery)) ns)
  | _, _ => None
  end.
Example C69_ex : Forall pred_bytes ex_preds2 /\ hash_unordered ex_preds2 /\ Forall option_ok ex_conf /\
  firstn 25 (printed ex_preds2 ex_conf) = str ":follow" ++ [10] ++ str ":qid:a\/b" ++ [10; 10] ++ str "type:1" /\
  again snone (printed ex_preds2 ex_conf) ex_pkt [9; 10] = Some (true, [true; false]) /\
  again snone (printed (mkPred (RField CreateF) Less (PNum 77) :: ex_preds2) ex_conf) ex_pkt [9; 10] = Some (false, [true; false]).
Proof.
  split; [repeat constructor; apply bytes_okb; vm_compute; reflexivity|]. split; [repeat constructor; discriminate|].
  split; [repeat constructor; try discriminate; apply bytes_okb; reflexivity|]. vm_compute. auto.
Qed.
(** Queries whose text is refused exist: only datapoints, in a space. *)
Definition ex_dead : list Predicate := [mkPred (RField PktTypeF) Equal (PNum 1); mkPred RPrefix Equal (PSpace sp_hi)].
Example C69_refused_ex : is_err (add_all preds_default ex_dead) = false /\ is_err (lk_query_parse 5 snone q_default [printed ex_dead []]) = true.
Proof. vm_compute. auto. Qed.
(** Two orders on the hash that leave one value are printed as an equality, which also limits the
    query to one position. *)
Definition ex_between : list Predicate := [mkPred (RField PktHashF) Greater (PNum 6); mkPred (RField PktHashF) Less (PNum 8)].
Theorem C69_hash_order_refuted : exists P t q, Forall pred_ok ex_between /\ Forall pred_bytes ex_between /\ add_all preds_default ex_between = Ok P /\
  lk_query_print (mkQ P []) false = Ok t /\ lk_query_parse 1 snone q_default [t] = Ok q /\
  test 32 (p_limits P QQuery) 1 = true /\ test 32 (p_limits (q_preds q) QQuery) 1 = false.
Proof.
  destruct (add_all preds_default ex_between) as [P|e| |] eqn:E; [|vm_compute in E; discriminate..].
  exists P, (printed ex_between []). destruct (lk_query_parse 1 snone q_default [printed ex_between []]) as [q|e| |] eqn:Q; [|vm_compute in Q; discriminate..].
  exists q. split; [repeat constructor|]. split; [repeat constructor|]. split; [reflexivity|].
  assert (lk_query_print (mkQ P []) false = Ok (printed ex_between [])) as X by (vm_compute in E; injection E as <-; vm_compute; reflexivity). split; [exact X|]. split; [reflexivity|].
  split; [vm_compute in E; injection E as <-; vm_compute; reflexivity|vm_compute in Q; injection Q as <-; vm_compute; reflexivity].
Qed.
Print Assumptions C69_hash_order_refuted.
(** Of two options with the same name the newest counts, so the printed query has the other one. *)
Definition two_qids : list ABList := [[(Some CColon, str "qid"); (Some CColon, str "a")]; [(Some CColon, str "qid"); (Some CColon, str "b")]].
Theorem C69_options_refuted : exists t q, Forall option_ok two_qids /\ lk_query_print (mkQ preds_default two_qids) false = Ok t /\
  lk_query_parse 1 snone q_default [t] = Ok q /\ get_option (mkQ preds_default two_qids) (str "qid") = Ok (Some (Some (str "b"))) /\ get_option q (str "qid") = Ok (Some (Some (str "a"))).
Proof.
  exists (printed [] two_qids). destruct (lk_query_parse 1 snone q_default [printed [] two_qids]) as [q|e| |] eqn:Q; [|vm_compute in Q; discriminate..]. exists q.
  split; [repeat constructor; try discriminate; apply bytes_okb; reflexivity|]. split; [vm_compute; reflexivity|]. split; [reflexivity|]. split; [vm_compute; reflexivity|].
  vm_compute in Q. injection Q as <-. vm_compute. reflexivity.
Qed.
Print Assumptions C69_options_refuted.
(** Printed with expressions it is read back the same way, in every scope that knows at least the
    functions of the core scope, if domains are written without escapes. *)
Theorem C69_print_parse_expr rs P conf o s : Forall pred_ok rs -> Forall pred_bytes rs -> hash_unordered rs -> Forall plain_pred rs ->
  add_all preds_default rs = Ok P -> Forall option_ok conf -> extends (core_scope o) s ->
  exists t n, lk_query_print (mkQ P conf) true = Ok t /\ forall fuel, (n <= fuel)%nat -> reads_back rs P conf (lk_query_parse fuel s q_default [t]).
Proof.
  intros OK PB HU PL E OC X. destruct (added_inv h0 rs P h0_ok OK E) as [cs IV]. pose proof (added_bytes rs P cs OK PB E IV) as B.
  destruct (print_read_expr o s P cs rs conf X IV B (add_all_plain rs P OK PL E) OC) as (t & n & PR & RD). exists t, n. split; [exact PR|].
  intros fuel F. rewrite RD by exact F. now apply iter_reads_back.
Qed.
Print Assumptions C69_print_parse_expr.
(** The same predicates, in a domain. *)
Definition ex_dom : list Predicate := mkPred (RField DomainF) Equal (PNum (be_decode ex_domain)) :: ex_preds2.
Definition printed_expr (rs : list Predicate) (conf : list ABList) : bytes :=
  match add_all preds_default rs with Ok P => match lk_query_print (mkQ P conf) true with Ok t => t | _ => [] end | _ => [] end.
Lemma plain_space cs : space_ok cs -> Forall (fun c => lenN c = 16 -> padded_plain c) cs ->
  forall cs', space_ok cs' -> wire_space cs = wire_space cs' -> Forall (fun c => lenN c = 16 -> padded_plain c) cs'.
Proof. intros SK F cs' SK' E. apply wire_space_inj in E; [now subst|apply SK|apply SK']. Qed.
Lemma test_plain : Forall SpecAbe.plain [116;101;115;116].
Proof. repeat (apply Forall_cons; [split; [lia|vm_compute; intuition discriminate]|]). apply Forall_nil. Qed.
Example C69_expr_ex : Forall pred_ok ex_dom /\ Forall pred_bytes ex_dom /\ hash_unordered ex_dom /\ Forall plain_pred ex_dom /\
  firstn 64 (printed_expr ex_dom ex_conf) = str ":follow" ++ [10] ++ str ":qid:a\/b" ++ [10; 10] ++ str "type:1:[b2:00000010]" ++ [10] ++ str "domain:=:[a:test]" ++ [10] ++ str "group:" /\
  again (core_scope o1) (printed_expr ex_dom ex_conf) ex_pkt [9; 10] = Some (true, [true; false]).
Proof.
  split; [constructor; [split; [exact I|vm_compute; reflexivity]|exact ex_preds_ok]|]. split; [repeat constructor; apply bytes_okb; vm_compute; reflexivity|].
  split; [repeat constructor; discriminate|]. split; [|vm_compute; auto].
  constructor; [split; [reflexivity|]; exists 0, 12%nat, [116;101;115;116]; split; [now left|]; split; [vm_compute; reflexivity|]; exact test_plain|].
  constructor; [refine (plain_space [[104;105];[121;111]] _ _); [exact hiyo_ok|repeat constructor; discriminate]|]. constructor; [exact I|].
  constructor; [refine (plain_space [[104;105]] _ _); [exact hi_ok|repeat constructor; discriminate]|]. repeat constructor.
Qed.
(** A query with the domain [a:b], printed with expressions: the text has the domain [a\:b]. *)
Definition ex_colon : list Predicate := [mkPred (RField DomainF) Equal (PNum (be_decode (str "a:b")))].
Definition colon_pkt : bytes := packet toy_hash ex_nh (PLink ex_group (repeat 0 13 ++ str "a:b") 77 ex_links ex_rspace ex_data).
Theorem C69_expressions_refuted : exists P t q, Forall pred_ok ex_colon /\ add_all preds_default ex_colon = Ok P /\
  lk_query_print (mkQ P []) true = Ok t /\ lk_query_parse 5 (core_scope o1) q_default [t] = Ok q /\ passes P colon_pkt 0 /\ ~ passes (q_preds q) colon_pkt 0.
Proof.
  destruct (add_all preds_default ex_colon) as [P|e| |] eqn:E; [|vm_compute in E; discriminate..]. destruct (lk_query_print (mkQ P []) true) as [t|e| |] eqn:T.
  2-4: exfalso; vm_compute in E; injection E as <-; vm_compute in T; discriminate.
  assert (t = [10] ++ str "type:1:[b2:00000010]" ++ [10] ++ str "domain:=:[a:a\\\:b]" ++ [10]) as -> by (vm_compute in E; injection E as <-; vm_compute in T; injection T as <-; reflexivity).
  exists P. eexists. destruct (lk_query_parse 5 (core_scope o1) q_default [[10] ++ str "type:1:[b2:00000010]" ++ [10] ++ str "domain:=:[a:a\\\:b]" ++ [10]]) as [q|e| |] eqn:Q; [|vm_compute in Q; discriminate..].
  exists q. split; [repeat constructor|]. split; [reflexivity|]. split; [exact T|]. split; [exact Q|].
  destruct (view colon_pkt) as [np|e| |] eqn:V; [|vm_compute in V; discriminate..]. split.
  - exists np. split; [exact V|]. vm_compute in E, V. injection E as <-. injection V as <-. vm_compute. auto.
  - intros (np' & V' & A & _). rewrite V in V'. injection V' as <-. vm_compute in Q, V. injection Q as <-. injection V as <-. vm_compute in A. discriminate.
Qed.
Print Assumptions C69_expressions_refuted.
(** An option without a value is never found, and one with two values is an error. *)
Theorem F72_options q : get_option (mkQ (q_preds q) [[(Some CColon, str "follow")]]) (str "follow") = Ok None /\
  get_option (mkQ (q_preds q) [[(Some CColon, str "qid"); (Some CColon, str "a"); (Some CColon, str "b")]]) (str "qid") = Err QStmt.
Proof. split; vm_compute; reflexivity. Qed.
Print Assumptions F72_options.
