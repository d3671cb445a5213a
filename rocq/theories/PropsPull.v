(** Properties of pull requests: C76. *)
From Verif Require Import Bytes ModelAbe SpecAbe ProofAbe ModelFmt ModelEval SpecEval ModelFn ProofEval ProofEval2 ModelSpace SpecSpace ProofSpace ProofRooted ProofTree SpecPkt ModelPkt ProofPkt2 PropsPkt ModelTestSet SpecTestSet ProofTestSet ModelPred SpecPred ProofPred ProofPred2 PropsPred.
From Verif Require ModelTree.
From Verif Require Import ModelQText SpecQText ProofQText ProofQText3 ProofQText5 ProofQText7 PropsQText PropsEval ModelLns ModelStore SpecStore ProofStore PropsStore ModelPull SpecPull ProofPull.

(** A query that can be asked for: of one group, one domain and one identifier. *)
Definition query_of (rs : list Predicate) (P : PktPredicates) (conf : list ABList) (g d id : bytes) : Prop :=
  Forall pred_ok rs /\ add_all preds_default rs = Ok P /\ Forall option_ok conf /\
  requires rs GroupIDF g /\ requires rs DomainF d /\ bytes_ok g /\ lenN g = 32 /\ bytes_ok d /\ lenN d = 16 /\
  named conf (str "qid") = [[(Some CColon, str "qid"); (Some CColon, id)]].
Lemma encoded k b : bytes_ok b -> lenN b = N.of_nat k -> be_encode k (be_decode b) = b.
Proof. intros B L. unfold lenN in L. replace k with (List.length b) by lia. now apply be_encode_decode. Qed.
Lemma displays rs P conf : Forall pred_ok rs -> Forall pred_bytes rs -> add_all preds_default rs = Ok P -> exists t, query_display (mkQ P conf) = Ok t.
Proof.
  intros OK PB E. destruct (added_inv h0 rs P h0_ok OK E) as [cs IV]. destruct (shows_iter P cs rs IV (added_bytes rs P cs OK PB E IV)) as (ts & T & _).
  unfold query_display. cbn [q_preds]. rewrite T. cbn [obind]. eauto.
Qed.
Lemma from_iter_total cs : (exists b, rs_try_from_iter cs = Ok b) \/ exists e, rs_try_from_iter cs = Err e.
Proof.
  unfold rs_try_from_iter. destruct (rs_extend_wire cs [] space_ok_nil) as (k & r & E1 & E2 & E3 & E4); [cbn [List.length]; lia|].
  change (wire_rooted []) with (@nil N) in E1. rewrite E1. destruct E4 as [[-> _]|[[e ->] _]]; eauto.
Qed.
(** The largest text that fits in the point. *)
Definition text_fits (id t : bytes) : bool := lenN id + lenN t <=? 64896.
Lemma pull_eval rs P conf g d id t c now nh : query_of rs P conf g d id -> query_display (mkQ P conf) = Ok t ->
  lk_pull_point c (mkQ P conf) now nh =
  if (0 <? lenN id) && (lenN id <=? 186) then
    if text_fits id t then Ok (net_of c nh (pull_request g d id t now)) else Err (LPkt EContentLen)
  else Panic.
Proof.
  intros (OK & E & OC & RG & RD & BG & LG & BD & LD & NA) T. unfold lk_pull_point. cbn [q_preds].
  rewrite (required_as_eq rs P GroupIDF g OK E (or_introl eq_refl) RG), (required_as_eq rs P DomainF d OK E (or_intror eq_refl) RD).
  unfold get_option. cbn [q_conf]. rewrite get_inner_named, NA by exact OC. cbn [rev app firstn forallb fst andb skipn]. cbv iota. rewrite T. cbn [or_panic obind].
  rewrite (encoded 32 g BG LG), (encoded 16 d BD LD). change [str "pull"; g; d; id] with (pull_space g d id).
  pose proof (pull_space_ok g d id LG LD) as SO. destruct ((0 <? lenN id) && (lenN id <=? 186)) eqn:R.
  - apply andb_prop in R as [R1 R2]. apply N.ltb_lt in R1. apply N.leb_le in R2. pose proof (proj2 SO (conj R1 R2)) as X. rewrite X. cbn [or_panic obind].
    apply rs_try_from_iter_iff in X as (SK & L8 & _). rewrite try_linkpoint_eval by first [apply Forall_nil | now apply wire_rooted_ok]. cbn [point_size].
    rewrite wire_rooted_len. pose proof (pull_size g d id LG LD) as SZ. change [str "pull"; g; d; id] with (pull_space g d id) in SZ.
    destruct (wire_space (pull_space g d id)) as [|w0 w] eqn:W; [cbn in SZ; lia|]. rewrite <- W in *. unfold text_fits. unfold lenN in *. cbn [List.length].
    destruct (N.leb_spec (64 + 48 * N.of_nat 0 + (N.of_nat (List.length (wire_space (pull_space g d id))) + 8) + N.of_nat (List.length t)) 65024), (N.leb_spec (N.of_nat (List.length id) + N.of_nat (List.length t)) 64896); try lia; reflexivity.
  - destruct (from_iter_total (pull_space g d id)) as [[b B]|[e B]]; rewrite B; [|reflexivity]. apply rs_try_from_iter_iff in B as B'. destruct B' as (_ & _ & ->). apply SO in B.
    apply andb_false_iff in R as [R|R]; [apply N.ltb_ge in R|apply N.leb_gt in R]; lia.
Qed.
(** A query with one group, one domain and one identifier is asked for by a point at its own place, if its text fits;
    the text of the point is the query. *)
Theorem C76_request rs P conf g d id : query_of rs P conf g d id -> 0 < lenN id <= 186 ->
  Forall pred_bytes rs -> hash_unordered rs -> Forall plain_pred rs ->
  exists t, (forall c now nh, lk_pull_point c (mkQ P conf) now nh = if text_fits id t then Ok (net_of c nh (pull_request g d id t now)) else Err (LPkt EContentLen)) /\
  forall o s, extends (core_scope o) s -> exists n, forall fuel, (n <= fuel)%nat ->
    reads_back rs P conf (lk_query_parse fuel s q_default [t]) /\
    forall q, lk_query_parse fuel s q_default [t] = Ok q -> get_option q (str "qid") = Ok (Some (Some id)).
Proof.
  intros Q LI PB HU PL. pose proof Q as (OK & E & OC & _ & _ & _ & _ & _ & _ & NA). destruct (displays rs P conf OK PB E) as [t T]. exists t. split.
  - intros c now nh. rewrite (pull_eval rs P conf g d id t c now nh Q T). replace (0 <? lenN id) with true by (symmetry; apply N.ltb_lt; lia).
    replace (lenN id <=? 186) with true by (symmetry; apply N.leb_le; lia). reflexivity.
  - intros o s X. destruct (added_inv h0 rs P h0_ok OK E) as [cs IV]. pose proof (added_bytes rs P cs OK PB E IV) as B.
    destruct (display_read o s P cs rs conf X IV B (add_all_plain rs P OK PL E) OC) as (t' & n & T' & RD). assert (t' = t) as -> by congruence.
    exists n. intros fuel F. rewrite RD by exact F. split; [now apply iter_reads_back|]. intros q EQ.
    assert (q_conf q = rev conf) as QC by (destruct (lift _) in EQ; cbn in EQ; try discriminate; now injection EQ as <-).
    unfold get_option. rewrite QC, get_inner_named, named_rev, NA by (now apply Forall_rev). reflexivity.
Qed.
Print Assumptions C76_request.
(** A request that is made asks for points of the group, the domain and the identifier it is placed under. *)
Theorem C76_place rs P conf c now nh np : Forall pred_ok rs -> add_all preds_default rs = Ok P ->
  lk_pull_point c (mkQ P conf) now nh = Ok np ->
  exists g d id t, lenN g = 32 /\ lenN d = 16 /\ space_ok (pull_space g d id) /\ np = net_of c nh (pull_request g d id t now) /\
    get_option (mkQ P conf) (str "qid") = Ok (Some (Some id)) /\
    forall hash b nh p recv, hash32 hash -> packet_of hash b nh p -> recv < 2 ^ 64 -> passes P b recv ->
      (forall y, num_field hash GroupIDF nh p = Some y -> y = be_decode g) /\ (forall y, num_field hash DomainF nh p = Some y -> y = be_decode d).
Proof.
  intros OK E H. unfold lk_pull_point in H. cbn [q_preds] in H. destruct (set_as_eq (p_sets P GroupIDF)) as [g|] eqn:G; [|discriminate]. destruct (set_as_eq (p_sets P DomainF)) as [d|] eqn:D; [|discriminate].
  destruct (get_option (mkQ P conf) (str "qid")) as [[[id|]|]| | |] eqn:I; try discriminate. destruct (query_display _) as [t| | |]; try discriminate. cbn [or_panic obind] in H.
  destruct (rs_try_from_iter _) as [sp| | |] eqn:S; try discriminate. cbn [or_panic obind] in H. apply rs_try_from_iter_iff in S as (SK & L8 & ->).
  rewrite try_linkpoint_eval in H by first [apply Forall_nil | now apply wire_rooted_ok]. destruct (_ <=? 65024); [|discriminate]. injection H as <-.
  exists (be_encode 32 g), (be_encode 16 d), id, t. split; [unfold lenN; now rewrite be_encode_length|]. split; [unfold lenN; now rewrite be_encode_length|]. split; [exact SK|]. split; [reflexivity|]. split; [reflexivity|].
  assert (BD : forall f x, plain_field f -> set_as_eq (p_sets P f) = Some x -> x < 2 ^ field_width f).
  { intros f x F A. destruct (added_inv h0 rs P h0_ok OK E) as [cs ((SO & _) & _)]. destruct (SO f (field_num f F)) as [[[_ S1] _] _]. unfold set_as_eq, bound_as_eq in A. destruct (_ =? _); [|discriminate]. now injection A as <-. }
  intros hash b nh' p recv HL PK R PS. split; intros y Y.
  - rewrite be_decode_encode by (exact (BD GroupIDF g (or_introl eq_refl) G)). exact (as_eq_only hash rs P GroupIDF g b nh' p recv HL OK E (or_introl eq_refl) G PK R PS y Y).
  - rewrite be_decode_encode by (exact (BD DomainF d (or_intror eq_refl) D)). exact (as_eq_only hash rs P DomainF d b nh' p recv HL OK E (or_intror eq_refl) D PK R PS y Y).
Qed.
Print Assumptions C76_place.
(** Requests at the same place are for the same group, domain and identifier. *)
Theorem C76_apart g d id g' d' id' data data' now now' : space_ok (pull_space g d id) -> space_ok (pull_space g' d' id') ->
  point_rspace (pull_request g d id data now) = point_rspace (pull_request g' d' id' data' now') -> g = g' /\ d = d' /\ id = id'.
Proof. intros S S' E. unfold pull_request, point_rspace in E. assert (wire_rooted (pull_space g d id) = wire_rooted (pull_space g' d' id')) as W by congruence. apply wire_rooted_inj in W; [|assumption..]. unfold pull_space in W. injection W as -> -> ->. auto. Qed.
Print Assumptions C76_apart.
(** The hash that [lk_pull] returns is that of a stored point: the request, unless its hash was there already. *)
Theorem C76_saved f c d l q now t nh d' h : represents d l -> lk_pull f c d q now t nh = (d', Ok h) ->
  exists np s b, lk_pull_point c q now nh = Ok np /\ h = np_hash np /\ read d' h = Some (s, b) /\ (~ In h (hashes l) -> b = np_bytes np /\ represents d' (l ++ [(s, np)])).
Proof.
  intros R E. unfold lk_pull in E. destruct (lk_pull_point c q now nh) as [np| | |] eqn:Q; try discriminate. destruct (lk_save f t d np) as [d1 o] eqn:S.
  destruct o as [r| | |]; try discriminate. injection E as -> <-. destruct (C26_lk_save_truthful f t d l np d' r R S) as (A & B & C). exists np. destruct r.
  - destruct (C eq_refl) as [s RP]. exists s, (np_bytes np). split; [reflexivity|]. split; [reflexivity|]. split; [|auto]. apply (read_iff d' _ _ _ _ RP). exists np. split; [apply in_or_app; right; now left|auto].
  - specialize (B eq_refl) as ->. assert (In (np_hash np) (hashes l)) as I. { destruct (in_dec (list_eq_dec N.eq_dec) (np_hash np) (hashes l)) as [I|I]; [exact I|]. apply A in I. discriminate. }
    unfold hashes in I. apply in_map_iff in I as ([s p] & HP & I). exists s, (np_bytes p). split; [reflexivity|]. split; [reflexivity|]. split; [apply (read_iff d l _ _ _ R); eauto|].
    intros N. exfalso. apply N. unfold hashes. rewrite <- HP. now apply (in_map (fun e => np_hash (snd e)) l (s, p)).
Qed.
Print Assumptions C76_saved.
(** Without one group or one domain, or without the option, nothing is made. *)
Theorem C76_refused c q now nh : set_as_eq (p_sets (q_preds q) GroupIDF) = None \/ set_as_eq (p_sets (q_preds q) DomainF) = None \/ get_option q (str "qid") = Ok None \/ get_option q (str "qid") = Ok (Some None) ->
  exists e, lk_pull_point c q now nh = Err e.
Proof.
  intros H. unfold lk_pull_point. destruct (set_as_eq (p_sets (q_preds q) GroupIDF)); [|eauto]. destruct (set_as_eq (p_sets (q_preds q) DomainF)); [|eauto].
  destruct H as [H|[H|[H|H]]]; try discriminate; rewrite H; eauto.
Qed.
Print Assumptions C76_refused.
(** An empty identifier, or one of more than 186 bytes, ends the process. *)
Theorem C76_qid_refuted rs P conf g d id c now nh : query_of rs P conf g d id -> Forall pred_bytes rs -> id = [] \/ 186 < lenN id ->
  lk_pull_point c (mkQ P conf) now nh = Panic.
Proof.
  intros Q PB I. pose proof Q as (OK & E & _). destruct (displays rs P conf OK PB E) as [t T]. rewrite (pull_eval rs P conf g d id t c now nh Q T).
  destruct I as [-> |I]; [reflexivity|]. replace (lenN id <=? 186) with false by (symmetry; now apply N.leb_gt). now rewrite andb_false_r.
Qed.
Print Assumptions C76_qid_refuted.

(** The query of C69, with its domain, asked for under the identifier a/b. *)
Example C76_ex : exists P np t, query_of ex_dom P ex_conf ex_group ex_domain (str "a/b") /\ Forall pred_bytes ex_dom /\ hash_unordered ex_dom /\ Forall plain_pred ex_dom /\
  lk_pull_point toy (mkQ P ex_conf) 9 ex_nh = Ok np /\ np = net_of toy ex_nh (pull_request ex_group ex_domain (str "a/b") t 9) /\ again (core_scope o1) t ex_pkt [9; 10] = Some (true, [true; false]).
Proof.
  destruct C69_expr_ex as (A1 & A2 & A3 & A4 & _). destruct (add_all preds_default ex_dom) as [P|e| |] eqn:E; [|vm_compute in E; discriminate..].
  assert (Q : query_of ex_dom P ex_conf ex_group ex_domain (str "a/b")).
  { split; [exact A1|]. split; [exact E|]. split; [repeat constructor; try discriminate; apply bytes_okb; reflexivity|]. split; [right; right; now left|]. split; [now left|].
    split; [apply bytes_okb; reflexivity|]. split; [reflexivity|]. split; [apply bytes_okb; reflexivity|]. split; reflexivity. }
  destruct (displays ex_dom P ex_conf A1 A2 E) as [t T]. exists P, (net_of toy ex_nh (pull_request ex_group ex_domain (str "a/b") t 9)), t. split; [exact Q|]. split; [exact A2|]. split; [exact A3|]. split; [exact A4|].
  vm_compute in E. injection E as <-. vm_compute in T. injection T as <-. split; [|split; [reflexivity|vm_compute; reflexivity]].
  rewrite (pull_eval ex_dom _ ex_conf ex_group ex_domain (str "a/b") _ toy 9 ex_nh Q eq_refl). reflexivity.
Qed.
(** A domain whose text needs escapes is another one in the text of the request. *)
Definition colon_query : TQuery :=
  match add_all preds_default (mkPred (RField GroupIDF) Equal (PNum (be_decode ex_group)) :: ex_colon) with
  | Ok P => mkQ P [[(Some CColon, str "qid"); (Some CColon, str "x")]] | _ => q_default end.
Definition read_request (fuel : nat) (o : outcome PullErr NetPktParts) : option (option N) :=
  match o with
  | Ok np => match lk_query_parse fuel (core_scope o1) q_default [ModelTree.get_data (pf np)] with Ok q => Some (set_as_eq (p_sets (q_preds q) DomainF)) | _ => None end
  | _ => None
  end.
Theorem C76_domain_refuted : set_as_eq (p_sets (q_preds colon_query) DomainF) = Some (be_decode (str "a:b")) /\
  read_request 5 (lk_pull_point toy colon_query 9 ex_nh) = Some (Some (be_decode (str "a\:b"))).
Proof. split; vm_compute; reflexivity. Qed.
Print Assumptions C76_domain_refuted.
