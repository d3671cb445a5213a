(** Proofs about status requests. *)
From Verif Require Import Bytes ModelAbe SpecAbe ProofAbe ModelFmt ModelEval SpecEval ModelFn ProofEval ModelSpace SpecSpace ProofSpace ProofRooted ProofTree SpecPkt ModelPkt ProofPkt2 PropsPkt ModelTestSet SpecTestSet ProofTestSet ModelPred SpecPred ProofPred PropsPred.
From Verif Require Import ModelQText SpecQText ProofQText ProofQText3 ModelLns ModelStore ModelWatch SpecPull ProofPull ProofLkKey2 ModelStatus SpecStatus.

(** ** The space *)
Lemma status_space0 : STATUS_SPACE = Ok (wire_rooted [255 :: str "status"]).
Proof. vm_compute. reflexivity. Qed.
Lemma start_ok : space_ok [255 :: str "status"].
Proof. split; [repeat constructor; vm_compute; discriminate|vm_compute; discriminate]. Qed.
Lemma append_all cs b : forall cs0, space_ok cs0 -> (List.length cs0 <= 8)%nat -> (List.length (cs0 ++ cs) <= 8)%nat ->
  (snd (rs_extend (wire_rooted cs0) cs) = Ok tt /\ fst (rs_extend (wire_rooted cs0) cs) = b <-> space_ok (cs0 ++ cs) /\ b = wire_rooted (cs0 ++ cs)).
Proof.
  intros cs0 S L L8. destruct (rs_extend_wire cs cs0 S L) as (k & r & E & S' & _ & D). rewrite E. cbn [fst snd]. destruct D as [[-> K]|[[e ->] N]].
  - rewrite K in *. split; [intros [_ <-]; auto|intros [_ ->]; auto].
  - split; [intros [X _]; discriminate|]. intros [X _]. destruct N. auto.
Qed.
Lemma status_space_extend st : lk_status_space st =
  (let '(b, r) := rs_extend (wire_rooted [255 :: str "status"]) (tl (status_place st)) in obind r (fun _ => Ok b)).
Proof.
  unfold lk_status_space, status_place. rewrite status_space0. cbn [obind tl app]. destruct (st_instance st) as [i|]; cbn [rs_extend];
    repeat match goal with |- context[rs_try_append ?a ?b] => destruct (rs_try_append a b); cbn [obind]; try reflexivity end.
Qed.
Lemma place_short st : (List.length (status_place st) <= 4)%nat.
Proof. unfold status_place. destruct (st_instance st); cbn; lia. Qed.
Lemma status_space_iff st b : lk_status_space st = Ok b <-> space_ok (status_place st) /\ b = wire_rooted (status_place st).
Proof.
  pose proof (place_short st) as PS. pose proof (append_all (tl (status_place st)) b [255 :: str "status"] start_ok ltac:(cbn; lia)) as A.
  change ([255 :: str "status"] ++ tl (status_place st)) with (status_place st) in A. specialize (A ltac:(lia)). rewrite <- A. rewrite status_space_extend.
  destruct (rs_extend _ _) as [x r]. cbn [fst snd]. destruct r as [[]| | |]; cbn [obind]; split; try discriminate; try (intros [X _]; discriminate X).
  - intros H. injection H as ->. auto.
  - now intros [_ ->].
Qed.
Lemma status_space_total st : (exists b, lk_status_space st = Ok b) \/ exists e, lk_status_space st = Err e.
Proof.
  rewrite status_space_extend. destruct (rs_extend_wire (tl (status_place st)) [255 :: str "status"] start_ok ltac:(cbn; lia)) as (k & r & E & _ & _ & D).
  rewrite E. destruct D as [[-> _]|[[e ->] _]]; cbn [obind]; eauto.
Qed.
Lemma place_size st : lenN (st_group st) = 32 ->
  lenN (wire_space (status_place st)) = 42 + lenN (st_objtype st) + match st_instance st with Some i => 1 + lenN i | None => 0 end.
Proof.
  unfold lenN, status_place, wire_space. intros G. destruct (st_instance st) as [i|]; cbn [app flat_map]; repeat (rewrite app_length || cbn [List.length]);
    change (List.length (str "status")) with 6%nat; lia.
Qed.
Lemma status_place_ok st : status_ok st -> space_ok (status_place st).
Proof.
  intros (G & _ & _ & _ & O & O2 & _ & I). split.
  - unfold status_place. apply Forall_app. split; [repeat constructor; try (vm_compute; discriminate); unfold lenN in *; lia|].
    destruct (st_instance st) as [i|]; [|constructor]. constructor; [|constructor]. unfold component_ok. unfold lenN in *. lia.
  - change (lenN (wire_space (status_place st)) <= 242). rewrite place_size by exact G. destruct (st_instance st); lia.
Qed.
Lemma place_ok_status st : lenN (st_group st) = 32 -> bytes_ok (st_group st) -> lenN (st_domain st) = 16 -> bytes_ok (st_domain st) -> bytes_ok (st_objtype st) ->
  match st_instance st with Some i => bytes_ok i | None => True end -> space_ok (status_place st) -> status_ok st.
Proof.
  intros G BG D BD BO BI [F L]. change (lenN (wire_space (status_place st)) <= 242) in L. rewrite place_size in L by exact G.
  unfold status_place in F. cbn [app] in F. rewrite !Forall_cons_iff in F. destruct F as (_ & _ & F & FI). unfold component_ok in F. unfold status_ok, lenN in *. do 4 (split; [assumption|]). split; [lia|]. split; [lia|]. split; [assumption|].
  destruct (st_instance st) as [i|]; [|exact Logic.I]. apply Forall_cons_iff in FI as [FI _]. unfold component_ok in FI. repeat split; try lia. assumption.
Qed.

(** ** The queries *)
Lemma slice_space cs : space_ok cs -> space_from_slice (wire_space cs) = Ok (wire_space cs).
Proof. intros S. unfold space_from_slice. now rewrite (proj2 (check_components_iff (wire_space cs) (lenN cs)) (ex_intro _ cs (conj S (conj eq_refl eq_refl)))). Qed.
Lemma push_prefix q cs : space_ok cs -> cs <> [] -> lk_query_push q (str "prefix") (str "=") (wire_space cs) = with_preds q (lift (and_ (q_preds q) (mkPred RPrefix Equal (PSpace (wire_space cs))))).
Proof.
  intros S NE. unfold lk_query_push. change (rule_type (str "prefix")) with (Some RPrefix). change (ext_op (str "=")) with (Some (Op Equal)).
  change (str "prefix") with (112 :: str "refix"). cbv iota. unfold add_ext_predicate. cbn [try_iter obind and_texts]. unfold and_text, operand.
  assert (space_from_ablist [(None, wire_space cs)] = Ok (wire_space cs)) as ->.
  { unfold space_from_ablist. destruct (wire_space cs) as [|x w] eqn:W; [destruct cs; [contradiction|discriminate]|]. rewrite <- W. cbn [negb andb]. rewrite W. cbn [as_exact_bytes]. rewrite <- W, slice_space by exact S. reflexivity. }
  cbn [obind]. destruct (and_ (q_preds q) _); reflexivity.
Qed.
Lemma lift_ok o p : lift o = Ok p <-> o = Ok p.
Proof. destruct o; cbn; split; intros H; try discriminate; try (injection H as <-; reflexivity); auto. Qed.
Lemma push_num q k o b t1 t2 : t1 = rule_name k -> t2 = op_text (Op o) -> stmt_ok (k, Op o, b) -> lk_query_push q t1 t2 b = with_preds q (lift (and_ (q_preds q) (mkPred k o (PNum (be_decode b))))).
Proof.
  intros -> -> S. rewrite push_ext by exact (stmt_numeric _ _ _ S). rewrite add_ext by exact S. cbn [expand add_all]. now destruct (and_ (q_preds q) _).
Qed.

Lemma link_content g d c rs : bytes_ok g -> bytes_ok d -> bytes_ok rs -> bytes_ok (content (PLink g d c [] rs [])).
Proof.
  intros G D R. unfold content, unsigned_content. cbn [point_body type_byte flat_map]. rewrite !bytes_ok_app. repeat match goal with |- _ /\ _ => split end; auto using be_encode_ok; try (repeat (constructor; [reflexivity|]); constructor).
  unfold padding_bytes. apply Forall_forall. intros x X. apply repeat_spec in X. subst. reflexivity.
Qed.
Lemma place_bytes st : status_ok st -> Forall bytes_ok (status_place st).
Proof.
  intros (_ & BG & _ & _ & _ & _ & BO & BI). unfold status_place. apply Forall_app. split.
  - constructor; [repeat (constructor; [reflexivity|]); constructor|]. constructor; [exact BG|]. constructor; [exact BO|constructor].
  - destruct (st_instance st); [|constructor]. constructor; [tauto|constructor].
Qed.
Lemma request_ok st c : status_ok st -> c < 2 ^ 64 -> point_ok (request_point st c).
Proof.
  intros S C. pose proof (status_place_ok st S) as SP. pose proof (place_short st). unfold request_point. destruct S as (G & _ & D & BD & _). split.
  - cbn [point_size]. rewrite wire_rooted_len. destruct SP as [_ L]. revert L. unfold lenN. cbn [List.length]. destruct (wire_space (status_place st)); cbn [List.length]; lia.
  - split; [reflexivity|]. split; [exact D|]. split; [exact C|]. split; [constructor|]. apply wire_rooted_ok; [exact SP|lia].
Qed.
Lemma request_packet hash st c nh : hash32 hash -> (forall b, bytes_ok (hash b)) -> status_ok st -> c < 2 ^ 64 -> lenN nh = 32 -> bytes_ok nh -> packet_of hash (packet hash nh (request_point st c)) nh (request_point st c).
Proof.
  intros HL HB S C LN BN. pose proof (status_place_ok st S) as SP. pose proof (place_short st).
  split; [reflexivity|]. split; [exact LN|]. split; [now apply request_ok|]. unfold packet. rewrite !bytes_ok_app. split; [exact BN|]. split; [apply HB|]. apply link_content; [now apply bytes_okb|apply S|].
  apply rooted_bytes; [exact SP|lia|now apply place_bytes].
Qed.

Definition to_query (conf : list ABList) (o : outcome PredErr PktPredicates) : outcome StErr TQuery := conv_err TText (obind (lift o) (fun p => Ok (mkQ p conf))).
Lemma num_stmt k o b : numeric k -> bytes_ok b -> List.length b = size_of k -> match k with RRecv => o <> Mask0 /\ o <> Mask1 | _ => True end -> stmt_ok (k, Op o, b).
Proof.
  intros K B L R. split; [exact B|]. split; [now left|]. destruct k as [f| | |q]; cbn in K; try contradiction; [split; [exact K|intros []]|destruct o; tauto|exact Logic.I].
Qed.
Lemma enc8 x : x < 2 ^ 64 -> be_decode (be_encode 8 x) = x. Proof. intros H. apply be_decode_encode. exact H. Qed.
Lemma overwatch_eval st age now : status_ok st -> now < 2 ^ 64 -> lk_status_overwatch st age now = to_query [] (add_all preds_default (seen_preds st age now)).
Proof.
  intros S T. pose proof (status_place_ok st S) as SP. unfold lk_status_overwatch. rewrite (proj2 (status_space_iff st _) (conj SP eq_refl)). cbn [conv_err obind].
  destruct S as (_ & _ & LD & BD & _). unfold seen_preds, to_query. cbn [add_all].
  rewrite (push_num q_default (RField GroupIDF) Equal PRIVATE (str "group") (str "=") eq_refl eq_refl) by (apply num_stmt; try exact Logic.I; [now apply bytes_okb|reflexivity]).
  change (be_decode PRIVATE) with 0. change (q_preds q_default) with preds_default. destruct (and_ preds_default _) as [P1| | |]; cbn [lift with_preds obind conv_err]; [|reflexivity..].
  rewrite (push_num _ (RField DomainF) Equal (st_domain st) (str "domain") (str "=") eq_refl eq_refl) by (apply num_stmt; try exact Logic.I; [exact BD|unfold lenN in LD; cbn; lia]).
  cbn [q_preds]. destruct (and_ P1 _) as [P2| | |]; cbn [lift with_preds obind conv_err]; [|reflexivity..].
  rewrite (push_num _ (RField CreateF) Greater (be_encode 8 (sat_sub now age)) (str "create") (str ">") eq_refl eq_refl) by (apply num_stmt; try exact Logic.I; [apply be_encode_ok|apply be_encode_length]).
  unfold sat_sub. rewrite enc8 by lia. cbn [q_preds]. destruct (and_ P2 _) as [P3| | |]; cbn [lift with_preds obind conv_err]; [|reflexivity..].
  rewrite (proj1 (rs_space_wire (status_place st))). cbn [or_panic obind]. rewrite push_prefix by (assumption || discriminate). cbn [q_preds].
  destruct (and_ P3 _); reflexivity.
Qed.
Ltac one_push := cbn [q_preds]; match goal with |- context[and_ ?p ?r] => destruct (and_ p r) end; cbn [lift with_preds obind conv_err]; [|reflexivity..].
Lemma watch_eval q until id : until < 2 ^ 64 -> status_watch_query q until id =
  to_query (q_conf q ++ [[(Some CColon, str "qid"); (Some CColon, id)]]) (add_all (q_preds q)
    [mkPred (RField DataSizeF) Greater (PNum 0); mkPred (RField LinksLenF) Greater (PNum 0); mkPred RRecv Less (PNum until); mkPred (RLimit QIndex) Less (PNum 0)]).
Proof.
  intros U. unfold status_watch_query, to_query. cbn [add_all].
  rewrite (push_num q (RField DataSizeF) Greater (be_encode 2 0) (str "data_size") (str ">") eq_refl eq_refl) by (apply num_stmt; try exact Logic.I; [now apply bytes_okb|reflexivity]).
  change (be_decode (be_encode 2 0)) with 0. one_push.
  rewrite (push_num _ (RField LinksLenF) Greater (be_encode 2 0) (str "links_len") (str ">") eq_refl eq_refl) by (apply num_stmt; try exact Logic.I; [now apply bytes_okb|reflexivity]).
  change (be_decode (be_encode 2 0)) with 0. one_push.
  rewrite (push_num _ RRecv Less (be_encode 8 until) (str "recv") (str "<") eq_refl eq_refl) by (apply num_stmt; try exact Logic.I; [apply be_encode_ok|apply be_encode_length|split; discriminate]).
  rewrite enc8 by exact U. one_push.
  rewrite (push_num _ (RLimit QIndex) Less (be_encode 4 0) (str "i_db") (str "<") eq_refl eq_refl) by (apply num_stmt; try exact Logic.I; [now apply bytes_okb|reflexivity]).
  change (be_decode (be_encode 4 0)) with 0. one_push. reflexivity.
Qed.
Lemma set_eval st : status_ok (with_instance st None) -> status_set_query st =
  to_query [[(Some CColon, str "qid"); (Some CColon, st_qid st)]] (add_all preds_default (set_preds st)).
Proof.
  intros S. pose proof (status_place_ok _ S) as SP. unfold status_set_query. rewrite (proj2 (status_space_iff (with_instance st None) _) (conj SP eq_refl)). cbn [conv_err obind]. unfold set_preds, to_query. cbn [add_all].
  rewrite (push_num q_default (RField DataSizeF) Equal (be_encode 2 0) (str "data_size") (str "=") eq_refl eq_refl) by (apply num_stmt; try exact Logic.I; [now apply bytes_okb|reflexivity]).
  change (be_decode (be_encode 2 0)) with 0. change (q_preds q_default) with preds_default. one_push.
  rewrite (push_num _ (RField LinksLenF) Equal (be_encode 2 0) (str "links_len") (str "=") eq_refl eq_refl) by (apply num_stmt; try exact Logic.I; [now apply bytes_okb|reflexivity]).
  change (be_decode (be_encode 2 0)) with 0. one_push.
  rewrite (proj1 (rs_space_wire (status_place (with_instance st None)))). cbn [or_panic obind]. rewrite push_prefix by (assumption || discriminate). one_push.
  rewrite (push_num _ (RLimit QIndex) Less (be_encode 4 0) (str "i_db") (str "<") eq_refl eq_refl) by (apply num_stmt; try exact Logic.I; [now apply bytes_okb|reflexivity]).
  change (be_decode (be_encode 4 0)) with 0. one_push. reflexivity.
Qed.
Lemma own_id P conf id : get_option (mkQ P (conf ++ [[(Some CColon, str "qid"); (Some CColon, id)]])) (str "qid") = Ok (Some (Some id)).
Proof.
  unfold get_option, get_inner. cbn [q_conf]. rewrite rev_app_distr. cbn [rev app filter]. 
  change (negb (lenN [(Some CColon, str "qid"); (Some CColon, id)] <? lenN [[]; str "qid"]) && zip_all [[]; str "qid"] (iter_bytes [(Some CColon, str "qid"); (Some CColon, id)])) with true. reflexivity.
Qed.

(** ** Predicates that some packet satisfies are accepted *)
Lemma seen_ok st age now : status_ok st -> now < 2 ^ 64 -> Forall pred_ok (seen_preds st age now).
Proof.
  intros S T. pose proof (status_place_ok st S) as SP. pose proof (place_short st) as PS. destruct S as (_ & _ & LD & BD & _). unfold seen_preds. repeat (apply Forall_cons); try apply Forall_nil.
  - split; [exact Logic.I|reflexivity].
  - split; [exact Logic.I|]. change (field_width DomainF) with (8 * N.of_nat 16). apply decode_small; [exact BD|unfold lenN in LD; lia].
  - split; [exact Logic.I|]. change (field_width CreateF) with 64. cbn [p_val]. lia.
  - split; [reflexivity|]. exists (status_place st). split; [exact SP|]. split; [lia|reflexivity].
Qed.
Definition more_preds (until : N) : list Predicate :=
  [mkPred (RField DataSizeF) Greater (PNum 0); mkPred (RField LinksLenF) Greater (PNum 0); mkPred RRecv Less (PNum until); mkPred (RLimit QIndex) Less (PNum 0)].
Lemma more_ok until : until < 2 ^ 64 -> Forall pred_ok (more_preds until).
Proof. intros U. unfold more_preds. repeat (apply Forall_cons); try apply Forall_nil; try (split; [exact Logic.I|reflexivity]); [split; [exact U|exact Logic.I]|reflexivity]. Qed.
Lemma set_ok_preds st : status_ok (with_instance st None) -> Forall pred_ok (set_preds st).
Proof.
  intros S. pose proof (status_place_ok _ S) as SP. pose proof (place_short (with_instance st None)) as PS. unfold set_preds. repeat (apply Forall_cons); try apply Forall_nil; try (split; [exact Logic.I|reflexivity]).
  - split; [reflexivity|]. exists (status_place (with_instance st None)). split; [exact SP|]. split; [lia|reflexivity].
  - reflexivity.
Qed.
Lemma has_wire cs : space_ok cs -> has_space (wire_rooted cs) cs.
Proof. intros S. split; [exact S|]. destruct cs as [|c cs]; [now right|left]. now exists (N.of_nat (List.length (c :: cs))). Qed.
Lemma wire_depth cs : declared_depth (wire_rooted cs) = lenN cs.
Proof. destruct cs; reflexivity. Qed.
Definition sample (st : LkStatus) : point := PLink (repeat 0 32) (st_domain st) (2 ^ 64 - 1) [(repeat 0 16, repeat 0 32)] (wire_rooted (status_place st)) [1].
Lemma sample_packet st : status_ok st -> packet_of h0 (packet h0 (repeat 0 32) (sample st)) (repeat 0 32) (sample st).
Proof.
  intros S. pose proof (status_place_ok st S) as SP. pose proof (place_short st). pose proof S as (G & _ & D & BD & _).
  split; [reflexivity|]. split; [reflexivity|]. split.
  - split; [|split; [reflexivity|split; [exact D|split; [reflexivity|split; [repeat constructor|apply wire_rooted_ok; [exact SP|lia]]]]]].
    unfold sample. cbn [point_size]. rewrite wire_rooted_len. destruct SP as [_ L]. revert L. unfold lenN. cbn [List.length]. destruct (wire_space (status_place st)); cbn [List.length]; lia.
  - assert (B : bytes_ok (content (sample st))).
    { assert (BR : bytes_ok (wire_rooted (status_place st))) by (apply rooted_bytes; [exact SP|lia|now apply place_bytes]).
      unfold content, unsigned_content, sample. cbn [point_body type_byte flat_map]. rewrite !bytes_ok_app. repeat match goal with |- _ /\ _ => split end; auto using be_encode_ok; try (now apply bytes_okb).
      unfold padding_bytes. apply Forall_forall. intros x X. apply repeat_spec in X. subst. reflexivity. }
    unfold packet. rewrite !bytes_ok_app. split; [now apply bytes_okb|]. split; [now apply bytes_okb|exact B].
Qed.
Lemma sample_place st nh recv st' : status_ok st -> st_domain st' = st_domain st -> (exists more, status_place st = status_place st' ++ more) ->
  satisfies h0 recv nh (sample st) (mkPred RPrefix Equal (PSpace (wire_space (status_place st')))).
Proof.
  intros S _ (more & E). right. exists (wire_rooted (status_place st)), (status_place st'), more. split; [reflexivity|]. rewrite <- E. split; [apply has_wire; now apply status_place_ok|]. split; [reflexivity|].
  rewrite wire_depth, E, lenN_app. unfold lenN. lia.
Qed.
Lemma added_when_satisfied rs b nh p recv : Forall pred_ok rs -> packet_of h0 b nh p -> recv < 2 ^ 64 -> Forall (satisfies h0 recv nh p) rs -> ~ no_results rs -> exists P, add_all preds_default rs = Ok P.
Proof.
  intros OK PK R F N. destruct (C60_total rs OK) as (o & E & T). destruct o as [P|e| |]; try contradiction; [eauto|]. destruct (C60_refused_is_empty h0 rs e b nh p recv h0_ok OK E PK R); contradiction.
Qed.
Lemma open_results rs : position_ok rs QQuery 0 -> position_ok rs QNew 0 -> ~ no_results rs.
Proof. intros Q N [X|[X _]]; apply (X 0); try reflexivity; assumption. Qed.
Lemma watch_added st age now until : status_ok st -> now < 2 ^ 64 -> now - age < 2 ^ 64 - 1 -> 0 < until -> until < 2 ^ 64 ->
  exists P1 P2, add_all preds_default (seen_preds st age now) = Ok P1 /\ add_all P1 (more_preds until) = Ok P2 /\ add_all preds_default (watch_preds st age now until) = Ok P2.
Proof.
  intros S T A U0 U. destruct (added_when_satisfied (watch_preds st age now until) _ _ _ 0 ltac:(apply Forall_app; split; [now apply seen_ok|now apply more_ok]) (sample_packet st S) eq_refl) as [P E].
  - unfold watch_preds, seen_preds, more_preds. cbn [app]. repeat (apply Forall_cons); try apply Forall_nil.
    + exists 0. split; reflexivity.
    + exists (be_decode (st_domain st)). split; reflexivity.
    + exists (2 ^ 64 - 1). split; [reflexivity|]. cbn [p_op holds]. lia.
    + apply sample_place; [exact S|reflexivity|]. exists []. now rewrite app_nil_r.
    + exists 1. split; reflexivity.
    + exists 1. split; reflexivity.
    + exact U0.
    + exact Logic.I.
  - apply open_results; unfold watch_preds, seen_preds; cbn [app]; repeat (apply Forall_cons); try apply Forall_nil; cbn; try exact Logic.I; discriminate.
  - pose proof E as E'. unfold watch_preds in E. rewrite add_all_app in E. destruct (add_all preds_default (seen_preds st age now)) as [P1| | |]; try discriminate. exists P1, P. auto.
Qed.
Lemma set_added st : status_ok (with_instance st None) -> exists P, add_all preds_default (set_preds st) = Ok P.
Proof.
  intros S. assert (PK : packet_of h0 (packet h0 (repeat 0 32) (request_point (with_instance st None) 1)) (repeat 0 32) (request_point (with_instance st None) 1)).
  { apply request_packet; [exact h0_ok|intros b; now apply bytes_okb|exact S|reflexivity|reflexivity|now apply bytes_okb]. }
  destruct (added_when_satisfied (set_preds st) _ _ _ 0 (set_ok_preds st S) PK eq_refl) as [P E]; [| |eauto].
  - unfold set_preds. repeat (apply Forall_cons); try apply Forall_nil.
    + exists 0. split; reflexivity.
    + exists 0. split; reflexivity.
    + right. exists (wire_rooted (status_place (with_instance st None))), (status_place (with_instance st None)), []. rewrite app_nil_r. split; [reflexivity|]. split; [apply has_wire; now apply status_place_ok|]. split; [reflexivity|].
      rewrite wire_depth. unfold lenN. lia.
    + exact Logic.I.
  - apply open_results; unfold set_preds; repeat (apply Forall_cons); try apply Forall_nil; cbn; try exact Logic.I; discriminate.
Qed.
