From Verif Require Import Bytes ModelAbe SpecAbe ProofAbe ModelFmt ModelEval ModelFn ProofEval ModelSpace SpecSpace ProofSpace ProofRooted ProofTree SpecPkt ModelTestSet SpecTestSet ProofTestSet ModelPred SpecPred ProofPred PropsPred.
From Verif Require Import ModelQText SpecQText ProofQText ProofQText2 ProofQText3 ProofQText4 ProofEval3.

(** ** The printed texts *)
(** As it is evaluated again, and as it is read from there. *)
Definition colonize (v : ABList) : ABList := match v with (None, b) :: r => (Some CColon, b) :: r | _ => (Some CColon, []) :: v end.
Definition reread (v : ABList) : ABList := match v with (None, b) :: r => v | _ => (None, []) :: v end.
Definition printable (k : RuleType) : Prop := numeric k \/ k = RPrefix.
Definition text_abl (t : TextPredicate) : ABList := let '(k, op, v) := t in (None, rule_name k) :: (Some CColon, op_text (Op op)) :: colonize v.
Definition text_wf (t : TextPredicate) : Prop :=
  let '(k, op, v) := t in printable k /\ Forall (fun c => bytes_ok (snd c)) v /\ match v with (None, _) :: r => delimited r | _ => delimited v end.
Lemma op_byte_text op : [op_byte op] = op_text (Op op). Proof. destruct op; reflexivity. Qed.
Lemma name_cons k : printable k -> exists x r, rule_name k = x :: r.
Proof. intros [H| ->]; [now apply rule_name_cons|]. eexists. eexists. reflexivity. Qed.
Lemma text_display t : text_wf t -> text_print false t = abl_display (text_abl t).
Proof.
  destruct t as [[k op] v]. intros (K & _ & _). destruct (name_cons k K) as (x & r & E). rewrite <- print_items. unfold text_print. f_equal. rewrite op_byte_text.
  cbn [text_abl abl_items flat_map]. rewrite E. destruct (op_text (Op op)) as [|o os] eqn:EO; [destruct op; discriminate|]. cbn [app]. do 4 f_equal.
  destruct v as [|[[c|] b] v]; reflexivity.
Qed.
Lemma text_abl_wf t : text_wf t -> abl_wf (text_abl t).
Proof.
  destruct t as [[k op] v]. intros (K & B & D). destruct (name_cons k K) as (x & r & E). split.
  - constructor; [exact (proj2 (name_plain k K))|]. constructor; [exact (proj2 (op_plain (Op op)))|].
    destruct v as [|[[c|] b] v]; cbn [colonize]; [repeat constructor|constructor; [constructor|exact B]|]. apply Forall_cons_iff in B as [B B']. constructor; assumption.
  - cbn [text_abl]. rewrite E. split; [discriminate|]. constructor; [discriminate|]. destruct v as [|[[c|] b] v]; cbn [colonize]; (constructor; [discriminate|]); exact D.
Qed.
Lemma and_texts_single P t : and_texts P [t] = and_text P t.
Proof. cbn [and_texts]. now destruct (and_text P t). Qed.
Definition back (t : TextPredicate) : TextPredicate := let '(k, op, v) := t in (k, op, reread v).
Lemma add_stmt_text q t : text_wf t -> add_stmt q (text_abl t) = with_preds q (and_text (q_preds q) (back t)).
Proof.
  destruct t as [[k op] v]. intros (K & _ & _). cbn [text_abl add_stmt]. unfold ext_of_stmt.
  assert (E : obind match colonize v with (Some CColon, b) :: r => Ok (k, Op op, (None, b) :: r) | _ => Err QStmt end
    (fun e => with_preds q (add_ext_predicate (q_preds q) e)) = with_preds q (and_text (q_preds q) (k, op, reread v))).
  { destruct v as [|[[c|] b] v]; cbn [colonize reread obind]; unfold add_ext_predicate; cbn [try_iter obind]; now rewrite and_texts_single. }
  change (back (k, op, v)) with (k, op, reread v). rewrite <- E. rewrite predicate_type_name, op_text_ext by exact K. destruct (colonize v) as [|[[[]|] b] r]; reflexivity.
Qed.
Lemma add_stmts_text ts : forall q, Forall text_wf ts -> add_stmts q (map text_abl ts) = with_preds q (and_texts (q_preds q) (map back ts)).
Proof.
  induction ts as [|t ts IH]; intros q F; [destruct q; reflexivity|]. apply Forall_cons_iff in F as [W F]. cbn [map add_stmts and_texts]. rewrite add_stmt_text by exact W.
  unfold with_preds at 1 2. destruct (and_text (q_preds q) (back t)); cbn [obind]; try reflexivity. now rewrite IH.
Qed.
(** A text and its predicate. *)
Definition shows (t : TextPredicate) (r : Predicate) : Prop :=
  text_wf t /\ exists k op v, t = (k, op, v) /\ p_kind r = k /\ p_op r = op /\ operand k (reread v) = Ok (p_val r).
Lemma shows_texts ts rs : Forall2 shows ts rs -> forall P, and_texts P (map back ts) = lift (add_all P rs).
Proof.
  induction 1 as [|t r ts rs (_ & k & op & v & -> & E1 & E2 & E3) F IH]; intros P; [reflexivity|]. cbn [map and_texts add_all back and_text]. rewrite E3. cbn [obind].
  replace (mkPred k op (p_val r)) with r by (destruct r; cbn in *; congruence). destruct (and_ P r); cbn [lift obind]; [apply IH|reflexivity..].
Qed.
Lemma shows_wf ts rs : Forall2 shows ts rs -> Forall text_wf ts.
Proof. induction 1 as [|t r ts rs [W _] F IH]; constructor; assumption. Qed.
Lemma shows_rules k ts : numeric k -> Forall (fun t => snd t < 2 ^ width_of k) ts -> Forall2 shows (text_rules k (size_of k) ts) (num_preds k ts).
Proof.
  intros K. induction 1 as [|[op v] ts H F IH]; [constructor|]. cbn [text_rules num_preds map fst snd] in *. constructor; [|exact IH].
  rewrite (width_bytes k K) in H. split.
  - split; [now left|]. split; [constructor; [apply be_encode_ok|constructor]|constructor].
  - exists k, op, [(None, be_encode (size_of k) v)]. do 3 (split; [reflexivity|]). cbn [reread p_val]. rewrite operand_num; [|exact K|apply be_encode_ok|left; apply be_encode_length].
    rewrite be_decode_encode; [reflexivity|]. change 256 with (2 ^ 8). rewrite <- N.pow_mul_r. exact H.
Qed.
Lemma shows_set P f : sets_ok P -> num_kind f -> Forall2 shows (text_set P f) (set_preds P f).
Proof.
  intros [SO _] K. unfold text_set, set_preds. replace (N.to_nat (field_width f / 8)) with (size_of (RField f)) by (destruct f; try contradiction; reflexivity).
  apply shows_rules; [exact K|]. apply rules_ok; [apply width_gt|apply (SO f K)].
Qed.
Lemma shows_sets P fs : sets_ok P -> Forall num_kind fs -> Forall2 shows (flat_map (text_set P) fs) (flat_map (set_preds P) fs).
Proof. intros SO. induction 1 as [|f fs K F IH]; [constructor|]. cbn [flat_map]. apply Forall2_app; [now apply shows_set|exact IH]. Qed.
Lemma prefix_operand cs : space_ok cs -> (List.length cs <= 8)%nat -> cs <> [] -> operand RPrefix ((None, []) :: slash_abl cs) = Ok (PSpace (wire_space cs)).
Proof.
  intros SK L8 NE. assert (try_from_iter cs = Ok (wire_space cs)) as T by (apply try_from_iter_iff; repeat split; try apply SK; unfold lenN; lia).
  unfold operand. cbn [space_from_ablist]. unfold space_from_ablist. cbn [negb andb]. rewrite slash_parts by apply SK. destruct cs as [|c cs]; [contradiction|].
  cbn [slash_abl map as_exact_bytes]. now rewrite T.
Qed.
Lemma shows_prefix P cs : p_prefix P = wire_rooted cs -> space_ok cs -> (List.length cs <= 8)%nat -> Forall bytes_ok cs ->
  exists ts, text_prefix P = Ok ts /\ Forall2 shows ts (prefix_preds cs).
Proof.
  intros PX SK L8 B. unfold text_prefix. rewrite PX. destruct cs as [|c cs]; [exists []; split; [reflexivity|constructor]|]. set (cs0 := c :: cs) in *.
  assert (prefix_abl (wire_rooted cs0) = Ok (slash_abl cs0)) as A.
  { unfold prefix_abl. rewrite (proj1 (rs_space_wire cs0)). cbn [obind]. rewrite components_wire by apply SK. reflexivity. }
  exists [(RPrefix, Equal, slash_abl cs0)]. split.
  - destruct (wire_rooted cs0) eqn:W; [discriminate|]. rewrite A. reflexivity.
  - constructor; [|constructor]. split.
    + split; [now right|]. split; [unfold slash_abl; apply Forall_map; exact B|]. unfold cs0, slash_abl, delimited. cbn [map]. constructor; [discriminate|]. apply Forall_map, Forall_forall. discriminate.
    + exists RPrefix, Equal, (slash_abl cs0). do 3 (split; [reflexivity|]). apply (prefix_operand cs0 SK L8). discriminate.
Qed.
Lemma shows_iter P cs ps : Inv h0 P cs ps -> Forall bytes_ok cs -> exists ts, preds_iter P = Ok ts /\ Forall2 shows ts (iter_preds P cs).
Proof.
  intros (SO & PX & SK & L8 & _ & LO & _) B. destruct (shows_prefix P cs PX SK L8 B) as (ts & E & F). unfold preds_iter. rewrite E. cbn [obind].
  eexists. split; [reflexivity|]. unfold iter_preds. apply Forall2_app; [apply shows_sets; [exact SO|repeat constructor]|].
  apply Forall2_app; [exact F|]. apply Forall2_app; [apply shows_sets; [exact SO|repeat constructor]|].
  apply Forall2_app; [apply (shows_rules RRecv); [exact I|]; eapply Forall_impl; [|apply (bound_iter_ok 64); [reflexivity|apply SO]]; intros t H; apply H|].
  apply Forall2_app; [apply shows_set; [exact SO|exact I]|]. unfold text_limits, scopes.
  assert (L : forall q, Forall2 shows (text_rules (RLimit q) 4 (rules 32 (p_limits P q))) (limit_preds P q)) by (intros q; apply (shows_rules (RLimit q)); [exact I|apply (rules_ok 32); [reflexivity|apply LO]]).
  cbn [flat_map]. repeat (apply Forall2_app; [apply L|]). constructor.
Qed.
(** ** Options *)
Lemma option_wf l : option_ok l -> abl_wf l.
Proof.
  intros [NE F]. split; [eapply Forall_impl; [|exact F]; intros c H; apply H|]. destruct l as [|[[c|] b] l]; [contradiction| |].
  - apply Forall_cons_iff in F as [_ F]. eapply Forall_impl; [|exact F]. intros x H. apply H.
  - apply Forall_cons_iff in F as [[F _] _]. now cbn in F.
Qed.
Lemma add_options ls : forall q, Forall option_ok ls -> add_stmts q ls = Ok (mkQ (q_preds q) (q_conf q ++ ls)).
Proof.
  induction ls as [|l ls IH]; intros q F; [cbn; rewrite app_nil_r; now destruct q|]. apply Forall_cons_iff in F as [[NE W] F]. cbn [add_stmts].
  destruct l as [|[[c|] b] l]; [contradiction| |apply Forall_cons_iff in W as [[W _] _]; now cbn in W]. cbn [add_stmt obind]. rewrite IH by exact F. cbn [q_preds q_conf]. now rewrite <- app_assoc.
Qed.
(** ** Printing and reading *)
Lemma print_read fuel s P cs ps conf : Inv h0 P cs ps -> Forall bytes_ok cs -> Forall option_ok conf ->
  exists t, lk_query_print (mkQ P conf) false = Ok t /\
    lk_query_parse (S fuel) s q_default [t] = with_preds (mkQ preds_default (rev conf)) (lift (add_all preds_default (iter_preds P cs))).
Proof.
  intros IV B OC. destruct (shows_iter P cs ps IV B) as (ts & E & F). unfold lk_query_print. cbn [q_preds q_conf]. rewrite E. cbn [obind]. eexists. split; [reflexivity|].
  pose proof (shows_wf ts _ F) as W. cbn [lk_query_parse].
  assert (flat_map (fun t => text_print false t ++ [10]) ts = lines (map text_abl ts)) as ->.
  { clear -W. unfold lines. induction W as [|t ts W F IH]; [reflexivity|]. cbn [flat_map map]. now rewrite IH, text_display. }
  change (conf_display conf) with (lines (rev conf)). assert (OC' : Forall option_ok (rev conf)) by now apply Forall_rev.
  rewrite parse_lines_wf by (eapply Forall_impl; [|exact OC']; apply option_wf). rewrite add_options by exact OC'. cbn [obind q_default q_preds q_conf app].
  set (q1 := mkQ preds_default (rev conf)).
  assert (query_parse (S fuel) s q1 (10 :: lines (map text_abl ts)) = query_parse (S fuel) s q1 (lines (map text_abl ts))) as ->.
  { unfold query_parse. pose proof (split_line [] (lines (map text_abl ts)) (fun x => x)) as X. cbn [app] in X. rewrite X. reflexivity. }
  rewrite parse_wf by (apply Forall_map; eapply Forall_impl; [|exact W]; apply text_abl_wf). rewrite add_stmts_text by exact W. rewrite (shows_texts ts _ F).
  destruct (with_preds q1 _); reflexivity.
Qed.
