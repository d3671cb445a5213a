(** C99: statements pushed and parsed. *)
From Verif Require Import ModelPkt ModelTestSet ModelPred.
From Verif Require Import Bytes ModelAbe SpecAbe ProofAbe ProofAbe2 PropsAbe ModelEval ModelFn ModelQText ProofQText2 SpecPush.
Import ListNotations.
Local Open Scope N_scope.

Lemma split_one l : ~ In 10 l -> split_on (N.eqb 10) l = [l].
Proof.
  induction l as [|x l IH]; intros H; [reflexivity|]. cbn [split_on]. rewrite IH by (intros X; apply H; now right).
  destruct (N.eqb_spec 10 x) as [E|_]; [|reflexivity]. destruct H. now left.
Qed.
Lemma parse_one fuel s q l : abl_wf l -> lk_query_parse (Datatypes.S fuel) s q [abl_display l] = add_stmt q l.
Proof.
  intros W. cbn [lk_query_parse]. unfold query_parse. rewrite split_one by (apply display_newline, W). pose proof (display_nonempty l W) as NE.
  cbn [parse_lines]. destruct (abl_display l) as [|x d] eqn:E; [contradiction|]. rewrite <- E, eval_line_wf by exact W. cbn [obind]. destruct (add_stmt q l); reflexivity.
Qed.
Lemma statement_display t f o v : f <> [] -> statement t f o v -> t = abl_display [(None, f); (Some CColon, o); (Some CColon, v)].
Proof. intros NE ->. unfold abl_display. cbn [flat_map ctr_str ctr_char app]. now rewrite app_nil_r. Qed.
Lemma statement_wf f o v : f <> [] -> bytes_ok f -> bytes_ok o -> bytes_ok v -> abl_wf [(None, f); (Some CColon, o); (Some CColon, v)].
Proof. intros NE F O V. split; [repeat (constructor; [assumption|]); constructor|]. split; [exact NE|]. repeat constructor; discriminate. Qed.
Lemma same_type f : ~ In f untestable -> predicate_type f = rule_type f.
Proof.
  intros N. unfold predicate_type, rule_type, named_rule.
  assert (forall l, (forall r, In r l -> beqb (rule_name r) f = false) -> find (fun r => beqb (rule_name r) f) l = None) as NO.
  { induction l as [|r l IH]; intros H; [reflexivity|]. cbn [find]. rewrite (H r) by now left. apply IH. intros r' I. apply H. now right. }
  destruct (existsb (fun r => beqb (rule_name r) f) rule_types) eqn:X.
  - apply existsb_exists in X as (r & I & E). apply beqb_eq in E. subst f.
    cbn [rule_types map app In] in I.
    repeat (destruct I as [<-|I]; [first [reflexivity|exfalso; apply N; cbn; tauto]|]). contradiction.
  - assert (forall r, In r rule_types -> beqb (rule_name r) f = false) as A.
    { intros r I. destruct (beqb (rule_name r) f) eqn:E; [|reflexivity]. assert (existsb (fun r => beqb (rule_name r) f) rule_types = true) as Y by (apply existsb_exists; eauto). congruence. }
    rewrite !NO; [reflexivity|exact A|]. intros r I. apply A. cbn [predicate_types In] in I. repeat (destruct I as [<-|I]; [cbn; tauto|]). contradiction.
Qed.
(** Pushing a statement is parsing its text, for every field that can be tested, every operator and every value: the same query, the same error, the same panic. *)
Theorem C99_push_parse q f o v t fuel s : f <> [] -> ~ In f untestable -> bytes_ok f -> bytes_ok o -> bytes_ok v -> statement t f o v ->
  lk_query_push q f o v = lk_query_parse (Datatypes.S fuel) s q [t].
Proof.
  intros NE NU F O V ST. rewrite (statement_display t f o v NE ST), parse_one by now apply statement_wf. unfold lk_query_push. cbn [add_stmt ext_of_stmt].
  rewrite (same_type f NU). destruct f as [|x f]; [contradiction|]. destruct (rule_type (x :: f)); [|reflexivity]. destruct (ext_op o); reflexivity.
Qed.
(** The same for an option, whose field is empty. *)
Theorem C99_option q o v t fuel s : bytes_ok o -> bytes_ok v -> statement t [] o v -> lk_query_push q [] o v = lk_query_parse (Datatypes.S fuel) s q [t].
Proof.
  intros O V ->. change (as_abtxt []) with (@nil N). change ([] ++ [58] ++ as_abtxt o ++ [58] ++ as_abtxt v) with (58 :: as_abtxt o ++ 58 :: as_abtxt v).
  assert (58 :: as_abtxt o ++ 58 :: as_abtxt v = abl_display [(Some CColon, o); (Some CColon, v)]) as ->.
  { unfold abl_display. cbn [flat_map ctr_str ctr_char app]. now rewrite app_nil_r. }
  rewrite parse_one; [reflexivity|]. split; [repeat (constructor; [assumption|]); constructor|]. repeat constructor; discriminate.
Qed.
(** Many statements pushed in turn are the texts parsed together. *)
Definition ordinary (x : bytes * bytes * bytes) : Prop := ~ In (fst (fst x)) untestable /\ bytes_ok (fst (fst x)) /\ bytes_ok (snd (fst x)) /\ bytes_ok (snd x).
Fixpoint pushes (q : TQuery) (l : list (bytes * bytes * bytes)) : outcome QErr TQuery :=
  match l with [] => Ok q | (f, o, v) :: l => obind (lk_query_push q f o v) (fun q => pushes q l) end.
Theorem C99_many l ts fuel s : Forall ordinary l -> Forall2 (fun x t => statement t (fst (fst x)) (snd (fst x)) (snd x)) l ts ->
  forall q, pushes q l = lk_query_parse (Datatypes.S fuel) s q ts.
Proof.
  intros F R. induction R as [|[[f o] v] t l ts ST R IH]; intros q; [reflexivity|]. apply Forall_cons_iff in F as [(NU & F1 & F2 & F3) F]. cbn [fst snd] in *.
  cbn [pushes]. assert (lk_query_push q f o v = lk_query_parse (Datatypes.S fuel) s q [t]) as ->.
  { destruct f as [|x f]; [now apply C99_option|now apply C99_push_parse]. }
  cbn [lk_query_parse]. destruct (query_parse (Datatypes.S fuel) s q t); cbn [obind]; [apply (IH F)|reflexivity..].
Qed.
(** For the other fields the text is an error, and pushing it panics. *)
Theorem C99_untestable_refuted q f o v t fuel s : In f untestable -> bytes_ok o -> bytes_ok v -> statement t f o v ->
  lk_query_parse (Datatypes.S fuel) s q [t] = Err QStmt /\ lk_query_push q_default f (str "=") v = Panic.
Proof.
  intros I O V ST. assert (f <> [] /\ bytes_ok f /\ predicate_type f = None /\ lk_query_push q_default f (str "=") v = Panic) as (NE & F & P & PN).
  { cbn [untestable In] in I. repeat (destruct I as [<-|I]; [split; [discriminate|split; [repeat constructor|split; reflexivity]]|]). contradiction. }
  split; [|exact PN]. rewrite (statement_display t f o v NE ST), parse_one by now apply statement_wf. cbn [add_stmt ext_of_stmt]. now rewrite P.
Qed.
Example C99_ex : statement (str "prefix:=:\x05hello") (str "prefix") (str "=") (5 :: str "hello") /\ statement (str ":mode:tree-asc") [] (str "mode") (str "tree-asc") /\
  ordinary (str "prefix", str "=", 5 :: str "hello") /\ (exists q, lk_query_push q_default (str "prefix") (str "=") (5 :: str "hello") = Ok q) /\
  In (str "data") untestable /\ statement (str "data:=:x") (str "data") (str "=") (str "x").
Proof.
  split; [reflexivity|]. split; [reflexivity|]. split; [|split; [eexists; vm_compute; reflexivity|split; [cbn; tauto|reflexivity]]].
  split; [intros I; cbn in I; repeat (destruct I as [I|I]; [discriminate|]); exact I|]. repeat split; repeat constructor.
Qed.
Print Assumptions C99_push_parse.
Print Assumptions C99_option.
Print Assumptions C99_many.
Print Assumptions C99_untestable_refuted.
