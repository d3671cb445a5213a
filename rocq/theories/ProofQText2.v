From Verif Require Import Bytes ModelAbe SpecAbe ProofAbe ProofAbe2 PropsAbe ModelEval SpecEval ProofEval ProofEval2 ModelSpace SpecSpace ProofSpace ProofRooted ProofEval3.
From Verif Require Import ModelTestSet ModelPred SpecPred ProofPred ModelQText SpecQText ProofQText.

(** ** Lists of components as lines of text *)
Definition abl_wf (l : ABList) : Prop :=
  Forall (fun c => bytes_ok (snd c)) l /\
  match l with [] => False | (None, b) :: r => b <> [] /\ Forall (fun c => fst c <> None) r | (Some _, _) :: r => Forall (fun c => fst c <> None) r end.
Definition delimited (l : ABList) : Prop := Forall (fun c => fst c <> None) l.
Lemma as_abtxt_nil : as_abtxt [] = []. Proof. reflexivity. Qed.
Lemma print_items l : print_abe (abl_items l) = abl_display l.
Proof.
  unfold print_abe, abl_items, abl_display. induction l as [|[c b] l IH]; [reflexivity|]. cbn [flat_map]. rewrite flat_map_app, IH. f_equal.
  rewrite flat_map_app. f_equal; [destruct c; reflexivity|]. destruct b as [|x b]; [reflexivity|]. rewrite as_abtxt_flat. apply app_nil_r.
Qed.
Lemma items_ok l : Forall (fun c => bytes_ok (snd c)) l -> abes_ok (abl_items l).
Proof.
  unfold abes_ok, abl_items. induction 1 as [|[c b] l B F IH]; [constructor|]. cbn [flat_map]. apply Forall_app. split; [|exact IH]. apply Forall_app.
  split; [destruct c; repeat constructor|]. destruct b; [constructor|]. constructor; [exact B|constructor].
Qed.
Lemma delimited_not_bytes l : delimited l -> not_bytes (abl_items l).
Proof. intros D. destruct D as [|[[c|] b] l H F]; [exact I|exact I|]. now cbn in H. Qed.
Lemma items_normal l : delimited l -> Forall (fun c => bytes_ok (snd c)) l -> normal (abl_items l).
Proof.
  induction 1 as [|[[c|] b] l H F IH]; intros B; [constructor| |now cbn in H]. apply Forall_cons_iff in B as [B B']. cbn [abl_items flat_map app]. constructor.
  fold (abl_items l). destruct b as [|x b]; [exact (IH B')|]. cbn [app]. constructor; [discriminate|exact B|now apply delimited_not_bytes|exact (IH B')].
Qed.
Lemma wf_normal l : abl_wf l -> normal (abl_items l).
Proof.
  intros [B H]. destruct l as [|[[c|] b] l]; [contradiction|apply items_normal; [constructor; [discriminate|exact H]|exact B]|].
  destruct H as [NE D]. destruct b as [|x b]; [contradiction|]. apply Forall_cons_iff in B as [B B']. cbn [abl_items flat_map app].
  constructor; [discriminate|exact B|now apply delimited_not_bytes|now apply items_normal].
Qed.
Lemma eval_delimited s ctx l : delimited l -> forall acc, eval_items s ctx (abl_items l) acc = Ok (acc ++ l).
Proof.
  induction 1 as [|[[c|] b] l H F IH]; intros acc; [cbn; now rewrite app_nil_r| |now cbn in H]. cbn [abl_items flat_map app]. fold (abl_items l).
  cbn [eval_items match_expr obind push_item]. unfold push_ctr. destruct b as [|x b].
  - cbn [app]. rewrite IH, <- app_assoc. reflexivity.
  - cbn [app eval_items match_expr obind push_item]. rewrite push_bytes_last, IH, <- app_assoc. reflexivity.
Qed.
Lemma eval_wf s ctx l : abl_wf l -> eval_items s ctx (abl_items l) [] = Ok l.
Proof.
  intros [B H]. destruct l as [|[[c|] b] l]; [contradiction|apply (eval_delimited s ctx ((Some c, b) :: l)); constructor; [discriminate|exact H]|].
  destruct H as [NE D]. destruct b as [|x b]; [contradiction|]. cbn [abl_items flat_map app]. fold (abl_items l). cbn [eval_items match_expr obind push_item push_bytes].
  now rewrite eval_delimited.
Qed.
Lemma eval_line_wf fuel s l : abl_wf l -> eval_line (S fuel) s (abl_display l) = Ok l.
Proof.
  intros W. unfold eval_line. rewrite <- print_items. destruct (C42_print_parse (abl_items l) (items_ok l (proj1 W))) as [_ E].
  rewrite E by now apply wf_normal. change (eval (S fuel) s ?x) with (eval_items s (ctx_of fuel s) x []). now rewrite eval_wf.
Qed.
Lemma reads_newline t b : reads t b -> ~ In 10 t.
Proof.
  induction 1 as [|u v t b U R IH]; [tauto|]. rewrite in_app_iff. intros [H|H]; [|tauto]. destruct U as [c P|e v I|h l a b' Ha Hb].
  - destruct H as [->|[]]. unfold plain in P. lia.
  - destruct H as [H|[H|[]]]; [discriminate|]. subst. cbn in I. repeat (destruct I as [I|I]; [discriminate|]). contradiction.
  - assert (forall c v, hex_value c v -> c <> 10) as HX.
    { intros c v' X ->. destruct X as [X|X]; apply nth_error_In in X; cbn in X; repeat (destruct X as [X|X]; [discriminate|]); contradiction. }
    cbn in H. destruct H as [H|[H|[H|[H|[]]]]]; try discriminate; [exact (HX h a Ha H)|exact (HX l b' Hb H)].
Qed.
Lemma display_newline l : Forall (fun c => bytes_ok (snd c)) l -> ~ In 10 (abl_display l).
Proof.
  unfold abl_display. induction 1 as [|[c b] l B F IH]; [tauto|]. cbn [flat_map]. rewrite !in_app_iff. intros [[H|H]|H]; [| |tauto].
  - destruct c as [[|]|]; cbn in H; try destruct H as [H|[]]; try discriminate; contradiction.
  - exact (reads_newline _ _ (abtxt_reads b B) H).
Qed.
Lemma display_nonempty l : abl_wf l -> abl_display l <> [].
Proof.
  intros [B H]. destruct l as [|[[c|] b] l]; [contradiction|discriminate|]. destruct H as [NE _]. apply Forall_cons_iff in B as [B _]. cbn [abl_display flat_map ctr_str app].
  intros E. apply app_eq_nil in E as [E _]. pose proof (abtxt_reads b B) as R. rewrite E in R. inversion R; [congruence|].
  destruct u; [|discriminate]. match goal with U : reads1 [] _ |- _ => inversion U end.
Qed.
Lemma split_nonempty {A} (p : A -> bool) l : split_on p l <> [].
Proof. destruct l as [|x l]; cbn; [discriminate|]. destruct (split_on p l); [discriminate|]. now destruct (p x). Qed.
Lemma split_line l r : ~ In 10 l -> split_on (N.eqb 10) (l ++ 10 :: r) = l :: split_on (N.eqb 10) r.
Proof.
  induction l as [|x l IH]; intros H.
  - cbn [app split_on]. pose proof (split_nonempty (N.eqb 10) r) as NE. destruct (split_on (N.eqb 10) r); [contradiction|]. reflexivity.
  - cbn [app split_on]. rewrite IH by (intros X; apply H; now right). destruct (N.eqb_spec 10 x) as [E|_]; [|reflexivity]. destruct H. now left.
Qed.
(** A text whose lines are lists of components. *)
Fixpoint add_stmts (q : TQuery) (ls : list ABList) : outcome QErr TQuery :=
  match ls with [] => Ok q | l :: r => obind (add_stmt q l) (fun q' => add_stmts q' r) end.
Definition lines (ls : list ABList) : bytes := flat_map (fun l => abl_display l ++ [10]) ls.
Lemma parse_lines_wf fuel s rest ls : forall q, Forall abl_wf ls ->
  query_parse (S fuel) s q (lines ls ++ rest) = obind (add_stmts q ls) (fun q' => query_parse (S fuel) s q' rest).
Proof.
  unfold query_parse. induction ls as [|l ls IH]; intros q F; [reflexivity|]. apply Forall_cons_iff in F as [W F].
  cbn [lines flat_map]. fold (lines ls). rewrite <- !app_assoc. cbn [app]. rewrite split_line by (apply display_newline, W).
  cbn [parse_lines add_stmts]. pose proof (display_nonempty l W) as NE. destruct (abl_display l) as [|x d] eqn:E; [contradiction|]. rewrite <- E, eval_line_wf by assumption.
  cbn [obind]. destruct (add_stmt q l) as [q'|e| |]; cbn [obind]; [|reflexivity..]. now apply IH.
Qed.
Lemma parse_wf fuel s ls q : Forall abl_wf ls -> query_parse (S fuel) s q (lines ls) = add_stmts q ls.
Proof.
  intros F. rewrite <- (app_nil_r (lines ls)), parse_lines_wf by assumption. destruct (add_stmts q ls); reflexivity.
Qed.
(** ** Statements *)
Definition stmt_abl (s : stmt) : ABList := let '(k, o, b) := s in [(None, rule_name k); (Some CColon, op_text o); (Some CColon, b)].
Lemma name_plain k : numeric k \/ k = RPrefix -> as_abtxt (rule_name k) = rule_name k /\ bytes_ok (rule_name k).
Proof.
  intros H. assert (In k predicate_types) as I.
  { destruct k as [f| | |q]; [destruct H as [H|H]; [|discriminate]; destruct f; try contradiction; cbn; tauto|cbn; tauto|cbn; tauto|destruct q; cbn; tauto]. }
  cbn in I. repeat (destruct I as [<-|I]; [split; [reflexivity|apply Forall_forall; intros x X; cbn in X; repeat (destruct X as [<-|X]; [reflexivity|]); contradiction]|]). contradiction.
Qed.
Lemma op_plain o : as_abtxt (op_text o) = op_text o /\ bytes_ok (op_text o).
Proof. destruct o as [| | | |[]]; (split; [reflexivity|repeat constructor]). Qed.
Lemma predicate_type_name k : numeric k \/ k = RPrefix -> predicate_type (rule_name k) = Some k.
Proof. intros H. destruct k as [f| | |q]; [destruct H as [H|H]; [|discriminate]; destruct f; try contradiction; reflexivity|reflexivity|reflexivity|destruct q; reflexivity]. Qed.
Lemma stmt_display s : numeric (fst (fst s)) -> stmt_line s = abl_display (stmt_abl s) ++ [10].
Proof.
  destruct s as [[k o] b]. cbn [fst]. intros K. cbn [stmt_line stmt_abl]. unfold abl_display. cbn [flat_map ctr_str app]. rewrite (proj1 (name_plain k (or_introl K))), (proj1 (op_plain o)).
  rewrite app_nil_r, <- !app_assoc. cbn [app ctr_char]. rewrite <- !app_assoc. reflexivity.
Qed.
Lemma stmt_wf s : numeric (fst (fst s)) -> bytes_ok (snd s) -> abl_wf (stmt_abl s).
Proof.
  destruct s as [[k o] b]. cbn [fst snd]. intros K B. destruct (rule_name_cons k K) as (x & r & E). split.
  - constructor; [exact (proj2 (name_plain k (or_introl K)))|]. constructor; [exact (proj2 (op_plain o))|]. constructor; [exact B|constructor].
  - cbn [stmt_abl]. rewrite E. split; [discriminate|]. repeat constructor; discriminate.
Qed.
Lemma add_stmt_push q k o b : numeric k -> add_stmt q (stmt_abl (k, o, b)) = lk_query_push q (rule_name k) (op_text o) b.
Proof.
  intros K. rewrite push_ext by assumption. cbn [stmt_abl add_stmt ext_of_stmt]. rewrite predicate_type_name, op_text_ext by now left. reflexivity.
Qed.
Lemma parse_push fuel s l q : Forall (fun x => numeric (fst (fst x)) /\ bytes_ok (snd x)) l ->
  query_parse (S fuel) s q (flat_map stmt_line l) = push_all q l.
Proof.
  intros F. assert (flat_map stmt_line l = lines (map stmt_abl l)) as ->.
  { unfold lines. induction F as [|x l [K B] F IH]; [reflexivity|]. cbn [flat_map map]. now rewrite IH, stmt_display. }
  rewrite parse_wf by (apply Forall_map; eapply Forall_impl; [|exact F]; intros x [K B]; now apply stmt_wf).
  revert q. induction F as [|[[k o] b] l [K B] F IH]; intros q; [reflexivity|]. cbn [fst] in K. cbn [map add_stmts push_all]. rewrite add_stmt_push by assumption.
  destruct (lk_query_push _ _ _ _); cbn [obind]; [apply IH|reflexivity..].
Qed.
