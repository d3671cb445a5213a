From Coq Require Import Lia.
From Verif Require Import Bytes ModelAbe SpecAbe ProofAbe ProofAbe2 PropsAbe ModelFmt PropsFmt ModelEval ModelFn SpecEval ProofEval ProofEval2 ProofEval3 PropsEval.
From Verif Require Import ModelSpace SpecSpace ProofSpace ProofRooted ProofTree SpecPkt ModelTestSet SpecTestSet ProofTestSet ModelPred SpecPred ProofPred PropsPred.
From Verif Require Import ModelQuery ModelQText SpecQText ProofQText ProofQText2 ProofQText3 ProofQText4 ProofQText5 ProofQText6 ProofFmt PropsQText ModelStamp SpecStamp ProofStamp.
From Verif Require Import ModelCliQuery SpecCliQuery.

(** ** Evaluation of statements *)
Definition expr (e : ABE) : Prop := forall c, e <> ACtr c.
Lemma expr_bytes s ctx e i : expr e -> match_expr s ctx e = Ok i -> exists b, i = IBytes b.
Proof.
  intros X. destruct e as [c|b|l]; [destruct (X c eq_refl)|cbn; intros H; injection H as <-; eauto|]. cbn [match_expr].
  destruct (match l with ACtr CFSlash :: _ => None | _ => _ end) as [r|].
  - destruct r as [a|e| |]; cbn [obind]; try discriminate. destruct (run_calls s ctx (split_fslash a) []); cbn [obind]; try discriminate. intros Q. injection Q as <-. eauto.
  - destruct (run_macro s ctx (tl l)); cbn [obind]; try discriminate. intros Q. injection Q as <-. eauto.
Qed.
Lemma push_last acc c y b : push_bytes (acc ++ [(c, y)]) b = acc ++ [(c, y ++ b)].
Proof. apply push_bytes_last. Qed.
Lemma exprs_more s ctx es : Forall expr es -> forall x l, eval_items s ctx es [(None, x)] = Ok l ->
  exists w, l = [(None, x ++ w)] /\ forall acc c y, eval_items s ctx es (acc ++ [(c, y)]) = Ok (acc ++ [(c, y ++ w)]).
Proof.
  induction 1 as [|e es X F IH]; intros x l E.
  - cbn in E. injection E as <-. exists []. split; [now rewrite app_nil_r|]. intros. cbn. now rewrite app_nil_r.
  - cbn [eval_items] in E |- *. destruct (match_expr s ctx e) as [i| | |] eqn:M; try discriminate. destruct (expr_bytes s ctx e i X M) as [b ->]. cbn [obind push_item] in E |- *.
    cbn [push_bytes] in E. destruct (IH _ _ E) as (w & -> & G). exists (b ++ w). split; [now rewrite app_assoc|]. intros acc c y. rewrite push_last, G. now rewrite app_assoc.
Qed.
Lemma exprs_eval s es v : es <> [] -> Forall expr es -> evaluates_abe s es v -> exists n, forall fuel, (n <= fuel)%nat -> forall acc c y,
  eval_items s (ctx_of fuel s) es (acc ++ [(c, y)]) = Ok (acc ++ [(c, y ++ v)]).
Proof.
  intros NE F (n & E). exists n. intros fuel FU acc c y. destruct (E (S fuel)) as (abl & V & B); [lia|].
  change (eval (S fuel) s es) with (eval_items s (ctx_of fuel s) es []) in V. destruct es as [|e es]; [contradiction|]. apply Forall_cons_iff in F as [X F].
  cbn [eval_items] in V |- *. destruct (match_expr s (ctx_of fuel s) e) as [i| | |] eqn:M; try discriminate. destruct (expr_bytes s _ e i X M) as [b ->]. cbn [obind push_item] in V |- *.
  cbn [push_bytes] in V. destruct (exprs_more s _ es F b abl V) as (w & -> & G). cbn [as_exact_bytes] in B. injection B as <-. rewrite push_last, G. now rewrite app_assoc.
Qed.
(** A delimiter, what is behind it and the value of that. *)
Definition aseg : Type := (Ctr * list ABE * bytes)%type.
Definition aseg_abe (g : aseg) : list ABE := let '(c, es, _) := g in ACtr c :: es.
Definition aseg_value (g : aseg) : option Ctr * bytes := let '(c, _, v) := g in (Some c, v).
Definition aseg_ok (s : scope) (g : aseg) : Prop := let '(_, es, v) := g in es = [] /\ v = [] \/ es <> [] /\ Forall expr es /\ evaluates_abe s es v.
Lemma asegs s gs : Forall (aseg_ok s) gs -> exists n, forall fuel, (n <= fuel)%nat -> forall acc, eval_items s (ctx_of fuel s) (flat_map aseg_abe gs) acc = Ok (acc ++ map aseg_value gs).
Proof.
  assert (AP : forall ctx a b acc, eval_items s ctx (a ++ b) acc = obind (eval_items s ctx a acc) (eval_items s ctx b)).
  { intros ctx a. induction a as [|e a IH]; intros b acc; [reflexivity|]. cbn [app eval_items]. destruct (match_expr s ctx e); cbn [obind]; [apply IH|reflexivity..]. }
  induction 1 as [|[[c es] v] gs G F (n & E)]; [exists 0%nat; intros; cbn; now rewrite app_nil_r|].
  assert (exists m, forall fuel, (m <= fuel)%nat -> forall acc, eval_items s (ctx_of fuel s) es (acc ++ [(Some c, [])]) = Ok (acc ++ [(Some c, v)])) as [m M].
  { destruct G as [[-> ->]|(NE & X & V)]; [exists 0%nat; reflexivity|]. destruct (exprs_eval s es v NE X V) as [m M]. exists m. intros fuel FU acc. now rewrite M. }
  exists (Nat.max m n). intros fuel FU acc. cbn [flat_map aseg_abe map aseg_value app]. cbn [eval_items match_expr obind push_item]. unfold push_ctr. rewrite AP, M by lia. cbn [obind].
  rewrite E by lia. now rewrite <- app_assoc.
Qed.
Lemma eval_named s name gs : Forall (aseg_ok s) gs -> exists n, forall fuel, (n <= fuel)%nat -> eval fuel s (ABytes name :: flat_map aseg_abe gs) = Ok ((None, name) :: map aseg_value gs).
Proof.
  intros F. destruct (asegs s gs F) as [n E]. exists (S n). intros [|fuel] FU; [lia|]. change (eval (S fuel) s ?x) with (eval_items s (ctx_of fuel s) x []).
  cbn [eval_items match_expr obind push_item push_bytes]. now rewrite E by lia.
Qed.
Lemma eval_option s gs : Forall (aseg_ok s) gs -> exists n, forall fuel, (n <= fuel)%nat -> eval fuel s (flat_map aseg_abe gs) = Ok (map aseg_value gs).
Proof.
  intros F. destruct (asegs s gs F) as [n E]. exists (S n). intros [|fuel] FU; [lia|]. change (eval (S fuel) s ?x) with (eval_items s (ctx_of fuel s) x []). now rewrite E by lia.
Qed.
Lemma const_ok s c b : b <> [] -> aseg_ok s (c, [ABytes b], b).
Proof.
  intros NE. right. split; [discriminate|]. split; [repeat constructor; discriminate|]. exists 1%nat. intros [|fuel] L; [lia|]. eexists. split; [reflexivity|reflexivity].
Qed.

(** ** Statements *)
Inductive cstmt := CNum (x : stmt) | CPrefix (cs : list bytes) | COpt (l : ABList).
Definition c_abl (x : cstmt) : ABList :=
  match x with CNum st => stmt_abl st | CPrefix cs => text_abl (RPrefix, Equal, slash_abl cs) | COpt l => l end.
Definition c_ok (x : cstmt) : Prop :=
  match x with
  | CNum st => stmt_ok st
  | CPrefix cs => space_ok cs /\ (List.length cs <= 8)%nat /\ cs <> [] /\ Forall bytes_ok cs
  | COpt l => match l with (Some _, _) :: _ => True | _ => False end
  end.
Definition c_preds (x : cstmt) : list Predicate :=
  match x with CNum st => expand st | CPrefix cs => [mkPred RPrefix Equal (PSpace (wire_space cs))] | COpt _ => [] end.
Definition c_conf (x : cstmt) : list ABList := match x with COpt l => [l] | _ => [] end.
Definition built (q : TQuery) (rs : list Predicate) (conf : list ABList) : outcome CliErr TQuery :=
  match add_all (q_preds q) rs with Ok P => Ok (mkQ P (q_conf q ++ conf)) | Err e => Err (CStmt (QPred e)) | Panic => Panic | OutOfFuel => OutOfFuel end.
Lemma add_c q x : c_ok x -> match add_stmt q (c_abl x) with Ok q' => Ok q' | Err e => Err (CStmt e) | Panic => Panic | OutOfFuel => OutOfFuel end = built q (c_preds x) (c_conf x).
Proof.
  destruct x as [[[k o] b]|cs|l]; intros OK; cbn [c_abl c_preds c_conf]; unfold built.
  - rewrite add_stmt_push by exact (stmt_numeric _ _ _ OK).
    assert (lk_query_push q (rule_name k) (op_text o) b = with_preds q (lift (add_all (q_preds q) (expand (k, o, b))))) as ->.
    { assert (Forall stmt_ok [(k, o, b)]) as OK1 by (constructor; [exact OK|constructor]). pose proof (push_all_add [(k, o, b)] q OK1) as E. cbn [push_all flat_map] in E. rewrite app_nil_r in E. rewrite <- E. destruct (lk_query_push _ _ _ _); reflexivity. }
    rewrite app_nil_r. destruct (add_all (q_preds q) (expand (k, o, b))); reflexivity.
  - destruct OK as (SK & L & NE & B). rewrite add_stmt_text.
    + assert (back (RPrefix, Equal, slash_abl cs) = (RPrefix, Equal, (None, []) :: slash_abl cs)) as -> by (destruct cs; [contradiction|reflexivity]).
      cbn [and_text]. rewrite (prefix_operand cs SK L NE). cbn [obind add_all]. rewrite app_nil_r. destruct (and_ (q_preds q) _); reflexivity.
    + split; [now right|]. unfold slash_abl. split; [rewrite Forall_map; exact B|]. destruct cs as [|c cs]; [contradiction|]. cbn [map].
      unfold delimited. apply Forall_forall. intros y I. apply (in_map_iff (pair (Some CFSlash)) (c :: cs)) in I as (z & <- & _). discriminate.
  - destruct l as [|[[c|] b] l]; try contradiction. reflexivity.
Qed.
Lemma statements_app fuel s a : forall q b, statements2query fuel s q (a ++ b) = obind (statements2query fuel s q a) (fun q' => statements2query fuel s q' b).
Proof.
  induction a as [|e a IH]; intros q b; [reflexivity|]. cbn [app statements2query]. destruct (eval fuel s e); try reflexivity. destruct (add_stmt q a0); try reflexivity. apply IH.
Qed.
Definition gives_stmt (s : scope) (e : list ABE) (x : cstmt) : Prop := exists n, forall fuel, (n <= fuel)%nat -> eval fuel s e = Ok (c_abl x).
Lemma statements s es xs : Forall2 (gives_stmt s) es xs -> Forall c_ok xs -> exists n, forall fuel, (n <= fuel)%nat -> forall q,
  statements2query fuel s q es = built q (flat_map c_preds xs) (flat_map c_conf xs).
Proof.
  induction 1 as [|e x es xs [n E] F IH]; intros OK.
  - exists 0%nat. intros fuel _ q. cbn. unfold built. cbn [add_all]. rewrite app_nil_r. now destruct q.
  - apply Forall_cons_iff in OK as [O1 O2]. destruct (IH O2) as [m M]. exists (Nat.max n m). intros fuel FU q. cbn [statements2query flat_map]. rewrite E by lia.
    pose proof (add_c q x O1) as A. unfold built in A |- *. rewrite add_all_app. destruct (add_all (q_preds q) (c_preds x)) as [P|e'| |]; destruct (add_stmt q (c_abl x)) as [q'| | |]; try discriminate; cbn [obind];
      [|now injection A as ->|reflexivity..]. injection A as ->. rewrite M by lia. unfold built. cbn [q_preds q_conf]. now rewrite app_assoc.
Qed.
