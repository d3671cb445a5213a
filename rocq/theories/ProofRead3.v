(** Proofs about ModelRead: the step bound, and the parts of the macro. *)
From Coq Require Import Lia.
From Verif Require Import Bytes ModelTree ModelTestSet ModelStore ModelPred ModelQuery ProofFuel.
From Verif Require Import ModelAbe SpecAbe ProofAbe ProofAbe2 ModelEval ModelFn SpecEval ProofEval ProofPktScope2 SpecCliQuery ProofCliQuery3 ModelRead SpecRead.
Local Open Scope N_scope.

(** ** The step bound of the tree *)
Lemma tree_more f f' d asc p stale r : (f <= f')%nat -> query_tree f d asc p stale = r -> r <> OutOfFuel -> query_tree f' d asc p stale = r.
Proof.
  intros L E N. unfold query_tree in *.
  destruct (query_tree_entries f (tree_t d) asc p stale) as [x|x| |] eqn:Q; cbn [obind] in E; try congruence.
  all: assert (query_tree_entries f' (tree_t d) asc p stale = query_tree_entries f (tree_t d) asc p stale) as Q2.
  1, 3, 5: unfold query_tree_entries in *; destruct (member_peek 32 (p_limits p QBranch) 0); [|reflexivity];
    destruct (compile_tree_keys p asc) as [k| | |]; cbn [obind] in *; try reflexivity; try discriminate Q;
    destruct (lower_bound k) as [lb| | |]; cbn [obind] in *; try reflexivity; try discriminate Q;
    destruct (set_range (tree_t d) asc lb) as [at_|]; [|reflexivity];
    destruct (set_pointer_at_match f (tree_t d) asc k lb at_) as [y|y| |] eqn:SP; cbn [obind] in Q; try discriminate Q;
    (rewrite (pointer_more _ asc k lb f f' at_ _ L SP ltac:(discriminate))); cbn [obind]; try reflexivity;
    destruct y; [|reflexivity]; rewrite Q; apply (walk_more _ asc k lb p stale f f' L f f' _ _ _ _ L Q); discriminate.
  all: rewrite Q2, Q; exact E.
Qed.
Lemma tree_unique f f' d asc p stale : query_tree f d asc p stale <> OutOfFuel -> query_tree f' d asc p stale <> OutOfFuel ->
  query_tree f d asc p stale = query_tree f' d asc p stale.
Proof.
  intros A B. destruct (Nat.le_ge_cases f f') as [L|L].
  - symmetry. now apply (tree_more f f').
  - now apply (tree_more f' f).
Qed.

(** ** Macros *)
Lemma split_colon l r : no_colon l -> split_on (abe_is CColon) (l ++ ACtr CColon :: r) = l :: split_on (abe_is CColon) r.
Proof.
  induction 1 as [|e l X F IH]; cbn [app split_on].
  - destruct (split_on (abe_is CColon) r) eqn:E; [|reflexivity]. destruct r as [|x r]; [discriminate E|]. cbn [split_on] in E. destruct (split_on _ r); [discriminate E|]. destruct (abe_is CColon x); discriminate E.
  - rewrite IH. destruct e as [[]| |]; cbn [abe_is ctr_eqb]; try reflexivity. congruence.
Qed.
Lemma split_last l : no_colon l -> split_on (abe_is CColon) l = [l].
Proof. induction 1 as [|e l X F IH]; [reflexivity|]. cbn [split_on]. rewrite IH. destruct e as [[]| |]; cbn [abe_is ctr_eqb]; try reflexivity. congruence. Qed.
Lemma exact_concat abl b : as_exact_bytes abl = Some b -> abl_concat abl = b.
Proof. destruct abl as [|[[c|] x] [|]]; cbn; intros H; try discriminate; injection H as <-; [reflexivity|]. now rewrite app_nil_r. Qed.
(** What a macro gives is what its item evaluates to. *)
Lemma macro_evaluates s id t l r v n : id <> [] -> reads id id -> denotes t l -> not_bytes l ->
  (forall fuel, (n <= fuel)%nat -> sc_macro s (ctx_of fuel s) id l = r) ->
  evaluates s (91 :: 47 :: id ++ t ++ [93]) v <-> r = Ok (Some v).
Proof.
  intros NE R D NB M. assert (P : parse_abe_strict (91 :: 47 :: id ++ t ++ [93]) = Ok [ALst (ACtr CFSlash :: ABytes id :: l)]).
  { apply parse_denotes. replace (91 :: 47 :: id ++ t ++ [93]) with (91 :: (47 :: id ++ t) ++ 93 :: []) by (cbn; now rewrite <- !app_assoc).
    apply denotes_lst; [|constructor]. apply (denotes_ctr CFSlash). now apply denotes_bytes. }
  assert (V : forall fuel, (n <= fuel)%nat -> eval (S fuel) s [ALst (ACtr CFSlash :: ABytes id :: l)] = obind (run_macro s (ctx_of fuel s) (ABytes id :: l)) (fun b => Ok [(None, b)])).
  { intros fuel FU. change (eval (S fuel) s ?l) with (eval_items s (ctx_of fuel s) l []). cbn [eval_items match_expr tl]. destruct (run_macro _ _ _); reflexivity. }
  unfold run_macro in V. split.
  - intros (k & m & P' & E). rewrite P in P'. injection P' as <-. destruct (E (S (n + m))) as (abl & W & B); [lia|]. rewrite V, M in W by lia.
    destruct r as [[x|]| | |]; try discriminate. cbn [obind] in W. injection W as <-. cbn in B. congruence.
  - intros ->. exists [ALst (ACtr CFSlash :: ABytes id :: l)], (S n). split; [exact P|]. intros [|fuel] FU; [lia|]. rewrite V, M by lia. eexists. split; reflexivity.
Qed.
