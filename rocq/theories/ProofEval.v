(** Evaluation: calls, encoders, spaces, termination. *)
From Verif Require Import Bytes ModelAbe SpecAbe ProofAbe ProofAbe2 ModelFmt SpecFmt ProofFmt PropsFmt ModelSpace ProofSpace ModelEval ModelFn SpecEval.
Ltac Zify.zify_post_hook ::= Z.div_mod_to_equations.

(** ** A bracket with a function and its arguments *)
Definition optb (b : bytes) : list ABE := match b with [] => [] | _ => [ABytes b] end.
Definition args_abe (bs : list bytes) : list ABE := flat_map (fun b => ACtr CColon :: optb b) bs.
Definition args_text (ts : list bytes) : bytes := flat_map (fun t => 58 :: t) ts.
Lemma args_denotes ts bs tail l : Forall2 reads ts bs -> denotes tail l -> not_bytes l -> denotes (args_text ts ++ tail) (args_abe bs ++ l) .
Proof.
  intros F D NB. induction F as [|t b ts bs R F IH]; [assumption|].
  change (denotes (58 :: (t ++ args_text ts) ++ tail) (ACtr CColon :: (optb b ++ args_abe bs) ++ l)). apply (denotes_ctr CColon). rewrite <- !app_assoc.
  destruct b as [|x b]; cbn [optb app].
  - inversion R. exact IH.
  - apply denotes_bytes; [discriminate|assumption| |assumption]. clear - NB. destruct bs; cbn; [exact NB|trivial].
Qed.
Lemma reads_nil_iff t : reads t [] <-> t = [].
Proof. split; [intros R; inversion R; reflexivity|intros ->; constructor]. Qed.
Lemma call_denotes tid id ts bs : id <> [] -> reads tid id -> Forall2 reads ts bs ->
  denotes (91 :: tid ++ args_text ts ++ [93]) [ALst (ABytes id :: args_abe bs)].
Proof.
  intros NE R F. replace (tid ++ args_text ts ++ [93]) with ((tid ++ args_text ts) ++ 93 :: []) by now rewrite <- app_assoc.
  apply denotes_lst; [|constructor]. apply denotes_bytes; [assumption..| |].
  - destruct bs; exact I.
  - rewrite <- (app_nil_r (args_text ts)), <- (app_nil_r (args_abe bs)). apply args_denotes; [assumption|constructor|exact I].
Qed.

Lemma push_bytes_last l c x b : push_bytes (l ++ [(c, x)]) b = l ++ [(c, x ++ b)].
Proof.
  induction l as [|y l IH]; [reflexivity|]. cbn [app push_bytes]. rewrite IH. destruct y. now destruct l.
Qed.
Lemma eval_items_app s ctx l1 : forall l2 acc, eval_items s ctx (l1 ++ l2) acc = obind (eval_items s ctx l1 acc) (eval_items s ctx l2).
Proof.
  induction l1 as [|e l1 IH]; intros l2 acc; [reflexivity|]. cbn [app eval_items]. destruct (match_expr s ctx e); [|reflexivity..]. apply IH.
Qed.
Definition colon_args (bs : list bytes) : ABList := map (fun b => (Some CColon, b)) bs.
Lemma eval_args s ctx bs : forall acc, eval_items s ctx (args_abe bs) acc = Ok (acc ++ colon_args bs).
Proof.
  induction bs as [|b bs IH]; intros acc; [cbn; now rewrite app_nil_r|].
  change (args_abe (b :: bs)) with (ACtr CColon :: optb b ++ args_abe bs). cbn [eval_items match_expr obind push_item]. unfold push_ctr.
  rewrite eval_items_app. destruct b as [|x b]; cbn [optb eval_items match_expr obind push_item].
  - rewrite IH, <- app_assoc. reflexivity.
  - rewrite push_bytes_last, IH, <- app_assoc. reflexivity.
Qed.
Lemma split_colon_args id bs : split_fslash ((None, id) :: colon_args bs) = [(None, id) :: colon_args bs].
Proof.
  assert (A : forall x l, ~ (exists b, x = (Some CFSlash, b)) -> Forall (fun y => fst y = Some CColon) l -> split_fslash (x :: l) = [x :: l]).
  { intros x l. revert x. induction l as [|y l IH]; intros x X F; [reflexivity|].
    apply Forall_cons_iff in F as [Y F]. destruct y as [c b]. cbn in Y. subst c.
    specialize (IH (Some CColon, b)). change (split_fslash (x :: (Some CColon, b) :: l)) with
      (match split_fslash ((Some CColon, b) :: l) with g :: gs' => (x :: g) :: gs' | [] => [[x]] end).
    rewrite IH; [reflexivity|intros [b' E]; discriminate|assumption]. }
  apply A; [intros [b E]; discriminate|]. unfold colon_args. apply Forall_map, Forall_forall. reflexivity.
Qed.
Lemma snd_colon_args bs : map snd (colon_args bs) = bs.
Proof. unfold colon_args. rewrite map_map. cbn. apply map_id. Qed.
(** The value of a function call with an id and literal arguments *)
Lemma eval_id_args s ctx id bs : eval_items s ctx (ABytes id :: args_abe bs) [] = Ok ((None, id) :: colon_args bs).
Proof. cbn [eval_items match_expr obind push_item push_bytes]. now rewrite eval_args. Qed.
Lemma match_expr_call s ctx id bs : lenN bs <= 15 ->
  c_eval ctx (ABytes id :: args_abe bs) = Ok ((None, id) :: colon_args bs) ->
  match_expr s ctx (ALst (ABytes id :: args_abe bs)) = obind (call s ctx id ([] :: bs) true) (fun b => Ok (IBytes b)).
Proof.
  intros L V. set (R := obind (Ok ((None, id) :: colon_args bs)) (fun abl => obind (run_calls s ctx (split_fslash abl) []) (fun b => Ok (IBytes b)))).
  transitivity R.
  - unfold match_expr. destruct bs as [|b bs]; [now rewrite V|]. cbn [args_abe flat_map app] in V |- *. destruct (optb b ++ _); now rewrite V.
  - unfold R. cbn [obind]. rewrite split_colon_args. cbn [run_calls]. rewrite lenN_cons.
    assert (LC : lenN (colon_args bs) = lenN bs) by (unfold colon_args, lenN; now rewrite map_length).
    destruct (N.ltb_spec 16 (1 + lenN (colon_args bs))); [lia|]. rewrite snd_colon_args. destruct (call _ _ _ _ _); reflexivity.
Qed.
Lemma eval_call s id bs fuel : lenN bs <= 15 ->
  eval (S (S fuel)) s [ALst (ABytes id :: args_abe bs)] =
  obind (call s (ctx_of (S fuel) s) id ([] :: bs) true) (fun b => Ok [(None, b)]).
Proof.
  intros L. change (eval (S (S fuel)) s ?l) with (eval_items s (ctx_of (S fuel) s) l []). cbn [eval_items].
  rewrite match_expr_call; [|assumption|apply eval_id_args]. destruct (call _ _ _ _ _); reflexivity.
Qed.
(** The text of one item of an expression, with a value *)
Definition item (s : scope) (t v : bytes) : Prop := exists x, is_expr x = true /\
  (forall tail l, not_bytes l -> denotes tail l -> denotes (t ++ tail) (x :: l)) /\
  (exists n, forall fuel, (n <= fuel)%nat -> match_expr s (ctx_of fuel s) x = Ok (IBytes v)).
Lemma call_evaluates s tid id ts bs v : id <> [] -> lenN bs <= 15 -> reads tid id -> Forall2 reads ts bs ->
  (forall fuel, sc_func s (ctx_of (S fuel) s) id bs true = Ok (Some v)) -> item s (91 :: tid ++ args_text ts ++ [93]) v.
Proof.
  intros NE L R F C. exists (ALst (ABytes id :: args_abe bs)). split; [reflexivity|]. split.
  - intros tail l NB D. replace ((91 :: tid ++ args_text ts ++ [93]) ++ tail) with (91 :: (tid ++ args_text ts) ++ 93 :: tail) by (cbn; now rewrite <- !app_assoc).
    apply denotes_lst; [|assumption]. apply denotes_bytes; [assumption..| |].
    + destruct bs; exact I.
    + rewrite <- (app_nil_r (args_text ts)), <- (app_nil_r (args_abe bs)). apply args_denotes; [assumption|constructor|exact I].
  - exists 1%nat. intros [|fuel] FU; [lia|]. rewrite match_expr_call; [|assumption|apply eval_id_args]. unfold call. cbn [tl]. now rewrite C.
Qed.
Lemma item_evaluates s t v : item s t v -> evaluates s t v.
Proof.
  intros (x & X & D & n & M). exists [x], (S n). split.
  - apply parse_denotes. rewrite <- (app_nil_r t). apply D; [exact I|constructor].
  - intros fuel FU. destruct fuel as [|fuel]; try lia. exists [(None, v)]. split; [|reflexivity].
    change (eval (S fuel) s [x]) with (eval_items s (ctx_of fuel s) [x] []). cbn [eval_items]. rewrite M by lia. reflexivity.
Qed.

(** ** Looking up functions *)
Lemma spair_first a b ctx id inp init v : sc_func a ctx id inp init = Ok (Some v) -> sc_func (spair a b) ctx id inp init = Ok (Some v).
Proof. intros H. cbn. now rewrite H. Qed.
Lemma spair_second a b ctx id inp init : sc_func a ctx id inp init = Ok None -> sc_func (spair a b) ctx id inp init = sc_func b ctx id inp init.
Proof. intros H. cbn. now rewrite H. Qed.
Lemma escope_none fs ms ctx id inp init : find_func id fs = None -> sc_func (escope fs ms) ctx id inp init = Ok None.
Proof. intros H. cbn. now rewrite H. Qed.
Lemma escope_some fs ms ctx id inp init f : find_func id fs = Some f -> (f_init f = None \/ f_init f = Some init) -> f_lo f <= lenN inp <= f_hi f ->
  sc_func (escope fs ms) ctx id inp init = f_apply f ctx inp init.
Proof.
  intros H I L. cbn. rewrite H. assert (match f_init f with Some i => negb (Bool.eqb i init) | None => false end = false) as ->.
  { destruct I as [->| ->]; [reflexivity|]. now rewrite Bool.eqb_reflx. }
  assert (lenN inp <? f_lo f = false) as -> by lia. assert (f_hi f <? lenN inp = false) as -> by lia. reflexivity.
Qed.

(** The functions of the core scope as one list *)
Definition flat (s : scope) (fs : list sfunc) : Prop :=
  (forall ctx id inp init, sc_func s ctx id inp init = sc_func (escope fs []) ctx id inp init) /\
  (forall id o b, sc_enc s id o b = sc_enc (escope fs []) id o b).
Definition disjoint_ids (fa fb : list sfunc) : bool := forallb (fun f => negb (existsb (fun g => beqb (f_id f) (f_id g)) fb)) fa.
Lemma flat_escope fs ms : flat (escope fs ms) fs.
Proof. split; reflexivity. Qed.
Lemma find_app {A} (p : A -> bool) l1 l2 : find p (l1 ++ l2) = match find p l1 with Some x => Some x | None => find p l2 end.
Proof. induction l1 as [|x l1 IH]; [reflexivity|]. cbn. destruct (p x); [reflexivity|apply IH]. Qed.
Lemma disjoint_find (p : sfunc -> bool) fa fb f id : disjoint_ids fa fb = true -> (forall g, p g = true -> f_id g = id) -> find p fa = Some f -> find p fb = None.
Proof.
  intros D P F. apply find_some in F as [I Pf]. apply P in Pf. unfold disjoint_ids in D. rewrite forallb_forall in D. specialize (D _ I).
  apply negb_true_iff in D. destruct (find p fb) as [g|] eqn:G; [|reflexivity]. apply find_some in G as [Ig Pg]. apply P in Pg.
  assert (existsb (fun g => beqb (f_id f) (f_id g)) fb = true); [|congruence]. apply existsb_exists. exists g. split; [assumption|].
  rewrite Pf, Pg. apply beqb_refl.
Qed.
Lemma or_else_none x : or_else x (Ok None) = x.
Proof. destruct x as [[|]| | |]; reflexivity. Qed.
Lemma flat_pair a b fa fb : flat a fa -> flat b fb -> disjoint_ids fa fb = true -> flat (spair a b) (fa ++ fb).
Proof.
  intros [A1 A2] [B1 B2] D. split.
  - intros. cbn [spair sc_func]. rewrite A1, B1. cbn [escope sc_func]. unfold find_func. rewrite find_app.
    destruct (find _ fa) as [f|] eqn:F; [|reflexivity]. rewrite (disjoint_find _ fa fb f id D) by (intros; try assumption; now apply beqb_eq).
    apply or_else_none.
  - intros. cbn [spair sc_enc]. rewrite A2, B2. cbn [escope sc_enc]. rewrite find_app.
    destruct (find _ fa) as [f|] eqn:F; [|reflexivity]. rewrite (disjoint_find _ fa fb f id D).
    + apply or_else_none.
    + intros g G. apply andb_true_iff in G as [G _]. now apply beqb_eq.
    + exact F.
Qed.
Definition basic_funcs (o : oracle) : list sfunc :=
  ((bytes_fe o ++ uint_fe) ++ base_fe) ++ (((comment_fe ++ help_fe o) ++ logic_fe) ++ encode_fe).
Definition core_funcs (o : oracle) : list sfunc := (basic_funcs o ++ static_lns o) ++ (stamp_fe o ++ space_fe).
Lemma basic_flat o : flat (basic_scope o) (basic_funcs o).
Proof. unfold basic_scope, basic_funcs. repeat (apply flat_pair; [| |vm_compute; reflexivity]); apply flat_escope. Qed.
Lemma core_flat o : flat (core_scope o) (core_funcs o).
Proof. unfold core_scope, core_funcs. repeat (apply flat_pair; [| |vm_compute; reflexivity]); apply flat_escope. Qed.

