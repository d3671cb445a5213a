(** Proofs about the functions and macros that encode and evaluate. *)
From Coq Require Import Lia.
From Verif Require Import Bytes ModelAbe SpecAbe ProofAbe ProofAbe2 ModelEval ModelFn SpecEval ProofFn ProofEval ProofEval2 ProofPktScope2.
From Verif Require Import SpecCliQuery ProofCliQuery ProofCliQuery3 SpecRead ProofRead ProofRead3 SpecEncode.
Local Open Scope N_scope.

(** A call whose result may need fuel *)
Lemma call_eventually s tid id ts vs v : id <> [] -> lenN vs <= 15 -> reads tid id -> Forall2 (argument s) ts vs ->
  evaluates s (91 :: tid ++ args_text ts ++ [93]) v <-> exists n, forall fuel, (n <= fuel)%nat -> sc_func s (ctx_of fuel s) id vs true = Ok (Some v).
Proof.
  intros NE L R F. destruct (args_segs s ts vs F) as (gs & G & M & D). destruct (eval_named s id gs G) as [n E]. rewrite M in E.
  assert (P : parse_abe_strict (91 :: tid ++ args_text ts ++ [93]) = Ok [ALst (ABytes id :: flat_map aseg_abe gs)]).
  { apply parse_denotes. replace (91 :: tid ++ args_text ts ++ [93]) with (91 :: (tid ++ args_text ts) ++ 93 :: []) by (cbn; now rewrite <- app_assoc).
    apply denotes_lst; [|constructor]. apply denotes_bytes; [exact NE|exact R| |exact D]. destruct gs as [|[[c es] x] gs]; exact Logic.I. }
  assert (V : forall fuel, (n <= fuel)%nat -> eval (S fuel) s [ALst (ABytes id :: flat_map aseg_abe gs)] = obind (call s (ctx_of fuel s) id ([] :: vs) true) (fun b => Ok [(None, b)])).
  { intros fuel FU. change (eval (S fuel) s ?l) with (eval_items s (ctx_of fuel s) l []). cbn [eval_items]. rewrite (match_segs s _ id gs vs L M) by (now apply E).
    destruct (call _ _ _ _ _); reflexivity. }
  unfold call in V. cbn [tl] in V. split.
  - intros (l & m & P' & E'). rewrite P in P'. injection P' as <-. exists (n + m)%nat. intros fuel FU. destruct (E' (S fuel)) as (abl & W & B); [lia|]. rewrite V in W by lia.
    destruct (sc_func s (ctx_of fuel s) id vs true) as [[x|]| | |]; try discriminate. cbn [obind] in W. injection W as <-. cbn in B. congruence.
  - intros [m C]. exists [ALst (ABytes id :: flat_map aseg_abe gs)], (S (n + m)). split; [exact P|]. intros [|fuel] FU; [lia|]. rewrite V, C by lia. eexists. split; reflexivity.
Qed.
Lemma macro_eventually s id t l v : id <> [] -> reads id id -> denotes t l -> not_bytes l ->
  evaluates s (91 :: 47 :: id ++ t ++ [93]) v <-> exists n, forall fuel, (n <= fuel)%nat -> sc_macro s (ctx_of fuel s) id l = Ok (Some v).
Proof.
  intros NE R D NB. assert (P : parse_abe_strict (91 :: 47 :: id ++ t ++ [93]) = Ok [ALst (ACtr CFSlash :: ABytes id :: l)]).
  { apply parse_denotes. replace (91 :: 47 :: id ++ t ++ [93]) with (91 :: (47 :: id ++ t) ++ 93 :: []) by (cbn; now rewrite <- !app_assoc).
    apply denotes_lst; [|constructor]. apply (denotes_ctr CFSlash). now apply denotes_bytes. }
  assert (V : forall fuel, eval (S fuel) s [ALst (ACtr CFSlash :: ABytes id :: l)] = obind (run_macro s (ctx_of fuel s) (ABytes id :: l)) (fun b => Ok [(None, b)])).
  { intros fuel. change (eval (S fuel) s ?l) with (eval_items s (ctx_of fuel s) l []). cbn [eval_items match_expr tl]. destruct (run_macro _ _ _); reflexivity. }
  unfold run_macro in V. split.
  - intros (k & m & P' & E). rewrite P in P'. injection P' as <-. exists m. intros fuel FU. destruct (E (S fuel)) as (abl & W & B); [lia|]. rewrite V in W.
    destruct (sc_macro s (ctx_of fuel s) id l) as [[x|]| | |]; try discriminate. cbn [obind] in W. injection W as <-. cbn in B. congruence.
  - intros [m C]. exists [ALst (ACtr CFSlash :: ABytes id :: l)], (S m). split; [exact P|]. intros [|fuel] FU; [lia|]. rewrite V, C by lia. eexists. split; reflexivity.
Qed.

(** ** Brackets *)
Lemma strip_iff t w : strip_brackets t = Some w <-> bracketed t w.
Proof.
  unfold bracketed. change (str "[") with [91]. change (str "]") with [93]. cbn [app]. split.
  - destruct t as [|c t]; [discriminate|]. cbn [strip_brackets]. intros H. assert (c = 91 /\ match rev t with 93 :: v => Some (rev v) | _ => None end = Some w) as [-> H'].
    { destruct (N.eqb_spec c 91) as [->|NE]; [split; [reflexivity|exact H]|]. exfalso. destruct c as [|p]; [discriminate H|]. do 7 (destruct p; try discriminate H; try congruence). }
    destruct (rev t) as [|x v] eqn:R; [discriminate H'|]. assert (x = 93 /\ rev v = w) as [-> <-].
    { destruct (N.eqb_spec x 93) as [->|NE]; [split; [reflexivity|congruence]|]. exfalso. destruct x as [|p]; [discriminate H'|]. do 7 (destruct p; try discriminate H'; try congruence). }
    f_equal. rewrite <- (rev_involutive t), R. cbn [rev]. reflexivity.
  - intros ->. cbn [strip_brackets]. rewrite rev_app_distr. cbn [rev app]. now rewrite rev_involutive.
Qed.
Lemma strip_none t : strip_brackets t = None <-> ~ exists w, bracketed t w.
Proof.
  destruct (strip_brackets t) as [w|] eqn:E; split; try congruence.
  - intros N. exfalso. apply N. exists w. now apply strip_iff.
  - intros _ [w W]. apply strip_iff in W. congruence.
Qed.
Lemma after_colon_cons f w : ~ In 58 f -> after_colon (f ++ 58 :: w) = w.
Proof. induction f as [|c f IH]; intros N; [reflexivity|]. cbn [app after_colon]. destruct (N.eqb_spec c 58) as [->|NE]; [exfalso; apply N; now left|]. apply IH. intros I. apply N. now right. Qed.
Lemma after_colon_none f : ~ In 58 f -> after_colon f = [].
Proof. induction f as [|c f IH]; intros N; [reflexivity|]. cbn [after_colon]. destruct (N.eqb_spec c 58) as [->|NE]; [exfalso; apply N; now left|]. apply IH. intros I. apply N. now right. Qed.
Lemma colon_cases t : ~ In 58 t \/ exists f w, t = f ++ 58 :: w /\ ~ In 58 f.
Proof.
  induction t as [|c t [IH|(f & w & -> & N)]]; [left; intros []| |].
  - destruct (N.eq_dec c 58) as [->|NE]; [right; exists [], t; split; [reflexivity|intros []]|left; intros [E|I]; [congruence|contradiction]].
  - right. destruct (N.eq_dec c 58) as [->|NE]; [exists [], (f ++ 58 :: w); split; [reflexivity|intros []]|exists (c :: f), w; split; [reflexivity|intros [E|I]; [congruence|contradiction]]].
Qed.
Lemma brackets_iff t w : match strip_brackets t with Some v => v | None => t end = w <-> without_brackets t w.
Proof.
  unfold without_brackets. destruct (strip_brackets t) as [v|] eqn:E.
  - assert (B : bracketed t v) by now apply strip_iff. split; [intros <-; now left|]. intros [W|[N _]]; [apply strip_iff in W; congruence|]. exfalso. apply N. now exists v.
  - apply strip_none in E. split; [intros <-; now right|]. intros [W|[_ ->]]; [exfalso; apply E; now exists w|reflexivity].
Qed.
Lemma name_iff t w : match strip_brackets t with Some v => after_colon v | None => t end = w <-> without_name t w.
Proof.
  unfold without_name. destruct (strip_brackets t) as [v|] eqn:E.
  - assert (B : bracketed t v) by now apply strip_iff. assert (U : forall x, bracketed t x -> x = v) by (intros x X; apply strip_iff in X; congruence). split.
    + intros <-. destruct (colon_cases v) as [N|(f & x & -> & N)]; [right; left; exists v; rewrite after_colon_none by exact N; auto|left; exists f; rewrite after_colon_cons by exact N; auto].
    + intros [(f & W & N)|[(f & W & N & ->)|[N _]]].
      * apply U in W. subst v. change (str ":" ++ w) with (58 :: w). now apply after_colon_cons.
      * apply U in W. subst v. now apply after_colon_none.
      * exfalso. apply N. now exists v.
  - apply strip_none in E. split; [intros <-; now right; right|]. intros [(f & W & _)|[(f & W & _)|[_ ->]]]; [exfalso; apply E; eauto..|reflexivity].
Qed.

(** ** Slashes *)
Definition no_slash (l : list ABE) : Prop := Forall (fun e => e <> ACtr CFSlash) l.
Lemma split_ne {A} (p : A -> bool) l : split_on p l <> [].
Proof. destruct l as [|x l]; [discriminate|]. cbn [split_on]. destruct (split_on p l); [discriminate|]. destruct (p x); discriminate. Qed.
Lemma split_slash l r : no_slash l -> hd [] (split_on (abe_is CFSlash) (l ++ ACtr CFSlash :: r)) = l /\ after_fslash (l ++ ACtr CFSlash :: r) = r.
Proof.
  induction 1 as [|e l X F [IH1 IH2]]; cbn [app split_on after_fslash].
  - split; [|reflexivity]. pose proof (split_ne (abe_is CFSlash) r). destruct (split_on (abe_is CFSlash) r); [contradiction|reflexivity].
  - assert (abe_is CFSlash e = false) as -> by (destruct e as [[]| |]; try reflexivity; congruence). split; [|exact IH2].
    pose proof (split_ne (abe_is CFSlash) (l ++ ACtr CFSlash :: r)). destruct (split_on _ (l ++ _)) as [|g gs]; [contradiction|]. cbn in IH1 |- *. now rewrite IH1.
Qed.
Lemma split_no_slash l : no_slash l -> hd [] (split_on (abe_is CFSlash) l) = l /\ after_fslash l = [].
Proof.
  induction 1 as [|e l X F [IH1 IH2]]; [split; reflexivity|]. cbn [split_on after_fslash].
  assert (abe_is CFSlash e = false) as -> by (destruct e as [[]| |]; try reflexivity; congruence). split; [|exact IH2].
  pose proof (split_ne (abe_is CFSlash) l). destruct (split_on _ l) as [|g gs]; [contradiction|]. cbn in IH1 |- *. now rewrite IH1.
Qed.
