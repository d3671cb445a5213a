(** Whether evaluation ends. *)
From Verif Require Import Bytes ModelAbe SpecAbe ProofAbe ProofAbe2 ModelFmt SpecFmt ProofFmt ModelSpace SpecSpace ProofSpace ModelEval ModelFn SpecEval ProofEval ProofEval2 ProofEval3 ProofFn.

Lemma parse_total t : parse_abe_strict t <> OutOfFuel /\ parse_abe_strict t <> Panic.
Proof. apply abe_loop_total; [lia|constructor]. Qed.

(** ** An expression that evaluates itself *)
Definition D0 : bytes := str "[replace:Q:\x51:[?a:Q]/eval]".
Definition E0 : bytes := match replace D0 (str "Q") (as_abtxt D0) with Ok b => b | _ => [] end.
Definition inner0 : list ABE := [ABytes (str "replace"); ACtr CColon; ABytes D0; ACtr CColon; ABytes (str "Q"); ACtr CColon; ALst (ABytes (str "?a") :: args_abe [D0]); ACtr CFSlash; ABytes (str "eval")].
Lemma parse_E0 : parse_abe_strict E0 = Ok [ALst inner0].
Proof. vm_compute. reflexivity. Qed.
Definition abl0 : ABList := [(None, str "replace"); (Some CColon, D0); (Some CColon, str "Q"); (Some CColon, as_abtxt D0); (Some CFSlash, str "eval")].
Section Quine.
  Context (o : oracle) (post : scope).
  Let s := spair (core_scope o) post.
  Lemma quine_a ctx : sc_func s ctx (str "?a") [D0] true = Ok (Some (as_abtxt D0)).
  Proof. apply spair_first. rewrite (proj1 (core_flat o)). rewrite (escope_some _ _ _ _ _ _ (fn (str "?a") 1 1 (fun i => val (as_abtxt (arg 0 i))))); [reflexivity|reflexivity|now left|change (1 <= 1 <= 1); lia]. Qed.
  Lemma quine_replace ctx : sc_func s ctx (str "replace") [D0; str "Q"; as_abtxt D0] true = Ok (Some E0).
  Proof.
    apply spair_first. rewrite (proj1 (core_flat o)).
    rewrite (escope_some _ _ _ _ _ _ (fn (str "replace") 3 3 (fun i => of_out (replace (arg 0 i) (arg 1 i) (arg 2 i))))); [|reflexivity|now left|change (3 <= 3 <= 3); lia].
    vm_compute. reflexivity.
  Qed.
  Lemma quine_eval ctx : c_eval ctx [ALst inner0] = OutOfFuel -> sc_func s ctx (str "eval") [E0] false = OutOfFuel.
  Proof.
    intros H. cbn [s spair sc_func]. rewrite (proj1 (core_flat o)). rewrite (escope_some _ _ _ _ _ _ (fn_ctx (str "eval") None 1 1 eval_fn)); [|reflexivity|now left|change (1 <= 1 <= 1); lia].
    cbn [f_apply fn_ctx]. unfold eval_fn. change (arg 0 [E0]) with E0. rewrite parse_E0, H. reflexivity.
  Qed.
  Lemma quine_forever fuel : eval fuel s [ALst inner0] = OutOfFuel.
  Proof.
    induction fuel as [|f IH]; [reflexivity|]. change (eval (S f) s ?l) with (eval_items s (ctx_of f s) l []). cbn [eval_items].
    assert (M : match_expr s (ctx_of f s) (ALst inner0) = OutOfFuel); [|now rewrite M].
    assert (A : forall r, c_eval (ctx_of f s) inner0 = r -> match_expr s (ctx_of f s) (ALst inner0) =
      obind r (fun abl => obind (run_calls s (ctx_of f s) (split_fslash abl) []) (fun b => Ok (IBytes b)))) by (intros r <-; reflexivity).
    destruct f as [|f]; [now rewrite (A OutOfFuel)|].
    destruct f as [|f].
    { rewrite (A OutOfFuel); [reflexivity|]. reflexivity. }
    rewrite (A (Ok abl0)).
    - cbn [obind]. change (split_fslash abl0) with [[(None, str "replace"); (Some CColon, D0); (Some CColon, str "Q"); (Some CColon, as_abtxt D0)]; [(Some CFSlash, str "eval")]].
      cbn [run_calls]. change (16 <? lenN _) with false. change (16 <? lenN [(Some CFSlash, str "eval")]) with false. cbn iota.
      unfold call at 1. cbn [map snd tl]. rewrite quine_replace. cbn [obind]. unfold call. rewrite quine_eval; [reflexivity|]. exact IH.
    - change (c_eval (ctx_of (S (S f)) s) inner0) with (eval_items s (ctx_of (S f) s) inner0 []). unfold inner0.
      cbn [eval_items match_expr obind push_item push_bytes push_ctr app].
      assert (ME : match_expr s (ctx_of (S f) s) (ALst (ABytes (str "?a") :: args_abe [D0])) = Ok (IBytes (as_abtxt D0))).
      { rewrite match_expr_call; [|change (lenN [D0]) with 1; lia|apply eval_id_args]. unfold call. cbn [tl]. now rewrite quine_a. }
      unfold match_expr in ME. rewrite ME. reflexivity.
  Qed.
End Quine.

(** ** Without [eval] the nesting bounds the evaluation *)
Lemma depth_in e l : In e l -> (depth1 e <= depth l)%nat.
Proof. induction l as [|x l IH]; [contradiction|]. intros [->|I]; unfold depth in *; cbn; [lia|]. specialize (IH I). lia. Qed.
Lemma depth_le l n : (forall e, In e l -> (depth1 e <= n)%nat) -> (depth l <= n)%nat.
Proof. induction l as [|x l IH]; intros H; unfold depth in *; cbn; [lia|]. apply Nat.max_lub; [apply H; now left|]. apply IH. intros e I. apply H. now right. Qed.
Lemma depth_incl l l' : (forall e, In e l -> In e l') -> (depth l <= depth l')%nat.
Proof. intros H. apply depth_le. intros e I. apply depth_in. auto. Qed.
Lemma depth_lst l : depth1 (ALst l) = S (depth l).
Proof. reflexivity. Qed.
(** Two contexts that agree up to a depth *)
Definition agree (n : nat) (c1 c2 : context) : Prop := c_enc c1 = c_enc c2 /\ forall l, (depth l <= n)%nat -> c_eval c1 l = c_eval c2 l.
Lemma after_in l : forall e, In e (after_fslash l) -> In e l.
Proof. induction l as [|x l IH]; intros e I; [contradiction|]. cbn in I. destruct (abe_is CFSlash x); [now right|right; auto]. Qed.
Lemma macro_agree o ids n c1 c2 id l : agree n c1 c2 -> (depth l <= n)%nat -> sc_macro (without ids (core_scope o)) c1 id l = sc_macro (without ids (core_scope o)) c2 id l.
Proof.
  intros [AE AV] D. cbn [without sc_macro].
  assert (OR : or_macro c1 l = or_macro c2 l).
  { unfold or_macro. pose proof (split_on_in (abe_is CColon) l) as SI. destruct (split_on (abe_is CColon) l) as [|[|] ps]; [reflexivity| |reflexivity].
    assert (P : forall p, In p ps -> (depth p <= n)%nat).
    { intros p I. etransitivity; [|exact D]. apply depth_incl. intros e Ie. eapply SI; [right; exact I|exact Ie]. }
    clear SI. induction ps as [|p ps IH]; [reflexivity|]. cbn [or_loop]. rewrite AV by (apply P; now left). destruct (c_eval c2 p); try reflexivity. apply IH. intros q I. apply P. now right. }
  assert (EM : forall i, encode_macro i c1 l = encode_macro i c2 l).
  { intros i. unfold encode_macro. destruct l as [|[[|]| |] l]; try reflexivity. rewrite AV, AE; [reflexivity|]. etransitivity; [|exact D].
    apply depth_incl. intros e I. right. apply (split_on_in (abe_is CFSlash) l (hd [] (split_on (abe_is CFSlash) l))); [|assumption].
    destruct (split_on _ l) eqn:S; [contradiction|]. now left. }
  assert (E : e_macro c1 l = e_macro c2 l).
  { unfold e_macro. destruct l as [|[[|]| |] l]; try reflexivity. rewrite AV; [reflexivity|]. etransitivity; [|exact D]. apply depth_incl. intros e I. now right. }
  assert (SM : forall b, space_macro b c1 l = space_macro b c2 l) by (intros b; unfold space_macro; now rewrite AV).
  cbn [core_scope basic_scope spair sc_macro escope find help_m encode_m space_m fst snd].
  repeat match goal with |- context [beqb ?a id] => destruct (beqb a id) end; cbn [snd]; rewrite ?OR, ?EM, ?E, ?SM; reflexivity.
Qed.
Lemma func_agree o ids n c1 c2 id inp init : existsb (beqb (str "eval")) ids = true -> agree n c1 c2 ->
  sc_func (without ids (core_scope o)) c1 id inp init = sc_func (without ids (core_scope o)) c2 id inp init.
Proof.
  intros EV [AE _]. cbn [without sc_func]. destruct (existsb (beqb id) ids) eqn:X; [reflexivity|]. rewrite !(proj1 (core_flat o)). cbn [escope sc_func].
  destruct (find_func id (core_funcs o)) as [f|] eqn:F; [|reflexivity]. apply find_some in F as [I P]. apply beqb_eq in P.
  assert (A : Forall (fun f => f_id f = str "eval" \/ f_apply f c1 inp init = f_apply f c2 inp init) (core_funcs o)).
  { unfold core_funcs, basic_funcs. rewrite !Forall_app. repeat split; unfold bytes_fe, uint_fe, base_fe, comment_fe, help_fe, logic_fe, encode_fe, static_lns, stamp_fe, space_fe;
      repeat (apply Forall_cons; [first [now left|right; cbn [f_apply fn fn_enc fn_ctx]; unfold encode_arg; rewrite ?AE; reflexivity]|]); apply Forall_nil. }
  rewrite Forall_forall in A. destruct (A f I) as [E|E]; [|now rewrite E]. rewrite P in E. subst id. congruence.
Qed.
Lemma run_calls_agree s c1 c2 gs : (forall id inp init, sc_func s c1 id inp init = sc_func s c2 id inp init) -> forall carry, run_calls s c1 gs carry = run_calls s c2 gs carry.
Proof.
  intros A. induction gs as [|g gs IH]; intros carry; [reflexivity|]. cbn [run_calls]. destruct (16 <? lenN g); [reflexivity|]. destruct g as [|[[[|]|] id] args]; try apply IH;
  unfold call; rewrite A; (destruct (sc_func _ _ _ _ _) as [[|]| | |]; try reflexivity; cbn [obind]; apply IH).
Qed.
Lemma match_agree o ids n c1 c2 e : existsb (beqb (str "eval")) ids = true -> agree n c1 c2 -> (depth1 e <= S n)%nat ->
  match_expr (without ids (core_scope o)) c1 e = match_expr (without ids (core_scope o)) c2 e.
Proof.
  intros EV A D. destruct e as [| |ls]; [reflexivity..|]. rewrite depth_lst in D. unfold match_expr.
  assert (R : forall gs carry, run_calls (without ids (core_scope o)) c1 gs carry = run_calls (without ids (core_scope o)) c2 gs carry).
  { intros. apply run_calls_agree. intros. now apply (func_agree o ids n). }
  assert (V : c_eval c1 ls = c_eval c2 ls) by (apply A; lia).
  assert (G : forall l, obind l (fun abl => obind (run_calls (without ids (core_scope o)) c1 (split_fslash abl) []) (fun b => Ok (IBytes b))) =
    obind l (fun abl => obind (run_calls (without ids (core_scope o)) c2 (split_fslash abl) []) (fun b => Ok (IBytes b)))) by (intros [| | |]; try reflexivity; cbn; now rewrite R).
  assert (M : forall tl, (depth tl <= n)%nat -> run_macro (without ids (core_scope o)) c1 tl = run_macro (without ids (core_scope o)) c2 tl).
  { intros tl0 Dt. unfold run_macro. destruct tl0 as [|[[|]|id|] r]; try reflexivity; rewrite (macro_agree o ids n c1 c2); try reflexivity; try assumption.
  }
  destruct ls as [|[[|]|b|l] r]; rewrite ?V; try apply G.
  - destruct r as [|y [|]]; apply G.
  - rewrite M; [reflexivity|]. cbn [tl]. etransitivity; [|apply le_S_n, D]. apply depth_incl. intros e I. now right.
  - destruct r as [|y [|]]; try apply G; destruct (_ && _); apply G.
Qed.
Lemma items_agree s c1 c2 l : (forall e, In e l -> match_expr s c1 e = match_expr s c2 e) -> forall acc, eval_items s c1 l acc = eval_items s c2 l acc.
Proof.
  induction l as [|e l IH]; intros H acc; [reflexivity|]. cbn [eval_items]. rewrite (H e) by now left. destruct (match_expr s c2 e); try reflexivity. apply IH.
  intros e' I. apply H. now right.
Qed.
Lemma eval_stable o ids n : existsb (beqb (str "eval")) ids = true -> forall l f1 f2, (depth l <= n)%nat -> (n < f1)%nat -> (n < f2)%nat ->
  eval f1 (without ids (core_scope o)) l = eval f2 (without ids (core_scope o)) l.
Proof.
  intros EV. induction n as [|n IH]; intros l f1 f2 D F1 F2; (destruct f1 as [|f1]; [lia|]; destruct f2 as [|f2]; [lia|]);
    change (eval (S ?f) ?s ?l) with (eval_items s (ctx_of f s) l []); apply items_agree; intros e I; pose proof (depth_in e l I) as De.
  - destruct e as [| |ls]; [reflexivity..|]. rewrite depth_lst in De. lia.
  - apply (match_agree o ids n); [assumption| |lia]. split; [reflexivity|]. intros l' D'. cbn [ctx_of c_eval]. apply IH; lia.
Qed.

(** Nothing else runs forever but [replace]. *)
Definition nf (r : ar) : Prop := r <> OutOfFuel.
Lemma encode_nf enc b options ignore : (forall id o b, enc id o b <> OutOfFuel) -> encode enc b options ignore <> OutOfFuel.
Proof.
  intros H. unfold encode. destruct (parse_abe_strict options) as [l| | |] eqn:E; try discriminate; [|now apply parse_total in E].
  unfold encode_abe. induction (match l with [] => _ | _ => _ end) as [|p ps IH]; [discriminate|]. cbn [encode_pieces].
  assert (T : forall id opts, match enc id opts b with Ok r => Ok r | Err _ => if ignore then Ok None else Err (ScopeEncode id) | Panic => Panic | OutOfFuel => OutOfFuel end <> OutOfFuel).
  { intros id opts. specialize (H id opts b). destruct (enc id opts b); try discriminate; [destruct ignore; discriminate|contradiction]. }
  assert (O1 : encode_one enc b p ignore <> OutOfFuel).
  { unfold encode_one. destruct p as [|[[|]|id|] [|[[|]| |] p]]; try discriminate; apply T. }
  destruct (encode_one enc b p ignore) as [[r|]| | |]; cbn [obind]; try discriminate; try contradiction. exact IH.
Qed.
Lemma parse_segments_nf segs : forall fmts d, parse_segments segs fmts d <> OutOfFuel.
Proof.
  induction segs as [|g segs IH]; intros fmts d; [discriminate|]. cbn [parse_segments]. destruct (negb _); [discriminate|]. destruct (parse_uint 4 _); [|discriminate].
  destruct (skip_to _ fmts) as [[v fm]|]; [apply IH|discriminate].
Qed.
Lemma stamp_apply_nf o args : forall st, nf (stamp_apply o st args).
Proof.
  induction args as [|a args IH]; intros st; [discriminate|]. cbn [stamp_apply].
  assert (DU : forall t k, (forall d, nf (k d)) -> nf (match parse_duration_str t with Ok d => k d | Err _ => fails | Panic => Panic | OutOfFuel => OutOfFuel end)).
  { intros t k K. pose proof (parse_segments_nf (split_inclusive [] t) DELTA_FORMATS 0) as P. unfold parse_duration_str. destruct (parse_segments _ _ _); try discriminate; [apply K|contradiction]. }
  assert (KP : forall r, nf (match parse_duration_str r with Ok d => match checked_stamp_add st d with Some v => stamp_apply o v args | None => fails end | Err _ => fails | Panic => Panic | OutOfFuel => OutOfFuel end)).
  { intros r. apply DU. intros d. destruct (checked_stamp_add st d); [apply IH|discriminate]. }
  assert (KM : forall r, nf (match parse_duration_str r with Ok d => match checked_stamp_sub st d with Some v => stamp_apply o v args | None => fails end | Err _ => fails | Panic => Panic | OutOfFuel => OutOfFuel end)).
  { intros r. apply DU. intros d. destruct (checked_stamp_sub st d); [apply IH|discriminate]. }
  assert (KPP : forall r, nf (match parse_duration_str r with Ok d => stamp_apply o (match checked_stamp_add st d with Some v => v | None => MAX_STAMP end) args | Err _ => fails | Panic => Panic | OutOfFuel => OutOfFuel end)).
  { intros r. apply DU. intros d. apply IH. }
  assert (KMM : forall r, nf (match parse_duration_str r with Ok d => stamp_apply o (match checked_stamp_sub st d with Some v => v | None => 0 end) args | Err _ => fails | Panic => Panic | OutOfFuel => OutOfFuel end)).
  { intros r. apply DU. intros d. apply IH. }
  assert (KF : nf (if is_stamp_fmt a then match args with [] => val (o_stamp o a st) | _ => fails end else fails)).
  { destruct (is_stamp_fmt a), args; discriminate. }
  destruct a as [|c a]; [apply IH|].
  destruct c as [|p]; [exact KF|]. do 6 (destruct p as [p|p|]; try exact KF).
  - destruct a as [|c a]; [apply KP|]. destruct c as [|p]; [apply KP|]. do 6 (destruct p as [p|p|]; try apply KP). apply KPP.
  - destruct a as [|c a]; [apply KM|]. destruct c as [|p]; [apply KM|]. do 6 (destruct p as [p|p|]; try apply KM). apply KMM.
Qed.
Lemma of_out_nf {E} (x : outcome E bytes) : x <> OutOfFuel -> nf (of_out x).
Proof. destruct x; intros H; try discriminate. contradiction. Qed.
Lemma func_nf o ids ctx id inp init : (forall w, In w [str "eval"; str "replace"] -> existsb (beqb w) ids = true) -> (forall i op b, c_enc ctx i op b <> OutOfFuel) ->
  nf (sc_func (without ids (core_scope o)) ctx id inp init).
Proof.
  intros W CE. cbn [without sc_func]. destruct (existsb (beqb id) ids) eqn:X; [discriminate|]. rewrite (proj1 (core_flat o)). cbn [escope sc_func].
  destruct (find_func id (core_funcs o)) as [f|] eqn:F; [|discriminate]. apply find_some in F as [I P]. apply beqb_eq in P.
  assert (PAD : forall l d c f, nf (pad inp l d c f)).
  { intros. unfold pad. destruct (match inp with _ :: l :: _ => _ | _ => _ end); [|discriminate]. destruct (_ <? _); [destruct c; discriminate|].
    destruct (match nth_error inp 2 with None => _ | _ => _ end); [|discriminate]. destruct (_ <=? _); discriminate. }
  assert (CUT : forall l c, nf (cut inp l c)).
  { intros. unfold cut. destruct (match inp with _ :: l :: _ => _ | _ => _ end); [|discriminate]. destruct (_ <? _); [destruct c; discriminate|]. discriminate. }
  assert (ENC : encode_arg ctx inp <> OutOfFuel).
  { unfold encode_arg. destruct (_ <? _); [discriminate|]. now apply encode_nf. }
  assert (ENC2 : forall g, nf (of_out (obind (encode_arg ctx inp) (fun r => Ok (g r))))).
  { intros g. apply of_out_nf. destruct (encode_arg ctx inp); try discriminate. contradiction. }
  assert (CC : forall b, check_components b <> OutOfFuel) by (intros b H; destruct (check_components_total b) as [[x C']|[x C']]; rewrite H in C'; discriminate).
  assert (SL : forall b, space_from_slice b <> OutOfFuel) by (intros b H; unfold space_from_slice in H; specialize (CC b); destruct (check_components b); try discriminate; contradiction).
  assert (A : Forall (fun f => f_id f = str "eval" \/ f_id f = str "replace" \/ nf (f_apply f ctx inp init)) (core_funcs o)).
  { unfold core_funcs, basic_funcs. rewrite !Forall_app. repeat split; unfold bytes_fe, uint_fe, base_fe, comment_fe, help_fe, logic_fe, encode_fe, static_lns, stamp_fe, space_fe;
      repeat (apply Forall_cons; [first [now left|right; now left|right; right; cbn [f_apply fn fn_enc fn_ctx]; first [discriminate|apply PAD|apply CUT|apply ENC2|exact (of_out_nf _ ENC)|apply stamp_apply_nf|apply add_panic|apply sub_panic|idtac]]|]); try apply Forall_nil.
    all: unfold parse_be, parse_le, print_be, print_le, bin, of_opt, size_test, val_test, hash_fn, at_fn, si_fn.
    all: repeat match goal with |- nf (match ?x with Some _ => _ | None => _ end) => destruct x | |- nf (if ?x then _ else _) => destruct x | |- nf (stamp_apply _ _ _) => apply stamp_apply_nf end; try discriminate.
    - destruct (uint_of_bytes _ _ _); try discriminate. apply stamp_apply_nf.
    - destruct (space_from_slice (arg 0 inp)) as [sp| | |] eqn:E; try discriminate; [|now apply SL in E]. apply of_out_nf.
      unfold space_from_slice in E. destruct (check_components (arg 0 inp)) eqn:C; try discriminate. injection E as <-. apply check_components_iff in C as (cs & S & E & _).
      destruct (display_total (arg 0 inp) cs) as [t ->]; [now split|]. discriminate.
    - destruct (space_from_slice (arg 0 inp)) as [sp| | |] eqn:E; try discriminate; [|now apply SL in E]. destruct (try_into_rooted sp) as [rs| | |]; try discriminate.
      destruct (si_range inp) as [[st e]|]; [|discriminate]. apply of_out_nf. unfold rs_range.
      assert (RF : rs_fields rs <> OutOfFuel) by (unfold rs_fields; repeat match goal with |- context [if ?x then _ else _] => destruct x end; discriminate).
      destruct (rs_fields rs) as [[[? ?] ?]| | |]; cbn [obind]; try discriminate; [|contradiction]. destruct (_ || _); [discriminate|]. cbn zeta. destruct (_ || _); discriminate.
    - apply of_out_nf. destruct (try_from_iter_total inp) as [[x ->]|[x ->]]; discriminate. }
  rewrite Forall_forall in A. destruct (A f I) as [E|[E|E]].
  - rewrite P in E. subst id. rewrite W in X by (now left). discriminate.
  - rewrite P in E. subst id. rewrite W in X by (right; now left). discriminate.
  - destruct (match f_init f with Some i => _ | None => _ end); [discriminate|]. destruct (_ || _); [discriminate|]. exact E.
Qed.
Lemma from_ablist_nf l : space_from_ablist l <> OutOfFuel.
Proof.
  assert (CC : forall b, space_from_slice b <> OutOfFuel).
  { intros b H. unfold space_from_slice in H. destruct (check_components_total b) as [[x C']|[x C']]; rewrite C' in H; discriminate. }
  assert (TI : forall b, try_from_iter b <> OutOfFuel) by (intros b H; destruct (try_from_iter_total b) as [[x C']|[x C']]; rewrite C' in H; discriminate).
  unfold space_from_ablist. destruct l as [|[c b] l]; [discriminate|]. set (l' := if _ && _ then _ else _).
  destruct (as_exact_bytes l') as [x|].
  - specialize (CC x). destruct (space_from_slice x); try discriminate. contradiction.
  - destruct (fslash_parts l') as [cs|]; [|discriminate]. specialize (TI cs). destruct (try_from_iter cs); try discriminate. contradiction.
Qed.
Lemma macro_nf o ids n ctx id l : (forall i op b, c_enc ctx i op b <> OutOfFuel) -> (forall l, (depth l <= n)%nat -> c_eval ctx l <> OutOfFuel) -> (depth l <= n)%nat ->
  nf (sc_macro (without ids (core_scope o)) ctx id l).
Proof.
  intros AE AV D. cbn [without sc_macro].
  assert (OR : nf (or_macro ctx l)).
  { unfold or_macro. pose proof (split_on_in (abe_is CColon) l) as SI. destruct (split_on (abe_is CColon) l) as [|[|] ps]; [discriminate| |discriminate].
    assert (P : forall p, In p ps -> (depth p <= n)%nat).
    { intros p I. etransitivity; [|exact D]. apply depth_incl. intros e Ie. eapply SI; [right; exact I|exact Ie]. }
    clear SI. induction ps as [|p ps IH]; [discriminate|]. cbn [or_loop]. specialize (AV p (P p (or_introl eq_refl))). destruct (c_eval ctx p); try discriminate; [|contradiction]. apply IH. intros q I. apply P. now right. }
  assert (EM : forall i, nf (encode_macro i ctx l)).
  { intros i. unfold encode_macro. destruct l as [|[[|]| |] l]; try discriminate.
    assert (V : c_eval ctx (hd [] (split_on (abe_is CFSlash) l)) <> OutOfFuel).
    { apply AV. etransitivity; [|exact D].
      apply depth_incl. intros e I. right. apply (split_on_in (abe_is CFSlash) l (hd [] (split_on (abe_is CFSlash) l))); [|assumption].
      destruct (split_on _ l) eqn:S; [contradiction|]. now left. }
    destruct (c_eval ctx _); try discriminate; [|contradiction]. apply of_out_nf. unfold encode_abe.
    induction (match after_fslash l with [] => _ | _ => _ end) as [|p ps IH]; [discriminate|]. cbn [encode_pieces].
    assert (T : forall id opts b, match c_enc ctx id opts b with Ok r => Ok r | Err _ => if i then Ok None else Err (ScopeEncode id) | Panic => Panic | OutOfFuel => OutOfFuel end <> OutOfFuel).
    { intros id' opts b. specialize (AE id' opts b). destruct (c_enc ctx id' opts b); try discriminate; [destruct i; discriminate|contradiction]. }
    assert (O1 : encode_one (c_enc ctx) (abl_concat a) p i <> OutOfFuel).
    { unfold encode_one. destruct p as [|[[|]|id'|] [|[[|]| |] p]]; try discriminate; apply T. }
    destruct (encode_one (c_enc ctx) _ p i) as [[r|]| | |]; cbn [obind]; try discriminate; try contradiction. exact IH. }
  assert (E : nf (e_macro ctx l)).
  { unfold e_macro. destruct l as [|[[|]| |] l]; try discriminate. unfold of_eval. assert (V : c_eval ctx l <> OutOfFuel); [|destruct (c_eval ctx l); try discriminate; contradiction].
    apply AV. etransitivity; [|exact D]. apply depth_incl. intros e I. now right. }
  assert (SM : forall b, nf (space_macro b ctx l)).
  { intros b. unfold space_macro. specialize (AV l D). destruct (c_eval ctx l); try discriminate; [|contradiction]. apply of_out_nf, from_ablist_nf. }
  assert (HM : forall x, nf (val x)) by discriminate.
  cbn [core_scope basic_scope spair sc_macro escope find help_m encode_m space_m fst snd].
  assert (OE : forall x y, nf x -> nf y -> nf (or_else x y)) by (intros [[|]| | |] y X Y; try discriminate; assumption).
  assert (NN : nf (Ok None)) by discriminate.
  repeat match goal with |- context [beqb ?a id] => destruct (beqb a id) end; cbn [snd];
    repeat (apply OE); auto.
Qed.
Lemma run_calls_nf s ctx gs : (forall id inp init, nf (sc_func s ctx id inp init)) -> forall carry, run_calls s ctx gs carry <> OutOfFuel.
Proof.
  intros A. induction gs as [|g gs IH]; intros carry; [discriminate|]. cbn [run_calls]. destruct (16 <? lenN g); [discriminate|].
  destruct g as [|[[[|]|] id] args]; try apply IH; unfold call;
    match goal with |- context [sc_func s ctx id ?i ?b] => pose proof (A id i b) as N; destruct (sc_func s ctx id i b) as [[|]| | |] end; cbn [obind]; try discriminate; try apply IH; contradiction.
Qed.
Lemma eval_nf o ids : (forall w, In w [str "eval"; str "replace"] -> existsb (beqb w) ids = true) -> forall n l f, (depth l <= n)%nat -> (n < f)%nat ->
  eval f (without ids (core_scope o)) l <> OutOfFuel.
Proof.
  intros W. set (s := without ids (core_scope o)). induction n as [n IH] using lt_wf_ind. intros l f D F. destruct f as [|f]; [lia|].
  change (eval (S f) s l) with (eval_items s (ctx_of f s) l []).
  assert (CE : forall i op b, c_enc (ctx_of f s) i op b <> OutOfFuel) by (intros; apply enc_no_panic).
  assert (M : forall e, In e l -> match_expr s (ctx_of f s) e <> OutOfFuel).
  { intros e I. destruct e as [| |ls]; try discriminate. pose proof (depth_in _ _ I) as De. rewrite depth_lst in De.
    assert (AV : forall l, (depth l <= depth ls)%nat -> c_eval (ctx_of f s) l <> OutOfFuel) by (intros l' D'; cbn [ctx_of c_eval]; apply (IH (depth ls)); lia).
    assert (R : forall gs carry, run_calls s (ctx_of f s) gs carry <> OutOfFuel) by (intros; apply run_calls_nf; intros; now apply func_nf).
    assert (G : forall r, r <> OutOfFuel -> obind r (fun abl => obind (run_calls s (ctx_of f s) (split_fslash abl) []) (fun b => Ok (IBytes b))) <> OutOfFuel).
    { intros [abl| | |] N; cbn [obind]; try discriminate; [|contradiction]. specialize (R (split_fslash abl) []). destruct (run_calls _ _ _ _); try discriminate. contradiction. }
    assert (MM : forall tl0, (depth tl0 <= depth ls)%nat -> run_macro s (ctx_of f s) tl0 <> OutOfFuel).
    { intros tl0 Dt. unfold run_macro. destruct tl0 as [|[[|]|id|] r]; try discriminate.
      - pose proof (macro_nf o ids (depth ls) (ctx_of f s) [] (ACtr CFSlash :: r) CE AV Dt) as N. fold s in N. destruct (sc_macro s _ _ _) as [[|]| | |]; try discriminate. contradiction.
      - assert (Dr : (depth r <= depth ls)%nat) by (etransitivity; [|exact Dt]; apply depth_incl; intros e' I'; now right).
        pose proof (macro_nf o ids (depth ls) (ctx_of f s) id r CE AV Dr) as N. fold s in N. destruct (sc_macro s _ _ _) as [[|]| | |]; try discriminate. contradiction. }
    unfold match_expr. pose proof (G (c_eval (ctx_of f s) ls) (AV ls (le_n _))) as GV.
    assert (GE : obind (Err EvalOther) (fun abl => obind (run_calls s (ctx_of f s) (split_fslash abl) []) (fun b => Ok (IBytes b))) <> OutOfFuel) by discriminate.
    destruct ls as [|[[|]|b|l'] r]; try exact GV; try exact GE.
    - destruct r as [|y [|]]; exact GV.
    - cbn [tl]. assert (MR : run_macro s (ctx_of f s) r <> OutOfFuel) by (apply MM, depth_incl; intros e' I'; now right).
      destruct (run_macro s _ r); try discriminate. contradiction.
    - destruct r as [|y [|]]; try exact GV; destruct (_ && _); [exact GE|exact GV]. }
  clear D. revert M. generalize (@nil ABLV). induction l as [|e l IHl]; intros acc M; [discriminate|]. cbn [eval_items].
  pose proof (M e (or_introl eq_refl)) as Me. destruct (match_expr s (ctx_of f s) e); cbn [obind]; try discriminate; [|contradiction].
  apply IHl. intros e' I. apply M. now right.
Qed.
