From Coq Require Import Lia ZArith.
From Verif Require Import Bytes ModelSpace ModelPkt SpecPkt ModelPred SpecPred ProofPred.
From Verif Require Import ModelAbe SpecAbe ProofAbe ProofAbe2 ModelFmt SpecFmt ProofFmt ModelEval ModelFn SpecEval ProofFn ProofEval ProofEval2 ProofEval3 ModelLns ModelHtml.
From Verif Require Import PropsAbe PropsFmt PropsEval ProofQText7.
From Verif Require Import ModelPktScope SpecPktScope ProofPktScope.
#[global] Arguments N.pow : simpl never.
Local Open Scope N_scope.

(** ** Slices of links *)
Lemma nth_positions n j : nth_error (map N.of_nat (seq 0 n)) j = if (j <? n)%nat then Some (N.of_nat j) else None.
Proof.
  destruct (Nat.ltb_spec j n) as [L|L].
  - rewrite nth_error_map, (nth_error_nth' _ 0%nat) by (rewrite seq_length; lia). rewrite seq_nth by exact L. reflexivity.
  - apply nth_error_None. rewrite map_length, seq_length. lia.
Qed.
Lemma bound_same len step o d : bound_of len step o d = py_bound len step o d. Proof. reflexivity. Qed.
Lemma picked_slice (ls : list Link) args start stop step : lenN ls < 2 ^ 63 -> index_arg (nth_error args 0) start -> index_arg (nth_error args 1) stop -> step_arg (nth_error args 2) step ->
  exists r, picked ls args = Some r /\ list_slice ls start stop step r.
Proof.
  intros L A1 A2 A3. set (pos := map N.of_nat (seq 0 (List.length ls))).
  assert (lenN pos = lenN ls) as PL by (unfold pos, lenN; rewrite map_length, seq_length; reflexivity).
  destruct (slice_spec pos args start stop step) as (r & E & P); [now rewrite PL|assumption..|]. unfold picked. fold pos. rewrite E. eexists. split; [reflexivity|].
  unfold py_slice in P. cbn zeta in P. rewrite PL in P. replace (Z.of_N (lenN ls)) with (Z.of_nat (List.length ls)) in P by (unfold lenN; lia).
  unfold list_slice. cbn zeta. change bound_of with py_bound.
  set (lo := py_bound _ _ start _) in *. set (hi := py_bound _ _ stop _) in *. clearbody lo hi. clear - P.
  assert (forall x, In x r -> exists l, nth_error ls (N.to_nat x) = Some l) as IN.
  { intros x I. apply In_nth_error in I as [k K]. rewrite P in K. destruct (_ || _); [|discriminate]. unfold pos in K. rewrite nth_positions in K.
    destruct (Nat.ltb_spec (Z.to_nat (lo + Z.of_nat k * step)) (List.length ls)) as [LT|LT]; [|discriminate]. injection K as <-. rewrite Nat2N.id.
    destruct (nth_error ls _) eqn:X; [eauto|]. apply nth_error_None in X. lia. }
  intros k. specialize (P k). assert (nth_error (flat_map (fun i => match nth_error ls (N.to_nat i) with Some l => [l] | None => [] end) r) k = match nth_error r k with Some x => nth_error ls (N.to_nat x) | None => None end) as ->.
  { clear P. revert k. induction r as [|x r IH]; intros k; [now destruct k|]. cbn [flat_map]. destruct (IN x) as [l X]; [now left|]. rewrite X.
    destruct k as [|k]; [cbn [app nth_error]; now rewrite X|]. cbn [app nth_error]. apply IH. intros y Y. apply IN. now right. }
  rewrite P. destruct (_ || _); [|reflexivity]. unfold pos. rewrite nth_positions. destruct (Nat.ltb_spec (Z.to_nat (lo + Z.of_nat k * step)) (List.length ls)) as [LT|LT]; [now rewrite Nat2N.id|].
  symmetry. now apply nth_error_None.
Qed.
Lemma join_joined d ts : joined d ts (join d ts).
Proof. induction ts as [|t [|u ts] IH]; cbn [join]; constructor. exact IH. Qed.
Lemma link_display_text l : bytes_ok (fst l) -> bytes_ok (snd l) -> link_text l (link_display l).
Proof. intros A B. exists (ab_display (fst l)), (b64_display (snd l)). split; [reflexivity|]. split; [now apply abtxt_reads|now apply C44_b64_print]. Qed.

(** ** A tag that ends with something *)
Lemma ends_with_iff b t : ends_with b t = true <-> exists y, b = y ++ t.
Proof.
  unfold ends_with. rewrite beqb_eq. split.
  - intros E. exists (firstn (List.length b - List.length t) b). rewrite <- E at 2. now rewrite firstn_skipn.
  - intros [y ->]. rewrite app_length. replace (List.length y + List.length t - List.length t)%nat with (List.length y) by lia. rewrite skipn_app, skipn_all, Nat.sub_diag. reflexivity.
Qed.
Lemma first_iff (ls : list Link) x : Forall (fun l => lenN (fst l) = 16) ls ->
  match first_tailmask ls x with Some l => first_ending x ls l | None => forall l, ~ first_ending x ls l end.
Proof.
  intros F. unfold first_tailmask. destruct (N.ltb_spec 16 (lenN x)) as [G|G].
  - intros l (a & b & -> & [y Y] & _). apply Forall_app in F as [_ F]. inversion F as [|? ? F1]; subst. rewrite Y, lenN_app in F1. lia.
  - clear F G. induction ls as [|k ls IH]; cbn [find].
    + intros l (a & b & E & _). now destruct a.
    + destruct (ends_with (fst k) x) eqn:E.
      * exists [], ls. split; [reflexivity|]. split; [now apply ends_with_iff|constructor].
      * assert (~ exists y, fst k = y ++ x) as N by (intros H; apply ends_with_iff in H; congruence).
        destruct (find _ ls) as [l|].
        -- destruct IH as (a & b & -> & Y & Z). exists (k :: a), b. split; [reflexivity|]. split; [exact Y|]. now constructor.
        -- intros l ([|h a] & b & Q & Y & Z).
           ++ cbn [app] in Q. injection Q as -> _. contradiction.
           ++ cbn [app] in Q. injection Q as -> ->. inversion Z; subst. apply (IH l). now exists a, b.
Qed.

(** ** The expression for every link *)
Lemma evaluates_more s e v : evaluates s e v -> exists l n, parse_abe_strict e = Ok l /\ forall fuel, (n <= fuel)%nat -> exists abl, eval fuel s l = Ok abl /\ as_exact_bytes abl = Some v.
Proof. intros H. exact H. Qed.
Definition link_scope (n : N) (l : Link) (s : scope) : scope := spair (sfuncs (link_env n l)) s.
Fixpoint each (s : scope) (e : bytes) (n : N) (ls : list Link) (vs : list bytes) : Prop :=
  match ls, vs with
  | [], [] => True
  | l :: ls, v :: vs => evaluates (link_scope n l s) e v /\ each s e (n + 1) ls vs
  | _, _ => False
  end.
Lemma each_loop s e abe ls : parse_abe_strict e = Ok abe -> forall n vs, each s e n ls vs ->
  exists k, forall fuel, (k <= fuel)%nat -> forall out, each_link (ctx_of fuel s) abe n ls out = Ok (Some (out ++ List.concat vs)).
Proof.
  intros PE. induction ls as [|l ls IH]; intros n [|v vs] E; cbn [each] in E; try contradiction.
  - exists 0%nat. intros fuel _ out. cbn [each_link List.concat]. now rewrite app_nil_r.
  - destruct E as [E1 E2]. destruct (IH _ _ E2) as [k1 K1]. destruct E1 as (l' & k2 & P & K2). rewrite PE in P. apply ok_inj in P as <-.
    exists (Nat.max k1 k2). intros fuel F out. cbn [each_link]. destruct (K2 fuel) as (abl & V & B); [lia|].
    change (c_with (ctx_of fuel s) (link_env n l) abe) with (eval fuel (link_scope n l s) abe). rewrite V, B, K1 by lia. cbn [List.concat]. now rewrite app_assoc.
Qed.
Lemma macro_item s id t l v : id <> [] -> reads id id -> denotes t l -> not_bytes l ->
  (exists n, forall fuel, (n <= fuel)%nat -> sc_macro s (ctx_of fuel s) id l = Ok (Some v)) -> item s (91 :: 47 :: id ++ t ++ [93]) v.
Proof.
  intros NE R D NB [n M]. exists (ALst (ACtr CFSlash :: ABytes id :: l)). split; [reflexivity|]. split.
  - intros tail k K D2. replace ((91 :: 47 :: id ++ t ++ [93]) ++ tail) with (91 :: (47 :: id ++ t) ++ 93 :: tail) by (cbn; now rewrite <- !app_assoc).
    apply denotes_lst; [|assumption]. apply (denotes_ctr CFSlash). now apply denotes_bytes.
  - exists n. intros fuel F. unfold match_expr. cbn [tl run_macro]. now rewrite M.
Qed.
