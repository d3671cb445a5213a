(** Lemmas about tests, alternatives and spaces in expressions. *)
From Coq Require Import Lia.
From Verif Require Import Bytes ModelSpace SpecSpace ProofSpace ModelAbe SpecAbe ProofAbe ProofAbe2 ModelFmt SpecFmt ModelEval ModelFn SpecEval ProofFn ProofEval ProofEval2 ProofEval3 PropsEval ProofPktScope ProofPktScope2.
From Verif Require Import SpecCliQuery ProofCliQuery ProofCliQuery3 SpecRead ProofRead ProofRead3 SpecEncode ProofEncode SpecLogic.
Local Open Scope N_scope.

Lemma behind_colon_args ts : behind_colon ts = args_text ts.
Proof. unfold behind_colon, args_text. now rewrite <- flat_map_concat_map. Qed.
Definition slash_value (v : bytes) : option Ctr * bytes := (Some CFSlash, v).
Lemma slash_segs s ts vs : Forall2 (argument s) ts vs -> exists gs, Forall (aseg_ok s) gs /\ map aseg_value gs = map slash_value vs /\
  denotes (behind_slash ts) (flat_map aseg_abe gs) /\ (ts = [] -> gs = []) /\ (ts <> [] -> exists k, flat_map aseg_abe gs = ACtr CFSlash :: k).
Proof.
  induction 1 as [|t v ts vs A F (gs & G & M & D & _)]; [exists []; split; [constructor|]; split; [reflexivity|]; split; [constructor|]; split; [reflexivity|congruence]|].
  assert (NB : not_bytes (flat_map aseg_abe gs)) by (destruct gs as [|[[c es] x] gs]; exact Logic.I).
  destruct A as [[-> ->]|(l & DL & NE & X & E)].
  - exists ((CFSlash, [], []) :: gs). split; [constructor; [now left|exact G]|]. split; [cbn [map aseg_value]; now rewrite M|].
    split; [|split; [discriminate|intros _; eexists; reflexivity]].
    change (denotes (47 :: behind_slash ts) (ACtr CFSlash :: flat_map aseg_abe gs)). now apply (denotes_ctr CFSlash).
  - exists ((CFSlash, l, v) :: gs). split; [constructor; [right; split; [exact NE|]; split; [exact X|exact E]|exact G]|].
    split; [cbn [map aseg_value]; now rewrite M|]. split; [|split; [discriminate|intros _; eexists; reflexivity]].
    change (denotes (47 :: t ++ behind_slash ts) (ACtr CFSlash :: l ++ flat_map aseg_abe gs)). apply (denotes_ctr CFSlash). now apply denotes_then.
Qed.
Lemma slash_eval s gs vs : Forall (aseg_ok s) gs -> map aseg_value gs = map slash_value vs ->
  exists n, forall fuel, (n <= fuel)%nat -> c_eval (ctx_of fuel s) (flat_map aseg_abe gs) = Ok (map slash_value vs).
Proof.
  intros G M. destruct (asegs s gs G) as [n E]. exists (S n). intros [|fuel] FU; [lia|]. change (c_eval (ctx_of (S fuel) s) ?l) with (eval_items s (ctx_of fuel s) l []).
  rewrite E by lia. now rewrite M.
Qed.
Lemma slash_parts_values vs : fslash_parts (map slash_value vs) = Some (not_empty vs).
Proof. induction vs as [|v vs IH]; [reflexivity|]. cbn [map slash_value fslash_parts not_empty]. change (fslash_parts (map (fun v0 => (Some CFSlash, v0)) vs)) with (fslash_parts (map slash_value vs)). rewrite IH. destruct v; reflexivity. Qed.
Lemma from_slashes vs v : space_from_ablist (map slash_value vs) = Ok v <-> space_ok (not_empty vs) /\ lenN (not_empty vs) <= 8 /\ v = wire_space (not_empty vs).
Proof.
  rewrite <- try_from_iter_iff. destruct vs as [|c vs].
  { change (try_from_iter (not_empty [])) with (@Ok SpaceError space []). change (space_from_ablist (map slash_value [])) with (@Ok unit space []). split; congruence. }
  unfold space_from_ablist. cbn [map]. unfold slash_value at 1. cbn [negb andb]. cbn match.
  assert (as_exact_bytes (map slash_value (c :: vs)) = None) as E by (destruct vs; reflexivity). cbn [map] in E. unfold slash_value at 1 in E. unfold slash_value at 1. rewrite E.
  pose proof (slash_parts_values (c :: vs)) as P. cbn [map] in P. unfold slash_value at 1 in P. unfold slash_value at 1. rewrite P. destruct (try_from_iter (not_empty (c :: vs))); split; congruence.
Qed.
Lemma filter_slashes vs : filter (fun v : option Ctr * bytes => match snd v with [] => false | _ => true end) (map slash_value vs) = map slash_value (not_empty vs).
Proof. induction vs as [|v vs IH]; [reflexivity|]. cbn [map filter slash_value snd not_empty]. destruct v; [exact IH|]. cbn [map]. now rewrite IH. Qed.
Lemma not_empty_twice vs : not_empty (not_empty vs) = not_empty vs.
Proof. induction vs as [|v vs IH]; [reflexivity|]. destruct v; [exact IH|]. cbn [not_empty]. now rewrite IH. Qed.
Lemma space_macro_iff drop ctx l vs v : c_eval ctx l = Ok (map slash_value vs) ->
  space_macro drop ctx l = Ok (Some v) <-> space_ok (not_empty vs) /\ lenN (not_empty vs) <= 8 /\ v = wire_space (not_empty vs).
Proof.
  intros E. unfold space_macro. rewrite E. destruct drop.
  - rewrite filter_slashes. rewrite <- (not_empty_twice vs) at 2 3 4. rewrite <- from_slashes. destruct (space_from_ablist _); cbn [of_out]; unfold val, fails; split; congruence.
  - rewrite <- from_slashes. destruct (space_from_ablist _); cbn [of_out]; unfold val, fails; split; congruence.
Qed.
(** The macro without a name *)
Lemma nameless_eventually s t l v : denotes t (ACtr CFSlash :: l) ->
  evaluates s (91 :: 47 :: t ++ [93]) v <-> exists n, forall fuel, (n <= fuel)%nat -> sc_macro s (ctx_of fuel s) [] (ACtr CFSlash :: l) = Ok (Some v).
Proof.
  intros D. assert (P : parse_abe_strict (91 :: 47 :: t ++ [93]) = Ok [ALst (ACtr CFSlash :: ACtr CFSlash :: l)]).
  { apply parse_denotes. change (91 :: 47 :: t ++ [93]) with (91 :: (47 :: t) ++ 93 :: []). apply denotes_lst; [|constructor]. now apply (denotes_ctr CFSlash). }
  assert (V : forall fuel, eval (S fuel) s [ALst (ACtr CFSlash :: ACtr CFSlash :: l)] = obind (run_macro s (ctx_of fuel s) (ACtr CFSlash :: l)) (fun b => Ok [(None, b)])).
  { intros fuel. change (eval (S fuel) s ?l) with (eval_items s (ctx_of fuel s) l []). cbn [eval_items match_expr tl]. destruct (run_macro _ _ _); reflexivity. }
  unfold run_macro in V. split.
  - intros (k & m & P' & E). rewrite P in P'. injection P' as <-. exists m. intros fuel FU. destruct (E (S fuel)) as (abl & W & B); [lia|]. rewrite V in W.
    destruct (sc_macro s (ctx_of fuel s) [] _) as [[x|]| | |]; try discriminate. cbn [obind] in W. injection W as <-. cbn in B. congruence.
  - intros [m C]. exists [ALst (ACtr CFSlash :: ACtr CFSlash :: l)], (S m). split; [exact P|]. intros [|fuel] FU; [lia|]. rewrite V, C by lia. eexists. split; reflexivity.
Qed.

(** ** Alternatives *)
Lemma parts_denote ts ls : Forall2 macro_part ts ls -> denotes (behind_colon ts) (flat_map (fun l => ACtr CColon :: l) ls).
Proof.
  induction 1 as [|t l ts ls [P _] F IH]; [constructor|]. change (denotes (58 :: t ++ behind_colon ts) (ACtr CColon :: l ++ flat_map (fun l => ACtr CColon :: l) ls)).
  apply (denotes_ctr CColon). apply denotes_then; [now apply parse_denotes|exact IH|]. destruct ls; exact Logic.I.
Qed.
Lemma split_parts ls : Forall no_colon ls -> ls <> [] -> split_on (abe_is CColon) (flat_map (fun l => ACtr CColon :: l) ls) = [] :: ls.
Proof.
  intros F NE. destruct ls as [|l ls]; [contradiction|]. clear NE. change (flat_map (fun l0 => ACtr CColon :: l0) (l :: ls)) with ([] ++ ACtr CColon :: l ++ flat_map (fun l => ACtr CColon :: l) ls).
  rewrite split_colon by constructor. f_equal. revert l F. induction ls as [|k ls IH]; intros l F; apply Forall_cons_iff in F as [L F].
  - cbn [flat_map]. rewrite app_nil_r. now apply split_last.
  - change (l ++ flat_map (fun l0 => ACtr CColon :: l0) (k :: ls)) with (l ++ ACtr CColon :: (k ++ flat_map (fun l => ACtr CColon :: l) ls)). rewrite split_colon by exact L. now rewrite IH.
Qed.
Lemma or_iff s ts ls v : Forall2 macro_part ts ls -> Forall (fun t => (exists w, lk_value s t w) \/ lk_fails s t) ts ->
  (exists n, forall fuel, (n <= fuel)%nat -> or_loop (ctx_of fuel s) ls = Ok (Some v)) <-> first_value s ts v.
Proof.
  intros F. induction F as [|t l ts ls [P C] F IH]; intros D.
  - split; [intros [n E]; specialize (E n (le_n n)); discriminate E|]. intros (a & t & b & E & _). destruct a; discriminate E.
  - apply Forall_cons_iff in D as [DT D]. specialize (IH D). cbn [or_loop]. destruct DT as [[w [n W]]|[n W]].
    + assert (forall fuel, (n <= fuel)%nat -> exists abl, eval fuel s l = Ok abl /\ abl_concat abl = w) as W'.
      { intros fuel FU. specialize (W fuel FU). unfold lk_eval, parse_abe in W. rewrite P in W. destruct (eval fuel s l) as [abl| | |]; try discriminate W. exists abl. split; congruence. }
      split.
      * intros [m E]. specialize (E (n + m)%nat ltac:(lia)). change (c_eval (ctx_of (n + m) s) l) with (eval (n + m) s l) in E. destruct (W' (n + m)%nat) as (abl & X & Y); [lia|]. rewrite X in E. injection E as E.
        exists [], t, ts. split; [reflexivity|]. split; [constructor|]. exists n. intros fuel FU. rewrite (W fuel FU). congruence.
      * intros (a & t' & b & E & A & V). destruct a as [|x a].
        -- injection E as <- _. destruct V as [m V]. exists n. intros fuel FU. change (c_eval (ctx_of fuel s) l) with (eval fuel s l). destruct (W' fuel FU) as (abl & X & Y). rewrite X. unfold val.
           specialize (W (n + m)%nat ltac:(lia)). specialize (V (n + m)%nat ltac:(lia)). congruence.
        -- injection E as <- _. apply Forall_cons_iff in A as [[m A] _]. destruct (A (n + m)%nat ltac:(lia)) as [e A']. rewrite (W (n + m)%nat) in A' by lia. discriminate A'.
    + assert (forall fuel, (n <= fuel)%nat -> exists e, eval fuel s l = Err e) as W'.
      { intros fuel FU. destruct (W fuel FU) as [e X]. unfold lk_eval, parse_abe in X. rewrite P in X. destruct (eval fuel s l); try discriminate X. eauto. }
      assert (first_value s (t :: ts) v <-> first_value s ts v) as ->.
      { split; intros (a & x & b & E & A & V).
        - destruct a as [|y a]; [|injection E as <- E; apply Forall_cons_iff in A as [_ A]; exists a, x, b; auto]. injection E as <- _. exfalso. destruct V as [m V]. destruct (W (n + m)%nat ltac:(lia)) as [e X]. rewrite V in X by lia. discriminate X.
        - exists (t :: a), x, b. split; [now rewrite E|]. split; [constructor; [now exists n|exact A]|exact V]. }
      rewrite <- IH. split; intros [m E]; exists (n + m)%nat; intros fuel FU; specialize (E fuel ltac:(lia)); change (c_eval (ctx_of fuel s) l) with (eval fuel s l) in *; destruct (W' fuel ltac:(lia)) as [e X]; rewrite X in *; exact E.
Qed.
