From Coq Require Import Lia.
From Verif Require Import Bytes ModelAbe SpecAbe ProofAbe ProofAbe2 PropsAbe ModelFmt PropsFmt ModelEval ModelFn SpecEval ProofEval ProofEval2 ProofEval3 PropsEval.
From Verif Require Import ModelSpace SpecSpace ProofSpace ProofRooted ProofTree SpecPkt ModelTestSet SpecTestSet ProofTestSet ModelPred SpecPred ProofPred PropsPred.
From Verif Require Import ModelQuery ModelQText SpecQText ProofQText ProofQText2 ProofQText3 ProofQText4 ProofQText5 ProofQText6 ProofFmt PropsQText ModelStamp SpecStamp ProofStamp PropsStamp ProofQText7.
From Verif Require Import ModelCliQuery SpecCliQuery ProofCliQuery.

(** ** Values of the expressions in the statements *)
Lemma print_normal l : normal l -> denotes (print1 (ALst l)) [ALst l].
Proof.
  intros N. cbn [print1]. change (91 :: flat_map print1 l ++ [93]) with (91 :: flat_map print1 l ++ 93 :: []). apply denotes_lst; [|constructor].
  rewrite <- (norm_normal l N) at 2. apply print_denotes. now apply normal_ok.
Qed.
Lemma item_abe s l v : normal l -> item s (print1 (ALst l)) v -> evaluates_abe s [ALst l] v.
Proof.
  intros N I. apply item_evaluates in I as (l' & n & P & E). apply print_normal, parse_denotes in N. rewrite N in P. apply ok_inj in P as <-. now exists n.
Qed.
Lemma bits_abe o s x : extends (core_scope o) s -> byte_ok x -> evaluates_abe s [abe_bits [x]] [x].
Proof.
  intros X B. pose proof (bits_item o s x X B) as I. unfold abe_bits in I |- *. apply item_abe; [|exact I]. apply call1_normal; [discriminate|apply bytes_okb; reflexivity| |].
  - cbn [flat_map digits_of]. intros H. apply (f_equal (@List.length N)) in H. rewrite !app_length in H. cbn in H. lia.
  - pose proof (digits_reads 2 8 [x] eq_refl ltac:(lia) eq_refl (Forall_cons _ B (Forall_nil _))) as RD. exact (reads_bytes_ok _ _ RD).
Qed.
Lemma ab_abe o s b : extends (core_scope o) s -> bytes_ok b -> lenN b = 16 -> padded_plain b -> evaluates_abe s [ab_to_abe b] b.
Proof.
  intros X O L P. pose proof (ab_item o s b X O L P) as I. revert I. unfold ab_to_abe. destruct (cut_plain b P) as (m & t & -> & PT). rewrite L. change (16 =? 16) with true. cbv iota beta. rewrite (plain_text t PT).
  intros I. assert (BM : bytes_ok (ab_mode m) /\ ab_mode m <> []) by (destruct m; split; try discriminate; apply bytes_okb; reflexivity). destruct BM as [BM NM].
  destruct t as [|x t].
  - assert (print1 (ALst [ABytes (ab_mode m); ACtr CColon; ABytes []]) = print1 (ALst [ABytes (ab_mode m); ACtr CColon])) as EQ by reflexivity.
    rewrite EQ in I. apply item_abe in I; [|constructor; [exact NM|exact BM|exact Logic.I|constructor; constructor]]. destruct I as (n & E). exists (S (S n)). intros fuel FU. destruct fuel as [|[|fuel]]; try lia.
    destruct (E (S (S fuel))) as (abl & V & B); [lia|]. exists abl. split; [|exact B]. rewrite <- V. reflexivity.
  - apply item_abe; [|exact I]. apply call1_normal; [exact NM|exact BM|discriminate|]. assert (plain_ok : Forall byte_ok (x :: t)). { eapply Forall_impl; [|exact PT]. intros y [Y _]. unfold byte_ok. lia. } exact plain_ok.
Qed.
Lemma until_abe o s now v d : extends (core_scope o) s -> hd 0 v <> 43 -> duration units v d -> now + d <= last_stamp ->
  evaluates_abe s [ALst [ACtr CColon; ABytes (be_encode 8 now); ACtr CFSlash; ABytes (str "us"); ACtr CColon; ABytes (str "+"); ABytes v]] (be_encode 8 (now + d)).
Proof.
  intros X H D B. exists 3%nat. intros fuel FU. destruct fuel as [|[|[|fuel]]]; try lia. exists [(None, be_encode 8 (now + d))]. split; [|reflexivity].
  change (eval (S (S (S fuel))) s ?l) with (eval_items s (ctx_of (S (S fuel)) s) l []). cbn [eval_items].
  match goal with |- obind ?m _ = _ => assert (m = Ok (IBytes (be_encode 8 (now + d)))) as -> end; [|reflexivity].
  cbn [match_expr]. change (c_eval (ctx_of (S (S fuel)) s) ?l) with (eval (S (S fuel)) s l). change (eval (S (S fuel)) s ?l) with (eval_items s (ctx_of (S fuel) s) l []).
  cbn [eval_items match_expr obind push_item push_ctr push_bytes app].
  change (split_fslash [(Some CColon, be_encode 8 now); (Some CFSlash, str "us"); (Some CColon, str "+" ++ v)]) with [[(Some CColon, be_encode 8 now)]; [(Some CFSlash, str "us"); (Some CColon, str "+" ++ v)]].
  cbn [run_calls]. change (16 <? lenN [(Some CColon, be_encode 8 now)]) with false. change (16 <? lenN [(Some CFSlash, str "us"); (Some CColon, str "+" ++ v)]) with false. cbv iota.
  cbn [map snd]. match goal with |- context [List.concat ?x] => replace (List.concat x) with (be_encode 8 now) by (cbn [List.concat map snd]; now rewrite app_nil_r) end.
  assert (call s (ctx_of (S (S fuel)) s) (str "us") [be_encode 8 now; str "+" ++ v] false = Ok (be_encode 8 (now + d))) as ->; [|reflexivity].
  unfold call. cbn [tl]. assert (sc_func s (ctx_of (S (S fuel)) s) (str "us") [be_encode 8 now; str "+" ++ v] false = Ok (Some (be_encode 8 (now + d)))) as ->; [|reflexivity].
  apply (proj1 X). rewrite (proj1 (core_flat o)).
  rewrite (escope_some _ _ _ _ _ _ (nth 0 (stamp_fe o) (fn [] 0 0 (fun _ => fails)))); [|reflexivity|now left|split; [apply N.le_0_l|change (2 <= 16); lia]].
  assert (FIT : fit (N.of_nat 8) (be_encode 8 now) = Ok (be_encode 8 now)) by (unfold fit; rewrite lenN_be_encode, N.eqb_refl; reflexivity).
  cbn [stamp_fe nth fn_ctx f_apply arg tl]. unfold uint_of_bytes. rewrite FIT, be_decode_encode by (unfold last_stamp in B; change (256 ^ N.of_nat 8) with (2 ^ 64); lia).
  apply apply_iff; [lia| | |].
  - constructor; [|constructor]. reflexivity.
  - constructor; [|constructor]. intros t d' [[E _]|[E _]] D'; [|discriminate]. change (str "+" ++ v) with (43 :: v) in E. injection E as <-. rewrite (duration_fun _ _ _ D' D). lia.
  - exists (now + d). split; [|split; [exact B|reflexivity]]. change (str "+" ++ v) with (43 :: v). apply mv_add with d; [exact H|exact D|exact B|constructor].
Qed.
