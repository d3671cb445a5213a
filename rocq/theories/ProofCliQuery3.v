From Coq Require Import Lia.
From Verif Require Import Bytes ModelAbe SpecAbe ProofAbe ProofAbe2 PropsAbe ModelFmt PropsFmt ModelEval ModelFn SpecEval ProofEval ProofEval2 ProofEval3 PropsEval.
From Verif Require Import ModelSpace SpecSpace ProofSpace ProofRooted ProofTree SpecPkt ModelTestSet SpecTestSet ProofTestSet ModelPred SpecPred ProofPred PropsPred.
From Verif Require Import ModelQuery ModelQText SpecQText ProofQText ProofQText2 ProofQText3 ProofQText4 ProofQText5 ProofQText6 ProofFmt PropsQText ModelStamp SpecStamp ProofStamp PropsStamp ProofQText7.
From Verif Require Import ModelCliQuery SpecCliQuery ProofCliQuery ProofCliQuery2.

(** ** The parts of the argument *)
Lemma denotes_then t1 l1 t2 l2 : denotes t1 l1 -> denotes t2 l2 -> not_bytes l2 -> denotes (t1 ++ t2) (l1 ++ l2).
Proof.
  intros D1 D2 NB. induction D1 as [|c t l D IH|a t l m A IHA D IH|a b t l NE R N D IH]; [exact D2| | |].
  - cbn [app]. now constructor.
  - replace ((91 :: a ++ 93 :: t) ++ t2) with (91 :: a ++ 93 :: (t ++ t2)) by (cbn; now rewrite <- app_assoc). now constructor.
  - rewrite <- app_assoc. cbn [app]. constructor; try assumption. destruct l as [|[]]; cbn [app]; assumption || exact N.
Qed.
Definition no_colon (l : list ABE) : Prop := Forall (fun e => e <> ACtr CColon) l.
Lemma colon_more l r : no_colon l -> to_colon (l ++ ACtr CColon :: r) = (l, Some r).
Proof. induction 1 as [|e l X F IH]; [reflexivity|]. cbn [app to_colon]. rewrite IH. destruct e as [[]| |]; congruence. Qed.
Lemma colon_last l : no_colon l -> to_colon l = (l, None).
Proof. induction 1 as [|e l X F IH]; [reflexivity|]. cbn [to_colon]. rewrite IH. destruct e as [[]| |]; congruence. Qed.
Lemma exprs_no_colon l : Forall expr l -> no_colon l.
Proof. intros F. eapply Forall_impl; [|exact F]. intros e X. apply X. Qed.
Lemma exprs_no_ctrs l : Forall expr l -> no_ctrs l = true.
Proof. intros F. unfold no_ctrs. apply forallb_forall. intros e I. rewrite Forall_forall in F. specialize (F e I). destruct e as [c| |]; [destruct (F c eq_refl)|reflexivity..]. Qed.
Definition slashed (es : list ABE) : list ABE := flat_map (fun e => [ACtr CFSlash; e]) es.
Lemma slashed_check es : Forall expr es -> space_check (slashed es) = true /\ no_colon (slashed es) /\ fslashes (slashed es) = lenN es /\ (es <> [] -> existsb (abe_is CFSlash) (slashed es) = true).
Proof.
  intros F. split; [|split; [|split]].
  - assert (space_check_loop (slashed es) = true) as E. { induction F as [|e es X F IH]; [reflexivity|]. cbn [slashed flat_map app space_check_loop abe_is ctr_eqb andb]. fold (slashed es). rewrite IH. destruct e as [c| |]; [destruct (X c eq_refl)|reflexivity..]. }
    destruct es as [|e es]; [reflexivity|exact E].
  - induction F as [|e es X F IH]; [constructor|]. cbn [slashed flat_map app]. constructor; [discriminate|]. constructor; [apply X|exact IH].
  - unfold fslashes. induction F as [|e es X F IH]; [reflexivity|]. cbn [slashed flat_map app filter abe_is ctr_eqb]. fold (slashed es). destruct e as [c| |]; [destruct (X c eq_refl)|..]; cbn [abe_is]; rewrite !lenN_cons, IH; lia.
  - intros NE. destruct es; [contradiction|reflexivity].
Qed.
Lemma comps_abe s ts cs : Forall2 (comp_text s) ts cs -> exists es, denotes (flat_map (fun c => 47 :: c) ts) (slashed es) /\ Forall expr es /\ Forall2 (fun e c => evaluates_abe s [e] c) es cs.
Proof.
  induction 1 as [|t c ts cs (e & D & X & V) F (es & DS & XS & VS)]; [exists []; repeat split; constructor|].
  exists (e :: es). split; [|split; constructor; assumption]. cbn [flat_map slashed app]. apply (denotes_ctr CFSlash). apply (denotes_then t [e] _ (slashed es)); [exact D|exact DS|]. destruct es; exact Logic.I.
Qed.
Lemma limit_abe lim k : limit_text lim k -> exists l, denotes lim l /\ (l = [] /\ k = 0 \/ l <> [] /\ try_take_subsegm_expr l = Ok (k, [])).
Proof.
  assert (G : forall t k, parse_abe_strict t = Ok [ABytes t] -> try_take_subsegm_expr [ABytes t] = Ok (k, []) -> exists l, denotes t l /\ (l = [] /\ k = 0 \/ l <> [] /\ try_take_subsegm_expr l = Ok (k, []))).
  { intros t k' P E. exists [ABytes t]. split; [now apply parse_denotes|]. right. split; [discriminate|exact E]. }
  destruct 1 as [|k K| |].
  - exists []. split; [constructor|]. now left.
  - assert (In k [0; 1; 2; 3; 4; 5; 6; 7; 8]) as I by (cbn; lia). repeat (destruct I as [<- | I]; [apply G; reflexivity|]). destruct I.
  - apply G; reflexivity.
  - apply G; reflexivity.
Qed.
(** A part that is left out, or an expression *)
Definition part (s : scope) (t : bytes) (l : list ABE) (v : bytes) : Prop := denotes t l /\ Forall expr l /\ (l = [] \/ evaluates_abe s l v).
Lemma part_of s t v : expr_text s t v -> exists l, part s t l v /\ l <> [].
Proof. intros (l & D & NE & X & V). exists l. split; [|exact NE]. split; [exact D|]. split; [exact X|]. now right. Qed.
Lemma part_nil s v : part s [] [] v. Proof. split; [constructor|]. split; [constructor|]. now left. Qed.

Lemma arg_parse dom grp t td tg tsp lim ld lg es ll k :
  arg_text t td tg tsp lim -> denotes td ld -> Forall expr ld -> denotes tg lg -> Forall expr lg -> denotes tsp (slashed es) -> Forall expr es -> denotes lim ll ->
  (ll = [] /\ k = 0 \/ ll <> [] /\ try_take_subsegm_expr ll = Ok (k, [])) ->
  parse_dgpd dom grp t = Ok (mkDGS (match ld with [] => [ab_to_abe dom] | _ => ld end) (match lg with [] => [b64_to_abe grp] | _ => lg end) (slashed es), k).
Proof.
  intros A D1 X1 D2 X2 D3 X3 D4 LK. destruct (slashed_check es X3) as (SC & NC & _ & _).
  pose proof (exprs_no_colon _ X1) as N1. pose proof (exprs_no_colon _ X2) as N2.
  assert (K0 : denotes [] ll -> ll = [] /\ k = 0). { intros D. apply parse_denotes in D. cbn in D. apply ok_inj in D as <-. destruct LK as [LK|[LK _]]; [exact LK|contradiction]. }
  assert (E0 : forall l, denotes [] l -> l = []). { intros l D. apply parse_denotes in D. cbn in D. now apply ok_inj in D as <-. }
  assert (FIN : forall o1 o2 o3 ast, parse_abe_strict t = Ok ast -> to_colon ast = (ld, o1) -> next_piece o1 = (lg, o2) -> next_piece o2 = (slashed es, o3) ->
    match o3 with None => ll = [] /\ k = 0 | Some r => r = ll end ->
    parse_dgpd dom grp t = Ok (mkDGS (match ld with [] => [ab_to_abe dom] | _ => ld end) (match lg with [] => [b64_to_abe grp] | _ => lg end) (slashed es), k)).
  { intros o1 o2 o3 ast P T1 T2 T3 R. unfold parse_dgpd. rewrite P. unfold dgpd, try_take_dgs. cbn [next_piece]. rewrite T1, T2, T3.
    rewrite (exprs_no_ctrs _ X1), (exprs_no_ctrs _ X2), SC.
    assert (forall (x : ABE) l, match l with [] => Ok [x] | _ :: _ => Ok l end = Ok (E := CliErr) (match l with [] => [x] | _ => l end)) as Q by (intros x [|]; reflexivity). rewrite !Q. cbn [obind].
    destruct o3 as [r|].
    - subst r. destruct LK as [[-> ->]|[NE E]]; [reflexivity|]. destruct ll as [|e ll]; [contradiction|]. rewrite E. reflexivity.
    - destruct R as [-> ->]. reflexivity. }
  assert (NBC : forall l, not_bytes (ACtr CColon :: l)) by (intros; exact Logic.I).
  assert (JC : forall a la b lb, denotes a la -> denotes b lb -> denotes (a ++ 58 :: b) (la ++ ACtr CColon :: lb)). { intros a la b lb DA DB. apply denotes_then; [exact DA|now apply (denotes_ctr CColon)|exact Logic.I]. }
  destruct A as [->|[-> [->|[-> [->|[-> ->]]]]]].
  - apply (FIN (Some (lg ++ ACtr CColon :: slashed es ++ ACtr CColon :: ll)) (Some (slashed es ++ ACtr CColon :: ll)) (Some ll) (ld ++ ACtr CColon :: lg ++ ACtr CColon :: slashed es ++ ACtr CColon :: ll));
      [apply parse_denotes; repeat apply JC; assumption|now apply colon_more|now apply colon_more|now apply colon_more|reflexivity].
  - apply (FIN (Some (lg ++ ACtr CColon :: slashed es)) (Some (slashed es)) None (ld ++ ACtr CColon :: lg ++ ACtr CColon :: slashed es));
      [apply parse_denotes; repeat apply JC; assumption|now apply colon_more|now apply colon_more|now apply colon_last|now apply K0].
  - apply E0 in D3. rewrite D3 in *. apply (FIN (Some lg) None None (ld ++ ACtr CColon :: lg));
      [apply parse_denotes; repeat apply JC; assumption|now apply colon_more|now apply colon_last|reflexivity|now apply K0].
  - apply E0 in D3, D2. rewrite D3, D2 in *. apply (FIN None None None ld); [now apply parse_denotes|now apply colon_last|reflexivity|reflexivity|now apply K0].
Qed.

(** ** The statements of the argument *)
Definition depth_stmts (cs : list bytes) (k : N) : list cstmt :=
  if k <? 8 then [CNum (RField DepthF, Op Less, [N.min 8 (N.of_nat (List.length cs) + k) + 1])] else [].
Definition prefix_stmts (cs : list bytes) : list cstmt := match cs with [] => [] | _ => [CPrefix cs] end.
Definition dgs_stmts (dv G : bytes) (cs : list bytes) (k : N) : list cstmt :=
  [CNum (RField DomainF, Op Equal, dv); CNum (RField GroupIDF, Op Equal, G)] ++ prefix_stmts cs ++ depth_stmts cs k.
Lemma gives_num s k o es v : es <> [] -> Forall expr es -> evaluates_abe s es v -> gives_stmt s (stmt_expr (rule_name k) (op_text o) es) (CNum (k, o, v)).
Proof.
  intros NE X V. assert (op_text o <> []) as NO by (destruct o as [| | | |[]]; discriminate).
  destruct (eval_named s (rule_name k) [(CColon, [ABytes (op_text o)], op_text o); (CColon, es, v)]) as [n E].
  - constructor; [now apply const_ok|]. constructor; [|constructor]. right. auto.
  - exists n. intros fuel FU. specialize (E fuel FU). cbn [flat_map aseg_abe app] in E. rewrite app_nil_r in E. exact E.
Qed.
Lemma gives_prefix s es cs : cs <> [] -> Forall expr es -> Forall2 (fun e c => evaluates_abe s [e] c) es cs -> gives_stmt s (stmt_expr (str "prefix") (str "=") (slashed es)) (CPrefix cs).
Proof.
  intros NE X V. set (gs := map (fun '(e, c) => (CFSlash, [e], c)) (combine es cs)).
  assert (Forall (aseg_ok s) gs /\ flat_map aseg_abe gs = slashed es /\ map aseg_value gs = slash_abl cs) as (OK & E1 & E2).
  { unfold gs. clear NE gs. induction V as [|e c es cs V F IH]; [repeat split; constructor|]. apply Forall_cons_iff in X as [X1 X2]. destruct (IH X2) as (A & B & C). cbn [combine map flat_map aseg_abe aseg_value slash_abl].
    split; [constructor; [|exact A]; right; split; [discriminate|]; split; [constructor; [exact X1|constructor]|exact V]|]. split; [cbn [app slashed flat_map]; now rewrite B|]. f_equal. exact C. }
  destruct (eval_named s (str "prefix") ((CColon, [ABytes (str "=")], str "=") :: (CColon, [], []) :: gs)) as [n E].
  - constructor; [now apply const_ok|]. constructor; [now left|exact OK].
  - exists n. intros fuel FU. specialize (E fuel FU). cbn [flat_map aseg_abe app map aseg_value] in E. rewrite E1, E2 in E. unfold stmt_expr. cbn [app]. rewrite E.
    cbn [c_abl text_abl]. destruct cs; [contradiction|reflexivity].
Qed.
Lemma dgs_gives o s dom grp t D G cs k : extends (core_scope o) s -> bytes_ok dom -> lenN dom = 16 -> bytes_ok grp -> lenN grp = 32 -> dgs_text s dom grp t (D, G, cs, k) ->
  exists e es dv, parse_dgpd dom grp t = Ok (e, k) /\ predicate_exprs e k = Ok es /\ Forall2 (gives_stmt s) es (dgs_stmts dv G cs k) /\
    (0 < List.length dv <= 16)%nat /\ bytes_ok dv /\ D = repeat 0 (16 - List.length dv) ++ dv.
Proof.
  intros X OD LD OG LG (td & tg & ts & lim & dv & A & TD & LV & OV & ED & TG & LGG & OGG & TS & SK & OC & L8 & LT).
  assert (exists ld, denotes td ld /\ Forall expr ld /\ let l := match ld with [] => [ab_to_abe dom] | _ => ld end in l <> [] /\ Forall expr l /\ evaluates_abe s l dv) as (ld & DD & XD & ND & XD' & VD).
  { destruct TD as [(-> & -> & PP)|(l & DN & NE & XL & V)].
    - exists []. split; [constructor|]. split; [constructor|]. cbn zeta. split; [discriminate|]. split; [|now apply (ab_abe o)]. constructor; [|constructor]. intros c. unfold ab_to_abe. destruct (x_prefix_cut dom) as [m u]. destruct (lenN dom =? 16); discriminate.
    - exists l. split; [exact DN|]. split; [exact XL|]. cbn zeta. destruct l; [contradiction|]. auto. }
  assert (exists lg, denotes tg lg /\ Forall expr lg /\ let l := match lg with [] => [b64_to_abe grp] | _ => lg end in l <> [] /\ Forall expr l /\ evaluates_abe s l G) as (lg & DG & XG & NG & XG' & VG).
  { destruct TG as [(-> & ->)|(l & DN & NE & XL & V)].
    - exists []. split; [constructor|]. split; [constructor|]. cbn zeta. split; [discriminate|]. split; [constructor; [discriminate|constructor]|]. apply (C43_b64_abe o); [exact X|exact OG|intros ->; discriminate].
    - exists l. split; [exact DN|]. split; [exact XL|]. cbn zeta. destruct l; [contradiction|]. auto. }
  destruct (comps_abe s ts cs TS) as (es & DS & XS & VS). destruct (limit_abe lim k LT) as (ll & DL & KL).
  destruct (slashed_check es XS) as (_ & _ & FS & EX). assert (LE : lenN es = N.of_nat (List.length cs)). { unfold lenN. f_equal. clear -VS. induction VS; cbn; congruence. }
  set (e := mkDGS (match ld with [] => [ab_to_abe dom] | _ => ld end) (match lg with [] => [b64_to_abe grp] | _ => lg end) (slashed es)).
  exists e. eexists. exists dv. split; [exact (arg_parse dom grp t td tg _ lim ld lg es ll k A DD XD DG XG DS XS DL KL)|].
  assert (EQ : predicate_exprs e k = Ok (as_test_exprs e ++ if k <? 8 then [stmt_expr (rule_name (RField DepthF)) (op_text (Op Less)) [uint_to_abe false 1 [N.min 8 (N.of_nat (List.length cs) + k) + 1]]] else [])).
  { unfold predicate_exprs. cbn [e e_space]. assert (negb (k =? 8) && negb match slashed es with [] => true | _ => false end && negb (existsb (abe_is CFSlash) (slashed es)) = false) as ->.
    { destruct es as [|x es]; [now rewrite andb_false_r|]. rewrite EX by discriminate. now rewrite andb_false_r. }
    rewrite FS, LE. destruct (N.ltb_spec k 8) as [K8|K8]; [|reflexivity]. assert (N.min (N.min (N.min (N.of_nat (List.length cs)) 8 + k) 255) 8 = N.min 8 (N.of_nat (List.length cs) + k)) as -> by lia. reflexivity. }
  split; [exact EQ|]. split; [|auto].
  unfold dgs_stmts, as_test_exprs. cbn [e e_domain e_group e_space app].
  constructor; [apply (gives_num s (RField DomainF) (Op Equal)); assumption|]. constructor; [apply (gives_num s (RField GroupIDF) (Op Equal)); assumption|].
  apply Forall2_app.
  - destruct VS as [|x c es cs V VS]; [constructor|]. cbn [prefix_stmts]. constructor; [|constructor]. apply (gives_prefix s (x :: es) (c :: cs)); [discriminate|exact XS|]. now constructor.
  - unfold depth_stmts. destruct (k <? 8); [|constructor]. constructor; [|constructor]. apply (gives_num s (RField DepthF) (Op Less)); [discriminate|constructor; [discriminate|constructor]|].
    apply (C43_int_abe o); [exact X|now left| |reflexivity]. constructor; [|constructor]. unfold byte_ok. lia.
Qed.
