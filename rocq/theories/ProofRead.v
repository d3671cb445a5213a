(** Proofs about ModelRead: calls whose arguments are expressions, and the functions of a packet. *)
From Coq Require Import Lia ZArith.
From Verif Require Import Bytes ModelSpace SpecSpace ProofSpace ModelPkt SpecPkt PropsPkt ModelPred SpecPred ProofPred PropsPred.
From Verif Require Import ModelAbe SpecAbe ProofAbe ProofAbe2 ModelFmt SpecFmt ProofFmt ModelEval ModelFn SpecEval ProofFn ProofEval ProofEval2 ProofEval3 ModelLns ModelHtml.
From Verif Require Import ModelPktScope SpecPktScope ProofPktScope ProofPktScope2 ModelCliQuery SpecCliQuery ProofCliQuery ProofCliQuery3 ModelRead SpecRead.
#[global] Arguments N.pow : simpl never.
Local Open Scope N_scope.

Lemma args_segs s ts vs : Forall2 (argument s) ts vs -> exists gs, Forall (aseg_ok s) gs /\ map aseg_value gs = colon_args vs /\
  denotes (args_text ts) (flat_map aseg_abe gs).
Proof.
  induction 1 as [|t v ts vs A F (gs & G & M & D)]; [exists []; split; [constructor|]; split; [reflexivity|constructor]|].
  assert (NB : not_bytes (flat_map aseg_abe gs)) by (destruct gs as [|[[c es] x] gs]; exact Logic.I).
  destruct A as [[-> ->]|(l & DL & NE & X & E)].
  - exists ((CColon, [], []) :: gs). split; [constructor; [now left|exact G]|]. split; [cbn [map aseg_value colon_args]; unfold colon_args in M |- *; cbn [map]; now rewrite M|].
    change (denotes (58 :: args_text ts) (ACtr CColon :: flat_map aseg_abe gs)). now apply (denotes_ctr CColon).
  - exists ((CColon, l, v) :: gs). split; [constructor; [right; split; [exact NE|]; split; [exact X|exact E]|exact G]|].
    split; [cbn [map aseg_value colon_args]; unfold colon_args in M |- *; cbn [map]; now rewrite M|].
    change (denotes (58 :: t ++ args_text ts) (ACtr CColon :: l ++ flat_map aseg_abe gs)). apply (denotes_ctr CColon). now apply denotes_then.
Qed.
Lemma match_segs s ctx id gs vs : lenN vs <= 15 -> map aseg_value gs = colon_args vs ->
  c_eval ctx (ABytes id :: flat_map aseg_abe gs) = Ok ((None, id) :: colon_args vs) ->
  match_expr s ctx (ALst (ABytes id :: flat_map aseg_abe gs)) = obind (call s ctx id ([] :: vs) true) (fun b => Ok (IBytes b)).
Proof.
  intros L M V. set (R := obind (Ok ((None, id) :: colon_args vs)) (fun abl => obind (run_calls s ctx (split_fslash abl) []) (fun b => Ok (IBytes b)))).
  transitivity R.
  - unfold match_expr. destruct gs as [|[[c es] x] gs]; [now rewrite V|]. cbn [flat_map aseg_abe app] in V |- *. destruct (es ++ _); now rewrite V.
  - unfold R. cbn [obind]. rewrite split_colon_args. cbn [run_calls]. rewrite lenN_cons.
    assert (LC : lenN (colon_args vs) = lenN vs) by (unfold colon_args, lenN; now rewrite map_length).
    destruct (N.ltb_spec 16 (1 + lenN (colon_args vs))); [lia|]. rewrite snd_colon_args. destruct (call _ _ _ _ _); reflexivity.
Qed.
(** A call in brackets gives the value of the function on the values of the arguments. *)
Lemma call_exprs s tid id ts vs r v : id <> [] -> lenN vs <= 15 -> reads tid id -> Forall2 (argument s) ts vs ->
  (forall fuel, sc_func s (ctx_of fuel s) id vs true = r) ->
  evaluates s (91 :: tid ++ args_text ts ++ [93]) v <-> r = Ok (Some v).
Proof.
  intros NE L R F C. destruct (args_segs s ts vs F) as (gs & G & M & D). destruct (eval_named s id gs G) as [n E]. rewrite M in E.
  assert (P : parse_abe_strict (91 :: tid ++ args_text ts ++ [93]) = Ok [ALst (ABytes id :: flat_map aseg_abe gs)]).
  { apply parse_denotes. replace (91 :: tid ++ args_text ts ++ [93]) with (91 :: (tid ++ args_text ts) ++ 93 :: []) by (cbn; now rewrite <- app_assoc).
    apply denotes_lst; [|constructor]. apply denotes_bytes; [exact NE|exact R| |exact D]. destruct gs as [|[[c es] x] gs]; exact Logic.I. }
  assert (V : forall fuel, (n <= fuel)%nat -> eval (S fuel) s [ALst (ABytes id :: flat_map aseg_abe gs)] = obind (call s (ctx_of fuel s) id ([] :: vs) true) (fun b => Ok [(None, b)])).
  { intros fuel FU. change (eval (S fuel) s ?l) with (eval_items s (ctx_of fuel s) l []). cbn [eval_items]. rewrite (match_segs s _ id gs vs L M) by (now apply E).
    destruct (call _ _ _ _ _); reflexivity. }
  unfold call in V. cbn [tl] in V. split.
  - intros (l & m & P' & E'). rewrite P in P'. injection P' as <-. destruct (E' (S (n + m))) as (abl & W & B); [lia|]. rewrite V in W by lia. rewrite C in W.
    destruct r as [[x|]| | |]; try discriminate. cbn [obind] in W. injection W as <-. cbn in B. congruence.
  - intros ->. exists [ALst (ABytes id :: flat_map aseg_abe gs)], (S n). split; [exact P|]. intros [|fuel] FU; [lia|]. rewrite V by lia. rewrite C. eexists. split; reflexivity.
Qed.
(** Texts that are bytes are arguments. *)
Lemma reads_arg s t v : reads t v -> argument s t v.
Proof.
  intros R. destruct v as [|c v]; [left; split; [now apply reads_nil_iff|reflexivity]|right]. exists [ABytes (c :: v)].
  split; [rewrite <- (app_nil_r t); apply denotes_bytes; [discriminate|exact R|exact Logic.I|constructor]|]. split; [discriminate|]. split; [repeat constructor; discriminate|].
  exists 1%nat. intros [|fuel] FU; [lia|]. eexists. split; reflexivity.
Qed.
Lemma reads_args s ts vs : Forall2 reads ts vs -> Forall2 (argument s) ts vs.
Proof. induction 1; constructor; auto using reads_arg. Qed.

(** The functions of a packet do not look at the scope, but for the formats. *)
Lemma escope_ctx fs ms ctx ctx' id inp init : (forall f, In f fs -> f_id f = id -> f_apply f ctx = f_apply f ctx') ->
  sc_func (escope fs ms) ctx id inp init = sc_func (escope fs ms) ctx' id inp init.
Proof.
  intros H. cbn [escope sc_func]. destruct (find_func id fs) as [f|] eqn:E; [|reflexivity]. unfold find_func in E. apply find_some in E as [I B]. apply beqb_eq in B.
  now rewrite (H f I B).
Qed.
Lemma pkt_ctx np recv now flags lossy public test ctx ctx' id inp : formats id = false ->
  sc_func (pkt_scope np recv now flags lossy public test) ctx id inp true = sc_func (pkt_scope np recv now flags lossy public test) ctx' id inp true.
Proof.
  intros FM. unfold pkt_scope. cbn [spair sc_func].
  rewrite (escope_ctx (field_funcs _ _) [] ctx ctx'), (escope_ctx (print_funcs _ _ _ _ _) [] ctx ctx'), (escope_ctx (link_funcs _) _ ctx ctx'), (escope_ctx (recv_funcs _ _) [] ctx ctx'); [reflexivity|..].
  - intros f I _. unfold recv_funcs in I. repeat (destruct I as [<-|I]; [reflexivity|]). destruct I.
  - intros f I _. unfold link_funcs in I. repeat (destruct I as [<-|I]; [reflexivity|]). destruct I.
  - intros f I E. unfold print_funcs in I. unfold formats in FM. repeat (destruct I as [<-|I]; [try reflexivity; exfalso; cbn [fn_ctx f_id] in E; rewrite <- E in FM; vm_compute in FM; discriminate|]). destruct I.
  - intros f I _. unfold field_funcs in I. apply in_map_iff in I as (x & <- & _). destruct x; reflexivity.
Qed.
