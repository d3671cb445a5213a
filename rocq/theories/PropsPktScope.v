(** C79: the functions that read a packet in an expression. *)
From Coq Require Import Lia ZArith.
From Verif Require Import Bytes ModelSpace SpecSpace ProofSpace ModelPkt SpecPkt PropsPkt ModelPred SpecPred ProofPred PropsPred.
From Verif Require Import ModelAbe SpecAbe ProofAbe ProofAbe2 ModelFmt SpecFmt ProofFmt ModelEval ModelFn SpecEval ProofFn ProofEval ProofEval2 ProofEval3 ModelLns ModelHtml.
From Verif Require Import PropsAbe PropsFmt PropsEval ProofQText7.
From Verif Require Import ModelPktScope SpecPktScope ProofPktScope ProofPktScope2.
#[global] Arguments N.pow : simpl never.
Local Open Scope N_scope.

Section C79.
Variable hash : bytes -> bytes.
Hypothesis HL : hash32 hash.
(** What the scope needs besides the packet *)
Variables (recv : option N) (now : N) (flags : N -> bytes) (lossy : bytes -> bytes) (public test : bytes).
Notation scope_of np := (pkt_scope np recv now flags lossy public test).

Lemma in_row b nh p cs name fm v : packet_of hash b nh p -> pt_comps p cs -> In (name, fm, v) (fields_of_packet hash nh p cs) ->
  exists f, In (name, f) field_names /\ row hash nh p (name, fm, v) (name, f).
Proof.
  intros PK CS I. pose proof (rows hash HL b nh p cs PK CS) as R. revert I R. generalize (fields_of_packet hash nh p cs) field_names.
  intros l k I R. induction R as [|x y l k H R IH]; [contradiction|]. destruct I as [->|I].
  - destruct y as [n f]. pose proof H as (<- & _). exists f. split; [now left|exact H].
  - destruct (IH I) as (f & F & G). exists f. split; [now right|exact G].
Qed.
Lemma field_call nh p name f (ts bs : list bytes) v s : extends (scope_of (np_of hash nh p)) s -> In (name, f) field_names -> lenN bs <= 1 -> Forall2 reads ts bs ->
  field_fn (np_of hash nh p) flags f bs = Ok (Some v) -> evaluates s (91 :: name ++ args_text ts ++ [93]) v.
Proof.
  intros [X _] I L R E. destruct (lookup hash HL nh p recv now lossy flags public test name f I) as (NE & RN & LK).
  apply item_evaluates, call_evaluates with name bs; try assumption; [lia|]. intros fuel. apply X.
  specialize (LK snone (ctx_of (S fuel) s) bs L). cbn [spair sc_func snone] in LK. rewrite !or_else_none in LK. now rewrite LK, E.
Qed.

(** Every packet has one list of components. *)
Theorem C79_components b nh p : packet_of hash b nh p -> exists cs, pt_comps p cs /\ forall ds, pt_comps p ds -> wire_space ds = wire_space cs.
Proof.
  intros (_ & _ & (_ & H) & _). assert (exists cs, pt_comps p cs) as [cs C].
  { assert (forall rs, rooted_ok rs -> exists cs, space_ok cs /\ (List.length cs <= 8)%nat /\ (rs = [] /\ cs = [] \/ exists d, rs = rooted_with d cs)) as G.
    { intros rs [->|(d & cs & A & B & _ & ->)]; [exists []; split; [apply space_ok_nil|]; split; [cbn; lia|now left]|exists cs; eauto]. }
    destruct p; cbn [pt_rspace]; [exists []; split; [apply space_ok_nil|]; split; [cbn; lia|now left]..| |]; apply G; tauto. }
  exists cs. split; [exact C|]. intros ds D. destruct C as (_ & _ & C), D as (_ & _ & D).
  destruct C as [[R ->]|[d R]], D as [[R' ->]|[d' R']]; try reflexivity; rewrite R in R'; try discriminate.
  apply (f_equal (skipn 8)) in R'. change (wire_space cs = wire_space ds) in R'. now symmetry.
Qed.

(** The bytes of every field, in three ways. *)
Theorem C79_field b nh p cs name fm v : packet_of hash b nh p -> pt_comps p cs -> In (name, fm, v) (fields_of_packet hash nh p cs) ->
  exists np, view b = Ok np /\ forall s, extends (scope_of np) s ->
    evaluates s (str "[" ++ name ++ str "]") v /\
    evaluates s (str "[" ++ name ++ str ":]") v /\
    evaluates s (str "[" ++ name ++ str ":bytes]") v.
Proof.
  intros PK CS I. exists (np_of hash nh p). split; [exact (view_packet hash b nh p HL PK)|]. destruct (in_row b nh p cs name fm v PK CS I) as (f & F & _ & _ & B & _).
  assert (forall i, In i [[]; [[]]; [str "bytes"]] -> field_fn (np_of hash nh p) flags f i = Ok (Some v)) as E.
  { intros i [<-|[<-|[<-|[]]]]; unfold field_fn; cbn [beqb str]; now rewrite B. }
  intros s X. split; [|split].
  - apply (field_call nh p name f [] [] v s X F); [vm_compute; discriminate|constructor|apply E; cbn; tauto].
  - apply (field_call nh p name f [[]] [[]] v s X F); [vm_compute; discriminate|constructor; constructor|apply E; cbn; tauto].
  - apply (field_call nh p name f [str "bytes"] [str "bytes"] v s X F); [vm_compute; discriminate|constructor; [apply name_reads; reflexivity|constructor]|apply E; cbn; tauto].
Qed.
(** The text of every field is a text of its value. *)
Theorem C79_text b nh p cs name fm v : packet_of hash b nh p -> pt_comps p cs -> In (name, fm, v) (fields_of_packet hash nh p cs) ->
  exists np t, view b = Ok np /\ (forall s, extends (scope_of np) s -> evaluates s (str "[" ++ name ++ str ":str]") t) /\ text_of fm v t /\
    (fm = AsSpace -> forall o, exists n, forall fuel, (n <= fuel)%nat -> space_str fuel o t = Ok (wire_space cs)).
Proof.
  intros PK CS I. exists (np_of hash nh p). destruct (in_row b nh p cs name fm v PK CS I) as (f & F & _ & FM & B & O & L & W). subst fm.
  assert (exists t, field_display (np_of hash nh p) flags f = Ok t /\ text_of (form_of f) v t /\ (form_of f = AsSpace -> forall o, exists n, forall fuel, (n <= fuel)%nat -> space_str fuel o t = Ok (wire_space cs))) as (t & E & T & S).
  { destruct (form_of f) eqn:FF; [..|destruct (space_texts hash HL b nh p cs PK CS now lossy flags test f FF) as (t & E & H); exists t; split; [exact E|]; split; [exact Logic.I|now intros _]|];
    (destruct (field_texts hash HL b nh p cs PK CS now lossy flags f v O L B W) as [(t & E & T) _]; [rewrite FF; discriminate|]; exists t; rewrite FF in T; split; [exact E|]; split; [exact T|discriminate]). }
  exists t. split; [exact (view_packet hash b nh p HL PK)|]. split; [|split; assumption].
  intros s X. apply (field_call nh p name f [str "str"] [str "str"] t s X F); [vm_compute; discriminate|constructor; [apply name_reads; reflexivity|constructor]|].
  unfold field_fn. cbn [beqb str]. change (as_ar (field_display (np_of hash nh p) flags f) = Ok (Some t)). now rewrite E.
Qed.
(** The expression for every field but the two spaces evaluates to its bytes again, with or without the packet. *)
Theorem C79_expression b nh p cs name fm v : packet_of hash b nh p -> pt_comps p cs -> In (name, fm, v) (fields_of_packet hash nh p cs) -> fm <> AsSpace ->
  exists np t, view b = Ok np /\ (forall s, extends (scope_of np) s -> evaluates s (str "[" ++ name ++ str ":abe]") t) /\
    forall o s, extends (core_scope o) s -> evaluates s t v.
Proof.
  intros PK CS I NS. exists (np_of hash nh p). destruct (in_row b nh p cs name fm v PK CS I) as (f & F & _ & FM & B & O & L & W). subst fm.
  destruct (field_texts hash HL b nh p cs PK CS now lossy flags f v O L B W) as [_ (t & E & T)]; [exact NS|]. exists t. split; [exact (view_packet hash b nh p HL PK)|]. split; [|exact T].
  intros s X. apply (field_call nh p name f [str "abe"] [str "abe"] t s X F); [vm_compute; discriminate|constructor; [apply name_reads; reflexivity|constructor]|].
  unfold field_fn. cbn [beqb str]. change (as_ar (field_abe (np_of hash nh p) f) = Ok (Some t)). now rewrite E.
Qed.

(** Any other way to show a field is an error. *)
Theorem C79_refused b nh p cs name fm v tk k rest : packet_of hash b nh p -> pt_comps p cs -> In (name, fm, v) (fields_of_packet hash nh p cs) ->
  reads tk k -> ~ In k [[]; str "abe"; str "str"; str "bytes"] ->
  exists np l, view b = Ok np /\ parse_abe_strict (str "[" ++ name ++ str ":" ++ tk ++ str "]") = Ok l /\
    forall fuel, (2 <= fuel)%nat -> eval fuel (spair (scope_of np) rest) l = Err (FuncErr name).
Proof.
  intros PK CS I R NI. exists (np_of hash nh p). destruct (in_row b nh p cs name fm v PK CS I) as (f & F & _).
  destruct (lookup hash HL nh p recv now lossy flags public test name f F) as (NE & RN & LK).
  exists [ALst (ABytes name :: args_abe [k])]. split; [exact (view_packet hash b nh p HL PK)|]. split.
  - apply parse_denotes. assert (Forall2 reads [tk] [k]) as FR by (constructor; [exact R|constructor]).
    pose proof (call_denotes name name [tk] [k] NE RN FR) as D. change (args_text [tk]) with (58 :: tk ++ []) in D. rewrite app_nil_r in D. exact D.
  - intros [|[|fuel]] FU; try lia. rewrite eval_call by (vm_compute; discriminate). unfold call. cbn [tl]. rewrite LK by (vm_compute; discriminate).
    assert (field_fn (np_of hash nh p) flags f [k] = Err tt) as ->; [|reflexivity].
    unfold field_fn. destruct k as [|x k]; [exfalso; apply NI; now left|].
    destruct (beqb (x :: k) (str "abe")) eqn:E1; [apply beqb_eq in E1; exfalso; apply NI; rewrite E1; cbn; tauto|].
    destruct (beqb (x :: k) (str "str")) eqn:E2; [apply beqb_eq in E2; exfalso; apply NI; rewrite E2; cbn; tauto|].
    destruct (beqb (x :: k) (str "bytes")) eqn:E3; [apply beqb_eq in E3; exfalso; apply NI; rewrite E3; cbn; tauto|]. reflexivity.
Qed.

(** Reading a packet takes nothing away: what the core functions give stays the same. *)
Definition pkt_funcs np : list sfunc :=
  (field_funcs np flags ++ print_funcs np recv lossy public test) ++ (link_funcs np ++ recv_funcs recv now).
Lemma pkt_flat np : flat (scope_of np) (pkt_funcs np).
Proof. unfold pkt_scope, pkt_funcs. repeat (apply flat_pair; [| |vm_compute; reflexivity]); apply flat_escope. Qed.
Lemma func_hidden o np ctx id inp init v : sc_func (core_scope o) ctx id inp init = Ok (Some v) -> sc_func (scope_of np) ctx id inp init = Ok None.
Proof.
  rewrite (proj1 (core_flat o)), (proj1 (pkt_flat np)). cbn [escope sc_func]. unfold find_func. destruct (find _ (core_funcs o)) as [f|] eqn:F; [|discriminate]. intros _.
  rewrite (disjoint_find _ (core_funcs o) (pkt_funcs np) f id); [reflexivity|vm_compute; reflexivity| |exact F]. intros g. apply beqb_eq.
Qed.
Lemma macro_hidden o np ctx id l v : sc_macro (core_scope o) ctx id l = Ok (Some v) -> sc_macro (scope_of np) ctx id l = Ok None.
Proof.
  intros H. cbn [pkt_scope spair sc_macro escope find fst or_else]. destruct (beqb (str "links") id) eqn:E; [|reflexivity]. apply beqb_eq in E as <-. vm_compute in H. discriminate.
Qed.
Theorem C79_core o np : extends (core_scope o) (spair (scope_of np) (core_scope o)).
Proof.
  split; intros ctx id; intros; cbn [spair sc_func sc_macro].
  - rewrite (func_hidden o np ctx id inp init v) by assumption. assumption.
  - rewrite (macro_hidden o np ctx id l v) by assumption. assumption.
Qed.
Theorem C79_user o np argv s : user_scope o (Some (scope_of np)) argv = Some s -> extends (core_scope o) s /\ extends (scope_of np) s.
Proof.
  unfold user_scope. destruct (match argv with None => _ | Some _ => _ end) as [a|]; [|discriminate]. intros E. injection E as <-. split.
  - eapply extends_trans; [apply C79_core|apply extends_pair].
  - eapply extends_trans; [apply extends_pair|apply extends_pair].
Qed.

(** The stamp of receiving: [recv] takes the clock when there is none, [recv_now] fails. *)
Theorem C79_recv np rest v s : extends (scope_of np) s -> (forall ctx, sc_func rest ctx (str "recv_now") [] true = Ok None) ->
  evaluates s (str "[recv]") (be_encode 8 (match recv with Some t => t | None => now end)) /\
  (evaluates (spair (scope_of np) rest) (str "[recv_now]") v <-> exists t, recv = Some t /\ v = be_encode 8 t).
Proof.
  intros [X _] RE. assert (forall id f, id = str "recv" /\ f = eval_recv (match recv with Some t => t | None => now end) \/ id = str "recv_now" /\ f = (fun i => match recv with Some t => eval_recv t i | None => fails end) ->
    forall ctx, sc_func (spair (scope_of np) rest) ctx id [] true = or_else (f []) (sc_func rest ctx id [] true)) as L.
  { intros id f H ctx. cbn [spair sc_func]. rewrite (proj1 (pkt_flat np)). assert (find_func id (pkt_funcs np) = Some (init_fn id 0 1 f)) as E by (destruct H as [[-> ->]|[-> ->]]; reflexivity).
    rewrite (escope_some _ _ _ _ _ _ _ E); [reflexivity|now right|vm_compute; split; discriminate]. }
  split.
  - apply item_evaluates. apply (call_evaluates _ (str "recv") (str "recv") [] []); [discriminate|vm_compute; discriminate|apply name_reads; reflexivity|constructor|]. intros fuel. apply X. reflexivity.
  - rewrite (call_evaluates_iff _ (str "recv_now") (str "recv_now") [] [] v (match recv with Some t => eval_recv t [] | None => fails end));
      [|discriminate|vm_compute; discriminate|apply name_reads; reflexivity|constructor|intros ctx; rewrite (L _ _ (or_intror (conj eq_refl eq_refl))), RE; apply or_else_none].
    clear L. destruct recv as [t|].
    + split; [intros E; exists t; split; [reflexivity|]; apply ok_inj in E; congruence|]. intros (t' & E & ->). injection E as <-. reflexivity.
    + split; [discriminate|]. intros (t & E & _). discriminate.
Qed.

(** ** Links *)
Lemma link_lookup np id i rest ctx (f : list bytes -> ar) lo hi : (id = str "links" /\ f = links_fn np /\ lo = 0 /\ hi = 4) \/ (id = str "link" /\ f = link_fn np /\ lo = 1 /\ hi = 1) ->
  lo <= lenN i <= hi -> sc_func (spair (scope_of np) rest) ctx id i true = or_else (f i) (sc_func rest ctx id i true).
Proof.
  intros H L. cbn [spair sc_func]. rewrite (proj1 (pkt_flat np)).
  assert (find_func id (pkt_funcs np) = Some (init_fn id lo hi f)) as E by (destruct H as [(-> & -> & -> & ->)|(-> & -> & -> & ->)]; reflexivity).
  rewrite (escope_some _ _ _ _ _ _ _ E); [reflexivity|now right|exact L].
Qed.
(** [links] lists the links of a slice with a delimiter. *)
Theorem C79_links b nh p td d ts args start stop step : packet_of hash b nh p -> lenN args <= 3 -> reads td d -> Forall2 reads ts args ->
  index_arg (nth_error args 0) start -> index_arg (nth_error args 1) stop -> step_arg (nth_error args 2) step ->
  exists np ls texts r, view b = Ok np /\ list_slice (pt_links p) start stop step ls /\ Forall2 link_text ls texts /\ joined d texts r /\
    forall s, extends (scope_of np) s -> evaluates s (str "[links:" ++ td ++ args_text ts ++ str "]") r.
Proof.
  intros PK LA RD RT A1 A2 A3. exists (np_of hash nh p).
  destruct (picked_slice (pt_links p) args start stop step) as (ls & E & S); [|assumption..|].
  { destruct (data_len hash b nh p PK) as [_ L]. change (2 ^ 63) with 9223372036854775808. lia. }
  exists ls, (map link_display ls), (join d (map link_display ls)). split; [exact (view_packet hash b nh p HL PK)|]. split; [exact S|]. split; [|split; [apply join_joined|]].
  - assert (Forall (fun l => bytes_ok (fst l) /\ bytes_ok (snd l)) ls) as F.
    { destruct (pt_bytes hash b nh p PK) as (_ & _ & _ & _ & _ & _ & F). rewrite Forall_forall in F. apply Forall_forall. intros l I. apply F.
      apply In_nth_error in I as [k K]. specialize (S k). cbn zeta in S. rewrite K in S. destruct (_ || _); [|discriminate]. symmetry in S. now apply nth_error_In in S. }
    clear - F. induction F as [|l ls [A B] F IH]; cbn [map]; constructor; [now apply link_display_text|exact IH].
  - intros s [X _]. change (str "[links:" ++ td ++ args_text ts ++ str "]") with (91 :: str "links" ++ 58 :: td ++ args_text ts ++ [93]).
    replace (58 :: td ++ args_text ts ++ [93]) with (args_text (td :: ts) ++ [93]) by (change (args_text (td :: ts)) with (58 :: td ++ args_text ts); cbn; now rewrite <- app_assoc).
    apply item_evaluates, call_evaluates with (str "links") (d :: args); [discriminate|rewrite lenN_cons; lia|apply name_reads; reflexivity|now constructor|].
    intros fuel. apply X. pose proof (link_lookup (np_of hash nh p) (str "links") (d :: args) snone (ctx_of (Datatypes.S fuel) s) (links_fn (np_of hash nh p)) 0 4 ltac:(left; auto) ltac:(rewrite lenN_cons; lia)) as LK.
    cbn [spair sc_func snone] in LK. rewrite !or_else_none in LK. rewrite LK. unfold links_fn. rewrite get_links_pt, E. reflexivity.
Qed.
(** [link] gives the hash of the first link whose tag ends with the argument, and nothing else. *)
Theorem C79_link b nh p tx x rest v : packet_of hash b nh p -> reads tx x -> (forall ctx, sc_func rest ctx (str "link") [x] true = Ok None) ->
  exists np, view b = Ok np /\ (evaluates (spair (scope_of np) rest) (str "[link:" ++ tx ++ str "]") v <-> exists l, first_ending x (pt_links p) l /\ snd l = v).
Proof.
  intros PK RX RE. exists (np_of hash nh p). split; [exact (view_packet hash b nh p HL PK)|].
  change (str "[link:" ++ tx ++ str "]") with (91 :: str "link" ++ (58 :: tx ++ [93])). replace (58 :: tx ++ [93]) with (args_text [tx] ++ [93]) by (change (args_text [tx]) with (58 :: tx ++ []); now rewrite app_nil_r).
  assert (forall ctx, sc_func (spair (scope_of (np_of hash nh p)) rest) ctx (str "link") [x] true = link_fn (np_of hash nh p) [x]) as LK.
  { intros ctx. rewrite (link_lookup _ _ _ _ _ (link_fn (np_of hash nh p)) 1 1); [rewrite RE; apply or_else_none|right; auto|vm_compute; split; discriminate]. }
  rewrite (call_evaluates_iff _ (str "link") (str "link") [tx] [x] v (link_fn (np_of hash nh p) [x])); [|discriminate|vm_compute; discriminate|apply name_reads; reflexivity|constructor; [exact RX|constructor]|exact LK].
  unfold link_fn. rewrite get_links_pt. change (arg 0 [x]) with x.
  assert (Forall (fun l : Link => lenN (fst l) = 16) (pt_links p)) as F16.
  { destruct PK as (_ & _ & (_ & H) & _). assert (forall ls, Forall link_ok ls -> Forall (fun l : Link => lenN (fst l) = 16) ls) as G by (intros ls G; eapply Forall_impl; [|exact G]; now intros l [A _]).
    destruct p; cbn [pt_links]; try constructor; apply G; tauto. }
  pose proof (first_iff (pt_links p) x F16) as FI. destruct (first_tailmask (pt_links p) x) as [l|]; cbn [option_map of_opt].
  - split.
    + intros E. unfold val in E. injection E as <-. now exists l.
    + intros (k & K & <-). destruct FI as (a & c & E & Y & Z), K as (a' & c' & E' & Y' & Z'). assert (l = k) as ->; [|reflexivity].
      rewrite E in E'. clear - E' Y Y' Z Z'. revert a' Z' E'. induction a as [|h a IH]; intros [|h' a'] Z' E'; cbn [app] in E'; injection E' as E1 E2; subst.
      * reflexivity.
      * inversion Z'; subst. contradiction.
      * inversion Z; subst. contradiction.
      * inversion Z; inversion Z'; subst. eapply IH; eauto.
  - split; [discriminate|]. intros (k & K & _). now apply FI in K.
Qed.
(** The macro evaluates its expression once for every link, and joins what comes out. *)
Theorem C79_each b nh p e vs : packet_of hash b nh p -> (exists l, parse_abe_strict e = Ok l) ->
  exists np, view b = Ok np /\ forall s, extends (scope_of np) s ->
    (each s e 0 (pt_links p) vs -> evaluates s (str "[/links:" ++ e ++ str "]") (List.concat vs)).
Proof.
  intros PK [l P]. exists (np_of hash nh p). split; [exact (view_packet hash b nh p HL PK)|]. intros s [_ X] E.
  change (str "[/links:" ++ e ++ str "]") with (91 :: 47 :: str "links" ++ (58 :: e) ++ [93]).
  apply item_evaluates, macro_item with (ACtr CColon :: l); [discriminate|apply name_reads; reflexivity|apply (denotes_ctr CColon); now apply parse_denotes|exact Logic.I|].
  destruct (each_loop s e l (pt_links p) P 0 vs E) as [n H]. exists n. intros fuel FU.
  apply X. assert (sc_macro (scope_of (np_of hash nh p)) (ctx_of fuel s) (str "links") (ACtr CColon :: l) = links_macro (np_of hash nh p) (ctx_of fuel s) (ACtr CColon :: l)) as ->.
  { cbn [spair sc_macro pkt_scope escope find fst snd or_else]. change (beqb (str "links") (str "links")) with true. cbn iota. now rewrite or_else_none. }
  unfold links_macro. rewrite get_links_pt, H by exact FU. reflexivity.
Qed.
End C79.
(** What the expression of the macro can use: the hash, the tag and the index of the link, and all that can be used outside. *)
Theorem C79_env n l s : bytes_ok (fst l) -> bytes_ok (snd l) -> lenN (fst l) = 16 -> n < 65536 -> let r := link_scope n l s in
  (forall name fm v, In (name, fm, v) [(str "ptr", AsCode, snd l); (str "tag", AsDomain, fst l); (str "i", AsNumber, be_encode 2 n)] ->
    evaluates r (str "[" ++ name ++ str "]") v /\
    (exists t, evaluates r (str "[" ++ name ++ str ":str]") t /\ text_of fm v t) /\
    (exists t, evaluates r (str "[" ++ name ++ str ":abe]") t /\ forall o s', extends (core_scope o) s' -> evaluates s' t v)) /\
  (forall id, ~ In id [str "ptr"; str "tag"; str "i"] -> forall ctx i init, sc_func r ctx id i init = sc_func s ctx id i init) /\
  (forall ctx id k, sc_macro r ctx id k = sc_macro s ctx id k).
Proof.
  intros B1 B2 L1 L2 r. split; [|split].
  - intros name fm v I.
    assert (forall ts bs v, lenN bs <= 1 -> Forall2 reads ts bs -> link_env n l name bs true = Ok (Some v) -> evaluates r (91 :: name ++ args_text ts ++ [93]) v) as G.
    { intros ts bs x L R E. apply item_evaluates, call_evaluates with name bs; [destruct I as [I|[I|[I|[]]]]; injection I as <- _ _; discriminate|lia|destruct I as [I|[I|[I|[]]]]; injection I as <- _ _; apply name_reads; reflexivity|exact R|].
      intros fuel. unfold r, link_scope. cbn [spair sc_func sfuncs]. now rewrite E. }
    match goal with |- ?P => assert (forall x y z, link_env n l name [] true = Ok (Some x) -> link_env n l name [str "str"] true = Ok (Some y) -> link_env n l name [str "abe"] true = Ok (Some z) ->
      text_of fm x y -> (forall o s', extends (core_scope o) s' -> evaluates s' z x) -> v = x -> P) as K end; [|].
    2: { destruct I as [I|[I|[I|[]]]]; injection I as <- <- E; symmetry in E.
      - eapply K; [reflexivity..| | |exact E]; [now apply C44_b64_print|]. intros o s' X. now apply (C43_b64_str o).
      - eapply K; [reflexivity..| | |exact E]; [|intros o s' X; apply (C43_ab_str o); [assumption..|rewrite L1; reflexivity]].
        exists (cut_prefix_nulls (fst l)). split; [apply cut_trimmed|]. apply abtxt_reads. destruct (cut_trimmed 0 (fst l)) as [[k E'] _]. rewrite E' in B1. unfold cut_prefix_nulls. now apply Forall_app in B1.
      - assert (n mod 65536 = n) as M by (apply N.mod_small; exact L2). eapply K with (x := be_encode 2 n); [unfold link_env; rewrite M; reflexivity..| | |exact E]; [apply to_string_canonical|].
        intros o s' X. apply (uint_abe_evaluates o); [exact X|cbn; tauto|apply be_encode_ok|apply lenN_be_encode]. }
    intros x y z X Y Z T A ->. split; [|split].
    + apply (G [] []); [vm_compute; discriminate|constructor|exact X].
    + exists y. split; [|exact T]. apply (G [str "str"] [str "str"]); [vm_compute; discriminate|constructor; [apply name_reads; reflexivity|constructor]|exact Y].
    + exists z. split; [|exact A]. apply (G [str "abe"] [str "abe"]); [vm_compute; discriminate|constructor; [apply name_reads; reflexivity|constructor]|exact Z].
  - intros id NI ctx i init. unfold r, link_scope. cbn [spair sc_func sfuncs]. unfold link_env.
    destruct (beqb id (str "ptr")) eqn:E1; [apply beqb_eq in E1; exfalso; apply NI; rewrite E1; cbn; tauto|].
    destruct (beqb id (str "tag")) eqn:E2; [apply beqb_eq in E2; exfalso; apply NI; rewrite E2; cbn; tauto|].
    destruct (beqb id (str "i")) eqn:E3; [apply beqb_eq in E3; exfalso; apply NI; rewrite E3; cbn; tauto|]. reflexivity.
  - reflexivity.
Qed.
(** The arguments are numbered from 0; more than eight are refused, and reading one that is not there is an error. *)
Theorem C79_args o pkt l : (pkt = None \/ exists np recv now flags lossy public test, pkt = Some (pkt_scope np recv now flags lossy public test)) ->
  (user_scope o pkt (Some l) = None <-> (8 < List.length l)%nat) /\
  forall s, user_scope o pkt (Some l) = Some s -> forall i, (i < 8)%nat ->
    match nth_error l i with
    | Some v => evaluates s (str "[" ++ to_string (N.of_nat i) ++ str "]") v
    | None => forall v, ~ evaluates s (str "[" ++ to_string (N.of_nat i) ++ str "]") v
    end.
Proof.
  intros HP. unfold user_scope, argv_fit. destruct (N.ltb_spec 8 (lenN l)) as [G|G]; cbn [option_map].
  - split; [split; [unfold lenN in G; lia|reflexivity]|discriminate].
  - split; [split; [discriminate|unfold lenN in G; lia]|]. intros s E i I. injection E as <-.
    set (s := spair _ _). pose (n := to_string (N.of_nat i)).
    assert (forall ctx, sc_func s ctx n [] true = of_opt (nth_error l i)) as F.
    { intros ctx. unfold s. cbn [spair sc_func]. assert (sc_func (match pkt with Some t => t | None => snone end) ctx n [] true = Ok None) as ->.
      { destruct HP as [->|(np & recv & now & flags & lossy & public & test & ->)]; [reflexivity|]. rewrite (proj1 (pkt_flat recv now flags lossy public test np)). unfold n. do 8 (destruct i as [|i]; [reflexivity|]). lia. }
      assert (sc_func (core_scope o) ctx n [] true = Ok None) as ->.
      { rewrite (proj1 (core_flat o)). unfold n. do 8 (destruct i as [|i]; [reflexivity|]). lia. }
      cbn [or_else]. unfold n. do 8 (destruct i as [|i]; [reflexivity|]). lia. }
    assert (n <> []) as NE by apply to_string_ne. assert (reads n n) as RN by apply to_string_reads.
    pose proof (fun v => call_evaluates_iff s n n [] [] v (of_opt (nth_error l i)) NE ltac:(vm_compute; discriminate) RN ltac:(constructor) F) as IFF.
    change (91 :: n ++ args_text [] ++ [93]) with (str "[" ++ n ++ str "]") in IFF.
    destruct (nth_error l i) as [v|]; [now apply IFF|]. intros v E. now apply IFF in E.
Qed.

(** ** Examples *)
Definition ex_tag (t : bytes) : bytes := repeat 0 (16 - List.length t) ++ t.
Definition ex_point : point := PLink ex_group ex_domain 1000 [(ex_tag (str "a:b"), repeat 7 32); (ex_tag (str "next"), repeat 8 32)] (wire_rooted [str "hello"; [0; 255]]) (str "some [data]").
Definition ex_bytes : bytes := packet toy_hash ex_nh ex_point.
Definition ex_np : NetPktParts := np_of toy_hash ex_nh ex_point.
Definition ex_scope : scope := spair (spair (pkt_scope ex_np (Some 5) 9 (fun _ => []) (fun b => b) (repeat 1 32) (repeat 2 32)) (core_scope o1)) snone.
Definition shows (t v : bytes) : Prop := exists l abl, parse_abe_strict t = Ok l /\ eval 6 ex_scope l = Ok abl /\ as_exact_bytes abl = Some v.
Ltac show := do 2 eexists; split; [vm_compute; reflexivity|split; vm_compute; reflexivity].
Lemma ex_packet : packet_of toy_hash ex_bytes ex_nh ex_point.
Proof.
  split; [reflexivity|]. split; [reflexivity|]. split; [|apply bytes_okb; vm_compute; reflexivity].
  split; [vm_compute; discriminate|]. split; [reflexivity|]. split; [reflexivity|]. split; [reflexivity|]. split; [repeat constructor|].
  right. exists 2, [str "hello"; [0; 255]]. split; [split; [repeat constructor; vm_compute; discriminate|vm_compute; discriminate]|]. split; [vm_compute; lia|]. split; reflexivity.
Qed.
Lemma ex_comps : pt_comps ex_point [str "hello"; [0; 255]].
Proof. split; [split; [repeat constructor; vm_compute; discriminate|vm_compute; discriminate]|]. split; [vm_compute; lia|]. right. exists 2. reflexivity. Qed.
Example C79_ex : packet_of toy_hash ex_bytes ex_nh ex_point /\ pt_comps ex_point [str "hello"; [0; 255]] /\ view ex_bytes = Ok ex_np /\
  shows (str "[group:str] [comp0] [depth:str]") (str "BQUFBQUFBQUFBQUFBQUFBQUFBQUFBQUFBQUFBQUFBQU hello 2") /\ shows (str "[data:str] [data:abe] [comp1:str]") (str "some \[data\] [:some \[data\]] \0\f") /\
  shows (str "[create:abe] [type:str] [type:abe] [spacename:str]") (str "[u64:1000] LinkPoint [b2:00000011] /hello/\0\f") /\
  shows (str "[signature:str/slice:80] [size:str]") (str "AAAAAA 256").
Proof. split; [apply ex_packet|]. split; [apply ex_comps|]. split; [vm_compute; reflexivity|]. repeat (split; [show|]). show. Qed.
Example C79_links_ex : shows (str "[links:,:-1]|[link:xt/?b]|[/links:[i:str]=[tag:str],[ptr:str/slice:40] [create:str];]")
  (str "\0\0\0\0\0\0\0\0\0\0\0\0next:CAgICAgICAgICAgICAgICAgICAgICAgICAgICAgICAg|CAgICAgICAgICAgICAgICAgICAgICAgICAgICAgICAg|0=a\:b,Bwc 1000;1=next,CAg 1000;") /\
  index_arg (Some (str "-1")) (Some (-1)%Z) /\ first_ending (str "xt") (pt_links ex_point) (ex_tag (str "next"), repeat 8 32) /\
  each ex_scope (str "[i:str]") 0 (pt_links ex_point) [str "0"; str "1"].
Proof.
  split; [show|]. split.
  { exists (-1)%Z. split; [reflexivity|]. split; [|split; [reflexivity|discriminate]]. right. exists (str "1"), 1. split; [reflexivity|]. split; [left; exact (proj1 (to_string_canonical 1))|reflexivity]. }
  split.
  - exists [(ex_tag (str "a:b"), repeat 7 32)], []. split; [reflexivity|]. split; [exists (repeat 0 12 ++ str "ne"); reflexivity|]. constructor; [|constructor].
    intros [y E]. apply (f_equal (fun l => nth 0 (rev l) 0)) in E. cbn [fst] in E. rewrite rev_app_distr in E. vm_compute in E. discriminate.
  - split; [|split; [|exact Logic.I]]; apply item_evaluates; apply (call_evaluates _ (str "i") (str "i") [str "str"] [str "str"]);
      try discriminate; try (apply name_reads; reflexivity); try (constructor; [apply name_reads; reflexivity|constructor]); try (vm_compute; discriminate); intros fuel; reflexivity.
Qed.
Example C79_refused_ex : reads (str "hex") (str "hex") /\ ~ In (str "hex") [[]; str "abe"; str "str"; str "bytes"] /\
  exists l, parse_abe_strict (str "[hash:hex]") = Ok l /\ eval 6 ex_scope l = Err (FuncErr (str "hash")).
Proof. split; [apply name_reads; reflexivity|]. split; [cbn; intuition discriminate|]. eexists. split; [vm_compute; reflexivity|]. vm_compute. reflexivity. Qed.
Example C79_args_ex : exists s, user_scope o1 None (Some [str "x"; str "y"]) = Some s /\ exists l abl, parse_abe_strict (str "[1]-[0]") = Ok l /\ eval 6 s l = Ok abl /\ as_exact_bytes abl = Some (str "y-x").
Proof. eexists. split; [reflexivity|]. do 2 eexists. split; [vm_compute; reflexivity|]. split; [vm_compute; reflexivity|]. reflexivity. Qed.

Example C79_recv_ex : shows (str "[recv:str] [recv_now:str] [recv:abe]") (str "5 5 [u64:5]").
Proof. show. Qed.

(** The expression of a space is not one for its bytes; the one for the rooted form is that of the plain space. *)
Theorem C79_space_refuted : exists t l, shows (str "[spacename:abe]") t /\ shows (str "[rspacename:abe]") t /\ In (str "rspacename", AsSpace, wire_rooted [str "hello"; [0; 255]]) (fields_of_packet toy_hash ex_nh ex_point [str "hello"; [0; 255]]) /\
  parse_abe_strict t = Ok l /\ forall s fuel, exists abl, eval (S fuel) s l = Ok abl /\ as_exact_bytes abl = None /\ space_from_ablist abl = Ok (wire_space [str "hello"; [0; 255]]).
Proof.
  exists (str "/hello/\0\f"), [ACtr CFSlash; ABytes (str "hello"); ACtr CFSlash; ABytes [0; 255]]. split; [show|]. split; [show|]. split; [unfold fields_of_packet; do 19 (apply in_cons); left; reflexivity|].
  split; [vm_compute; reflexivity|]. intros s fuel. eexists. split; [reflexivity|]. split; vm_compute; reflexivity.
Qed.

Print Assumptions C79_components.
Print Assumptions C79_field.
Print Assumptions C79_text.
Print Assumptions C79_expression.
Print Assumptions C79_refused.
Print Assumptions C79_core.
Print Assumptions C79_user.
Print Assumptions C79_recv.
Print Assumptions C79_links.
Print Assumptions C79_link.
Print Assumptions C79_each.
Print Assumptions C79_env.
Print Assumptions C79_args.
Print Assumptions C79_space_refuted.
