(** C81: the queries of the command line. *)
From Coq Require Import Lia.
From Verif Require Import Bytes ModelAbe SpecAbe ProofAbe ProofAbe2 PropsAbe ModelFmt PropsFmt ModelEval ModelFn SpecEval ProofEval ProofEval2 ProofEval3 PropsEval.
From Verif Require Import PropsPkt.
From Verif Require Import ModelSpace SpecSpace ProofSpace ProofRooted ProofTree SpecPkt ModelTestSet SpecTestSet ProofTestSet ModelPred SpecPred ProofPred PropsPred.
From Verif Require Import ModelQuery ModelQText SpecQText ProofQText ProofQText2 ProofQText3 ProofQText4 ProofQText5 ProofQText6 ProofFmt PropsQText ModelStamp SpecStamp ProofStamp PropsStamp ProofQText7.
From Verif Require Import ModelCliQuery SpecCliQuery ProofCliQuery ProofCliQuery2 ProofCliQuery3 ProofCliQuery4.

Lemma padded_decode n (dv : bytes) : be_decode (repeat 0 n ++ dv) = be_decode dv.
Proof. rewrite be_decode_app2, decode_0. lia. Qed.
Lemma wire_nonempty cs : cs <> [] -> wire_space cs <> [].
Proof. destruct cs; [contradiction|discriminate]. Qed.
Lemma dgs_sat hash b nh p recv dv D G cs k : packet_of hash b nh p ->
  (0 < List.length dv <= 16)%nat -> bytes_ok dv -> D = repeat 0 (16 - List.length dv) ++ dv -> List.length G = 32%nat -> bytes_ok G -> space_ok cs ->
  (Forall (c_sat hash recv nh p) (dgs_stmts dv G cs k) <->
   point_domain p = Some D /\ point_group p = Some G /\
   exists rs more, point_rspace p = Some rs /\ has_space rs (cs ++ more) /\ N.of_nat (List.length cs) <= declared_depth rs /\
     (k < 8 -> declared_depth rs <= N.min 8 (N.of_nat (List.length cs) + k))).
Proof.
  intros PK LV OV ED LG OG SK. pose proof PK as (_ & _ & PO & _). destruct (packet_bytes _ _ _ _ PK) as (_ & _ & Bc). pose proof (content_bytes p Bc) as CB.
  assert (LD : List.length D = 16%nat) by (rewrite ED, app_length, repeat_length; lia).
  assert (OD : bytes_ok D) by (rewrite ED; apply bytes_ok_app; split; [apply bytes_ok_repeat; lia|exact OV]).
  assert (ID : forall d, lenN d = 16 -> bytes_ok d -> (be_decode d = be_decode dv <-> d = D)).
  { intros d L O. rewrite <- (padded_decode (16 - List.length dv) dv), <- ED. split; [|congruence]. intros E. apply be_decode_inj; [unfold lenN in L; lia|exact O|exact OD|exact E]. }
  assert (IG : forall g, lenN g = 32 -> bytes_ok g -> (be_decode g = be_decode G <-> g = G)).
  { intros g L O. split; [|congruence]. intros E. apply be_decode_inj; [unfold lenN in L; lia|exact O|exact OG|exact E]. }
  assert (LINK : forall g d rs, lenN g = 32 -> lenN d = 16 -> bytes_ok g -> bytes_ok d -> rooted_ok rs ->
    num_field hash DomainF nh p = Some (be_decode d) -> num_field hash GroupIDF nh p = Some (be_decode g) -> num_field hash DepthF nh p = Some (declared_depth rs) ->
    point_domain p = Some d -> point_group p = Some g -> point_rspace p = Some rs ->
    (Forall (c_sat hash recv nh p) (dgs_stmts dv G cs k) <-> point_domain p = Some D /\ point_group p = Some G /\
      exists rs more, point_rspace p = Some rs /\ has_space rs (cs ++ more) /\ N.of_nat (List.length cs) <= declared_depth rs /\ (k < 8 -> declared_depth rs <= N.min 8 (N.of_nat (List.length cs) + k)))).
  { intros g d rs Lg Ld Og Od RO FD FG FE PD PG PR. rewrite PD, PG, PR. unfold dgs_stmts. rewrite !Forall_app, !Forall_cons_iff. cbn [c_sat stmt_sat]. rewrite FD, FG. cbn [ext_holds holds].
    assert (EQ : forall (x y : N), (exists z, Some x = Some z /\ z = y) <-> x = y). { intros x y. split; [intros (z & E & <-); congruence|intros ->; eauto]. }
    rewrite !EQ, (ID d Ld Od), (IG g Lg Og).
    assert (DS : Forall (c_sat hash recv nh p) (depth_stmts cs k) <-> (k < 8 -> declared_depth rs <= N.min 8 (N.of_nat (List.length cs) + k))).
    { unfold depth_stmts. destruct (N.ltb_spec k 8) as [K|K]; [|split; [intros _ Q; lia|constructor]]. rewrite Forall_cons_iff. cbn [c_sat stmt_sat]. rewrite FE. cbn [ext_holds holds be_decode]. split.
      - intros [(z & E & H) _] _. injection E as <-. cbn in H. lia.
      - intros H. split; [|constructor]. eexists. split; [reflexivity|]. specialize (H K). cbn. lia. }
    rewrite DS.
    assert (PS : Forall (c_sat hash recv nh p) (prefix_stmts cs) <-> exists more, has_space rs (cs ++ more) /\ N.of_nat (List.length cs) <= declared_depth rs).
    { destruct cs as [|c cs]; cbn [prefix_stmts].
      - split; [|constructor]. intros _. destruct (rooted_has_space rs RO) as (m & HS & _). exists m. split; [exact HS|]. apply N.le_0_l.
      - rewrite Forall_cons_iff. cbn [c_sat satisfies p_kind p_val]. rewrite PR. split.
        + intros [[E|(rs' & cs' & more & E & HS & W & L)] _]; [discriminate E|]. injection E as <-. apply wire_space_inj in W; [subst cs'; eauto|apply SK|]. destruct HS as [[F _] _]. now apply Forall_app in F as [F _].
        + intros (more & HS & L). split; [|constructor]. right. exists rs, (c :: cs), more. auto. }
    rewrite PS. split.
    - intros ((-> & -> & _) & (more & HS & L) & DL). split; [reflexivity|]. split; [reflexivity|]. exists rs, more. auto.
    - intros (E1 & E2 & rs' & more & E3 & HS & L & DL). injection E1 as ->. injection E2 as ->. injection E3 as <-. split; [auto|]. split; [eauto|exact DL]. }
  destruct p as [d|d|g dm c ls rs d|g dm c ls rs d pk sg].
  1,2: cbn [point_domain]; split; [intros F; apply Forall_inv in F; destruct F as (x & E & _); discriminate E|intros (E & _); discriminate E].
  - destruct PO as (_ & L1 & L2 & _ & _ & RO). destruct CB as (B1 & B2 & _). exact (LINK g dm rs L1 L2 B1 B2 RO eq_refl eq_refl eq_refl eq_refl eq_refl eq_refl).
  - destruct PO as (_ & L1 & L2 & _ & _ & RO & _). destruct CB as (B1 & B2 & _). exact (LINK g dm rs L1 L2 B1 B2 RO eq_refl eq_refl eq_refl eq_refl eq_refl eq_refl).
Qed.
Lemma all_sat hash b nh p recv dv r : packet_of hash b nh p -> written dv r -> match r_until r with Some u => u <= last_stamp | None => True end ->
  (Forall (c_sat hash recv nh p) (all_stmts dv r) <-> wanted hash recv nh p r).
Proof.
  intros PK W U. unfold all_stmts, wanted. rewrite !Forall_app, Forall_map.
  assert (A : Forall (c_sat hash recv nh p) match r_dgs r with Some (_, G, cs, k) => dgs_stmts dv G cs k | None => [] end <->
    match r_dgs r with
    | None => True
    | Some (D, G, cs, k) => point_domain p = Some D /\ point_group p = Some G /\
      exists rs more, point_rspace p = Some rs /\ has_space rs (cs ++ more) /\ N.of_nat (List.length cs) <= declared_depth rs /\
        (k < 8 -> declared_depth rs <= N.min 8 (N.of_nat (List.length cs) + k))
    end).
  { unfold written in W. destruct (r_dgs r) as [[[[D G] cs] k]|]; [|split; [trivial|constructor]]. destruct W as (L & B & ED & LG & BG & SK & _). now apply (dgs_sat hash b). }
  rewrite A. clear A W.
  assert (B : Forall (c_sat hash recv nh p) (alias_stmts r) <-> match r_until r with None => True | Some u => recv < u end /\
    (r_signed r = true -> match p with PKey _ _ _ _ _ _ _ _ => True | _ => False end) /\ (r_unsigned r = true -> match p with PData _ | PLink _ _ _ _ _ _ => True | _ => False end)).
  { unfold alias_stmts. rewrite !Forall_app, !opt_all, !flag_all.
    assert (T0 : match r_qid r with Some a => c_sat hash recv nh p (COpt [(Some CColon, str "qid"); (Some CColon, a)]) | None => True end) by (destruct (r_qid r); exact Logic.I).
    assert (T1 : forall q, match r_max r q with Some a => c_sat hash recv nh p (limit_stmt q a) | None => True end) by (intros q; destruct (r_max r q); exact Logic.I).
    assert (T2 : match r_until r with Some a => c_sat hash recv nh p (CNum (RRecv, Op Less, be_encode 8 a)) | None => True end <-> match r_until r with None => True | Some u => recv < u end).
    { destruct (r_until r) as [u|]; [|tauto]. cbn [c_sat stmt_sat ext_holds holds]. rewrite be_decode_encode by (unfold last_stamp in U; change (256 ^ N.of_nat 8) with (2 ^ 64); lia). reflexivity. }
    assert (T3 : c_sat hash recv nh p (CNum (RField PktTypeF, Op Mask1, [4])) <-> match p with PKey _ _ _ _ _ _ _ _ => True | _ => False end).
    { cbn [c_sat stmt_sat ext_holds]. change (be_decode [4]) with 4. split.
      - intros (x & E & H). apply mask1_land in H. destruct p; cbn [num_field type_byte] in E; try discriminate; injection E as <-; try discriminate H; exact Logic.I.
      - intros H. destruct p; try contradiction. exists 7. split; [reflexivity|]. apply mask1_land. reflexivity. }
    assert (T4 : c_sat hash recv nh p (CNum (RField PktTypeF, Op Mask0, [251])) <-> match p with PData _ | PLink _ _ _ _ _ _ => True | _ => False end).
    { cbn [c_sat stmt_sat ext_holds]. change (be_decode [251]) with 251. split.
      - intros (x & E & H). apply mask0_land in H. destruct p; cbn [num_field type_byte] in E; try discriminate; injection E as <-; try discriminate H; exact Logic.I.
      - intros H. destruct p; try contradiction; [exists 1|exists 3]; (split; [reflexivity|]; apply mask0_land; reflexivity). }
    rewrite T2, T3, T4. split.
    - intros (_ & X & _ & Y & Z & _). auto.
    - intros (X & Y & Z). split; [exact T0|]. split; [exact X|]. split; [intros _; exact Logic.I|]. split; [exact Y|]. split; [exact Z|].
      repeat (split; [apply T1|]). split; intros _; exact Logic.I. }
  rewrite B. tauto.
Qed.
Lemma all_conf dv r : flat_map c_conf (all_stmts dv r) = opt_list (fun v => [(Some CColon, str "qid"); (Some CColon, v)]) (r_qid r) ++ flag (r_follow r) [(Some CColon, str "follow")].
Proof.
  unfold all_stmts, alias_stmts. rewrite !flat_map_app.
  assert (flat_map c_conf match r_dgs r with Some (_, G, cs, k) => dgs_stmts dv G cs k | None => [] end = []) as ->.
  { destruct (r_dgs r) as [[[[D G] cs] k]|]; [|reflexivity]. unfold dgs_stmts, prefix_stmts, depth_stmts. destruct cs, (k <? 8); reflexivity. }
  assert (flat_map c_conf (map CNum (r_stmts r)) = []) as -> by (induction (r_stmts r); [reflexivity|assumption]).
  destruct (r_qid r), (r_until r), (r_follow r), (r_signed r), (r_unsigned r), (r_max r QQuery), (r_max r QNew), (r_max r QIndex), (r_max r QBranch), (r_never r QNew), (r_never r QIndex); reflexivity.
Qed.

Lemma set_option q name v : get_option (add_option q name [v]) name = Ok (Some (Some v)) /\ forall n, n <> name -> get_option (add_option q name [v]) n = get_option q n.
Proof. destruct (C62_option q name v) as (q' & E & A & _ & B). apply ok_inj in E. subst q'. auto. Qed.

(** The argument domain:group:space:depth is read. *)
Theorem C81_argument o s dom grp t D G cs k : extends (core_scope o) s -> bytes_ok dom -> lenN dom = 16 -> bytes_ok grp -> lenN grp = 32 ->
  dgs_text s dom grp t (D, G, cs, k) -> exists e, parse_dgpd dom grp t = Ok (e, k).
Proof. intros X OD LD OG LG T. destruct (dgs_gives o s dom grp t D G cs k X OD LD OG LG T) as (e & _ & _ & E & _). eauto. Qed.
Print Assumptions C81_argument.
(** The query of the arguments accepts the packets and the positions asked for and has the name and the mode asked for.
    There is no query only if no packet or no position is asked for. *)
Theorem C81_query hash o s dom grp now c r m : hash32 hash -> extends (core_scope o) s -> bytes_ok dom -> lenN dom = 16 -> bytes_ok grp -> lenN grp = 32 ->
  asks s dom grp now c r -> exists n, forall fuel, (n <= fuel)%nat ->
  match into_query fuel s now m c with
  | Ok q =>
      (forall b nh p recv, packet_of hash b nh p -> recv < 2 ^ 64 -> (passes (q_preds q) b recv <-> wanted hash recv nh p r)) /\
      (forall sc k, k < 2 ^ 32 -> (test 32 (p_limits (q_preds q) sc) k = true <-> in_limits r sc k)) /\
      get_option q (str "qid") = Ok (match r_qid r with Some v => Some (Some v) | None => None end) /\
      get_mode q = Ok (match m with Some x => x | None => TREE_DESC end)
  | Err _ => forall b nh p recv, packet_of hash b nh p -> recv < 2 ^ 64 ->
             ~ wanted hash recv nh p r \/ nowhere r QQuery \/ nowhere r QNew /\ (nowhere r QIndex \/ nowhere r QBranch)
  | _ => False
  end.
Proof.
  intros HL X OD LD OG LG A. destruct (statements_give o s dom grp now c r X OD LD OG LG A) as (es & dv & IS & F & W).
  pose proof A as (_ & UA & _ & _ & _ & _ & _ & _ & _ & MX & N1 & _ & _ & N4 & _ & SO & _).
  assert (U : match r_until r with Some u => u <= last_stamp | None => True end). { destruct (r_until r) as [u|]; [|exact Logic.I]. destruct (a_until (c_aliases c)); [|contradiction]. now destruct UA as (d & _ & _ & _ & H). }
  pose proof (all_ok dv r W SO) as OK. destruct (statements s es _ F OK) as [n E]. destruct (preds_ok _ OK) as [PO NS]. exists n. intros fuel FU.
  unfold into_query, opts_query. rewrite IS. cbn [obind]. rewrite (E fuel FU). unfold built. change (q_preds q_default) with preds_default. change (q_conf q_default ++ flat_map c_conf (all_stmts dv r)) with (flat_map c_conf (all_stmts dv r)).
  rewrite all_conf. pose proof (C60_total _ PO) as (ot & AT & TT). destruct (add_all preds_default (flat_map c_preds (all_stmts dv r))) as [P|e| |] eqn:AD; subst ot; try contradiction; cbn [obind].
  - set (q := mkQ P _). assert (query_mode q = Ok None) as -> by (unfold q; destruct (r_qid r), (r_follow r); reflexivity). cbn [orb]. cbn [add_option q_preds].
    split; [|split; [|split]].
    + intros b nh p recv PK R. unfold q. cbn [q_preds]. rewrite (C60_accepts_exactly hash _ P b nh p recv HL PO AD PK R NS), (preds_sat hash b nh p recv _ HL PK R OK). now apply (all_sat hash b).
    + intros sc k K. unfold q. cbn [q_preds]. rewrite (C60_limits _ P sc k PO AD K), (preds_pos sc k _ K OK). now apply all_pos.
    + unfold q. destruct (r_qid r), (r_follow r); reflexivity.
    + unfold q. destruct m as [[[] []]|], (r_qid r), (r_follow r); reflexivity.
  - assert (NP : forall q, no_positions (flat_map c_preds (all_stmts dv r)) q -> nowhere r q). { intros q H k K L. apply (H k K). apply (preds_pos q k _ K OK). now apply all_pos. }
    intros b nh p recv PK R. destruct (C60_refused_is_empty hash _ e b nh p recv HL PO AD PK R) as [H|H].
    + left. intros Q. apply H. apply (preds_sat hash b nh p recv _ HL PK R OK). now apply (all_sat hash b).
    + right. destruct H as [H|[H [H'|H']]]; auto.
Qed.
Print Assumptions C81_query.
(** Whatever the arguments are, the query runs in the mode of --mode. *)
Theorem C81_mode fuel s now m c q : into_query fuel s now (Some m) c = Ok q -> get_mode q = Ok m.
Proof.
  unfold into_query. destruct (opts_query fuel s now c) as [q0|e| |]; try discriminate. cbn [obind]. destruct (query_mode q0) as [im|e| |] eqn:E; try discriminate.
  intros H. apply ok_inj in H. subst q. destruct im as [m'|].
  - cbn [orb mode_eqb]. destruct (beqb (mode_text m') (mode_text m)) eqn:B; cbn [negb].
    + apply beqb_eq in B. unfold get_mode. rewrite E. cbn [obind]. destruct m as [[] []], m' as [[] []]; try reflexivity; discriminate B.
    + unfold get_mode, query_mode. rewrite (proj1 (set_option q0 (str "mode") (mode_text m))). destruct m as [[] []]; reflexivity.
  - cbn [orb]. unfold get_mode, query_mode. rewrite (proj1 (set_option q0 (str "mode") (mode_text m))). destruct m as [[] []]; reflexivity.
Qed.
Print Assumptions C81_mode.
(** Points tagged test, in the default group, in the space /a/b or one component deeper, signed, received within a minute, at most five,
    only stored ones, created after the stamp 7. *)
Definition ex_arg : bytes := str "test::/a/[u8:98]:*".
Definition ex_alias (d n : bool) : Aliases := mkAliases d n (Some 5) None None None true false false (Some [ABytes (str "mine")]) true (Some (str "1m")).
Definition ex_expr : list ABE := [ABytes (str "create"); ACtr CColon; ABytes (str ">"); ACtr CColon; ALst [ABytes (str "u64"); ACtr CColon; ABytes (str "7")]].
Definition ex_scope : scope := core_scope o1.
Definition ex_cli : CliOpts := mkCli (match parse_dgpd ex_domain ex_group ex_arg with Ok e => Some e | _ => None end) (ex_alias true false) [ex_expr].
Definition ex_request : request :=
  mkReq (Some (ex_domain, ex_group, [str "a"; str "b"], 1)) (Some (5000 + 60 * 1000000)) true false (fun q => match q with QQuery => Some 5 | _ => None end)
    (fun q => match q with QNew => true | _ => false end) [(RField CreateF, Op Greater, be_encode 8 7)] (Some (str "mine")) true.
Lemma bytes_value s b : evaluates_abe s [ABytes b] b.
Proof. exists 1%nat. intros [|f] F; [lia|]. eexists. split; reflexivity. Qed.
Lemma is_expr_bytes b : forall c, ABytes b <> ACtr c.
Proof. discriminate. Qed.
Lemma ex_dgs : dgs_text ex_scope ex_domain ex_group ex_arg (ex_domain, ex_group, [str "a"; str "b"], 1).
Proof.
  exists (str "test"), [], [str "a"; str "[u8:98]"], (str "*"), (str "test"). split; [now left|]. split.
  { right. exists [ABytes (str "test")]. split; [apply parse_denotes; reflexivity|]. split; [discriminate|]. split; [repeat constructor; discriminate|apply bytes_value]. }
  split; [cbn; lia|]. split; [apply bytes_okb; reflexivity|]. split; [reflexivity|]. split; [now left|]. split; [reflexivity|]. split; [apply bytes_okb; reflexivity|]. split.
  { constructor; [|constructor; [|constructor]].
    - exists (ABytes (str "a")). split; [apply parse_denotes; reflexivity|]. split; [discriminate|apply bytes_value].
    - exists (ALst [ABytes (str "u8"); ACtr CColon; ABytes (str "98")]). split; [apply parse_denotes; reflexivity|]. split; [discriminate|].
      exists 3%nat. intros fuel F. do 3 (destruct fuel as [|fuel]; [lia|]). eexists. split; reflexivity. }
  split; [apply space_okb; reflexivity|]. split; [repeat (apply Forall_cons; [apply bytes_okb; reflexivity|]); constructor|]. split; [cbn; lia|apply lt_star].
Qed.
Lemma ex_asks : asks ex_scope ex_domain ex_group 5000 ex_cli ex_request.
Proof.
  unfold asks. change (c_aliases ex_cli) with (ex_alias true false). cbn [r_dgs r_until r_signed r_unsigned r_max r_never r_stmts r_qid r_follow ex_request c_aliases ex_alias a_db_only a_new_only a_max a_max_branch a_max_index a_max_new a_signed a_unsigned a_watch a_qid a_follow a_until].
  split. { exists ex_arg. destruct (C81_argument o1 ex_scope ex_domain ex_group ex_arg _ _ _ _ (extends_refl _) ltac:(apply bytes_okb; reflexivity) eq_refl ltac:(apply bytes_okb; reflexivity) eq_refl ex_dgs) as [e E]. exists (e, 1). split; [exact ex_dgs|]. split; [exact E|]. unfold ex_cli, c_dgpd. now rewrite E. }
  split. { exists 60000000. split; [discriminate|]. split; [|split; [reflexivity|unfold last_stamp; lia]]. apply (proj1 (C68_parse_duration (str "1m") 60000000)); reflexivity. }
  do 7 (split; [reflexivity|]). split. { intros q n E. destruct q; try discriminate. injection E as <-. reflexivity. }
  do 4 (split; [reflexivity|]). split. { split; [discriminate|]. split; [repeat constructor; discriminate|apply bytes_value]. }
  split. { constructor; [|constructor]. split; [apply bytes_okb; reflexivity|]. split; [cbn; lia|]. split; [exact Logic.I|intros []]. }
  constructor; [|constructor]. exists 3%nat. intros fuel F. do 3 (destruct fuel as [|fuel]; [lia|]). reflexivity.
Qed.
Definition ex_got (q : TQuery) : bool := match get_mode q with Ok (TTree, false) => true | _ => false end && test 32 (p_limits (q_preds q) QQuery) 4 && negb (test 32 (p_limits (q_preds q) QQuery) 5) && negb (test 32 (p_limits (q_preds q) QNew) 0).
Example C81_ex : asks ex_scope ex_domain ex_group 5000 ex_cli ex_request /\ exists q, into_query 20 ex_scope 5000 (Some TREE_DESC) ex_cli = Ok q /\ ex_got q = true.
Proof.
  split; [exact ex_asks|]. assert (Q : match into_query 20 ex_scope 5000 (Some TREE_DESC) ex_cli with Ok q => ex_got q | _ => false end = true) by (vm_compute; reflexivity).
  destruct (into_query 20 ex_scope 5000 (Some TREE_DESC) ex_cli) as [q| | |]; try discriminate Q. exists q. split; [reflexivity|exact Q].
Qed.
(** A point that is asked for and one that is not, for its space is two components deeper. *)
Example C81_ex_wanted : forall pk sg, wanted toy_hash 5001 ex_nh (PKey ex_group ex_domain 77 [] (wire_rooted [str "a"; str "b"; str "c"]) [] pk sg) ex_request /\
  ~ wanted toy_hash 5001 ex_nh (PKey ex_group ex_domain 77 [] (wire_rooted [str "a"; str "b"; str "c"; str "d"]) [] pk sg) ex_request.
Proof.
  intros pk sg. split.
  - split; [|split; [reflexivity|split; [intros _; exact Logic.I|split; [discriminate|]]]].
    + split; [reflexivity|]. split; [reflexivity|]. exists (wire_rooted [str "a"; str "b"; str "c"]), [str "c"]. split; [reflexivity|]. split; [|split; [vm_compute; discriminate|intros _; vm_compute; discriminate]].
      split; [apply space_okb; reflexivity|left; exists 3; reflexivity].
    + constructor; [|constructor]. exists 77. split; reflexivity.
  - intros ((_ & _ & rs & more & E & _ & _ & H) & _). cbn [point_rspace] in E. injection E as <-. specialize (H eq_refl). vm_compute in H. now apply H.
Qed.

(** The mode given as an expression is replaced by the default of --mode. *)
Theorem F102_mode_replaced : exists q q', opts_query 20 ex_scope 0 (mkCli None (mkAliases false false None None None None false false false None false None) [[ACtr CColon; ABytes (str "mode"); ACtr CColon; ABytes (str "log-asc")]]) = Ok q /\
  get_mode q = Ok (TLog, true) /\
  into_query 20 ex_scope 0 (Some TREE_DESC) (mkCli None (mkAliases false false None None None None false false false None false None) [[ACtr CColon; ABytes (str "mode"); ACtr CColon; ABytes (str "log-asc")]]) = Ok q' /\
  get_mode q' = Ok TREE_DESC.
Proof. eexists. eexists. split; [vm_compute; reflexivity|]. split; [vm_compute; reflexivity|]. split; vm_compute; reflexivity. Qed.
(** The command watch replaces the name given by --qid. *)
Theorem C81_qid_refuted : forall q, get_option (watched_query q) (str "qid") = Ok (Some (Some (str "<cli>"))).
Proof. intros q. apply (set_option q (str "qid") (str "<cli>")). Qed.
Print Assumptions C81_qid_refuted.
(** --follow does not set the option. *)
Theorem C81_follow_refuted : asks ex_scope ex_domain ex_group 5000 ex_cli ex_request /\ r_follow ex_request = true /\
  exists q, into_query 20 ex_scope 5000 (Some TREE_DESC) ex_cli = Ok q /\ get_option q (str "follow") = Ok None.
Proof.
  split; [exact ex_asks|]. split; [reflexivity|]. assert (Q : match into_query 20 ex_scope 5000 (Some TREE_DESC) ex_cli with Ok q => match get_option q (str "follow") with Ok None => true | _ => false end | _ => false end = true) by (vm_compute; reflexivity).
  destruct (into_query 20 ex_scope 5000 (Some TREE_DESC) ex_cli) as [q| | |]; try discriminate Q. exists q. split; [reflexivity|]. destruct (get_option q (str "follow")) as [[|]| | |]; try discriminate Q. reflexivity.
Qed.
Print Assumptions C81_follow_refuted.
(** A default domain with a delimiter in it: the query accepts another domain. *)
Definition colon_domain : bytes := repeat 0 13 ++ str "a:b".
Theorem C81_default_domain_refuted : exists e q, parse_dgpd colon_domain ex_group [] = Ok (e, 0) /\
  into_query 20 ex_scope 5000 (Some TREE_DESC) (mkCli (Some (e, 0)) (mkAliases false false None None None None false false false None false None) []) = Ok q /\
  test 128 (p_sets (q_preds q) DomainF) (be_decode colon_domain) = false /\ test 128 (p_sets (q_preds q) DomainF) (be_decode (repeat 0 12 ++ str "a\:b")) = true.
Proof. eexists. eexists. split; [vm_compute; reflexivity|]. split; [vm_compute; reflexivity|]. split; vm_compute; reflexivity. Qed.
Print Assumptions C81_default_domain_refuted.
