From Coq Require Import Sorting.Sorted.
From Verif Require Import ProofSpace ProofRooted ProofPkt ProofTree ProofTestSet ProofStore.
From Verif Require Import Bytes ModelSpace SpecSpace ModelPkt SpecPkt ModelTree SpecTree ModelTestSet SpecTestSet ModelStore SpecStore ModelPred SpecPred ProofPred ProofPred2.
From Verif Require Import PropsTree ModelQuery SpecQuery ProofQuery ProofWalk ProofQuery2 ProofQuery3 PropsQuery.
From Verif Require Import ModelLns SpecLns ProofLns2 ModelKey ModelLkKey SpecLkKey.

(** ** The predicates that the builder makes *)
Definition LNSN : N := be_decode LNS.
Definition want (cs : list bytes) (now : N) (f : Field) (u : N) : Prop :=
  match f with GroupIDF => u = 0 | DomainF => u = LNSN | DepthF => u = lenN cs | CreateF => u < now | _ => True end.
(** [P] asks for points of the private group, the domain lns and the space [cs], made before [now]. *)
Definition asks (P : PktPredicates) (cs : list bytes) (now : N) (lims : list Predicate) : Prop :=
  p_prefix P = wire_rooted cs /\ p_recv P = bound_default 64 /\
  (forall q, set_ok 32 (p_limits P q)) /\ (forall q n, n < 2 ^ 32 -> (member (p_limits P q) n = true <-> position_ok lims q n)) /\
  (forall f, num_kind f -> set_ok (field_width f) (p_sets P f)) /\
  forall f u, num_kind f -> u < 2 ^ field_width f -> (member (p_sets P f) u = true <-> want cs now f u).
Definition base (cs : list bytes) (now : N) : list Predicate :=
  [mkPred (RField GroupIDF) Equal (PNum 0); mkPred (RField DomainF) Equal (PNum LNSN);
   mkPred (RField SpaceNameF) Equal (PSpace (wire_space cs)); mkPred (RField CreateF) Less (PNum now)].
Definition one_per_branch : list Predicate := [mkPred (RLimit QBranch) Equal (PNum 0)].

Lemma add_set_one P f op v u : num_kind f -> set_ok (field_width f) (p_sets P f) -> v < 2 ^ field_width f -> u < 2 ^ field_width f ->
  member (p_sets P f) u = true -> holds op u v ->
  exists s, add_set P f op v = Ok (with_set P f s) /\ set_ok (field_width f) s /\
  forall x, x < 2 ^ field_width f -> (member s x = true <-> member (p_sets P f) x = true /\ holds op x v).
Proof.
  intros K SO HV HU M H. unfold add_set. pose proof (try_add_spec (field_width f) (p_sets P f) op v (width_gt f) (width_lt f) SO HV) as T.
  destruct (try_add (field_width f) (p_sets P f) op v) as [s|e| |]; try contradiction.
  - destruct T as (_ & S' & _ & T). exists s. split; [reflexivity|]. split; [exact S'|]. intros x X. rewrite (T x X), andb_true_iff, uint_func_holds. tauto.
  - apply uint_func_holds in H. specialize (T u HU). rewrite M, H in T. discriminate.
Qed.
Lemma LNSN_small : LNSN < 2 ^ 128. Proof. now vm_compute. Qed.
Lemma LNS_bytes : bytes_ok LNS. Proof. unfold bytes_ok. change LNS with [0;0;0;0;0;0;0;0;0;0;0;0;0;108;110;115]. repeat constructor; reflexivity. Qed.
Lemma default_num f : set_ok (field_width f) (p_sets preds_default f). Proof. apply default_ok. Qed.

Lemma built_by cs now : space_ok cs -> (1 <= length cs <= 8)%nat -> 0 < now -> now < 2 ^ 64 ->
  exists p0 p1 P, from_gd PRIVATE LNS = Ok p0 /\ b_space p0 (wire_space cs) = Ok p1 /\ create_before p1 now = Ok P /\ asks P cs now [].
Proof.
  intros SC L8 N0 N1.
  destruct (add_set_one preds_default GroupIDF Equal 0 0 Logic.I (default_num _) (zero_small _) (zero_small _) (member_default _ _ (zero_small _)) eq_refl) as (sg & E1 & SG & MG).
  destruct (add_set_one (with_set preds_default GroupIDF sg) DomainF Equal LNSN LNSN Logic.I (default_num _) LNSN_small LNSN_small (member_default _ _ LNSN_small) eq_refl) as (sd & E2 & SD & MD).
  set (p0 := with_set (with_set preds_default GroupIDF sg) DomainF sd) in *.
  destruct (depth8 cs ltac:(lia)) as [RD LD].
  assert (DL : lenN cs - 1 < 2 ^ 8) by lia. assert (D1 : 1 <= lenN cs) by (unfold lenN; lia).
  destruct (add_set_one (with_prefix p0 (wire_rooted cs)) DepthF Greater (lenN cs - 1) (lenN cs) Logic.I (default_num _) DL LD (member_default _ _ LD) ltac:(cbn; lia)) as (s1 & E3 & S1 & M1).
  set (p1 := with_set (with_prefix p0 (wire_rooted cs)) DepthF s1) in *.
  assert (M1D : member s1 (lenN cs) = true) by (apply M1; [exact LD|split; [apply member_default; exact LD|cbn; lia]]).
  destruct (add_set_one p1 DepthF Equal (lenN cs) (lenN cs) Logic.I S1 LD LD M1D eq_refl) as (s2 & E4 & S2 & M2).
  set (p2 := with_set p1 DepthF s2) in *.
  assert (MZ : 0 < 2 ^ field_width CreateF) by apply zero_small.
  destruct (add_set_one p2 CreateF Less now 0 Logic.I (default_num _) N1 MZ (member_default _ _ MZ) N0) as (s3 & E5 & S3 & M3).
  exists p0, p2, (with_set p2 CreateF s3). split; [|split; [|split; [exact E5|]]].
  - unfold from_gd, b_group, b_domain. change (be_decode PRIVATE) with 0. change (be_decode LNS) with LNSN. rewrite E1. cbn [obind]. rewrite E2. reflexivity.
  - unfold b_space, ModelPred.prefix. change (rs_space (p_prefix p0)) with (Ok (E := SpaceError) ([] : space)). cbn [in_space obind].
    assert (space_starts_with [] (wire_space cs) = false) as ->. { destruct cs as [|x cs]; [cbn in L8; lia|]. reflexivity. }
    assert (space_starts_with (wire_space cs) [] = true) as ->. { reflexivity. }
    rewrite (try_into_rooted_wire cs SC), firstn_all2 by lia. cbn [in_space obind]. unfold check_space. change (p_prefix (with_prefix p0 (wire_rooted cs))) with (wire_rooted cs).
    rewrite RD. destruct (N.eqb_spec (lenN cs) 0); [lia|]. rewrite E3. cbn [obind]. fold p1.
    change (p_sets p1 DepthF) with s1.
    destruct (info_exact 8 s1 (lenN cs) (lenN cs) ltac:(lia) ltac:(lia) S1 LD M1D LD) as (i & EI & H).
    destruct H as [_ H]. rewrite EI. cbn [incompat obind]. destruct (sval i) as [y|]; [|exfalso; exact (H (lenN cs) (N.le_refl _) LD M1D)].
    cbn [obind]. change (p_prefix p1) with (wire_rooted cs). rewrite RD. exact E4.
  - split; [reflexivity|]. split; [reflexivity|]. split; [intros q; apply default_ok|]. split.
    { intros q n NN. cbn [with_set p_limits p2 p1 with_prefix p0 preds_default]. rewrite (member_default 32 n NN). split; [intros _; apply Forall_nil|reflexivity]. }
    split.
    { intros f K. destruct f; try contradiction; try exact SG; try exact SD; try exact S2; try exact S3; apply default_ok. }
    intros f u K U. destruct f; try contradiction; unfold want; try (split; [intros _; exact Logic.I|intros _; apply member_default; exact U]).
    + change (member sg u = true <-> u = 0). rewrite (MG u U). cbn [holds]. split; [tauto|]. intros H. split; [apply member_default; exact U|exact H].
    + change (member sd u = true <-> u = LNSN). rewrite (MD u U). cbn [holds]. split; [tauto|]. intros H. split; [apply member_default; exact U|exact H].
    + change (member s3 u = true <-> u < now). rewrite (M3 u U). cbn [holds]. split; [tauto|]. intros H. split; [apply member_default; exact U|exact H].
    + change (member s2 u = true <-> u = lenN cs). rewrite (M2 u U). cbn [holds]. split; [tauto|]. intros ->. split; [exact M1D|reflexivity].
Qed.
Lemma limited_asks P cs now : asks P cs now [] -> asks (with_limit P QBranch (add 32 (set_default 32) Equal 0)) cs now one_per_branch.
Proof.
  intros (A & B & C & D & E & F). split; [exact A|]. split; [exact B|]. split; [|split; [|split; [exact E|exact F]]].
  - intros q. cbn [with_limit p_limits]. destruct (qscope_eqb q QBranch); [apply add_ok; [apply default_ok|apply zero_small]|apply C].
  - intros q n NN. cbn [with_limit p_limits]. destruct (qscope_eqb q QBranch) eqn:EQ.
    + apply qscope_eqb_eq in EQ. subst q. rewrite member_add, member_default by (try exact NN; try apply default_ok; try apply zero_small; lia). cbn [andb uint_func]. rewrite N.eqb_eq.
      split; [intros ->; constructor; [intros _; reflexivity|constructor]|]. intros H. inversion H as [|x y H1]; subst. exact (H1 eq_refl).
    + rewrite (D q n NN). split; intros _; [|constructor]. constructor; [|constructor]. cbn. intros <-. discriminate EQ.
Qed.

Lemma components_eq a : forall b, components_compare a b = Eq -> a = b.
Proof.
  induction a as [|x a IH]; intros [|y b] H; try discriminate; [reflexivity|]. cbn [components_compare] in H. unfold component_compare in H.
  destruct (N.compare_spec (lenN x) (lenN y)); cbn [thenc] in H; try discriminate. destruct (lex x y) eqn:E; cbn [thenc] in H; try discriminate. apply lex_eq in E. f_equal; [exact E|now apply IH].
Qed.
Lemma branch_eq a b : branch_compare a b = Eq -> i_group a = i_group b /\ i_domain a = i_domain b /\ i_space a = i_space b.
Proof.
  unfold branch_compare. destruct (lex (i_group a) (i_group b)) eqn:A; try discriminate. cbn [thenc]. destruct (lex (i_domain a) (i_domain b)) eqn:B; try discriminate. cbn [thenc].
  destruct (lenN (i_space a) ?= lenN (i_space b)); try discriminate. cbn [thenc]. destruct (components_compare (i_space a) (i_space b)) eqn:C; try discriminate. intros _.
  apply lex_eq in A, B. apply components_eq in C. auto.
Qed.

Section Hash.
Variable hash : bytes -> bytes.
Hypothesis HL : forall x, lenN (hash x) = 32.

Section Asked.
Variable P : PktPredicates.
Variable cs : list bytes.
Variable now : N.
Variable lims : list Predicate.
Hypothesis AS : asks P cs now lims.
Hypothesis SC : space_ok cs.
Hypothesis L8 : (1 <= length cs <= 8)%nat.
Hypothesis N2 : 2 <= now.
Hypothesis N64 : now < 2 ^ 64.
Hypothesis LL : lims = [] \/ lims = one_per_branch.
Let rs := base cs now ++ lims.

Lemma lims_sat r nh p : Forall (satisfies hash r nh p) lims.
Proof. destruct LL as [->| ->]; [constructor|]. constructor; [exact Logic.I|constructor]. Qed.
Lemma lims_ok : Forall pred_ok rs.
Proof.
  unfold rs, base. repeat (apply Forall_cons; [|]).
  - split; [exact Logic.I|apply zero_small].
  - split; [exact Logic.I|exact LNSN_small].
  - split; [reflexivity|]. exists cs. split; [exact SC|]. split; [lia|reflexivity].
  - split; [exact Logic.I|exact N64].
  - destruct LL as [->| ->]; [constructor|]. constructor; [now vm_compute|constructor].
Qed.
Lemma lims_position q n : position_ok rs q n <-> position_ok lims q n.
Proof.
  unfold position_ok, rs, base. cbn [app]. split.
  - intros H. do 4 (apply Forall_inv_tail in H). exact H.
  - intros H. repeat (apply Forall_cons; [exact Logic.I|]). exact H.
Qed.
Lemma want_allowed f u : num_kind f -> f <> PktTypeF -> (want cs now f u <-> Forall (fun r => allows r f u) rs).
Proof.
  intros K NT. unfold rs. rewrite Forall_app. split.
  - intros W. split.
    + unfold base. repeat (apply Forall_cons; [unfold allows; cbn [p_kind p_val p_op holds]; try (intros ->; exact W)|]); [|constructor].
      intros ->. exists cs. split; [exact SC|]. split; [reflexivity|exact W].
    + destruct LL as [->| ->]; [constructor|]. constructor; [exact Logic.I|constructor].
  - intros [F _]. unfold base in F. inversion F as [|x1 y1 F1 G1]; subst. inversion G1 as [|x2 y2 F2 G2]; subst. inversion G2 as [|x3 y3 F3 G3]; subst. inversion G3 as [|x4 y4 F4 G4]; subst.
    unfold allows in *. cbn [p_kind p_val p_op holds] in *. destruct f; try exact Logic.I; try contradiction; unfold want; auto.
    destruct (F3 eq_refl) as (c & C1 & C2 & ->). apply wire_space_inj in C2; [now subst|apply SC|apply C1].
Qed.
Lemma asks_member f u : num_kind f -> f <> PktTypeF -> u < 2 ^ field_width f -> (member (p_sets P f) u = true <-> Forall (fun r => allows r f u) rs).
Proof. intros K NT U. destruct AS as (_ & _ & _ & _ & _ & M). rewrite (M f u K U). now apply want_allowed. Qed.
Lemma want_any f : num_kind f -> exists u, u < 2 ^ field_width f /\ want cs now f u.
Proof.
  intros K. destruct (depth8 cs ltac:(lia)) as [_ LD]. destruct f; try contradiction; try (exists 0; split; [apply zero_small|exact Logic.I]).
  - exists 0. split; [apply zero_small|reflexivity].
  - exists LNSN. split; [exact LNSN_small|reflexivity].
  - exists 0. split; [apply zero_small|unfold want; lia].
  - exists (lenN cs). split; [exact LD|reflexivity].
Qed.
Lemma asks_inv : Inv hash P cs rs.
Proof.
  pose proof AS as (A & B & C & D & E & M). split; [|split; [exact A|split; [exact SC|split; [lia|split; [|split; [exact C|split]]]]]].
  - split; [|rewrite B; split; [apply zero_small|apply umax_small]]. intros f K. split; [exact (E f K)|]. destruct (want_any f K) as (u & U & W).
    apply (M f u K U) in W. destruct (has_any_member (field_width f) (p_sets P f) u (width_gt f) (width_lt f) (E f K) U W) as (x & X & _). unfold has_any. now rewrite X.
  - intros x X H. apply (M DepthF x Logic.I X) in H. unfold want in H. lia.
  - intros q n NN. rewrite (D q n NN). symmetry. apply lims_position.
  - intros r nh p VA.
    assert (RB : bound_test (p_recv P) r = true). { rewrite B. unfold bound_test, bound_default. cbn [low high]. rewrite umax_val. destruct VA as [VA _]. apply andb_true_intro. split; apply N.leb_le; lia. }
    split.
    + intros F. unfold rs, base in F. apply Forall_app in F as [F _]. inversion F as [|x1 y1 F1 G1]; subst. inversion G1 as [|x2 y2 F2 G2]; subst. inversion G2 as [|x3 y3 F3 G3]; subst. inversion G3 as [|x4 y4 F4 G4]; subst.
      unfold satisfies in F1, F2, F4. cbn [p_kind p_val p_op] in F1, F2, F4.
      apply (num_sat hash HL r nh p GroupIDF _ _ VA Logic.I) in F1 as [_ F1]. apply (num_sat hash HL r nh p DomainF _ _ VA Logic.I) in F2 as [_ F2]. apply (num_sat hash HL r nh p CreateF _ _ VA Logic.I) in F4 as [_ F4]. cbn [holds] in *.
      destruct F3 as (rsp & c & E1 & E2 & E3 & E4). apply wire_space_inj in E3; [subst c|apply SC|apply E2]. split; [split; [|exact RB]|].
      * intros f K. apply (M f _ K (valid_V hash HL r nh p f VA)). destruct f; try exact Logic.I; try contradiction; unfold want; auto. rewrite (V_depth hash nh p rsp E1). exact E4.
      * right. exists rsp, []. rewrite app_nil_r. auto.
    + intros CL [AC _] UN. assert (W : forall f, num_kind f -> want cs now f (V hash nh p f)) by (intros f K; apply (M f _ K (valid_V hash HL r nh p f VA)); now apply AC).
      assert (DM := W DomainF Logic.I). unfold want in DM. assert (TY : point_rspace p <> None). { destruct p; try discriminate; vm_compute in DM; discriminate DM. }
      destruct (point_rspace p) as [rsp|] eqn:ER; [|contradiction].
      assert (NF : forall f, match f with GroupIDF | DomainF | CreateF => True | _ => False end -> num_field hash f nh p = Some (V hash nh p f)).
      { intros f K. destruct p; try discriminate; destruct f; try contradiction; reflexivity. }
      unfold rs. apply Forall_app. split; [|apply lims_sat]. unfold base.
      apply Forall_cons; [exists (V hash nh p GroupIDF); split; [now apply NF|exact (W GroupIDF Logic.I)]|].
      apply Forall_cons; [exists (V hash nh p DomainF); split; [now apply NF|exact DM]|].
      apply Forall_cons; [|apply Forall_cons; [exists (V hash nh p CreateF); split; [now apply NF|exact (W CreateF Logic.I)]|constructor]].
      assert (DH : depth_honest p). { destruct CL as [CL|CL]; [exact CL|]. unfold no_spacename, rs, base in CL. rewrite Forall_forall in CL. exfalso. apply (CL (mkPred (RField SpaceNameF) Equal (PSpace (wire_space cs)))); [right; right; now left|reflexivity]. }
      destruct (DH rsp ER) as (c' & HS' & DD). assert (WD := W DepthF Logic.I). unfold want in WD. rewrite (V_depth hash nh p rsp ER) in WD.
      destruct UN as [UN|(rsp' & more & ER' & HS)]; [subst cs; cbn in L8; lia|]. assert (rsp' = rsp) as -> by congruence.
      rewrite (has_space_inj _ _ _ HS' HS) in DD. unfold lenN in WD. rewrite app_length in DD. assert (more = []) as -> by (destruct more; [reflexivity|cbn [length] in DD; lia]).
      rewrite app_nil_r in HS. exists rsp, cs. split; [exact ER|]. split; [exact HS|]. split; [reflexivity|]. exact WD.
Qed.
Lemma private_matches e : (exists nh p, packet_at hash e nh p /\ well_formed p) -> (tree_matches hash rs e <-> private_at hash cs now e).
Proof.
  intros (nh & p & PA & WF). pose proof (packet_valid hash e nh p PA) as VA. pose proof PA as (PO & _). assert (Hp : point_ok p) by apply PO. split.
  - intros [MA [ix (nh' & p' & PA' & IX)]]. destruct (packet_at_inj hash _ _ _ _ _ PA PA') as [<- <-]. apply (matches_iff hash rs e nh p PA) in MA.
    exists ix. split; [exists nh, p; auto|]. unfold rs in MA. apply Forall_app in MA as [F _]. unfold base in F. inversion F as [|x1 y1 F1 G1]; subst. inversion G1 as [|x2 y2 F2 G2]; subst. inversion G2 as [|x3 y3 F3 G3]; subst. inversion G3 as [|x4 y4 F4 G4]; subst.
    destruct F1 as (g & E1 & Q1), F2 as (dm & E2 & Q2), F4 as (c & E4 & Q4), F3 as (rsp & c' & E3 & HS & W & _). cbn [p_op holds] in *. subst g dm. apply wire_space_inj in W; [subst c'|apply SC|apply HS].
    assert (LG : forall b, lenN b = 32 -> bytes_ok b -> be_decode b = 0 -> b = repeat 0 32). { intros b LB OB EB. apply be_decode_inj; [unfold lenN in LB; rewrite repeat_length; lia|exact OB|apply bytes_ok_repeat; lia|exact EB]. }
    assert (LD : forall b, lenN b = 16 -> bytes_ok b -> be_decode b = LNSN -> b = LNS). { intros b LB OB EB. apply be_decode_inj; [unfold lenN in LB; change (length LNS) with 16%nat; lia|exact OB|exact LNS_bytes|exact EB]. }
    destruct (packet_bytes _ _ _ _ PO) as (_ & _ & Bc). pose proof (content_bytes p Bc) as CB.
    destruct p as [| |g dm c0 ls r0 dt|g dm c0 ls r0 dt pk sg]; try contradiction; destruct IX as (c1 & HS1 & ->); cbn [i_group i_domain i_space i_create num_field point_rspace] in *; destruct Hp as (_ & H1 & H2 & _); destruct CB as (B1 & B2 & _); injection E1 as E1; injection E2 as E2; injection E3 as E3; injection E4 as E4; subst r0 c0;
      (split; [now apply LG|]; split; [now apply LD|]; split; [exact (has_space_inj _ _ _ HS1 HS)|exact Q4]).
  - intros (ix & (nh' & p' & PA' & IX) & G1 & G2 & G3 & G4). destruct (packet_at_inj hash _ _ _ _ _ PA PA') as [<- <-]. split; [|exists ix; exists nh, p; auto].
    apply (matches_iff hash rs e nh p PA). unfold rs. apply Forall_app. split; [|apply lims_sat]. destruct WF as [DH _].
    assert (RS : exists rsp, point_rspace p = Some rsp /\ has_space rsp cs). { destruct p; try contradiction; destruct IX as (c & HS & ->); cbn in G3; subst c; eexists; split; try reflexivity; exact HS. }
    destruct RS as (rsp & ER & HS). destruct (DH rsp ER) as (c' & HS' & DD). rewrite (has_space_inj _ _ _ HS' HS) in DD. unfold base.
    assert (NF : num_field hash GroupIDF nh p = Some 0 /\ num_field hash DomainF nh p = Some LNSN /\ num_field hash CreateF nh p = Some (i_create ix)).
    { destruct p; try contradiction; destruct IX as (c & _ & ->); cbn [i_group i_domain i_create] in *; subst; repeat split; reflexivity. }
    destruct NF as (A1 & A2 & A3).
    apply Forall_cons; [exists 0; split; [exact A1|reflexivity]|]. apply Forall_cons; [exists LNSN; split; [exact A2|reflexivity]|].
    apply Forall_cons; [exists rsp, cs; auto|]. apply Forall_cons; [exists (i_create ix); split; [exact A3|exact G4]|constructor].
Qed.
Lemma base_possible : possible rs.
Proof.
  assert (NL : forall f u, field_allowed lims f u) by (intros f u; destruct LL as [->| ->]; [constructor|constructor; [exact Logic.I|constructor]]).
  assert (DL : forall n, depth_allowed lims n) by (intros n; destruct LL as [->| ->]; [constructor|constructor; [exact Logic.I|constructor]]).
  unfold possible, rs. split; [|split; [|split]].
  - exists (lenN cs). split; [unfold lenN; lia|]. apply Forall_app. split; [|apply DL]. unfold base. repeat (apply Forall_cons; [cbn [p_kind p_val]; try exact Logic.I|]); [|constructor].
    exists cs. split; [exact SC|]. split; reflexivity.
  - exists 0. split; [apply zero_small|]. apply Forall_app. split; [|apply NL]. unfold base. repeat (apply Forall_cons; [cbn [p_kind p_val p_op holds]; try exact Logic.I; try discriminate; reflexivity|]). constructor.
  - exists LNSN. split; [exact LNSN_small|]. apply Forall_app. split; [|apply NL]. unfold base. repeat (apply Forall_cons; [cbn [p_kind p_val p_op holds]; try exact Logic.I; try discriminate; reflexivity|]). constructor.
  - exists 0. split; [apply zero_small|]. apply Forall_app. split; [|apply NL]. unfold base. repeat (apply Forall_cons; [cbn [p_kind p_val p_op holds]; try exact Logic.I; discriminate|]). constructor.
Qed.
Lemma base_wide : create_wide rs.
Proof.
  assert (NL : forall f u, field_allowed lims f u) by (intros f u; destruct LL as [->| ->]; [constructor|constructor; [exact Logic.I|constructor]]).
  exists 0, 1. split; [lia|]. split; [lia|]. unfold rs. split; (apply Forall_app; split; [|apply NL]; unfold base; repeat (apply Forall_cons; [cbn [p_kind p_val p_op holds]; try exact Logic.I; try discriminate; intros _; lia|]); constructor).
Qed.
Lemma base_unskipped : unskipped rs.
Proof.
  right. split; [exists 0; now left|]. split; [exists LNSN; right; now left|]. left. exists (wire_space cs). right; right; now left.
Qed.

Section Store.
Variable d : db.
Variable l : list stored.
Hypothesis HS : honest_store hash d l.
Lemma stored_honest e : In e l -> exists nh p, packet_at hash e nh p /\ well_formed p.
Proof. intros IN. destruct HS as [_ F]. rewrite Forall_forall in F. auto. Qed.
Lemma before_asym a b : In a l -> In b l -> tree_before hash false a b -> ~ tree_before hash false b a.
Proof.
  intros IA IB (ia & ib_ & (n1 & p1 & P1 & I1) & (n2 & p2 & P2 & I2) & C) (jb & ja & (n3 & p3 & P3 & I3) & (n4 & p4 & P4 & I4) & D).
  destruct (packet_at_inj hash _ _ _ _ _ P1 P4) as [<- <-]. destruct (packet_at_inj hash _ _ _ _ _ P2 P3) as [<- <-].
  rewrite (index_inj hash p1 ja ia I4 I1), (index_inj hash p2 jb ib_ I3 I2) in D.
  destruct (stored_honest a IA) as (nh & p & PA & WF). destruct (stored_honest b IB) as (nh' & p' & PB & WF').
  destruct (packet_at_inj hash _ _ _ _ _ P1 PA) as [<- <-]. destruct (packet_at_inj hash _ _ _ _ _ P2 PB) as [<- <-].
  destruct (index_entry hash HL a n1 p1 ia PA WF I1) as (IO & _). destruct (index_entry hash HL b n2 p2 ib_ PB WF' I2) as (IO' & _).
  rewrite <- (ix_key_compare ia ib_ IO IO') in C. rewrite <- (ix_key_compare ib_ ia IO' IO) in D.
  rewrite (lex_antisym (ix_key ia) (ix_key ib_)) in D. unfold leaf_compare in C, D. rewrite (lex_antisym (i_hash ia)) in D. rewrite (N.compare_antisym (i_create ia)) in D.
  destruct (lex (ix_key ia) (ix_key ib_)); cbn [CompOpp] in D; destruct C as [C|[C1 C2]], D as [D|[D1 D2]]; try discriminate.
  destruct (i_create ia ?= i_create ib_); cbn [thenc CompOpp] in C2, D2; try discriminate. rewrite C2 in D2. discriminate.
Qed.
(** A query finds the first point of the space first. *)
Lemma asked_query : exists n0 ms, (forall fuel, (n0 <= fuel)%nat -> query_tree fuel d false P None = Ok (map answer ms)) /\
  StronglySorted (tree_before hash false) ms /\ (forall e, In e ms -> In e l /\ private_at hash cs now e) /\
  (forall e, In e l -> private_at hash cs now e -> lims = [] \/ comes_first hash l cs now e -> In e ms).
Proof.
  pose proof AS as (_ & _ & LO & LP & _ & _).
  assert (LIM : lenN l < 2 ^ 32) by apply HS.
  assert (PQ : forall q n, q <> QBranch -> position_ok lims q n). { intros q n NQ. destruct LL as [->| ->]; [constructor|]. constructor; [|constructor]. cbn. congruence. }
  destruct (tree_main hash HL d l HS rs P cs asks_inv asks_member false None 0 base_possible lims_ok) as (n0 & ms & out & SO & SD & AN & Q & C).
  - intros _ N. exfalso. unfold no_pred, rs, base in N. rewrite Forall_forall in N. apply (N (mkPred (RField SpaceNameF) Equal (PSpace (wire_space cs)))); [right; right; now left|reflexivity].
  - intros c u IN SC' _ _. unfold rs in IN. apply in_app_or in IN as [IN|IN].
    + destruct IN as [IN|[IN|[IN|[IN|[]]]]]; try discriminate IN. injection IN as IN. apply wire_space_inj in IN; [exact IN|apply SC|apply SC'].
    + exfalso. destruct LL as [E|E]; rewrite E in IN; [destruct IN|]. destruct IN as [IN|[]]. discriminate IN.
  - now left.
  - lia.
  - assert (out = map answer ms) as ->.
    { destruct AN as (mid & A1 & A2). apply picks_all in A1; [|intros j _ _; apply lims_position, PQ; discriminate]. apply picks_all in A2; [|intros j _ _; apply lims_position, PQ; discriminate]. congruence. }
    exists n0, ms. split; [|split; [exact SO|split]].
    + intros fuel F. specialize (Q fuel F). unfold query, query_all in Q. destruct (query_tree fuel d false P None) as [r| | |]; try discriminate. cbn [obind] in Q. rewrite zip_unlimited in Q; [exact Q|apply LO| |apply zero_small].
      intros y Y. apply (LP QQuery y Y). apply PQ. discriminate.
    + intros e IN. destruct (SD e IN) as [IL TM]. split; [exact IL|]. apply (private_matches e (stored_honest e IL)). exact TM.
    + intros e IL PR FI. destruct (C (or_intror base_wide) base_unskipped e IL) as (fs & ND & _ & FS & IM); [now apply (private_matches e (stored_honest e IL))|].
      apply IM, lims_position. destruct FI as [->|(_ & _ & FI)]; [constructor|]. destruct fs as [|f fs]; [destruct LL as [->| ->]; [constructor|]; constructor; [intros _; reflexivity|constructor]|]. exfalso.
      destruct (proj1 (FS f) (or_introl eq_refl)) as (FL & SB & TB & en & OW & EO). 
      assert (private_at hash cs now f) as PF.
      { destruct (owned hash HL d l HS f en OW) as (nh & p & ix & PA & WF & IX & ->). apply (entry_ok_iff hash HL rs P cs asks_inv f nh p ix PA WF IX) in EO. destruct EO as (EO & _).
        destruct SB as (ia & ib_ & (nf & pf & PF & XF) & (ne & pe & PE & XE) & BC). destruct (packet_at_inj hash _ _ _ _ _ PA PF) as [<- <-]. rewrite (index_inj hash p ix ia IX XF) in *.
        destruct PR as (ie & (ne' & pe' & PE' & XE') & G1 & G2 & G3 & _). destruct (packet_at_inj hash _ _ _ _ _ PE PE') as [<- <-]. rewrite (index_inj hash pe ie ib_ XE' XE) in *.
        destruct (index_entry hash HL f nh p ia PA WF XF) as (IO & _ & _ & _ & _ & CV & _). destruct (stored_honest e IL) as (ne2 & pe2 & PE2 & WE). destruct (packet_at_inj hash _ _ _ _ _ PE PE2) as [<- <-].
        destruct (index_entry hash HL e ne pe ib_ PE WE XE) as (IO' & _).
        exists ia. split; [exists nh, p; auto|]. apply branch_eq in BC as (B1 & B2 & B3). split; [congruence|]. split; [congruence|]. split; [congruence|].
        rewrite CV. destruct AS as (_ & _ & _ & _ & _ & M). apply (M CreateF _ Logic.I (valid_V hash HL _ nh p CreateF (packet_valid hash f nh p PA))) in EO. exact EO. }
      destruct (FI f FL PF) as [->|TB']; [exact (irr hash false e TB)|]. exact (before_asym e f IL FL TB' TB).
Qed.
End Store.
End Asked.

Section Found.
Variable d : db.
Variable l : list stored.
Hypothesis HS : honest_store hash d l.
Variable cs : list bytes.
Variable now : N.
Hypothesis SC : space_ok cs.
Hypothesis L8 : (1 <= length cs <= 8)%nat.
Hypothesis N2 : 2 <= now.
Hypothesis N64 : now < 2 ^ 64.
Lemma first_exists : (exists e, comes_first hash l cs now e) \/ nothing_at hash l cs now.
Proof.
  destruct (built_by cs now SC L8 ltac:(lia) N64) as (_ & _ & P & _ & _ & _ & AS).
  destruct (asked_query P cs now [] AS SC L8 N2 N64 (or_introl eq_refl) d l HS) as (n0 & ms & _ & SO & SD & CM).
  destruct ms as [|e ms]; [right|left].
  - intros e IN PR. exact (CM e IN PR (or_introl eq_refl)).
  - exists e. destruct (SD e (or_introl eq_refl)) as [IL PR]. split; [exact IL|]. split; [exact PR|]. intros e' IL' PR'. destruct (CM e' IL' PR' (or_introl eq_refl)) as [->|IN]; [now left|right].
    inversion SO as [|x y S1 S2]; subst. rewrite Forall_forall in S2. now apply S2.
Qed.
Lemma first_unique e e' : comes_first hash l cs now e -> comes_first hash l cs now e' -> e = e'.
Proof.
  intros (I1 & P1 & F1) (I2 & P2 & F2). destruct (F1 e' I2 P2) as [<-|T1]; [reflexivity|]. destruct (F2 e I1 P1) as [->|T2]; [reflexivity|]. destruct (before_asym d l HS e e' I1 I2 T1 T2).
Qed.
Lemma found P lims : asks P cs now lims -> lims = [] \/ lims = one_per_branch ->
  exists n0, forall fuel, (n0 <= fuel)%nat ->
  (exists e nh p, comes_first hash l cs now e /\ packet_at hash e nh p /\ first_in_tree fuel d P = Ok (Some (np_of hash nh p))) \/
  (nothing_at hash l cs now /\ first_in_tree fuel d P = Ok None).
Proof.
  intros AS LL. destruct (asked_query P cs now lims AS SC L8 N2 N64 LL d l HS) as (n0 & ms & Q & SO & SD & CM). exists n0. intros fuel F. unfold first_in_tree. rewrite (Q fuel F). cbn [or_panic obind].
  destruct first_exists as [(e & FE)|NO]; [left|right].
  - pose proof FE as (IL & PR & FI). pose proof (CM e IL PR (or_intror FE)) as IM. destruct ms as [|a ms]; [destruct IM|].
    assert (a = e) as ->. { destruct (SD a (or_introl eq_refl)) as [IA PA]. destruct IM as [IM|IM]; [exact IM|]. inversion SO as [|x y S1 S2]; subst. rewrite Forall_forall in S2. specialize (S2 e IM). destruct (FI a IA PA) as [->|T]; [reflexivity|]. destruct (before_asym d l HS a e IA IL S2 T). }
    destruct (stored_honest d l HS e IL) as (nh & p & PA & _). exists e, nh, p. split; [exact FE|]. split; [exact PA|]. cbn [map answer]. rewrite (packet_view hash HL e nh p PA). reflexivity.
  - split; [exact NO|]. destruct ms as [|a ms]; [reflexivity|]. destruct (SD a (or_introl eq_refl)) as [IA PA]. destruct (NO a IA PA).
Qed.
End Found.
End Hash.
