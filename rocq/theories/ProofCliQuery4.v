From Coq Require Import Lia.
From Verif Require Import Bytes ModelAbe SpecAbe ProofAbe ProofAbe2 PropsAbe ModelFmt PropsFmt ModelEval ModelFn SpecEval ProofEval ProofEval2 ProofEval3 PropsEval.
From Verif Require Import ModelSpace SpecSpace ProofSpace ProofRooted ProofTree SpecPkt ModelTestSet SpecTestSet ProofTestSet ModelPred SpecPred ProofPred PropsPred.
From Verif Require Import ModelQuery ModelQText SpecQText ProofQText ProofQText2 ProofQText3 ProofQText4 ProofQText5 ProofQText6 ProofFmt PropsQText ModelStamp SpecStamp ProofStamp PropsStamp ProofQText7.
From Verif Require Import ModelCliQuery SpecCliQuery ProofCliQuery ProofCliQuery2 ProofCliQuery3.

(** ** The statements of the other arguments *)
Definition limit_stmt (q : QScope) (n : N) : cstmt := CNum (RLimit q, Op Less, be_encode 4 n).
Definition alias_stmts (r : request) : list cstmt :=
  opt_list (fun v => COpt [(Some CColon, str "qid"); (Some CColon, v)]) (r_qid r) ++
  opt_list (fun u => CNum (RRecv, Op Less, be_encode 8 u)) (r_until r) ++
  flag (r_follow r) (COpt [(Some CColon, str "follow")]) ++
  flag (r_signed r) (CNum (RField PktTypeF, Op Mask1, [4])) ++ flag (r_unsigned r) (CNum (RField PktTypeF, Op Mask0, [251])) ++
  opt_list (limit_stmt QQuery) (r_max r QQuery) ++ opt_list (limit_stmt QNew) (r_max r QNew) ++
  opt_list (limit_stmt QIndex) (r_max r QIndex) ++ opt_list (limit_stmt QBranch) (r_max r QBranch) ++
  flag (r_never r QNew) (limit_stmt QNew 0) ++ flag (r_never r QIndex) (limit_stmt QIndex 0).
Lemma opt_gives {A B} s (f : A -> list ABE) (g : B -> cstmt) (o : option A) (p : option B) :
  match o, p with None, None => True | Some a, Some b => gives_stmt s (f a) (g b) | _, _ => False end -> Forall2 (gives_stmt s) (opt_list f o) (opt_list g p).
Proof. destruct o, p; cbn; intros H; try contradiction; repeat constructor; exact H. Qed.
Lemma flag_gives s c e x : gives_stmt s e x -> Forall2 (gives_stmt s) (flag c e) (flag c x).
Proof. destruct c; cbn; intros H; repeat constructor; exact H. Qed.
Lemma limit_gives o s q n : extends (core_scope o) s -> gives_stmt s (limit_expr q n) (limit_stmt q n).
Proof.
  intros X. unfold limit_expr. apply (gives_num s (RLimit q) (Op Less)); [discriminate|constructor; [discriminate|constructor]|].
  apply (C43_int_abe o); [exact X|now do 2 right; left|apply be_encode_ok|apply lenN_be_encode].
Qed.
Lemma limits_gives o s q m : extends (core_scope o) s -> Forall2 (gives_stmt s) (opt_list (limit_expr q) m) (opt_list (limit_stmt q) m).
Proof. intros X. apply opt_gives. destruct m; [now apply (limit_gives o)|exact Logic.I]. Qed.
Lemma option_gives s gs : Forall (aseg_ok s) gs -> gives_stmt s (flat_map aseg_abe gs) (COpt (map aseg_value gs)).
Proof. intros F. destruct (eval_option s gs F) as [n E]. now exists n. Qed.
Lemma aliases_give o s dom grp now c r : extends (core_scope o) s -> asks s dom grp now c r -> Forall2 (gives_stmt s) (as_predicates now (c_aliases c)) (alias_stmts r).
Proof.
  intros X (_ & U & SG & US & FO & M1 & M2 & M3 & M4 & _ & _ & N2 & N3 & _ & Q & _). unfold as_predicates, alias_stmts. rewrite M1, M2, M3, M4, N2, N3, SG, US, FO.
  repeat apply Forall2_app; try (now apply (limits_gives o)); try (apply flag_gives; now apply (limit_gives o)).
  - destruct (a_qid (c_aliases c)) as [l|], (r_qid r) as [v|]; try contradiction.
    + apply opt_gives. destruct Q as (NE & XE & V).
      pose proof (option_gives s [(CColon, [ABytes (str "qid")], str "qid"); (CColon, l, v)]) as G. cbn [flat_map aseg_abe app] in G. rewrite app_nil_r in G. apply G.
      constructor; [now apply const_ok|]. constructor; [|constructor]. right. auto.
    + destruct Q as [-> ->]. apply opt_gives.
      apply (option_gives s [(CColon, [ABytes (str "qid")], str "qid"); (CColon, [ABytes (str "default")], str "default")]). constructor; [now apply const_ok|]. constructor; [now apply const_ok|constructor].
    + rewrite Q. constructor.
  - apply opt_gives. destruct (r_until r) as [u|], (a_until (c_aliases c)) as [v|]; try contradiction; [|exact Logic.I]. destruct U as (d & H & D & -> & B).
    apply (gives_num s RRecv (Op Less)); [discriminate|constructor; [discriminate|constructor]|]. now apply (until_abe o).
  - apply flag_gives. apply (option_gives s [(CColon, [ABytes (str "follow")], str "follow")]). constructor; [now apply const_ok|constructor].
  - apply flag_gives. apply (gives_num s (RField PktTypeF) (Op Mask1)); [discriminate|constructor; [discriminate|constructor]|]. apply (bits_abe o); [exact X|reflexivity].
  - apply flag_gives. apply (gives_num s (RField PktTypeF) (Op Mask0)); [discriminate|constructor; [discriminate|constructor]|]. apply (bits_abe o); [exact X|reflexivity].
Qed.
Definition all_stmts (dv : bytes) (r : request) : list cstmt :=
  match r_dgs r with Some (_, G, cs, k) => dgs_stmts dv G cs k | None => [] end ++ alias_stmts r ++ map CNum (r_stmts r).
(** The domain as it is written *)
Definition written (dv : bytes) (r : request) : Prop :=
  match r_dgs r with
  | None => True
  | Some (D, G, cs, k) => (0 < List.length dv <= 16)%nat /\ bytes_ok dv /\ D = repeat 0 (16 - List.length dv) ++ dv /\ List.length G = 32%nat /\ bytes_ok G /\
      space_ok cs /\ Forall bytes_ok cs /\ (List.length cs <= 8)%nat
  end.
Lemma statements_give o s dom grp now c r : extends (core_scope o) s -> bytes_ok dom -> lenN dom = 16 -> bytes_ok grp -> lenN grp = 32 -> asks s dom grp now c r ->
  exists es dv, iter_statements now c = Ok es /\ Forall2 (gives_stmt s) es (all_stmts dv r) /\ written dv r.
Proof.
  intros X OD LD OG LG A. pose proof (aliases_give o s dom grp now c r X A) as AL. destruct A as (DG & A).
  assert (US : Forall2 (gives_stmt s) (c_exprs c) (map CNum (r_stmts r))).
  { destruct A as (_ & _ & _ & _ & _ & _ & _ & _ & _ & _ & _ & _ & _ & _ & _ & F). clear -F. induction F as [|e [[k o] b] es xs (n & E) F IH]; [constructor|]. cbn [map]. constructor; [|exact IH]. exists n. exact E. }
  unfold iter_statements, all_stmts, written. destruct (r_dgs r) as [[[[D G] cs] k]|].
  - destruct DG as (t & e & DT & P & ->). destruct (dgs_gives o s dom grp t D G cs k X OD LD OG LG DT) as (e' & es & dv & P' & PE & F & L & B & ED). rewrite P in P'. apply ok_inj in P' as ->.
    rewrite PE. cbn [obind]. eexists. exists dv. split; [reflexivity|]. split; [apply Forall2_app; [exact F|]; apply Forall2_app; assumption|].
    destruct DT as (? & ? & ? & ? & ? & _ & _ & _ & _ & _ & _ & LGG & OGG & _ & SK & OC & L8 & _). tauto.
  - rewrite DG. cbn [obind]. eexists. exists []. split; [reflexivity|]. split; [cbn [app]; apply Forall2_app; assumption|exact Logic.I].
Qed.

(** ** What they mean *)
Definition c_sat (hash : bytes -> bytes) (recv : N) (nh : bytes) (p : point) (x : cstmt) : Prop :=
  match x with CNum st => stmt_sat hash recv nh p st | CPrefix cs => satisfies hash recv nh p (mkPred RPrefix Equal (PSpace (wire_space cs))) | COpt _ => True end.
Definition c_pos (q : QScope) (n : N) (x : cstmt) : Prop := match x with CNum st => stmt_position q n st | _ => True end.
Lemma preds_sat hash b nh p recv xs : hash32 hash -> packet_of hash b nh p -> recv < 2 ^ 64 -> Forall c_ok xs ->
  (Forall (satisfies hash recv nh p) (flat_map c_preds xs) <-> Forall (c_sat hash recv nh p) xs).
Proof.
  intros HL PK R F. rewrite Forall_flat_map. rewrite !Forall_forall in *. split; intros H x I; specialize (H x I); specialize (F x I); destruct x as [st|cs|l]; cbn [c_preds c_sat c_ok] in *.
  - assert (Forall stmt_ok [st]) as O1 by (constructor; [exact F|constructor]). pose proof (proj1 (expands_sat hash b nh p recv [st] HL PK R O1)) as G. cbn [flat_map] in G. rewrite app_nil_r in G. now apply G, Forall_inv in H.
  - now apply Forall_inv in H.
  - exact Logic.I.
  - assert (Forall stmt_ok [st]) as O1 by (constructor; [exact F|constructor]). pose proof (proj2 (expands_sat hash b nh p recv [st] HL PK R O1)) as G. cbn [flat_map] in G. rewrite app_nil_r in G. apply G. now constructor.
  - now constructor.
  - constructor.
Qed.
Lemma preds_pos q n xs : n < 2 ^ 32 -> Forall c_ok xs -> (position_ok (flat_map c_preds xs) q n <-> Forall (c_pos q n) xs).
Proof.
  intros Hn F. unfold position_ok. rewrite Forall_flat_map. rewrite !Forall_forall in *. split; intros H x I; specialize (H x I); specialize (F x I); destruct x as [st|cs|l]; cbn [c_preds c_pos c_ok] in *; try exact Logic.I.
  - assert (Forall stmt_ok [st]) as O1 by (constructor; [exact F|constructor]). pose proof (proj1 (expands_position [st] q n Hn O1)) as G. unfold position_ok in G. cbn [flat_map] in G. rewrite app_nil_r in G. now apply G, Forall_inv in H.
  - assert (Forall stmt_ok [st]) as O1 by (constructor; [exact F|constructor]). pose proof (proj2 (expands_position [st] q n Hn O1)) as G. unfold position_ok in G. cbn [flat_map] in G. rewrite app_nil_r in G. apply G. now constructor.
  - now constructor.
  - constructor.
Qed.
Lemma preds_ok xs : Forall c_ok xs -> Forall pred_ok (flat_map c_preds xs) /\ no_spacename (flat_map c_preds xs).
Proof.
  intros F. unfold no_spacename. rewrite !Forall_flat_map. split; (eapply Forall_impl; [|exact F]); intros [st|cs|l] OK; cbn [c_preds].
  - apply expand_ok. exact OK.
  - constructor; [|constructor]. cbn. split; [reflexivity|]. exists cs. destruct OK as (A & B & _). auto.
  - constructor.
  - assert (Forall stmt_ok [st]) as O1 by (constructor; [exact OK|constructor]). pose proof (expands_named [st] O1) as G. cbn [flat_map] in G. rewrite app_nil_r in G. exact G.
  - constructor; [discriminate|constructor].
  - constructor.
Qed.
Lemma opt_all {A B} (P : B -> Prop) (f : A -> B) (o : option A) : Forall P (opt_list f o) <-> match o with Some a => P (f a) | None => True end.
Proof. destruct o; cbn; split; intros H; [now apply Forall_inv in H|now constructor|exact Logic.I|constructor]. Qed.
Lemma flag_all {B} (P : B -> Prop) c (x : B) : Forall P (flag c x) <-> (c = true -> P x).
Proof. destruct c; cbn; split; intros H; [intros _; now apply Forall_inv in H|constructor; [now apply H|constructor]|discriminate|constructor]. Qed.
Lemma all_ok dv r : written dv r -> Forall stmt_ok (r_stmts r) -> Forall c_ok (all_stmts dv r).
Proof.
  intros W F. unfold all_stmts. rewrite !Forall_app. split; [|split; [|rewrite Forall_map; exact F]].
  - unfold written in W. destruct (r_dgs r) as [[[[D G] cs] k]|]; [|constructor]. destruct W as (L & B & _ & LG & BG & SK & OC & L8). unfold dgs_stmts. constructor; [|constructor].
    + cbn [c_ok stmt_ok]. split; [exact B|]. split; [right; auto|]. split; [exact Logic.I|intros []].
    + cbn [c_ok stmt_ok]. split; [exact BG|]. split; [left; exact LG|]. split; [exact Logic.I|intros []].
    + apply Forall_app. split.
      * destruct cs; [constructor|]. cbn [prefix_stmts]. constructor; [|constructor]. cbn [c_ok]. split; [exact SK|]. split; [exact L8|]. split; [discriminate|exact OC].
      * unfold depth_stmts. destruct (N.ltb_spec k 8); [|constructor]. constructor; [|constructor]. cbn [c_ok stmt_ok]. split; [constructor; [|constructor]; unfold byte_ok; lia|]. split; [left; reflexivity|]. split; [exact Logic.I|intros []].
  - assert (LS : forall q n, c_ok (limit_stmt q n)). { intros q n. cbn [limit_stmt c_ok stmt_ok]. split; [apply be_encode_ok|]. split; [left; apply be_encode_length|exact Logic.I]. }
    unfold alias_stmts. rewrite !Forall_app, !opt_all, !flag_all. refine (conj _ (conj _ (conj _ (conj _ (conj _ (conj _ (conj _ (conj _ (conj _ (conj _ _)))))))))); try (destruct (r_max r _); [apply LS|exact Logic.I]); try (intros _; exact (LS QNew 0)); try (intros _; exact (LS QIndex 0)).
    + destruct (r_qid r); exact Logic.I.
    + destruct (r_until r); [|exact Logic.I]. split; [apply be_encode_ok|]. split; [left; apply be_encode_length|exact Logic.I].
    + intros _. exact Logic.I.
    + intros _. split; [apply bytes_okb; reflexivity|]. split; [left; reflexivity|]. split; [exact Logic.I|intros []].
    + intros _. split; [apply bytes_okb; reflexivity|]. split; [left; reflexivity|]. split; [exact Logic.I|intros []].
Qed.
Lemma mask1_land v x : holds Mask1 v x <-> N.land v x = x.
Proof.
  cbn [holds]. split.
  - intros H. apply N.bits_inj. intros i. rewrite N.land_spec. destruct (N.testbit x i) eqn:E; [|now rewrite andb_false_r]. rewrite andb_true_r. rewrite <- bit_testbit in E |- *. now apply H.
  - intros <- i. rewrite !bit_testbit, N.land_spec. intros E. now apply andb_prop in E.
Qed.
Lemma mask0_land v x : holds Mask0 v x <-> N.land x v = v. Proof. exact (mask1_land x v). Qed.
Lemma all_pos dv r q n : n < 2 ^ 32 -> (forall q n, r_max r q = Some n -> n < 2 ^ 32) -> r_never r QQuery = false -> r_never r QBranch = false ->
  (Forall (c_pos q n) (all_stmts dv r) <-> in_limits r q n).
Proof.
  intros Hn MX N1 N2. assert (LS : forall q' m, m < 2 ^ 32 -> c_pos q n (limit_stmt q' m) <-> (q' = q -> n < m)).
  { intros q' m Hm. cbn [limit_stmt c_pos stmt_position ext_holds holds]. rewrite be_decode_encode by exact Hm. reflexivity. }
  assert (LO : forall q', Forall (c_pos q n) (opt_list (limit_stmt q') (r_max r q')) <-> (q' = q -> match r_max r q' with None => True | Some m => n < m end)).
  { intros q'. rewrite opt_all. destruct (r_max r q') as [m|] eqn:E; [apply LS, (MX _ _ E)|tauto]. }
  assert (FL : forall c q', Forall (c_pos q n) (flag c (limit_stmt q' 0)) <-> (q' = q -> c = false)).
  { intros c q'. rewrite flag_all, LS by reflexivity. destruct c; split; intros H; try discriminate; try tauto. - intros E. specialize (H eq_refl E). lia. - intros _ E. specialize (H E). discriminate. }
  unfold all_stmts, alias_stmts, in_limits. rewrite !Forall_app, !LO, !FL, Forall_map, !flag_all, !opt_all.
  assert (D : Forall (c_pos q n) match r_dgs r with Some (_, G, cs, k) => dgs_stmts dv G cs k | None => [] end).
  { destruct (r_dgs r) as [[[[D G] cs] k]|]; [|constructor]. unfold dgs_stmts, prefix_stmts, depth_stmts. destruct cs, (k <? 8); repeat constructor. }
  assert (T1 : match r_qid r with Some a => c_pos q n (COpt [(Some CColon, str "qid"); (Some CColon, a)]) | None => True end) by (destruct (r_qid r); exact Logic.I).
  assert (T2 : match r_until r with Some a => c_pos q n (CNum (RRecv, Op Less, be_encode 8 a)) | None => True end) by (destruct (r_until r); exact Logic.I).
  split.
  - intros (_ & (_ & _ & _ & _ & _ & A1 & A2 & A3 & A4 & B1 & B2) & S). split; [destruct q; [now apply A4|now apply A3|now apply A2|now apply A1]|]. split; [|exact S]. destruct q; auto.
  - intros (A & B & S). split; [exact D|]. split; [|exact S]. split; [exact T1|]. split; [exact T2|]. repeat split; try (intros _; exact Logic.I); intros <-; assumption.
Qed.
