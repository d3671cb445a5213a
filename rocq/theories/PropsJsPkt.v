(** C102: packets in JavaScript. *)
From Coq Require Import Lia ZArith.
From Verif Require Import Bytes ModelSpace SpecSpace ProofSpace ProofRooted ModelPkt SpecPkt ProofPkt ProofPkt2 PropsPkt ModelTree SpecTree ProofTree PropsTree ModelPred SpecPred ProofPred PropsPred.
From Verif Require Import ModelAbe ModelLns ModelHtml ModelPktScope SpecPktScope ProofPktScope.
From Verif Require ModelPy PropsPy.
From Verif Require Import SpecPy ModelPyPoint SpecPyPoint PropsPyPoint ModelJsPoint SpecJsPoint PropsJsPoint ModelJsPkt SpecJsPkt.
Local Open Scope N_scope.

Section C102.
Variable hash : bytes -> bytes.
Hypothesis HL : hash32 hash.
Lemma js_parts_eq b nh p : packet_of hash b nh p -> js_parts b = Ok (np_of hash nh p).
Proof. intros P. unfold js_parts. now rewrite (view_packet hash _ nh p HL P). Qed.

(** The fields are those of the packet; what only link and key points have is undefined on the others. *)
Theorem C102_fields b nh p : packet_of hash b nh p ->
  js_get_hash b = Ok (hash (content p)) /\ js_get_type b = Ok (type_byte p) /\ js_get_data b = Ok (pt_data p) /\
  (exists r, js_get_group b = Ok r /\ only_linked p (pt_group p) r) /\
  (exists r, js_get_domain b = Ok r /\ only_linked p (pt_domain p) r) /\
  (exists r, js_get_create b = Ok r /\ only_linked p (be_encode 8 (pt_create p)) r) /\
  (exists r, js_get_rooted b = Ok r /\ only_linked p (pt_rspace p) r) /\
  (exists r, js_get_pubkey b = Ok r /\ only_signed p (pt_pubkey p) r) /\
  (exists r, js_get_signature b = Ok r /\ only_signed p (pt_signature p) r) /\
  (forall cs, pt_comps p cs -> exists r, js_get_space b = Ok r /\ only_linked p (wire_space cs) r).
Proof.
  intros P. pose proof (js_parts_eq b nh p P) as E.
  unfold js_get_hash, js_get_type, js_get_data, js_get_group, js_get_domain, js_get_create, js_get_rooted, js_get_pubkey, js_get_signature, js_get_space.
  rewrite E. cbn [obind]. unfold only_linked, only_signed.
  split; [reflexivity|]. split; [now destruct p|]. split; [now destruct p|].
  do 6 (split; [destruct p; eexists; (split; [reflexivity|]); first [reflexivity|left; split; [exact I|reflexivity]|right; split; [intros []|reflexivity]]|]).
  intros cs (S & L & R). destruct p as [d|d|g dm s ls rs d|g dm s ls rs d pk sg];
    try (exists None; split; [reflexivity|right; split; [intros []|reflexivity]]).
  - exists (Some (wire_space cs)). split; [|left; split; [exact I|reflexivity]].
    change (get_rspace (np_of hash nh (PLink g dm s ls rs d))) with rs. cbn [pt_rspace] in R. cbn [get_header pf np_of].
    assert (rs_space rs = Ok (wire_space cs)) as X.
    { destruct R as [[-> ->]|[d' ->]]; [reflexivity|]. unfold rs_space. now rewrite rs_fields_rooted. }
    unfold get_header. cbn. rewrite X. reflexivity.
  - exists (Some (wire_space cs)). split; [|left; split; [exact I|reflexivity]].
    change (get_rspace (np_of hash nh (PKey g dm s ls rs d pk sg))) with rs. cbn [pt_rspace] in R.
    assert (rs_space rs = Ok (wire_space cs)) as X.
    { destruct R as [[-> ->]|[d' ->]]; [reflexivity|]. unfold rs_space. now rewrite rs_fields_rooted. }
    unfold get_header. cbn. rewrite X. reflexivity.
Qed.

Lemma pkt_links_pt nh p : pkt_links (np_of hash nh p) = pt_links p. Proof. now destruct p. Qed.
Lemma pt_links_ok p : point_ok p -> Forall link_ok (pt_links p).
Proof. intros [_ H]. destruct p; cbn [pt_links]; try constructor; tauto. Qed.
Lemma iterate_from b nh p : packet_of hash b nh p -> forall k i, (i + k = List.length (pt_links p))%nat ->
  forall extra, js_iterate (k + 1 + extra) b (N.of_nat i) = Ok (skipn i (pt_links p)).
Proof.
  intros P k. induction k as [|k IH]; intros i H extra.
  - cbn [Nat.add js_iterate]. unfold js_links_next. rewrite (js_parts_eq b nh p P). cbn [obind]. rewrite pkt_links_pt, Nat2N.id.
    rewrite (proj2 (nth_error_None _ _)) by lia. rewrite skipn_all2 by lia. reflexivity.
  - cbn [Nat.add js_iterate]. unfold js_links_next at 1. rewrite (js_parts_eq b nh p P). cbn [obind]. rewrite pkt_links_pt, Nat2N.id.
    destruct (nth_error (pt_links p) i) as [x|] eqn:X; [|apply nth_error_None in X; lia].
    replace (N.of_nat i + 1) with (N.of_nat (Datatypes.S i)) by lia. rewrite IH by lia. cbn [obind]. f_equal.
    clear - X. revert i X. generalize (pt_links p) as l. induction l as [|y l IHl]; intros [|i] X; cbn in X; try discriminate.
    + injection X as ->. reflexivity.
    + cbn [skipn]. now apply IHl.
Qed.
Lemma cut_links : forall (ls : list (bytes * bytes)) pre, Forall link_ok ls ->
  forall n, lenN pre = N.of_nat n * 48 ->
  map (fun i => let start := N.of_nat i * 48 in let start_hash := start + 16 in let end_ := start_hash + 32 in
       (sliceN start start_hash (pre ++ List.concat (map (fun k => fst k ++ snd k) ls)),
        sliceN start_hash end_ (pre ++ List.concat (map (fun k => fst k ++ snd k) ls)))) (seq n (List.length ls)) = ls.
Proof.
  induction ls as [|[t q] ls IH]; intros pre F n L; [reflexivity|]. inversion F as [|x y [T Q] F']; subst. cbn [fst snd] in T, Q.
  cbn [List.length seq map]. f_equal.
  - cbv zeta. cbn [map List.concat fst snd]. unfold sliceN.
    replace (N.of_nat n * 48 + 16 - N.of_nat n * 48) with 16 by lia.
    replace (N.of_nat n * 48 + 16 + 32 - (N.of_nat n * 48 + 16)) with 32 by lia.
    rewrite dropN_app_exact by exact L. rewrite <- !app_assoc. rewrite takeN_app_exact by exact T.
    rewrite app_assoc. rewrite dropN_app_exact by (rewrite lenN_app; lia). rewrite takeN_app_exact by exact Q. reflexivity.
  - specialize (IH (pre ++ t ++ q) F' (Datatypes.S n)). rewrite <- app_assoc in IH. apply IH. rewrite !lenN_app. lia.
Qed.
(** The links in the three forms: iterated over, each comes once and in order, and the iteration ends; the array and the
    bytes are the same links. *)
Theorem C102_links b nh p : packet_of hash b nh p ->
  (forall extra, js_iterate (List.length (pt_links p) + 1 + extra) b 0 = Ok (pt_links p)) /\
  js_links_array b = Ok (pt_links p) /\
  exists r, js_links_bytes b = Ok r /\ only_linked p (List.concat (map (fun k => fst k ++ snd k) (pt_links p))) r.
Proof.
  intros P. pose proof (js_parts_eq b nh p P) as E. split; [|split].
  - intros extra. now apply (iterate_from b nh p P (List.length (pt_links p)) 0).
  - unfold js_links_array, js_links_bytes. rewrite E. cbn [obind]. rewrite pkt_links_pt.
    pose proof (pt_links_ok p (proj1 (proj2 (proj2 P)))) as F. pose proof (cut_links (pt_links p) [] F 0%nat eq_refl) as X. cbn [app] in X.
    destruct p; try reflexivity; f_equal; exact X.
  - unfold js_links_bytes. rewrite E. cbn [obind]. rewrite pkt_links_pt. unfold only_linked.
    destruct p; eexists; (split; [reflexivity|]); first [left; split; [exact I|reflexivity]|right; split; [intros []|reflexivity]].
Qed.
(** The list of components, when the depth byte says how many there are; any other depth byte is refuted as in Python. *)
Lemma comp_list_py b : js_comp_list b = ModelPy.comp_list (ModelPy.mkPy [] 0 b). Proof. reflexivity. Qed.
Theorem C102_comps_partial b nh p cs : packet_of hash b nh p ->
  (~ linked p -> js_comp_list b = Ok None) /\
  (linked p -> space_ok cs -> (List.length cs <= 8)%nat -> pt_rspace p = wire_rooted cs -> js_comp_list b = Ok (Some cs)).
Proof. intros P. rewrite comp_list_py. exact (PropsPy.C93_comps_partial hash HL (ModelPy.mkPy [] 0 b) nh p cs P). Qed.
Theorem C102_comps_refuted b nh p cs d : packet_of hash b nh p -> space_ok cs -> List.length cs = 8%nat -> pt_rspace p = rooted_with d cs -> linked p ->
  (8 < d -> js_comp_list b = Panic) /\ (d < 8 -> js_comp_list b = Ok (Some (takeN d cs))).
Proof. intros P. rewrite comp_list_py. exact (PropsPy.C93_comps_refuted hash HL (ModelPy.mkPy [] 0 b) nh p cs d P). Qed.
End C102.

(** ** Making a packet again from its fields *)
(** [f] are fields read from the packet [b]: the space as bytes or as list of components, the links as bytes or iterated. *)
Definition read_from (b : bytes) (ls : list (bytes * bytes)) (f : JsFields) : Prop :=
  (exists v, js_get_group b = Ok (Some v) /\ f_group f = JsU v) /\
  (exists v, js_get_domain b = Ok (Some v) /\ f_domain f = JsU v) /\
  ((exists v, js_get_space b = Ok (Some v) /\ f_space f = JsU v) \/ (exists l, js_comp_list b = Ok (Some l) /\ f_space f = JsIter (map JsU l))) /\
  ((exists v, js_links_bytes b = Ok (Some v) /\ f_links f = JsU v) \/
   (exists l, js_iterate (List.length ls + 1) b 0 = Ok l /\ f_links f = JsIter (map js_of_link l))) /\
  (exists v, js_get_create b = Ok (Some v) /\ f_create f = JsU v).
Lemma truthy_u {A} (dflt : A) b x (P : JsVal -> A -> Prop) : P (JsU b) x -> js_given dflt (JsU b) x P.
Proof. intros H. apply given_cases. exact H. Qed.
Lemma truthy_iter {A} (dflt : A) l x (P : JsVal -> A -> Prop) : P (JsIter l) x -> js_given dflt (JsIter l) x P.
Proof. intros H. apply given_cases. exact H. Qed.
(** A link point made again from the fields read from it, with the same header, is the same packet. *)
Theorem C102_again : forall c now nh b g dm s ls cs d f v,
  crypto_ok c -> packet_of (hash c) b nh (PLink g dm s ls (wire_rooted cs) d) -> space_ok cs -> (List.length cs <= 8)%nat ->
  js_get_data b = Ok v -> read_from b ls f -> js_point c now nh None (JsU v) f = Ok b.
Proof.
  intros c now nh b g dm s ls cs d f v (HL & _) P S L DV (RG & RD & RS & RL & RC).
  set (p := PLink g dm s ls (wire_rooted cs) d) in *. assert (HL' : hash32 (hash c)) by exact HL.
  pose proof P as (Eb & _ & (SZ & Lg & Ld & Ls & Lk & _) & _).
  destruct (C102_fields _ HL' b nh p P) as (_ & _ & FD & (r1 & FG & G) & (r2 & FDm & D) & (r3 & FC & C) & _ & _ & _ & FS).
  destruct (FS cs) as (r4 & FS' & SP). { split; [exact S|]. split; [exact L|]. cbn [p pt_rspace]. destruct cs; [now left|right; eexists; reflexivity]. }
  destruct (C102_links _ HL' b nh p P) as (IT & _ & (r5 & FL & LB)).
  destruct (C102_comps_partial _ HL' b nh p cs P) as (_ & CL). specialize (CL I S L eq_refl).
  assert (linked p) as LK by exact I. unfold only_linked in *. cbn [p pt_data pt_group pt_domain pt_create pt_links] in *.
  destruct G as [[_ ->]|[X _]]; [|contradiction]. destruct D as [[_ ->]|[X _]]; [|contradiction]. destruct C as [[_ ->]|[X _]]; [|contradiction].
  destruct SP as [[_ ->]|[X _]]; [|contradiction]. destruct LB as [[_ ->]|[X _]]; [|contradiction].
  rewrite FD in DV. injection DV as <-.
  set (m := mkMeaning d g dm cs ls s).
  assert (OL : object_links (f_links f)).
  { destruct RL as [(w & _ & ->)|(l & _ & ->)]; [exact I|]. cbn [object_links]. apply Forall_forall. intros x X. apply in_map_iff in X as (k & <- & _). intros (b' & Y). discriminate. }
  assert (M : js_means PUBLIC now (JsU d) f m).
  { unfold js_means. cbn [m m_data m_group m_domain m_space m_links m_stamp]. split; [now left|].
    split; [|split; [|split; [|split]]].
    - destruct RG as (w & E & ->). rewrite FG in E. injection E as <-. apply truthy_u. exists g. split; [now left|]. split; [exact Lg|now left].
    - destruct RD as (w & E & ->). rewrite FDm in E. injection E as <-. apply truthy_u. exists dm. split; [now left|]. split; [lia|]. rewrite Ld. reflexivity.
    - destruct RS as [(w & E & ->)|(l & E & ->)].
      + rewrite FS' in E. injection E as <-. apply truthy_u. split; [exact S|]. split; [exact L|reflexivity].
      + rewrite CL in E. injection E as <-. apply truthy_iter. split; [exact S|]. split; [exact L|]. clear. induction cs as [|x cs IH]; cbn [map]; constructor; [now left|exact IH].
    - destruct RL as [(w & E & ->)|(l & E & ->)].
      + rewrite FL in E. injection E as <-. apply truthy_u. split; [exact Lk|reflexivity].
      + specialize (IT 0%nat). rewrite Nat.add_0_r in IT. rewrite IT in E. injection E as <-. apply truthy_iter. cbn [js_is_links].
        clear - Lk. induction Lk as [|k ls [T Q] F IH]; cbn [map]; constructor; [|exact IH]. split; [exact T|]. split; [exact Q|now left].
    - destruct RC as (w & E & ->). rewrite FC in E. injection E as <-. apply truthy_u. exists (be_encode 8 s). split; [reflexivity|]. split; [apply lenN_be_encode|].
      symmetry. apply be_decode_encode. exact Ls. }
  rewrite (C101_made_partial c nh now None (JsU d) f m OL M).
  change (point_of c None m) with p. apply N.leb_le in SZ. rewrite SZ. now rewrite Eb.
Qed.
(** What [links_array] gives cannot be given as links, if there are any: its items are arrays. *)
Theorem C102_array_refuted : forall c now nh nh' k data b p l f y,
  crypto_ok c -> packet_of (hash c) b nh' p -> pt_links p <> [] -> js_links_array b = Ok l -> f_links f = JsIter (map js_of_pair l) ->
  js_point c now nh k data f <> Ok y.
Proof.
  intros c now nh nh' k v b p l f y (HL & _) P NE A E X.
  destruct (C102_links _ (HL : hash32 (hash c)) b nh' p P) as (_ & LA & _). rewrite LA in A. injection A as <-.
  unfold js_point, common_args in X. rewrite E in X.
  destruct (js_bytelike v) as [data| | |]; try discriminate. cbn [obind] in X.
  destruct (js_group (f_group f)) as [g| | |]; try discriminate. cbn [obind] in X.
  destruct (js_domain (f_domain f)) as [d| | |]; try discriminate. cbn [obind] in X.
  destruct (js_space (f_space f)) as [r| | |]; try discriminate. cbn [obind] in X.
  destruct (pt_links p) as [|q ls]; [now apply NE|]. discriminate X.
Qed.

(** ** Examples: the packet [ex_pkt], with two links and two components *)
Definition ex_read : JsFields := mkFields (JsU ex_group) (JsU ex_domain) (JsIter [JsU [104;105]; JsU [121;111]]) (JsIter (map js_of_link ex_links)) (JsU [0;0;0;0;0;0;0;77]).
Example C102_ex : packet_of toy_hash ex_pkt ex_nh ex_point /\ read_from ex_pkt ex_links ex_read /\ js_point toy 5 ex_nh None (JsU ex_data) ex_read = Ok ex_pkt /\
  js_links_array ex_pkt = Ok ex_links /\ js_get_pubkey ex_pkt = Ok None.
Proof.
  split.
  { split; [reflexivity|]. split; [reflexivity|]. split; [|unfold bytes_ok, byte_ok; vm_compute; repeat constructor].
    split; [vm_compute; discriminate|]. split; [reflexivity|]. split; [reflexivity|]. split; [reflexivity|]. split; [repeat constructor|].
    right. exists 2, [[104;105];[121;111]]. split; [split; [repeat (apply Forall_cons; [unfold component_ok; cbn; lia|]); apply Forall_nil|vm_compute; discriminate]|]. split; [cbn; lia|]. split; reflexivity. }
  split; [|split; [vm_compute; reflexivity|split; vm_compute; reflexivity]].
  split; [eexists; split; vm_compute; reflexivity|]. split; [eexists; split; vm_compute; reflexivity|].
  split; [right; eexists; split; vm_compute; reflexivity|]. split; [right; eexists; split; vm_compute; reflexivity|]. eexists; split; vm_compute; reflexivity.
Qed.
Print Assumptions C102_fields.
Print Assumptions C102_links.
Print Assumptions C102_comps_partial.
Print Assumptions C102_comps_refuted.
Print Assumptions C102_again.
Print Assumptions C102_array_refuted.
