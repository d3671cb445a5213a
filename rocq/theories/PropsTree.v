(** Properties C18, C19: the tree index and packet comparison. *)
From Verif Require Import Bytes ModelSpace SpecSpace ProofSpace ProofRooted.
From Verif Require Import ModelPkt SpecPkt ProofPkt ProofPkt2 ModelTree SpecTree ProofTree PropsPkt.

(** Every packet that can be read carries a point, so the hypotheses below hold of all
    packets that enter an instance. *)
Theorem C19_read_carries : forall c b allow pkt rest,
  bytes_ok b -> crypto_ok c -> lk_read c b allow = Ok (pkt, rest) ->
  exists pp p, ptr_parts (nptr_point pkt) = Ok pp /\
    carries (hash c) (mkNetParts (nptr_header pkt) (nptr_hash pkt) pp) p.
Proof.
  intros c b allow pkt rest B C E. destruct (C04_read_fields c b allow pkt rest B C E) as (h & f & p & P & Hp & _ & _ & H & _ & _ & F).
  exists (mkParts h f), p. split; [exact P|]. split; [exact F|]. split; assumption.
Qed.

(** * C18: the tree index *)
(** The bytes of two index keys compare as the points' group, domain, depth, space (by
    components) and public key. *)
Theorem C18_key_order : forall hash np p cs ix np' p' cs' ix' s s' k v k' v',
  (forall x, lenN (hash x) = 32) ->
  carries hash np p -> in_tree p cs ix hash -> carries hash np' p' -> in_tree p' cs' ix' hash ->
  tree_entry s np = Ok (Some (k, v)) -> tree_entry s' np' = Ok (Some (k', v')) ->
  lex k k' = branch_compare ix ix'.
Proof.
  intros hash np p cs ix np' p' cs' ix' s s' k v k' v' HL C T C' T' E E'.
  rewrite (entry_indexed _ _ _ _ _ _ C T) in E. rewrite (entry_indexed _ _ _ _ _ _ C' T') in E'.
  injection E as <- _. injection E' as <- _.
  apply ix_key_compare; [apply (in_tree_ok p cs ix hash)|apply (in_tree_ok p' cs' ix' hash)]; auto; [apply C|apply C'].
Qed.
Theorem C18_in_tree_entry : forall hash np p s,
  carries hash np p ->
  exists e, tree_entry s np = Ok e /\
    (e = None <-> match p with PData _ | PError _ => True | _ => False end).
Proof.
  intros hash np p s C. destruct (entry_total _ _ s _ C) as [e E]. exists e. split; [exact E|].
  rewrite <- (entry_none _ _ s _ C), E. split; congruence.
Qed.

(** Each field can be read back from the key, whatever the space. *)
Theorem C18_key_fields : forall g dm depth sp pk,
  lenN g = 32 -> lenN dm = 16 -> lenN pk = 32 ->
  key_fields (tree_key g dm depth sp (Some pk)) = Ok (g, dm, depth, sp, pk) /\
  key_fields (tree_key g dm depth sp None) = Ok (g, dm, depth, sp, repeat 0 32).
Proof.
  assert (X : forall g dm depth sp pk, lenN g = 32 -> lenN dm = 16 -> lenN pk = 32 ->
    key_fields (tree_key g dm depth sp (Some pk)) = Ok (g, dm, depth, sp, pk)).
  { intros g dm depth sp pk Hg Hd Hp. unfold key_fields, key_space_and_key, key_pop, tree_key.
    set (k := g ++ dm ++ [depth] ++ sp ++ pk).
    assert (L : lenN k = 49 + lenN sp + 32) by (unfold k; rewrite !lenN_app, Hg, Hd, Hp; change (lenN [depth]) with 1; lia).
    rewrite L. destruct (N.ltb_spec (49 + lenN sp + 32) 32); [lia|]. cbn [obind].
    replace (49 + lenN sp + 32 - 32) with (lenN (g ++ dm ++ [depth] ++ sp)) by (rewrite !lenN_app, Hg, Hd; change (lenN [depth]) with 1; lia).
    assert (K : k = (g ++ dm ++ [depth] ++ sp) ++ pk) by (unfold k; now rewrite <- !app_assoc).
    rewrite K, (takeN_app_exact _ (g ++ dm ++ [depth] ++ sp) pk eq_refl), (dropN_app_exact _ (g ++ dm ++ [depth] ++ sp) pk eq_refl).
    rewrite !lenN_app, Hg, Hd. change (lenN [depth]) with 1. destruct (N.ltb_spec (32 + (16 + (1 + lenN sp))) 49); [lia|]. cbn [obind].
    replace (g ++ dm ++ [depth] ++ sp) with ((g ++ dm ++ [depth]) ++ sp) by now rewrite <- !app_assoc.
    rewrite (dropN_app_exact 49 (g ++ dm ++ [depth]) sp) by (rewrite !lenN_app, Hg, Hd; reflexivity).
    replace (((g ++ dm ++ [depth]) ++ sp) ++ pk) with (g ++ (dm ++ (depth :: (sp ++ pk)))) by now rewrite <- !app_assoc.
    rewrite (takeN_app_exact 32 g) by assumption.
    rewrite (sliceN_mid 32 48 g dm) by lia.
    replace (nth 48 (g ++ dm ++ depth :: sp ++ pk) 0) with depth; [reflexivity|].
    rewrite app_assoc, app_nth2; rewrite app_length; unfold lenN in *; [|lia].
    replace (48 - (length g + length dm))%nat with 0%nat by lia. reflexivity. }
  intros g dm depth sp pk Hg Hd Hp. split; [now apply X|]. apply (X g dm depth sp (repeat 0 32)); auto.
Qed.
(** Two points have the same key only if group, domain, depth byte, space and public key
    are all the same. *)
Theorem C18_key_injective : forall g dm depth sp pk g' dm' depth' sp' pk',
  lenN g = 32 -> lenN dm = 16 -> lenN pk = 32 -> lenN g' = 32 -> lenN dm' = 16 -> lenN pk' = 32 ->
  tree_key g dm depth sp (Some pk) = tree_key g' dm' depth' sp' (Some pk') ->
  g = g' /\ dm = dm' /\ depth = depth' /\ sp = sp' /\ pk = pk'.
Proof.
  intros g dm depth sp pk g' dm' depth' sp' pk' H1 H2 H3 H1' H2' H3' E.
  pose proof (proj1 (C18_key_fields g dm depth sp pk H1 H2 H3)) as X.
  pose proof (proj1 (C18_key_fields g' dm' depth' sp' pk' H1' H2' H3')) as Y.
  rewrite E, Y in X. injection X as -> -> -> -> ->. auto.
Qed.
(** The value stores the create stamp, hash, log position and sizes. *)
Theorem C18_value_fields : forall create h logptr nl nd,
  create < 2 ^ 64 -> lenN h = 32 -> logptr < 2 ^ 64 ->
  let v := tree_value create h logptr nl nd in
  val_create v = create /\ val_hash v = h /\ val_logptr v = logptr /\
  (nl < 65536 -> val_links_len v = nl) /\ (nd < 65536 -> val_data_size v = nd).
Proof.
  intros create h logptr nl nd H1 H2 H3 v. unfold val_create, val_logptr, val_links_len, val_data_size.
  split; [|split; [apply tree_value_hash; assumption|]].
  - unfold v, tree_value. rewrite (sliceN_front 8 (be_encode 8 create)) by (rewrite ?lenN_be_encode; reflexivity).
    now apply be_decode_encode.
  - unfold v, tree_value. set (a := be_encode 8 create). set (b := be_encode 8 logptr).
    set (x := be_encode 2 (nl mod 65536)). set (y := be_encode 2 (nd mod 65536)).
    assert (La : lenN a = 8) by apply lenN_be_encode. assert (Lb : lenN b = 8) by apply lenN_be_encode.
    assert (Lx : lenN x = 2) by apply lenN_be_encode. assert (Ly : lenN y = 2) by apply lenN_be_encode.
    split; [|split; intros Q].
    + replace (a ++ h ++ b ++ x ++ y) with ((a ++ h) ++ b ++ (x ++ y)) by now rewrite <- !app_assoc.
      rewrite (sliceN_mid 40 48 (a ++ h) b) by (rewrite ?lenN_app; lia). now apply be_decode_encode.
    + replace (a ++ h ++ b ++ x ++ y) with ((a ++ h ++ b) ++ x ++ y) by now rewrite <- !app_assoc.
      rewrite (sliceN_mid 48 50 (a ++ h ++ b) x) by (rewrite ?lenN_app; lia). unfold x.
      rewrite be_decode_encode; [now apply N.mod_small|]. apply N.mod_lt. lia.
    + replace (a ++ h ++ b ++ x ++ y) with ((a ++ h ++ b ++ x) ++ y ++ []) by (rewrite app_nil_r; now rewrite <- !app_assoc).
      rewrite (sliceN_mid 50 52 (a ++ h ++ b ++ x) y) by (rewrite ?lenN_app; lia). unfold y.
      rewrite be_decode_encode; [now apply N.mod_small|]. apply N.mod_lt. lia.
Qed.

(** An accepted point's depth byte is unchecked when it has 8 components (finding of
    C15), so its key is then not in the logical order: a point with 8 components can sort
    before one with 5. *)
Definition lying_rspace : bytes := rooted_with 2 [[1];[1];[1];[1];[1];[1];[1];[1]].
Definition honest_rspace : bytes := wire_rooted [[1];[1];[1];[1];[1]].
Theorem C18_order_refuted :
  exists np np' k v k' v' rs rs',
    carries toy_hash np (PLink ex_group ex_domain 7 [] rs ex_data) /\
    carries toy_hash np' (PLink ex_group ex_domain 7 [] rs' ex_data) /\
    rs_space rs = Ok (wire_space [[1];[1];[1];[1];[1];[1];[1];[1]]) /\ rs_space rs' = Ok (wire_space [[1];[1];[1];[1];[1]]) /\
    tree_entry 0 np = Ok (Some (k, v)) /\ tree_entry 0 np' = Ok (Some (k', v')) /\ lex k k' = Lt.
Proof.
  assert (P : forall rs, rooted_ok rs -> lenN rs < 1000 -> point_ok (PLink ex_group ex_domain 7 [] rs ex_data)).
  { intros rs R L. split; [cbn [point_size]; change (lenN ex_data) with 4; change (lenN (@nil Link)) with 0; lia|].
    split; [reflexivity|]. split; [reflexivity|]. split; [reflexivity|]. split; [constructor|assumption]. }
  set (np rs := net_of toy ex_nh (PLink ex_group ex_domain 7 [] rs ex_data)).
  exists (np lying_rspace), (np honest_rspace). do 4 eexists. exists lying_rspace, honest_rspace.
  split; [split; [reflexivity|split; [|reflexivity]]|].
  { apply P; [|reflexivity]. right. exists 2, [[1];[1];[1];[1];[1];[1];[1];[1]]. split; [|split; [cbn; lia|split; [cbn; lia|reflexivity]]].
    now apply space_okb. }
  split; [split; [reflexivity|split; [|reflexivity]]|].
  { apply P; [|reflexivity]. right. exists 5, [[1];[1];[1];[1];[1]]. split; [|split; [cbn; lia|split; [cbn; lia|reflexivity]]].
    now apply space_okb. }
  split; [reflexivity|]. split; [reflexivity|]. split; [reflexivity|]. split; [reflexivity|]. reflexivity.
Qed.
Example C18_ex : exists np np', carries toy_hash np (PLink ex_group ex_domain 7 ex_links ex_rspace ex_data) /\
  in_tree (PLink ex_group ex_domain 7 ex_links ex_rspace ex_data) [[104;105];[121;111]]
    (mkIndexed ex_group ex_domain [[104;105];[121;111]] (repeat 0 32) 7 (np_hash np)) toy_hash /\
  carries toy_hash np' (PData ex_data) /\ tree_entry 5 np' = Ok None /\ pkt_cmp np np' = Ok Lt.
Proof.
  exists (net_of toy ex_nh (PLink ex_group ex_domain 7 ex_links ex_rspace ex_data)), (net_of toy ex_nh (PData ex_data)).
  split; [split; [reflexivity|split; [|reflexivity]]|].
  { split; [now vm_compute|]. split; [reflexivity|]. split; [reflexivity|]. split; [reflexivity|]. split; [repeat constructor|].
    right. exists 2, [[104;105];[121;111]]. split; [|split; [cbn; lia|split; [reflexivity|reflexivity]]]. now apply space_okb. }
  split. { split; [split; reflexivity|]. now apply space_okb. }
  split; [split; [reflexivity|split; [|reflexivity]]|]. { split; [now vm_compute|exact I]. }
  split; reflexivity.
Qed.
Print Assumptions C18_key_order.
Print Assumptions C18_in_tree_entry.
Print Assumptions C18_key_fields.
Print Assumptions C18_key_injective.
Print Assumptions C18_value_fields.
Print Assumptions C18_order_refuted.

(** * C19: packet comparison *)
Theorem C19_total : forall hash a pa b pb,
  carries hash a pa -> carries hash b pb -> exists o, pkt_cmp a b = Ok o /\ pkt_cmp b a = Ok (CompOpp o).
Proof.
  intros hash a pa b pb A B. destruct (entry_total _ _ 0 _ A) as [ea Ea]. destruct (entry_total _ _ 0 _ B) as [eb Eb].
  rewrite (pkt_cmp_entries a b ea eb), (pkt_cmp_entries b a eb ea) by assumption. eexists. split; [reflexivity|].
  now rewrite <- entry_cmp_antisym.
Qed.
Theorem C19_reflexive : forall hash a pa, carries hash a pa -> pkt_cmp a a = Ok Eq.
Proof.
  intros hash a pa A. destruct (entry_total _ _ 0 _ A) as [ea Ea]. rewrite (pkt_cmp_entries a a ea ea) by assumption.
  f_equal. apply entry_cmp_eq. auto.
Qed.
Theorem C19_transitive : forall hash a pa b pb c pc o,
  carries hash a pa -> carries hash b pb -> carries hash c pc ->
  pkt_cmp a b <> Ok Gt -> pkt_cmp b c <> Ok Gt -> pkt_cmp a c = Ok o -> o <> Gt.
Proof.
  intros hash a pa b pb c pc o A B C. destruct (entry_total _ _ 0 _ A) as [ea Ea]. destruct (entry_total _ _ 0 _ B) as [eb Eb].
  destruct (entry_total _ _ 0 _ C) as [ec Ec].
  rewrite (pkt_cmp_entries a b ea eb), (pkt_cmp_entries b c eb ec), (pkt_cmp_entries a c ea ec) by assumption.
  intros H1 H2 H3. injection H3 as <-. apply (entry_cmp_trans _ (np_hash b) _ _ eb); congruence.
Qed.
(** Packets compare equal exactly when [PktCmp::eq] holds: the same hash (given that the
    hash does not collide on the two). *)
Theorem C19_equal_iff_same_hash : forall hash a pa b pb,
  (forall x, lenN (hash x) = 32) -> carries hash a pa -> carries hash b pb ->
  (pkt_cmp a b = Ok Eq -> pkt_eq a b = true) /\
  ((hash (content pa) = hash (content pb) -> content pa = content pb) -> pkt_eq a b = true -> pkt_cmp a b = Ok Eq).
Proof.
  intros hash a pa b pb HL A B. destruct (entry_total _ _ 0 _ A) as [ea Ea]. destruct (entry_total _ _ 0 _ B) as [eb Eb].
  rewrite (pkt_cmp_entries a b ea eb) by assumption. unfold pkt_eq. rewrite beqb_eq. split.
  - intros X. injection X as X. apply entry_cmp_eq in X as [X1 X2]. subst eb.
    destruct ea as [[k v]|]; [|auto].
    assert (LA : lenN (np_hash a) = 32) by (destruct A as (_ & _ & ->); apply HL).
    assert (LB : lenN (np_hash b) = 32) by (destruct B as (_ & _ & ->); apply HL).
    apply entry_some_hash in Ea; [|assumption]. apply entry_some_hash in Eb; [|assumption]. congruence.
  - intros I X. destruct A as (FA & PA & HA), B as (FB & PB & HB).
    rewrite HA, HB in X. apply I in X.
    assert (Q : pa = pb) by (apply (content_inj_app pa pb [] []); auto; now rewrite X). subst pb.
    f_equal. apply entry_cmp_eq. rewrite HA, HB. split; [|auto].
    assert (Z : tree_entry 0 a = tree_entry 0 b) by (apply (entry_same_point a b pa 0 FA FB); congruence). congruence.
Qed.
(** The order is the tree order, and points without a tree entry come after, by hash. *)
Theorem C19_order : forall hash a pa ca ia b pb cb ib,
  (forall x, lenN (hash x) = 32) -> carries hash a pa -> carries hash b pb ->
  in_tree pa ca ia hash -> in_tree pb cb ib hash ->
  (hash (content pa) = hash (content pb) -> content pa = content pb) ->
  pkt_cmp a b = Ok (tree_compare ia ib).
Proof.
  intros hash a pa ca ia b pb cb ib HL A B TA TB I.
  rewrite (pkt_cmp_entries a b _ _ (entry_indexed _ _ _ _ 0 _ A TA) (entry_indexed _ _ _ _ 0 _ B TB)). f_equal.
  assert (OA : indexed_ok ia) by (apply (in_tree_ok pa ca ia hash); auto; apply A).
  assert (OB : indexed_ok ib) by (apply (in_tree_ok pb cb ib hash); auto; apply B).
  cbn [entry_cmp]. rewrite ix_key_compare by assumption. unfold tree_compare.
  rewrite value_compare; try apply OA; try apply OB.
  destruct (branch_compare ia ib); cbn [thenc]; try reflexivity.
  destruct (i_create ia ?= i_create ib); cbn [thenc]; try reflexivity.
  destruct (lex (i_hash ia) (i_hash ib)) eqn:E; cbn [thenc]; try reflexivity. apply lex_eq in E.
  assert (Q : pa = pb).
  { destruct A as (_ & PA & _), B as (_ & PB & _). rewrite (in_tree_hash _ _ _ _ TA), (in_tree_hash _ _ _ _ TB) in E.
    apply I in E. apply (content_inj_app pa pb [] []); auto. now rewrite E. }
  subst pb. now rewrite !N.compare_refl.
Qed.
Theorem C19_others_after : forall hash a pa b pb,
  carries hash a pa -> carries hash b pb ->
  match pa, pb with
  | (PData _ | PError _), (PData _ | PError _) => pkt_cmp a b = Ok (lex (hash (content pa)) (hash (content pb)))
  | (PData _ | PError _), _ => pkt_cmp a b = Ok Gt
  | _, (PData _ | PError _) => pkt_cmp a b = Ok Lt
  | _, _ => True
  end.
Proof.
  intros hash a pa b pb A B. destruct (entry_total _ _ 0 _ A) as [ea Ea]. destruct (entry_total _ _ 0 _ B) as [eb Eb].
  pose proof (entry_none _ _ 0 _ A) as NA. pose proof (entry_none _ _ 0 _ B) as NB. rewrite Ea in NA. rewrite Eb in NB.
  rewrite (pkt_cmp_entries a b ea eb) by assumption. destruct A as (_ & _ & ->), B as (_ & _ & ->).
  destruct pa, pb; cbn [entry_cmp]; try exact I;
    destruct ea as [[? ?]|], eb as [[? ?]|]; cbn [entry_cmp]; try reflexivity;
    exfalso; destruct NA as [NA1 NA2], NB as [NB1 NB2];
    try (now (discriminate (NA2 I))); try (now (discriminate (NB2 I))); try (now apply NA1); try (now apply NB1).
Qed.
Example C19_ex : exists np np', carries toy_hash np (PData [1;2]) /\ carries toy_hash np' (PError [1;2]) /\ pkt_cmp np np' = Ok Lt /\ pkt_eq np np' = false.
Proof.
  exists (net_of toy ex_nh (PData [1;2])), (net_of toy ex_nh (PError [1;2])).
  split; [split; [reflexivity|split; [|reflexivity]]|]. { split; [now vm_compute|exact I]. }
  split; [split; [reflexivity|split; [|reflexivity]]|]. { split; [now vm_compute|exact I]. }
  split; reflexivity.
Qed.
Print Assumptions C19_read_carries.
Print Assumptions C19_total.
Print Assumptions C19_reflexive.
Print Assumptions C19_transitive.
Print Assumptions C19_equal_iff_same_hash.
Print Assumptions C19_order.
Print Assumptions C19_others_after.
