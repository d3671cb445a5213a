From Verif Require Import Bytes ModelSpace SpecSpace ProofSpace ProofRooted ModelPkt SpecPkt ProofPkt ProofPkt2.
From Verif Require Import ModelTree SpecTree.

Lemma lex_cons x a y b : lex (x :: a) (y :: b) = match x ?= y with Eq => lex a b | c => c end.
Proof. reflexivity. Qed.
Lemma lex_fixed a1 a2 b1 b2 : lenN a1 = lenN b1 -> lex (a1 ++ a2) (b1 ++ b2) = thenc (lex a1 b1) (lex a2 b2).
Proof. intros H. rewrite lex_app_len by (unfold lenN in H; lia). destruct (lex a1 b1); reflexivity. Qed.

(** Spaces with the same number of components: their bytes are self-delimiting. *)
Lemma lex_wire a : forall b x y, length a = length b ->
  lex (wire_space a ++ x) (wire_space b ++ y) = thenc (components_compare a b) (lex x y).
Proof.
  induction a as [|c a IH]; intros [|c' b] x y L; try discriminate L; [reflexivity|].
  cbn [length] in L. injection L as L. rewrite !wire_space_cons. cbn [app components_compare].
  rewrite lex_cons. unfold component_compare. destruct (N.compare_spec (lenN c) (lenN c')) as [E|E|E]; [|reflexivity|reflexivity].
  rewrite <- !app_assoc, lex_fixed by assumption. cbn [thenc]. rewrite IH by assumption.
  destruct (lex c c'); reflexivity.
Qed.

Lemma be_encode_compare k n m : n < 256 ^ N.of_nat k -> m < 256 ^ N.of_nat k ->
  lex (be_encode k n) (be_encode k m) = (n ?= m).
Proof.
  intros Hn Hm. rewrite lex_be_decode; try apply be_encode_ok; [|now rewrite !be_encode_length].
  now rewrite !be_decode_encode.
Qed.

Lemma thenc_assoc a b c : thenc (thenc a b) c = thenc a (thenc b c).
Proof. destruct a; reflexivity. Qed.

Definition ix_key (a : indexed) : bytes :=
  tree_key (i_group a) (i_domain a) (lenN (i_space a)) (wire_space (i_space a)) (Some (i_pubkey a)).

Lemma ix_key_compare a b : indexed_ok a -> indexed_ok b -> lex (ix_key a) (ix_key b) = branch_compare a b.
Proof.
  intros (A1 & A2 & A3 & A4 & _) (B1 & B2 & B3 & B4 & _). unfold ix_key, tree_key, branch_compare.
  rewrite lex_fixed by lia. rewrite lex_fixed by lia. cbn [app]. rewrite lex_cons. do 2 f_equal.
  destruct (N.compare_spec (lenN (i_space a)) (lenN (i_space b))) as [E|E|E]; cbn [thenc]; [|reflexivity|reflexivity].
  apply lex_wire. unfold lenN in E. lia.
Qed.

(** ** Totality of orders *)
Lemma lex_trans_le a b c : lex a b <> Gt -> lex b c <> Gt -> lex a c <> Gt.
Proof.
  intros H1 H2. destruct (lex a b) eqn:E1; [|clear H1|congruence].
  - apply lex_eq in E1. now subst.
  - destruct (lex b c) eqn:E2; [|clear H2|congruence].
    + apply lex_eq in E2. subst. congruence.
    + rewrite (lex_trans_lt a b c); congruence.
Qed.

Definition entry_cmp (h h' : bytes) (ea eb : option (bytes * bytes)) : comparison :=
  match ea, eb with
  | Some (ka, va), Some (kb, vb) => match lex ka kb with Eq => lex va vb | c => c end
  | Some _, None => Lt
  | None, Some _ => Gt
  | None, None => lex h h'
  end.
Lemma entry_cmp_antisym h h' ea eb : entry_cmp h' h eb ea = CompOpp (entry_cmp h h' ea eb).
Proof.
  destruct ea as [[ka va]|], eb as [[kb vb]|]; cbn [entry_cmp]; try reflexivity; [|apply lex_antisym].
  rewrite (lex_antisym ka kb). destruct (lex ka kb) eqn:E; cbn [CompOpp]; try reflexivity. apply lex_antisym.
Qed.
Lemma entry_cmp_trans ha hb hc ea eb ec :
  entry_cmp ha hb ea eb <> Gt -> entry_cmp hb hc eb ec <> Gt -> entry_cmp ha hc ea ec <> Gt.
Proof.
  destruct ea as [[ka va]|], eb as [[kb vb]|], ec as [[kc vc]|]; cbn [entry_cmp]; try congruence; [|apply lex_trans_le].
  intros H1 H2.
  destruct (lex ka kb) eqn:E1; [| |congruence].
  - apply lex_eq in E1. subst kb. destruct (lex ka kc) eqn:E2; try congruence. eapply lex_trans_le; eassumption.
  - destruct (lex kb kc) eqn:E2; [| |congruence].
    + apply lex_eq in E2. subst kc. rewrite E1. congruence.
    + rewrite (lex_trans_lt ka kb kc); congruence.
Qed.
Lemma entry_cmp_eq h h' ea eb : entry_cmp h h' ea eb = Eq <-> ea = eb /\ (ea = None -> h = h').
Proof.
  destruct ea as [[ka va]|], eb as [[kb vb]|]; cbn [entry_cmp]; try (split; [discriminate|intros [X _]; discriminate X]).
  - destruct (lex ka kb) eqn:E; try (split; [discriminate|intros [X _]; injection X as -> ->; rewrite lex_refl in E; discriminate E]).
    apply lex_eq in E. subst kb. rewrite lex_eq. split; [intros ->; split; [reflexivity|discriminate]|].
    intros [X _]. now injection X.
  - rewrite lex_eq. split; [intros ->; auto|intros [_ X]; now apply X].
Qed.

(** ** Entries of valid packets *)
Lemma rs_space_ok rs : rooted_ok rs -> exists sp, rs_space rs = Ok sp.
Proof.
  intros [->|(d & cs & _ & _ & _ & ->)]; [exists []; reflexivity|]. unfold rs_space. rewrite rs_fields_rooted. eexists. reflexivity.
Qed.
Lemma rs_space_wire cs : rs_space (wire_rooted cs) = Ok (wire_space cs) /\ rs_depth (wire_rooted cs) = lenN cs.
Proof.
  destruct cs as [|x cs]; [split; reflexivity|]. unfold wire_rooted. split; [|reflexivity].
  unfold rs_space. rewrite rs_fields_rooted. reflexivity.
Qed.
Lemma entry_total np p stamp hash : carries hash np p -> exists e, tree_entry stamp np = Ok e.
Proof.
  intros (F & Hp & _). unfold tree_entry, has_fields in *.
  destruct (fields (point_parts np)) as [d|lp|lp s|d|d]; cbn [common_idx]; try (eexists; reflexivity).
  - subst p. destruct Hp as (_ & _ & _ & _ & _ & R). destruct (rs_space_ok _ R) as [sp ->]. eexists. reflexivity.
  - subst p. destruct Hp as (_ & _ & _ & _ & _ & R & _). destruct (rs_space_ok _ R) as [sp ->]. eexists. reflexivity.
Qed.
Lemma pkt_cmp_entries np np' e e' : tree_entry 0 np = Ok e -> tree_entry 0 np' = Ok e' ->
  pkt_cmp np np' = Ok (entry_cmp (np_hash np) (np_hash np') e e').
Proof. intros E E'. unfold pkt_cmp. rewrite E, E'. cbn [obind]. destruct e as [[? ?]|], e' as [[? ?]|]; reflexivity. Qed.

Lemma tree_value_hash create h lp a b : lenN h = 32 -> val_hash (tree_value create h lp a b) = h.
Proof.
  intros H. unfold val_hash, tree_value. apply sliceN_mid; rewrite lenN_be_encode; lia.
Qed.
Lemma entry_none np p stamp hash : carries hash np p ->
  tree_entry stamp np = Ok None <-> match p with PData _ | PError _ => True | _ => False end.
Proof.
  intros C. pose proof C as (F & Hp & _). unfold tree_entry, has_fields in *.
  destruct (fields (point_parts np)) as [d|lp|lp s|d|d]; cbn [common_idx]; try contradiction; subst p; try tauto.
  - destruct Hp as (_ & _ & _ & _ & _ & R). destruct (rs_space_ok _ R) as [sp ->]. cbn [obind]. split; [discriminate|tauto].
  - destruct Hp as (_ & _ & _ & _ & _ & R & _). destruct (rs_space_ok _ R) as [sp ->]. cbn [obind]. split; [discriminate|tauto].
Qed.

Definition point_links (p : point) : list (bytes * bytes) :=
  match p with PLink _ _ _ ls _ _ | PKey _ _ _ ls _ _ _ _ => ls | _ => [] end.
Definition point_data (p : point) : bytes :=
  match p with PLink _ _ _ _ _ d | PKey _ _ _ _ _ d _ _ | PData d | PError d => d end.

Lemma entry_indexed np p cs ix stamp hash : carries hash np p -> in_tree p cs ix hash ->
  tree_entry stamp np = Ok (Some (ix_key ix, tree_value (i_create ix) (i_hash ix) stamp (lenN (point_links p)) (lenN (point_data p)))).
Proof.
  intros (F & Hp & H) [T S]. unfold tree_entry, has_fields in *.
  destruct (rs_space_wire cs) as [W1 W2].
  destruct (fields (point_parts np)) as [d|lp|lp s|d|d]; cbn [common_idx]; try (subst p; contradiction); try contradiction.
  - subst p. destruct T as [R ->]. rewrite H, R, W1, W2. reflexivity.
  - subst p. destruct T as [R ->]. rewrite H, R, W1, W2. reflexivity.
Qed.
Lemma in_tree_ok p cs ix hash : (forall x, lenN (hash x) = 32) -> point_ok p -> in_tree p cs ix hash -> indexed_ok ix.
Proof.
  intros HL Hp [T S]. destruct p; try contradiction; destruct T as [R ->]; unfold indexed_ok; cbn [i_group i_domain i_space i_pubkey i_create i_hash].
  - destruct Hp as (_ & A & B & C & _). rewrite HL. repeat split; try assumption; apply S.
  - destruct Hp as (_ & A & B & C & _ & _ & D & _). rewrite HL. repeat split; try assumption; apply S.
Qed.
Lemma value_compare c h lp a b c' h' a' b' : c < 2 ^ 64 -> c' < 2 ^ 64 -> lenN h = 32 -> lenN h' = 32 ->
  lex (tree_value c h lp a b) (tree_value c' h' lp a' b') =
  thenc (c ?= c') (thenc (lex h h') (thenc (a mod 65536 ?= a' mod 65536) (b mod 65536 ?= b' mod 65536))).
Proof.
  intros H1 H2 H3 H4. unfold tree_value.
  rewrite lex_fixed by (now rewrite !lenN_be_encode). rewrite lex_fixed by lia.
  rewrite lex_fixed by (now rewrite !lenN_be_encode). rewrite lex_refl. cbn [thenc].
  rewrite lex_fixed by (now rewrite !lenN_be_encode).
  rewrite !be_encode_compare; try reflexivity; try assumption;
    try (change (256 ^ N.of_nat 2) with 65536; apply N.mod_lt; lia).
Qed.
Lemma entry_some_hash np stamp k v : lenN (np_hash np) = 32 -> tree_entry stamp np = Ok (Some (k, v)) -> val_hash v = np_hash np.
Proof.
  intros L. unfold tree_entry. destruct (common_idx _) as [[[h rs] key]|]; [|discriminate].
  destruct (rs_space rs) as [sp| | |]; try discriminate. cbn [obind]. intros E.
  assert (E2 : v = tree_value (get_create_stamp (fields (point_parts np))) (np_hash np) stamp
    (lenN (get_links (fields (point_parts np)))) (lenN (get_data (fields (point_parts np))))) by congruence.
  subst v. now apply tree_value_hash.
Qed.
Lemma entry_same_point np np' p stamp : has_fields (fields (point_parts np)) p -> has_fields (fields (point_parts np')) p ->
  np_hash np = np_hash np' -> tree_entry stamp np = tree_entry stamp np'.
Proof.
  unfold tree_entry. intros F F' ->.
  destruct (fields (point_parts np)) as [d|[h t]|[h t] s|d|d], (fields (point_parts np')) as [d'|[h' t']|[h' t'] s'|d'|d'];
    cbn [has_fields head tail] in *; try contradiction; subst p; try discriminate F'; try reflexivity;
    cbn [common_idx get_create_stamp get_links get_data head tail].
  - injection F' as -> -> -> -> -> ->. reflexivity.
  - injection F' as -> -> -> -> -> -> -> _. reflexivity.
Qed.
Lemma in_tree_hash p cs ix hash : in_tree p cs ix hash -> i_hash ix = hash (content p).
Proof. intros [T _]. destruct p; try contradiction; destruct T as [-> ->]; reflexivity. Qed.
(** Used by examples: a computable check of [space_ok]. *)
Lemma space_okb cs : forallb (fun c => (1 <=? lenN c) && (lenN c <=? 200)) cs && (lenN (wire_space cs) <=? 242) = true -> space_ok cs.
Proof.
  intros H. apply andb_prop in H as [H1 H2]. split; [|now apply N.leb_le in H2].
  apply Forall_forall. intros c I. rewrite forallb_forall in H1. specialize (H1 c I). apply andb_prop in H1 as [X Y].
  apply N.leb_le in X, Y. split; assumption.
Qed.
