From Coq Require Import Sorting.Sorted.
From Verif Require Import Bytes ModelSpace SpecSpace ProofSpace ModelPkt SpecPkt ModelTree SpecTree ProofTree.
From Verif Require Import ModelTestSet SpecTestSet ProofTestSet ModelStore SpecStore ProofStore ModelPred ModelQuery.
From Verif Require Import PropsTree.

(** ** Stamp ranges *)
Lemma iter_cmp_in r i : iter_cmp r i = In_ <-> sr_contains r i = true.
Proof.
  unfold iter_cmp, sr_contains, as_i8. destruct r as [s e]. cbn [sr_start sr_end].
  destruct (N.compare_spec s i), (N.compare_spec e i), (N.compare_spec s e); subst; try lia; cbn; split; congruence.
Qed.
Lemma contains_iff a b i : sr_contains (mkRange a b) i = true <-> (a <= i /\ i <= b) \/ (b <= i /\ i <= a).
Proof.
  unfold sr_contains. cbn [sr_start sr_end]. destruct (N.compare_spec a i), (N.compare_spec b i); split; intros; try congruence; try lia; auto.
Qed.
Lemma contains_range b asc i : low b <= high b -> sr_contains (stamp_range b asc) i = bound_test b i.
Proof.
  intros H. apply and_iff. destruct asc; cbn [stamp_range]; rewrite contains_iff; unfold bound_test; rewrite andb_true_iff, !N.leb_le; lia.
Qed.
Lemma iter_cmp_asc a b i : a <= b -> iter_cmp (mkRange a b) i = if i <? a then Pre else if i <=? b then In_ else Post.
Proof.
  intros H. unfold iter_cmp, as_i8. cbn [sr_start sr_end].
  destruct (N.compare_spec a i), (N.compare_spec b i), (N.compare_spec a b), (N.ltb_spec i a), (N.leb_spec i b); subst; try lia; reflexivity.
Qed.
Lemma iter_cmp_desc a b i : b < a -> iter_cmp (mkRange a b) i = if a <? i then Pre else if b <=? i then In_ else Post.
Proof.
  intros H. unfold iter_cmp, as_i8. cbn [sr_start sr_end].
  destruct (N.compare_spec a i), (N.compare_spec b i), (N.compare_spec a b), (N.ltb_spec a i), (N.leb_spec b i); subst; try lia; reflexivity.
Qed.

(** ** Cursor operations on an ordered table *)
Lemma find_first {A} (f : A -> bool) l e : find f l = Some e -> exists a b, l = a ++ e :: b /\ f e = true /\ Forall (fun x => f x = false) a.
Proof.
  induction l as [|x l IH]; cbn; [discriminate|]. destruct (f x) eqn:F.
  - intros H. injection H as ->. exists [], l. auto.
  - intros H. destruct (IH H) as (a & b & -> & E & G). exists (x :: a), b. split; [reflexivity|]. split; [exact E|]. now constructor.
Qed.
Lemma sorted_app {A} (R : A -> A -> Prop) a b : StronglySorted R (a ++ b) <->
  StronglySorted R a /\ StronglySorted R b /\ (forall x y, In x a -> In y b -> R x y).
Proof.
  induction a as [|z a IH]; cbn [app].
  - split; [intros H; split; [constructor|split; [exact H|intros ? ? []]]|tauto].
  - split.
    + intros H. inversion H as [|? ? H1 H2]; subst. apply IH in H1 as (A1 & A2 & A3). rewrite Forall_app, !Forall_forall in H2. destruct H2 as [H2 H3].
      split; [constructor; [exact A1|now apply Forall_forall]|]. split; [exact A2|]. intros x y [<-|X] Y; auto.
    + intros (A1 & A2 & A3). inversion A1 as [|? ? B1 B2]; subst. constructor.
      * apply IH. split; [exact B1|]. split; [exact A2|]. intros x y X Y. apply A3; [now right|exact Y].
      * apply Forall_app. split; [exact B2|]. apply Forall_forall. intros y Y. apply A3; [now left|exact Y].
Qed.
Lemma sorted_rev {A} (R : A -> A -> Prop) l : StronglySorted R l -> StronglySorted (fun a b => R b a) (rev l).
Proof.
  induction l as [|x l IH]; intros H; cbn [rev]; [constructor|]. inversion H as [|? ? H1 H2]; subst. rewrite Forall_forall in H2.
  apply sorted_app. split; [now apply IH|]. split; [constructor; [constructor|constructor]|]. intros a b X [<-|[]]. apply H2. now apply in_rev.
Qed.
Lemma sorted_filter {A} (R : A -> A -> Prop) f l : StronglySorted R l -> StronglySorted R (filter f l).
Proof.
  induction 1 as [|x l H IH F]; cbn [filter]; [constructor|]. destruct (f x); [|exact IH]. constructor; [exact IH|].
  apply Forall_forall. intros y Y. apply filter_In in Y as [Y _]. rewrite Forall_forall in F. auto.
Qed.
Lemma sorted_weaken {A} (R S : A -> A -> Prop) l : (forall x y, In x l -> In y l -> R x y -> S x y) -> StronglySorted R l -> StronglySorted S l.
Proof.
  intros H. induction 1 as [|x l K IH F]; constructor.
  - apply IH. intros a b A1 B1. apply H; now right.
  - rewrite Forall_forall in *. intros y Y. apply H; [now left|now right|now apply F].
Qed.
Lemma ordered_nodup t : ordered_by tree_cmp t -> NoDup t.
Proof.
  induction 1 as [|x l H IH F]; constructor; [|exact IH]. intros I. rewrite Forall_forall in F. specialize (F _ I).
  unfold tree_cmp in F. now rewrite !lex_refl in F.
Qed.
Lemma entry_eqb_eq a b : entry_eqb a b = true <-> a = b.
Proof.
  destruct a, b. unfold entry_eqb. cbn [fst snd]. rewrite andb_true_iff, !beqb_eq. split; [intros [-> ->]; reflexivity|intros H; now injection H].
Qed.
Lemma after_split e a b : NoDup (a ++ e :: b) -> after e (a ++ e :: b) = b.
Proof.
  induction a as [|x a IH]; cbn [app after]; intros N.
  - now rewrite (proj2 (entry_eqb_eq e e) eq_refl).
  - inversion N as [|? ? N1 N2]; subst. destruct (entry_eqb x e) eqn:E; [|now apply IH].
    apply entry_eqb_eq in E. subst. exfalso. apply N1, in_app_iff. right. now left.
Qed.
Lemma key_le_iff a b : key_le a b = true <-> lex a b <> Gt.
Proof. unfold key_le. destruct (lex a b); split; congruence. Qed.
Lemma key_lt_iff a b : key_lt a b = true <-> lex a b = Lt.
Proof. unfold key_lt. destruct (lex a b); split; congruence. Qed.
Lemma lex_gt a b : lex a b = Gt <-> lex b a = Lt.
Proof. rewrite (lex_antisym a b). destruct (lex a b); cbn; split; congruence. Qed.
Lemma lex_lt_le a b c : lex a b = Lt -> lex b c <> Gt -> lex a c = Lt.
Proof.
  intros H K. destruct (lex b c) eqn:E; [apply lex_eq in E; now subst|now apply (lex_trans_lt a b c)|congruence].
Qed.
Lemma lex_le_lt a b c : lex a b <> Gt -> lex b c = Lt -> lex a c = Lt.
Proof.
  intros H K. destruct (lex a b) eqn:E; [apply lex_eq in E; now subst|now apply (lex_trans_lt a b c)|congruence].
Qed.
Lemma lex_le_total a b : lex a b <> Gt \/ lex b a = Lt.
Proof. destruct (lex a b) eqn:E; [left; congruence|left; congruence|right; now apply lex_gt]. Qed.

Section Table.
Variable t : list entry.
Variable asc : bool.
Hypothesis TO : ordered_by tree_cmp t.

Lemma tree_cmp_key a b : tree_cmp a b = Lt -> lex (fst a) (fst b) <> Gt.
Proof. unfold tree_cmp. destruct (lex (fst a) (fst b)); congruence. Qed.
Lemma in_dups k e : In e (dups t asc k) <-> In e t /\ fst e = k.
Proof. unfold dups. destruct asc; rewrite <- ?in_rev, filter_In, beqb_eq; tauto. Qed.
Lemma dups_nodup k : NoDup (dups t asc k).
Proof.
  unfold dups. assert (NoDup (filter (fun e => beqb (fst e) k) t)) as H by (apply NoDup_filter, ordered_nodup, TO).
  destruct asc; [exact H|now apply NoDup_rev].
Qed.
(** The order of values within a key. *)
Definition vlt (a b : entry) : Prop := if asc then lex (snd a) (snd b) = Lt else lex (snd b) (snd a) = Lt.
Lemma dups_sorted k : StronglySorted vlt (dups t asc k).
Proof.
  assert (StronglySorted (fun a b => lex (snd a) (snd b) = Lt) (filter (fun e => beqb (fst e) k) t)) as H.
  { eapply sorted_weaken; [|apply sorted_filter, TO]. intros x y X Y C. cbv beta in C. apply filter_In in X as [_ X], Y as [_ Y].
    apply beqb_eq in X, Y. unfold tree_cmp in C. now rewrite X, Y, lex_refl in C. }
  unfold dups, vlt. destruct asc; [exact H|]. now apply sorted_rev in H.
Qed.
Definition is_head (e : entry) : Prop := hd_error (dups t asc (fst e)) = Some e.
Lemma head_split e : is_head e -> exists b, dups t asc (fst e) = e :: b /\ after e (dups t asc (fst e)) = b.
Proof.
  unfold is_head. destruct (dups t asc (fst e)) as [|x b] eqn:E; [discriminate|]. cbn [hd_error]. intros H. injection H as ->.
  exists b. split; [reflexivity|]. apply (after_split e [] b). change ([] ++ e :: b) with (e :: b). rewrite <- E. apply dups_nodup.
Qed.
Lemma head_in e : is_head e -> In e t.
Proof. intros H. destruct (head_split e H) as (b & E & _). assert (In e (dups t asc (fst e))) as I by (rewrite E; now left). now apply in_dups in I. Qed.
Lemma dups_head k e0 : In e0 t -> fst e0 = k -> exists e, hd_error (dups t asc k) = Some e /\ fst e = k /\ is_head e.
Proof.
  intros I E. destruct (dups t asc k) as [|e b] eqn:D; [exfalso|].
  - assert (In e0 (dups t asc k)) as X by now apply in_dups. now rewrite D in X.
  - exists e. assert (fst e = k) as K by (apply (in_dups k); rewrite D; now left). split; [reflexivity|]. split; [exact K|].
    unfold is_head. now rewrite K, D.
Qed.
Lemma first_key f : (forall a b, lex a b <> Gt -> f a = true -> f b = true) ->
  match (match find (fun e => f (fst e)) t with Some e => hd_error (dups t asc (fst e)) | None => None end) with
  | Some e => is_head e /\ f (fst e) = true /\ forall e', In e' t -> f (fst e') = true -> lex (fst e) (fst e') <> Gt
  | None => forall e', In e' t -> f (fst e') = false
  end.
Proof.
  intros UP. destruct (find (fun e => f (fst e)) t) as [e0|] eqn:F.
  - destruct (find_first _ _ _ F) as (a & b & E & FE & FA). destruct (dups_head (fst e0) e0) as (e & H & K & HD); [rewrite E; apply in_app_iff; right; now left|reflexivity|].
    rewrite H. split; [exact HD|]. rewrite K. split; [exact FE|]. intros e' I FE'. rewrite E in I. apply in_app_iff in I as [I|[<-|I]].
    + rewrite Forall_forall in FA. rewrite (FA _ I) in FE'. discriminate.
    + now rewrite lex_refl.
    + unfold ordered_by in TO. rewrite E in TO. apply sorted_app in TO as (_ & S & _). inversion S as [|? ? _ S2]; subst.
      rewrite Forall_forall in S2. apply tree_cmp_key. now apply S2.
  - intros e' I. exact (find_none _ _ F e' I).
Qed.
Lemma set_range_spec j :
  match set_range t asc j with
  | Some e => is_head e /\ lex j (fst e) <> Gt /\ forall e', In e' t -> lex j (fst e') <> Gt -> lex (fst e) (fst e') <> Gt
  | None => forall e', In e' t -> lex (fst e') j = Lt
  end.
Proof.
  pose proof (first_key (key_le j)) as H. change (match find _ t with Some e => _ | None => None end) with (set_range t asc j) in H.
  destruct (set_range t asc j) as [e|].
  - destruct H as (A & B & C). { intros a b L K. rewrite key_le_iff in *. now apply (lex_trans_le j a b). }
    split; [exact A|]. rewrite key_le_iff in B. split; [exact B|]. intros e' I L. apply C; [exact I|now apply key_le_iff].
  - intros e' I. assert (key_le j (fst e') = false) as K. { apply H; [|exact I]. intros a b L K. rewrite key_le_iff in *. now apply (lex_trans_le j a b). }
    destruct (lex_le_total j (fst e')) as [L|L]; [|exact L]. apply key_le_iff in L. congruence.
Qed.
Lemma next_range_spec k :
  match get_next_range t asc k with
  | Some e => is_head e /\ lex k (fst e) = Lt /\ forall e', In e' t -> lex k (fst e') = Lt -> lex (fst e) (fst e') <> Gt
  | None => forall e', In e' t -> lex (fst e') k <> Gt
  end.
Proof.
  pose proof (first_key (key_lt k)) as H. change (match find _ t with Some e => _ | None => None end) with (get_next_range t asc k) in H.
  destruct (get_next_range t asc k) as [e|].
  - destruct H as (A & B & C). { intros a b L K. rewrite key_lt_iff in *. now apply (lex_lt_le k a b). }
    split; [exact A|]. rewrite key_lt_iff in B. split; [exact B|]. intros e' I L. apply C; [exact I|now apply key_lt_iff].
  - intros e' I. assert (key_lt k (fst e') = false) as K. { apply H; [|exact I]. intros a b L K. rewrite key_lt_iff in *. now apply (lex_lt_le k a b). }
    intros G. apply lex_gt, key_lt_iff in G. congruence.
Qed.
End Table.

(** ** Keys of the tree by their fields *)
Record nkey := mkNk { kg : N; kd : N; kc : list bytes; kp : N }.
Definition nk_ok (a : nkey) : Prop :=
  kg a < 2 ^ 256 /\ kd a < 2 ^ 128 /\ Forall component_ok (kc a) /\ lenN (kc a) <= 8 /\ kp a < 2 ^ 256 - 1.
Definition hkey (g d : N) (r : bytes) : bytes := be_encode 32 g ++ be_encode 16 d ++ r.
Definition nk_key (a : nkey) : bytes := hkey (kg a) (kd a) ([lenN (kc a)] ++ wire_space (kc a) ++ be_encode 32 (kp a)).

Lemma be_compare k n m w : 2 ^ w = 256 ^ N.of_nat k -> n < 2 ^ w -> m < 2 ^ w -> lex (be_encode k n) (be_encode k m) = (n ?= m).
Proof. intros E A B. rewrite E in *. now apply be_encode_compare. Qed.
Lemma lex_hkey g d r g' d' r' : g < 2 ^ 256 -> g' < 2 ^ 256 -> d < 2 ^ 128 -> d' < 2 ^ 128 ->
  lex (hkey g d r) (hkey g' d' r') = thenc (g ?= g') (thenc (d ?= d') (lex r r')).
Proof.
  intros G G' D D'. unfold hkey. rewrite lex_fixed by now rewrite !lenN_be_encode. rewrite (be_compare 32 g g' 256) by (reflexivity || assumption).
  rewrite lex_fixed by now rewrite !lenN_be_encode. now rewrite (be_compare 16 d d' 128) by (reflexivity || assumption).
Qed.
Lemma lex_depth a b x y : lex ([a] ++ x) ([b] ++ y) = thenc (a ?= b) (lex x y).
Proof. cbn [app]. rewrite lex_cons. destruct (a ?= b); reflexivity. Qed.
Definition nk_cmp (a b : nkey) : comparison :=
  thenc (kg a ?= kg b) (thenc (kd a ?= kd b) (thenc (lenN (kc a) ?= lenN (kc b)) (thenc (components_compare (kc a) (kc b)) (kp a ?= kp b)))).
Lemma lex_nk_tail a b x : nk_ok a -> nk_ok b -> lex (nk_key a ++ x) (nk_key b) = thenc (nk_cmp a b) (lex x []).
Proof.
  intros (A1 & A2 & A3 & A4 & A5) (B1 & B2 & B3 & B4 & B5). unfold nk_key, nk_cmp.
  replace (hkey (kg a) (kd a) ([lenN (kc a)] ++ wire_space (kc a) ++ be_encode 32 (kp a)) ++ x) with
    (hkey (kg a) (kd a) ([lenN (kc a)] ++ wire_space (kc a) ++ be_encode 32 (kp a) ++ x)) by (unfold hkey; now rewrite <- !app_assoc).
  rewrite lex_hkey by assumption. rewrite lex_depth.
  destruct (kg a ?= kg b); [|reflexivity|reflexivity]. destruct (kd a ?= kd b); [|reflexivity|reflexivity]. cbn [thenc].
  destruct (N.compare_spec (lenN (kc a)) (lenN (kc b))) as [E|E|E]; [|reflexivity|reflexivity]. cbn [thenc].
  rewrite lex_wire by (unfold lenN in E; lia). destruct (components_compare (kc a) (kc b)); [|reflexivity|reflexivity]. cbn [thenc].
  rewrite <- (app_nil_r (be_encode 32 (kp b))). rewrite lex_fixed by now rewrite !lenN_be_encode.
  now rewrite (be_compare 32 (kp a) (kp b) 256) by (reflexivity || lia).
Qed.
Lemma lex_nk a b : nk_ok a -> nk_ok b -> lex (nk_key a) (nk_key b) = nk_cmp a b.
Proof. intros A B. rewrite <- (app_nil_r (nk_key a)), lex_nk_tail by assumption. destruct (nk_cmp a b); reflexivity. Qed.
Lemma nk_inj a b : nk_ok a -> nk_ok b -> nk_key a = nk_key b -> a = b.
Proof.
  intros A B E. assert (nk_cmp a b = Eq) as C by (rewrite <- lex_nk by assumption; apply lex_eq; exact E).
  unfold nk_cmp in C. destruct a as [g d c p], b as [g' d' c' p']. unfold nk_ok in *. cbn [kg kd kc kp] in *.
  destruct (N.compare_spec g g'); try discriminate C. destruct (N.compare_spec d d'); try discriminate C.
  destruct (N.compare_spec (lenN c) (lenN c')); try discriminate C. cbn [thenc] in C. subst.
  unfold nk_key, hkey in E. cbn [kg kd kc kp] in E. apply app_inv_head in E. apply app_inv_head in E. injection E as E1 E2.
  destruct (components_compare c c') eqn:CC; try discriminate C. cbn [thenc] in C. apply N.compare_eq in C. subst.
  f_equal. apply app_inv_tail in E2. apply wire_space_inj; tauto.
Qed.
(** A stored key follows another one exactly when it follows it with a byte added. *)
Lemma lex_nk_255 a b : nk_ok a -> nk_ok b -> lex (nk_key a) (nk_key b) = Lt -> lex (nk_key a ++ [255]) (nk_key b) <> Gt.
Proof. intros A B L. rewrite lex_nk_tail by assumption. rewrite lex_nk in L by assumption. now rewrite L. Qed.
Lemma lex_255 a b : lex (a ++ [255]) b <> Gt -> lex a b = Lt.
Proof.
  intros H. apply lex_lt_le with (b := a ++ [255]); [|exact H]. rewrite <- (app_nil_r a) at 1. now rewrite lex_app_same.
Qed.

Lemma nk_key_fields a : nk_ok a -> key_fields (nk_key a) = Ok (be_encode 32 (kg a), be_encode 16 (kd a), lenN (kc a), wire_space (kc a), be_encode 32 (kp a)).
Proof.
  intros A. change (nk_key a) with (tree_key (be_encode 32 (kg a)) (be_encode 16 (kd a)) (lenN (kc a)) (wire_space (kc a)) (Some (be_encode 32 (kp a)))).
  apply C18_key_fields; apply lenN_be_encode.
Qed.

Lemma bytes_ff16 : repeat 255 16 = be_encode 16 (2 ^ 128 - 1).
Proof. vm_compute. reflexivity. Qed.
Lemma bytes_ff32 : repeat 255 32 = be_encode 32 (2 ^ 256 - 1).
Proof. vm_compute. reflexivity. Qed.

(** ** The keys of a query *)
Section Keys.
Variable k : TreeKeys.
Variable P : list bytes.
Hypothesis PO : Forall component_ok P.
Hypothesis KS : tk_space k = wire_space P.
Variables g0 d0 n0 p0 : N.
Hypothesis GO : set_ok 256 (tk_group k).
Hypothesis G0 : g0 < 2 ^ 256 /\ member (tk_group k) g0 = true.
Hypothesis DO : set_ok 128 (tk_domain k).
Hypothesis D0 : d0 < 2 ^ 128 /\ member (tk_domain k) d0 = true.
Hypothesis NS : depth_set (tk_depth k).
Hypothesis N0 : bit_contains (tk_depth k) n0 = true.
Hypothesis N8 : forall n, bit_contains (tk_depth k) n = true -> n <= 8.
Hypothesis KO : set_ok 256 (tk_pubkey k).
Hypothesis K0 : p0 < 2 ^ 256 /\ member (tk_pubkey k) p0 = true.

(** The keys the query asks for. *)
Definition key_ok (a : nkey) : Prop :=
  member (tk_group k) (kg a) = true /\ member (tk_domain k) (kd a) = true /\ bit_contains (tk_depth k) (lenN (kc a)) = true /\
  (exists r, kc a = P ++ r) /\ member (tk_pubkey k) (kp a) = true.

Lemma contains_bit n : bit_contains (tk_depth k) n = true <-> N.testbit (tk_depth k) n = true.
Proof.
  rewrite bit_contains_spec, andb_true_iff, N.ltb_lt. split; [tauto|]. intros H. split; [|exact H].
  destruct (N.ltb_spec n 32) as [L|L]; [exact L|]. rewrite (N.bits_above_log2 (tk_depth k) n) in H; [discriminate|].
  destruct (N.eq_dec (tk_depth k) 0) as [Z|Z]; [rewrite Z; cbn; lia|].
  apply N.log2_lt_pow2; [lia|]. unfold depth_set in NS. eapply N.lt_le_trans; [exact NS|]. now apply N.pow_le_mono_r.
Qed.
Lemma next_depth_ok d :
  match next_depth (tk_depth k) d with
  | Some x => d < x /\ bit_contains (tk_depth k) x = true /\ forall y, d < y -> bit_contains (tk_depth k) y = true -> x <= y
  | None => forall y, d < y -> bit_contains (tk_depth k) y = false
  end.
Proof.
  pose proof (next_depth_spec (tk_depth k) d NS) as H. destruct (next_depth (tk_depth k) d) as [x|].
  - destruct H as (A & _ & B & C). split; [exact A|]. split; [now apply contains_bit|]. intros y Y Z. apply C; [exact Y|now apply contains_bit].
  - intros y Y. destruct (bit_contains (tk_depth k) y) eqn:E; [|reflexivity]. apply contains_bit in E. rewrite (H y Y) in E. discriminate.
Qed.

Record bounds := mkBounds { bg : N; bd : N; bn : N; bp : N }.
Definition bounds_ok (b : bounds) : Prop :=
  (bg b < 2 ^ 256 /\ member (tk_group k) (bg b) = true /\ forall x, x < 2 ^ 256 -> member (tk_group k) x = true -> bg b <= x) /\
  (bd b < 2 ^ 128 /\ member (tk_domain k) (bd b) = true /\ forall x, x < 2 ^ 128 -> member (tk_domain k) x = true -> bd b <= x) /\
  (bit_contains (tk_depth k) (bn b) = true /\ forall x, bit_contains (tk_depth k) x = true -> bn b <= x) /\
  (bp b < 2 ^ 256 /\ member (tk_pubkey k) (bp b) = true /\ forall x, x < 2 ^ 256 -> member (tk_pubkey k) x = true -> bp b <= x).
Definition bkey (b : bounds) : bytes := hkey (bg b) (bd b) ([bn b] ++ wire_space P ++ be_encode 32 (bp b)).

Lemma min_info w s u : 1 < w -> w < 2 ^ 32 -> set_ok w s -> u < 2 ^ w -> member s u = true ->
  exists i x, info w s 0 = Ok i /\ sval i = Some x /\ x < 2 ^ w /\ member s x = true /\ forall y, y < 2 ^ w -> member s y = true -> x <= y.
Proof.
  intros W0 W1 S U M. assert (0 < 2 ^ w) as Z by (assert (2 ^ w <> 0) by (apply N.pow_nonzero; lia); lia).
  destruct (info_exact w s u 0 W0 W1 S U M Z) as (i & E & _ & NM). exists i. destruct (sval i) as [x|].
  - exists x. destruct NM as (A & B & C & D). split; [exact E|]. split; [reflexivity|]. split; [exact B|]. split; [exact C|]. intros y Y MY. apply D; [lia|exact Y|exact MY].
  - exfalso. exact (NM u ltac:(lia) U M).
Qed.
Lemma lower_bound_ok : exists b, bounds_ok b /\ lower_bound k = Ok (bkey b).
Proof.
  destruct (min_info 256 _ _ ltac:(lia) ltac:(lia) GO (proj1 G0) (proj2 G0)) as (gi & g & E1 & V1 & M1).
  destruct (min_info 128 _ _ ltac:(lia) ltac:(lia) DO (proj1 D0) (proj2 D0)) as (di & d & E2 & V2 & M2).
  destruct (min_info 256 _ _ ltac:(lia) ltac:(lia) KO (proj1 K0) (proj2 K0)) as (pi & p & E3 & V3 & M3).
  assert (exists n, sval (bit_info (tk_depth k) 0) = Some n /\ bit_contains (tk_depth k) n = true /\ forall x, bit_contains (tk_depth k) x = true -> n <= x) as (n & E4 & M4).
  { unfold bit_info. destruct (bit_contains (tk_depth k) 0) eqn:Z.
    - exists 0. split; [reflexivity|]. split; [exact Z|]. intros. lia.
    - pose proof (next_depth_ok 0) as H. cbn [sval]. destruct (next_depth (tk_depth k) 0) as [x|].
      + exists x. destruct H as (A & B & C). split; [reflexivity|]. split; [exact B|]. intros y Y. apply C; [|exact Y].
        destruct (N.eq_dec y 0) as [->|]; [congruence|lia].
      + exfalso. assert (n0 <> 0) by (intros ->; congruence). rewrite (H n0) in N0 by lia. discriminate. }
  exists (mkBounds g d n p). split; [unfold bounds_ok; cbn [bg bd bn bp]; tauto|].
  unfold lower_bound. rewrite E1. cbn [crash obind]. rewrite V1. cbn [unwrap_opt obind]. rewrite E2. cbn [crash obind]. rewrite V2. cbn [unwrap_opt obind].
  rewrite E4. cbn [unwrap_opt obind]. rewrite E3. cbn [crash obind]. rewrite V3. cbn [unwrap_opt obind]. rewrite KS. reflexivity.
Qed.

Lemma key_status_ok a : nk_ok a -> exists s, key_status k (nk_key a) = Ok s /\
  in_set (ks_group s) = member (tk_group k) (kg a) /\ next_member 256 (fun x => member (tk_group k) x = true) (kg a) (sval (ks_group s)) /\
  in_set (ks_domain s) = member (tk_domain k) (kd a) /\ next_member 128 (fun x => member (tk_domain k) x = true) (kd a) (sval (ks_domain s)) /\
  ks_depth s = bit_info (tk_depth k) (lenN (kc a)) /\
  in_set (ks_key s) = member (tk_pubkey k) (kp a) /\ next_member 256 (fun x => member (tk_pubkey k) x = true) (kp a) (sval (ks_key s)) /\
  ks_space s = wire_space (kc a) /\ (ks_prefix s = true <-> exists r, kc a = P ++ r).
Proof.
  intros A. pose proof A as (A1 & A2 & A3 & A4 & A5). unfold key_status. rewrite nk_key_fields by assumption. cbn [crash obind].
  assert (kp a < 2 ^ 256) as A6 by lia.
  rewrite (be_decode_encode 32 (kg a)), (be_decode_encode 16 (kd a)), (be_decode_encode 32 (kp a)) by assumption.
  destruct (info_exact 256 _ _ (kg a) ltac:(lia) ltac:(lia) GO (proj1 G0) (proj2 G0) A1) as (gi & E1 & I1 & M1).
  destruct (info_exact 128 _ _ (kd a) ltac:(lia) ltac:(lia) DO (proj1 D0) (proj2 D0) A2) as (di & E2 & I2 & M2).
  destruct (info_exact 256 _ _ (kp a) ltac:(lia) ltac:(lia) KO (proj1 K0) (proj2 K0) A6) as (pi & E3 & I3 & M3).
  rewrite E1, E2, E3. cbn [crash obind]. eexists. split; [reflexivity|]. cbn [ks_group ks_domain ks_depth ks_key ks_prefix ks_space].
  rewrite KS. pose proof (starts_with_wire (kc a) A3 P PO). tauto.
Qed.
Lemma all_in_set_ok a s : nk_ok a -> key_status k (nk_key a) = Ok s -> (all_in_set s = true <-> key_ok a).
Proof.
  intros A E. destruct (key_status_ok a A) as (s' & E' & I1 & _ & I2 & _ & I3 & I4 & _ & _ & I5). rewrite E in E'. injection E' as <-.
  unfold all_in_set, key_ok. rewrite I1, I2, I3, I4. unfold bit_info. cbn [in_set]. rewrite !andb_true_iff, I5. tauto.
Qed.

(** The queries for which no matching key is skipped. *)
Definition cover (b : bounds) : Prop :=
  (forall x y z, x <= y -> y <= z -> bit_contains (tk_depth k) x = true -> bit_contains (tk_depth k) z = true -> bit_contains (tk_depth k) y = true) /\
  (bn b = lenN P \/ bp b = 0) /\
  (((forall x y, x < 2 ^ 256 -> y < 2 ^ 256 -> member (tk_group k) x = true -> member (tk_group k) y = true -> x = y) /\
    (forall x y, x < 2 ^ 128 -> y < 2 ^ 128 -> member (tk_domain k) x = true -> member (tk_domain k) y = true -> x = y)) \/ (P = [] /\ bn b = 0)) /\
  (P = [] \/ forall x y, bit_contains (tk_depth k) x = true -> bit_contains (tk_depth k) y = true -> x = y).

Lemma drop32 b : dropN 32 (bkey b) = be_encode 16 (bd b) ++ [bn b] ++ wire_space P ++ be_encode 32 (bp b).
Proof. unfold bkey, hkey. apply dropN_app_exact. apply lenN_be_encode. Qed.
Lemma drop48 b : dropN 48 (bkey b) = [bn b] ++ wire_space P ++ be_encode 32 (bp b).
Proof. unfold bkey, hkey. rewrite app_assoc. apply dropN_app_exact. now rewrite lenN_app, !lenN_be_encode. Qed.
Lemma drop49 b : dropN 49 (bkey b) = wire_space P ++ be_encode 32 (bp b).
Proof. unfold bkey, hkey. rewrite !app_assoc, <- (app_assoc _ (wire_space P)). apply dropN_app_exact. now rewrite !lenN_app, !lenN_be_encode. Qed.


(** The part of a key after group and domain is at least the one of the lower bound. *)
Lemma be_zero_lt c x y : 1 <= c -> lex (be_encode 32 0 ++ x) ([c] ++ y) = Lt.
Proof.
  intros C. change (be_encode 32 0) with (0 :: be_encode 31 0). cbn [app]. rewrite lex_cons. destruct (N.compare_spec 0 c); [lia|reflexivity|lia].
Qed.
Lemma tail_le b a : bounds_ok b -> cover b -> nk_ok a -> key_ok a ->
  lex ([bn b] ++ wire_space P ++ be_encode 32 (bp b)) ([lenN (kc a)] ++ wire_space (kc a) ++ be_encode 32 (kp a)) <> Gt.
Proof.
  intros (_ & _ & (BN1 & BN2) & BP1 & _ & BP2) (_ & C2 & _ & _) (_ & _ & A3 & _ & A5) (_ & _ & K3 & (r & R) & K5).
  rewrite lex_depth. destruct (N.compare_spec (bn b) (lenN (kc a))) as [E|E|E]; cbn [thenc]; [|congruence|specialize (BN2 _ K3); lia].
  destruct r as [|c r].
  - rewrite app_nil_r in R. rewrite R, lex_app_same, (be_compare 32 (bp b) (kp a) 256) by (reflexivity || lia || assumption).
    apply N.compare_le_iff. apply BP2; [lia|exact K5].
  - assert (bp b = 0) as Z. { destruct C2 as [C2|C2]; [|exact C2]. rewrite R, lenN_app, lenN_cons in E. lia. }
    rewrite Z, R, wire_space_app, <- app_assoc, lex_app_same, wire_space_cons.
    rewrite <- (app_nil_r (be_encode 32 0)). cbn [app]. match goal with |- lex _ (?h :: ?t) <> _ => change (h :: t) with ([h] ++ t) end. rewrite be_zero_lt; [congruence|].
    rewrite R in A3. apply Forall_app in A3 as [_ A3]. inversion A3 as [|? ? A6 _]; subst. unfold component_ok, lenN in *. lia.
Qed.
Lemma lex_hkey_le g d r g' d' r' : g < 2 ^ 256 -> g' < 2 ^ 256 -> d < 2 ^ 128 -> d' < 2 ^ 128 ->
  (lex (hkey g d r) (hkey g' d' r') <> Gt <-> g < g' \/ (g = g' /\ (d < d' \/ (d = d' /\ lex r r' <> Gt)))).
Proof.
  intros. rewrite lex_hkey by assumption. destruct (N.compare_spec g g'); cbn [thenc]; [|split; [auto|congruence]|split; [congruence|intuition lia]].
  destruct (N.compare_spec d d'); cbn [thenc]; [|split; [auto|congruence]|split; [congruence|intuition lia]]. split; [auto|intuition lia].
Qed.
Lemma lex_hkey_lt g d r g' d' r' : g < 2 ^ 256 -> g' < 2 ^ 256 -> d < 2 ^ 128 -> d' < 2 ^ 128 ->
  (lex (hkey g d r) (hkey g' d' r') = Lt <-> g < g' \/ (g = g' /\ (d < d' \/ (d = d' /\ lex r r' = Lt)))).
Proof.
  intros. rewrite lex_hkey by assumption. destruct (N.compare_spec g g'); cbn [thenc]; [|split; [auto|congruence]|split; [congruence|intuition lia]].
  destruct (N.compare_spec d d'); cbn [thenc]; [|split; [auto|congruence]|split; [congruence|intuition lia]]. split; [auto|intuition lia].
Qed.
Lemma lex_depth_le a b x y : lex ([a] ++ x) ([b] ++ y) <> Gt <-> a < b \/ (a = b /\ lex x y <> Gt).
Proof. rewrite lex_depth. destruct (N.compare_spec a b); cbn [thenc]; [|split; [auto|congruence]|split; [congruence|intuition lia]]. split; [auto|intuition lia]. Qed.
Lemma lex_depth_lt a b x y : lex ([a] ++ x) ([b] ++ y) = Lt <-> a < b \/ (a = b /\ lex x y = Lt).
Proof. rewrite lex_depth. destruct (N.compare_spec a b); cbn [thenc]; [|split; [auto|congruence]|split; [congruence|intuition lia]]. split; [auto|intuition lia]. Qed.

(** A space at least [P] that does not extend [P] is above every extension of [P]. *)
Lemma above_prefix n : forall (Q cs : list bytes) r x y z, length Q = n -> Forall component_ok cs -> Forall component_ok Q ->
  lex (wire_space Q ++ x) (wire_space cs ++ y) <> Gt -> length cs = length (Q ++ r) ->
  lex (wire_space cs ++ y) (wire_space (Q ++ r) ++ z) <> Gt -> exists q, cs = Q ++ q.
Proof.
  induction n as [|n IH]; intros [|c Q] cs r x y z L CO QO H1 LL H2; try discriminate L; [exists cs; reflexivity|].
  destruct cs as [|c' cs]; [discriminate LL|]. rewrite wire_space_cons in H1, H2. cbn [app] in H1, H2, LL. cbn [length] in L, LL.
  rewrite wire_space_cons in H1, H2. cbn [app] in H1, H2.
  inversion CO as [|? ? CO1 CO2]; inversion QO as [|? ? QO1 QO2]; subst.
  change (lex ([lenN c] ++ ((c ++ wire_space Q) ++ x)) ([lenN c'] ++ ((c' ++ wire_space cs) ++ y)) <> Gt) in H1.
  change (lex ([lenN c'] ++ ((c' ++ wire_space cs) ++ y)) ([lenN c] ++ ((c ++ wire_space (Q ++ r)) ++ z)) <> Gt) in H2.
  rewrite lex_depth_le in H1, H2. destruct H1 as [H1|[E H1]]; [destruct H2 as [H2|[H2 _]]; lia|]. destruct H2 as [H2|[_ H2]]; [lia|].
  rewrite <- !app_assoc in H1, H2. rewrite lex_fixed in H1, H2 by (assumption || now symmetry).
  rewrite (lex_antisym c c') in H2. destruct (lex c c') eqn:CC; cbn [thenc CompOpp] in H1, H2; [|congruence|congruence].
  apply lex_eq in CC. subst c'. destruct (IH Q cs r x y z) as [q ->]; try assumption; [lia|lia|]. exists q. reflexivity.
Qed.

Theorem jump_ok b a s : bounds_ok b -> nk_ok a -> key_status k (nk_key a) = Ok s -> all_in_set s = false ->
  exists o, jump_key k (bkey b) s = Ok o /\
  match o with
  | None => forall a', nk_ok a' -> key_ok a' -> lex (nk_key a') (nk_key a) = Lt
  | Some j => lex (nk_key a) j = Lt /\
      (cover b -> lex (bkey b) (nk_key a) <> Gt -> forall a', nk_ok a' -> key_ok a' -> lex (nk_key a) (nk_key a') <> Gt -> lex j (nk_key a') <> Gt)
  end.
Proof.
  intros BO A E AS. assert (~ key_ok a) as NK by (intros H; apply (all_in_set_ok a s A E) in H; congruence).
  pose proof BO as ((BG1 & BG2 & BG3) & (BD1 & BD2 & BD3) & (BN1 & BN2) & (BP1 & BP2 & BP3)).
  pose proof A as (A1 & A2 & A3 & A4 & A5). assert (kp a < 2 ^ 256) as A6 by lia.
  destruct (key_status_ok a A) as (s' & E' & I1 & M1 & I2 & M2 & I3 & I4 & M4 & SP & I5). rewrite E in E'. injection E' as <-.
  unfold jump_key. destruct (sval (ks_group s)) as [g|] eqn:SG.
  2:{ eexists. split; [reflexivity|]. intros a' A' (K1 & _). pose proof A' as (A1' & A2' & _). unfold nk_key. apply lex_hkey_lt; try assumption.
      left. destruct (N.lt_ge_cases (kg a') (kg a)) as [L|L]; [exact L|]. exfalso. exact (M1 _ L A1' K1). }
  cbn [next_member] in M1. destruct M1 as (G1 & G2 & G3 & G4). rewrite I1. destruct (member (tk_group k) (kg a)) eqn:MG.
  2:{ assert (kg a < g) as L. { destruct (N.eq_dec g (kg a)) as [->|]; [congruence|lia]. }
      eexists. split; [reflexivity|]. rewrite lenN_be_encode. change (N.of_nat 32) with 32. rewrite drop32.
      change (be_encode 32 g ++ be_encode 16 (bd b) ++ [bn b] ++ wire_space P ++ be_encode 32 (bp b)) with (hkey g (bd b) ([bn b] ++ wire_space P ++ be_encode 32 (bp b))).
      split; [unfold nk_key; apply lex_hkey_lt; try assumption; now left|].
      intros CV _ a' A' K' H. pose proof A' as (A1' & A2' & _). pose proof K' as (K1 & K2 & _). unfold nk_key in *. rewrite lex_hkey_le in H by assumption. apply lex_hkey_le; try assumption.
      assert (g <= kg a') as LG by (apply G4; [lia|exact A1'|exact K1]). destruct (N.eq_dec g (kg a')) as [EG|]; [|left; lia]. right. split; [exact EG|].
      specialize (BD3 _ A2' K2). destruct (N.eq_dec (bd b) (kd a')) as [ED|]; [|left; lia]. right. split; [exact ED|]. now apply tail_le. }
  assert (g = kg a) as ->. { specialize (G4 (kg a) ltac:(lia) A1 MG). lia. } clear G1 G2 G3 G4.
  destruct (sval (ks_domain s)) as [d|] eqn:SD.
  2:{ eexists. split; [reflexivity|]. rewrite bytes_ff16. replace (lenN ((be_encode 32 (kg a) ++ be_encode 16 (2 ^ 128 - 1)) ++ [255])) with 49 by now rewrite !lenN_app, !lenN_be_encode. rewrite drop49.
      replace (((be_encode 32 (kg a) ++ be_encode 16 (2 ^ 128 - 1)) ++ [255]) ++ wire_space P ++ be_encode 32 (bp b)) with (hkey (kg a) (2 ^ 128 - 1) ([255] ++ wire_space P ++ be_encode 32 (bp b))) by (unfold hkey; now rewrite <- !app_assoc).
      assert (2 ^ 128 - 1 < 2 ^ 128) as B1 by lia. split.
      - unfold nk_key. apply lex_hkey_lt; try assumption. right. split; [reflexivity|]. destruct (N.eq_dec (kd a) (2 ^ 128 - 1)) as [ED|]; [|left; lia]. right. split; [exact ED|].
        apply lex_depth_lt. left. lia.
      - intros _ _ a' A' (K1 & K2 & _) H. pose proof A' as (A1' & A2' & _). unfold nk_key in *. rewrite lex_hkey_le in H by assumption. apply lex_hkey_le; try assumption.
        destruct H as [H|[EG H]]; [now left|]. exfalso. apply (M2 (kd a')); [lia|exact A2'|exact K2]. }
  cbn [next_member] in M2. destruct M2 as (G1 & G2 & G3 & G4). rewrite I2. destruct (member (tk_domain k) (kd a)) eqn:MD.
  2:{ assert (kd a < d) as L. { destruct (N.eq_dec d (kd a)) as [->|]; [congruence|lia]. }
      eexists. split; [reflexivity|]. replace (lenN (be_encode 32 (kg a) ++ be_encode 16 d)) with 48 by now rewrite !lenN_app, !lenN_be_encode. rewrite drop48, <- app_assoc.
      change (be_encode 32 (kg a) ++ be_encode 16 d ++ [bn b] ++ wire_space P ++ be_encode 32 (bp b)) with (hkey (kg a) d ([bn b] ++ wire_space P ++ be_encode 32 (bp b))).
      split; [unfold nk_key; apply lex_hkey_lt; try assumption; right; split; [reflexivity|now left]|].
      intros CV _ a' A' K' H. pose proof A' as (A1' & A2' & _). pose proof K' as (K1 & K2 & _). unfold nk_key in *. rewrite lex_hkey_le in H by assumption. apply lex_hkey_le; try assumption.
      destruct H as [H|[EG H]]; [now left|]. right. split; [exact EG|].
      assert (d <= kd a') as LD by (apply G4; [lia|exact A2'|exact K2]). destruct (N.eq_dec d (kd a')) as [ED|]; [|left; lia]. right. split; [exact ED|]. now apply tail_le. }
  assert (d = kd a) as ->. { specialize (G4 (kd a) ltac:(lia) A2 MD). lia. } clear G1 G2 G3 G4.
  (* the depth is at least the least depth *)
  assert (forall bb, cover bb -> bb = b -> lex (bkey bb) (nk_key a) <> Gt -> bn b <= lenN (kc a)) as DEEP.
  { intros bb CV -> H. destruct CV as (_ & _ & [[S1 S2]|[_ Z]] & _); [|lia]. unfold nk_key, bkey in H. rewrite lex_hkey_le in H by assumption.
    rewrite (S1 (bg b) (kg a)), (S2 (bd b) (kd a)), lex_depth_le in H by assumption. lia. }
  rewrite I3. unfold bit_info. cbn [in_set sval]. destruct (bit_contains (tk_depth k) (lenN (kc a))) eqn:MN; cbn [negb or255].
  2:{ pose proof (next_depth_ok (lenN (kc a))) as ND. set (x := or255 (next_depth (tk_depth k) (lenN (kc a)))) in *.
      set (deeper := or255 (next_depth (tk_depth k) x)).
      assert (lenN (kc a) < x /\ x <= 255) as [X1 X2].
      { subst x. destruct (next_depth (tk_depth k) (lenN (kc a))) as [x|]; cbn [or255]; [|lia]. destruct ND as (U & V & _). specialize (N8 _ V). lia. }
      assert (lenN (kc a) < deeper) as X3.
      { subst deeper. pose proof (next_depth_ok x) as ND2. destruct (next_depth (tk_depth k) x) as [y|]; cbn [or255]; [|lia]. destruct ND2 as (U & _). lia. }
      eexists. split; [reflexivity|]. replace (lenN ((be_encode 32 (kg a) ++ be_encode 16 (kd a)) ++ [deeper])) with 49 by now rewrite !lenN_app, !lenN_be_encode. rewrite drop49.
      replace (((be_encode 32 (kg a) ++ be_encode 16 (kd a)) ++ [deeper]) ++ wire_space P ++ be_encode 32 (bp b)) with (hkey (kg a) (kd a) ([deeper] ++ wire_space P ++ be_encode 32 (bp b))) by (unfold hkey; now rewrite <- !app_assoc).
      split; [unfold nk_key; apply lex_hkey_lt; try assumption; right; split; [reflexivity|right; split; [reflexivity|]]; apply lex_depth_lt; left; exact X3|].
      intros CV LB a' A' K' H. pose proof A' as (A1' & A2' & _). pose proof K' as (K1 & K2 & K3 & _). unfold nk_key in H |- *. rewrite lex_hkey_le in H by assumption. apply lex_hkey_le; try assumption.
      destruct H as [H|[EG H]]; [now left|]. right. split; [exact EG|]. destruct H as [H|[ED H]]; [now left|]. exfalso.
      apply lex_depth_le in H. pose proof (DEEP b CV eq_refl LB) as DP. destruct CV as (CX & _).
      rewrite (CX (bn b) (lenN (kc a)) (lenN (kc a')) DP ltac:(lia) BN1 K3) in MN. discriminate. }
  destruct (ks_prefix s) eqn:PX; cbn [negb].
  2:{ pose proof (next_depth_ok (lenN (kc a))) as ND. set (deeper := or255 (next_depth (tk_depth k) (lenN (kc a)))) in *.
      assert (lenN (kc a) < deeper) as X3.
      { subst deeper. destruct (next_depth (tk_depth k) (lenN (kc a))) as [y|]; cbn [or255]; [|lia]. destruct ND as (U & _). lia. }
      assert (P <> []) as PN. { intros Z. assert (false = true) as F; [|discriminate F]. apply I5. exists (kc a). now rewrite Z. }
      eexists. split; [reflexivity|]. replace (lenN ((be_encode 32 (kg a) ++ be_encode 16 (kd a)) ++ [deeper])) with 49 by now rewrite !lenN_app, !lenN_be_encode. rewrite drop49.
      replace (((be_encode 32 (kg a) ++ be_encode 16 (kd a)) ++ [deeper]) ++ wire_space P ++ be_encode 32 (bp b)) with (hkey (kg a) (kd a) ([deeper] ++ wire_space P ++ be_encode 32 (bp b))) by (unfold hkey; now rewrite <- !app_assoc).
      split; [unfold nk_key; apply lex_hkey_lt; try assumption; right; split; [reflexivity|right; split; [reflexivity|]]; apply lex_depth_lt; left; exact X3|].
      intros CV LB a' A' K' H. pose proof A' as (A1' & A2' & _). pose proof K' as (K1 & K2 & K3 & (r & R) & _). unfold nk_key in H |- *. rewrite lex_hkey_le in H by assumption. apply lex_hkey_le; try assumption.
      destruct H as [H|[EG H]]; [now left|]. right. split; [exact EG|]. destruct H as [H|[ED H]]; [now left|]. exfalso.
      destruct CV as (_ & _ & [[S1 S2]|[Z1 _]] & [Z2|S3]); try contradiction.
      unfold nk_key, bkey in LB. rewrite lex_hkey_le in LB by assumption. rewrite (S1 (bg b) (kg a)), (S2 (bd b) (kd a)), (S3 (bn b) (lenN (kc a))) in LB by assumption.
      rewrite lex_depth_le in LB. destruct LB as [LB|[_ [LB|[_ [LB|[_ LB]]]]]]; try lia.
      pose proof (S3 _ _ MN K3) as EN. rewrite lex_depth_le in H. destruct H as [H|[_ H]]; [lia|].
      assert (false = true) as F; [|discriminate F]. apply I5. rewrite R in *. apply (above_prefix (length P) P (kc a) r (be_encode 32 (bp b)) (be_encode 32 (kp a)) (be_encode 32 (kp a'))); try assumption; [reflexivity|].
      unfold lenN in EN. lia. }
  rewrite I4. destruct (member (tk_pubkey k) (kp a)) eqn:MP; cbn [negb].
  { exfalso. apply NK. unfold key_ok. rewrite MG, MD, MN, MP. pose proof (proj1 I5 eq_refl). tauto. }
  rewrite SP.
  set (v := match sval (ks_key s) with Some v => v | None => 2 ^ 256 - 1 end).
  assert (match sval (ks_key s) with Some v => be_encode 32 v | None => repeat 255 32 end = be_encode 32 v) as -> by (subst v; destruct (sval (ks_key s)); [reflexivity|apply bytes_ff32]).
  destruct (proj1 I5 eq_refl) as [r R].
  assert (dropN (lenN ((be_encode 32 (kg a) ++ be_encode 16 (kd a)) ++ [lenN (kc a)] ++ wire_space (kc a) ++ be_encode 32 v)) (bkey b) = []) as ->.
  { apply dropN_all. unfold bkey, hkey. rewrite R, wire_space_app, !lenN_app, !lenN_be_encode. change (lenN [bn b]) with 1. change (lenN [lenN P + lenN r]) with 1. lia. }
  rewrite app_nil_r. eexists. split; [reflexivity|].
  replace ((be_encode 32 (kg a) ++ be_encode 16 (kd a)) ++ [lenN (kc a)] ++ wire_space (kc a) ++ be_encode 32 v) with (hkey (kg a) (kd a) ([lenN (kc a)] ++ wire_space (kc a) ++ be_encode 32 v)) by (unfold hkey; now rewrite <- !app_assoc).
  assert (kp a < v /\ v < 2 ^ 256) as [V1 V2].
  { subst v. destruct (sval (ks_key s)) as [v|]; [|lia]. cbn [next_member] in M4. destruct M4 as (U1 & U2 & U3 & _). split; [|exact U2]. destruct (N.eq_dec v (kp a)) as [->|]; [congruence|lia]. }
  split.
  - unfold nk_key. apply lex_hkey_lt; try assumption. right. split; [reflexivity|]. right. split; [reflexivity|]. apply lex_depth_lt. right. split; [reflexivity|].
    rewrite lex_app_same, (be_compare 32 (kp a) v 256) by (reflexivity || assumption). now apply N.compare_lt_iff.
  - intros _ _ a' A' K' H. pose proof A' as (A1' & A2' & _ & _ & A5'). assert (kp a' < 2 ^ 256) as A6' by lia. pose proof K' as (K1 & K2 & K3 & _ & K5). unfold nk_key in H |- *. rewrite lex_hkey_le in H by assumption. apply lex_hkey_le; try assumption.
    destruct H as [H|[EG H]]; [now left|]. right. split; [exact EG|]. destruct H as [H|[ED H]]; [now left|]. right. split; [exact ED|].
    rewrite lex_depth_le in H |- *. destruct H as [H|[EN H]]; [now left|]. right. split; [exact EN|].
    rewrite lex_wire in H |- * by (unfold lenN in EN; lia). destruct (components_compare (kc a) (kc a')) eqn:CC; cbn [thenc] in *; [|congruence|congruence].
    rewrite (be_compare 32 (kp a) (kp a') 256) in H by (reflexivity || assumption). rewrite (be_compare 32 v (kp a') 256) by (reflexivity || assumption).
    apply N.compare_le_iff. apply N.compare_le_iff in H. subst v. destruct (sval (ks_key s)) as [v|].
    + cbn [next_member] in M4. destruct M4 as (_ & _ & _ & U). now apply U.
    + exfalso. exact (M4 (kp a') H A6' K5).
Qed.
End Keys.
