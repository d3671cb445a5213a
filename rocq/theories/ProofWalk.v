From Coq Require Import Sorting.Sorted Wf_nat.
From Verif Require Import Bytes ModelSpace SpecSpace ProofSpace ModelPkt SpecPkt ProofPkt ModelTree SpecTree ProofTree.
From Verif Require Import ModelTestSet SpecTestSet ProofTestSet ModelStore SpecStore ProofStore ModelPred ModelQuery ProofQuery.

Lemma filter_count {A} (f g : A -> bool) (l : list A) x : (forall y, In y l -> g y = true -> f y = true) -> In x l -> f x = true -> g x = false ->
  (length (filter g l) < length (filter f l))%nat.
Proof.
  intros H. induction l as [|y l IH]; intros I F G; [destruct I|destruct I as [->|I]].
  - cbn [filter]. rewrite F, G. cbn [length]. assert (length (filter g l) <= length (filter f l))%nat; [|lia].
    clear IH. assert (forall y, In y l -> g y = true -> f y = true) as H' by (intros; apply H; [now right|assumption]). clear H.
    induction l as [|y l IH]; [reflexivity|]. cbn [filter]. pose proof (H' y (or_introl eq_refl)) as Y.
    assert (length (filter g l) <= length (filter f l))%nat by (apply IH; intros; apply H'; [now right|assumption]).
    destruct (g y); [rewrite (Y eq_refl); cbn [length]; lia|]. destruct (f y); cbn [length]; lia.
  - cbn [filter]. pose proof (H y (or_introl eq_refl)) as Y. assert (length (filter g l) < length (filter f l))%nat as L by (apply IH; try assumption; intros; apply H; [now right|assumption]).
    destruct (g y); [rewrite (Y eq_refl); cbn [length]; lia|]. destruct (f y); cbn [length]; lia.
Qed.
Lemma sorted_hd {A} (R : A -> A -> Prop) x l : StronglySorted R (x :: l) -> forall y, In y l -> R x y.
Proof. intros H y Y. inversion H as [|? ? _ F]; subst. rewrite Forall_forall in F. auto. Qed.

Section Walk.
Variable t : list entry.
Variable asc : bool.
Hypothesis TO : ordered_by tree_cmp t.
Hypothesis TK : forall e, In e t -> exists a, nk_ok a /\ fst e = nk_key a.
Hypothesis TV : forall e, In e t -> exists c x, c < 2 ^ 64 /\ snd e = be_encode 8 c ++ x.
Variable k : TreeKeys.
Variable P : list bytes.
Hypothesis PO : Forall component_ok P.
Hypothesis KS : tk_space k = wire_space P.
Variables g0 d0 p0 : N.
Hypothesis GO : set_ok 256 (tk_group k).
Hypothesis G0 : g0 < 2 ^ 256 /\ member (tk_group k) g0 = true.
Hypothesis DO : set_ok 128 (tk_domain k).
Hypothesis D0 : d0 < 2 ^ 128 /\ member (tk_domain k) d0 = true.
Hypothesis NS : depth_set (tk_depth k).
Hypothesis N8 : forall n, bit_contains (tk_depth k) n = true -> n <= 8.
Hypothesis KO : set_ok 256 (tk_pubkey k).
Hypothesis K0 : p0 < 2 ^ 256 /\ member (tk_pubkey k) p0 = true.
Variable sb : Bound.
Hypothesis SB : low sb <= high sb.
Hypothesis KT : tk_stamp k = stamp_range sb asc.
Variable b : bounds.
Hypothesis BO : bounds_ok k b.

Definition inw (e : entry) : bool := sr_contains (tk_stamp k) (val_create (snd e)).
Definition cr (e : entry) : N := val_create (snd e).
Lemma inw_iff e : inw e = true <-> low sb <= cr e /\ cr e <= high sb.
Proof. unfold inw, cr. rewrite KT, contains_range by exact SB. unfold bound_test. now rewrite andb_true_iff, !N.leb_le. Qed.
Lemma cr_order e e' : In e t -> In e' t -> lex (snd e) (snd e') = Lt -> cr e <= cr e'.
Proof.
  intros I I' L. destruct (TV e I) as (c & x & C & E). destruct (TV e' I') as (c' & x' & C' & E').
  unfold cr, val_create. rewrite E, E' in *. rewrite !sliceN_front, !be_decode_encode by (assumption || apply lenN_be_encode).
  rewrite lex_fixed in L by now rewrite !lenN_be_encode. rewrite (be_compare 8 c c' 64) in L by (reflexivity || assumption).
  destruct (N.compare_spec c c'); cbn [thenc] in L; [lia|lia|discriminate].
Qed.
(** The create stamps of a branch, in the direction of the iteration. *)
Definition cle (e e' : entry) : Prop := if asc then cr e <= cr e' else cr e' <= cr e.
Lemma dups_cle key : StronglySorted cle (dups t asc key).
Proof.
  eapply sorted_weaken; [|apply (dups_sorted t asc TO key)]. intros x y X Y V. apply (in_dups t asc key) in X as [X _], Y as [Y _].
  unfold vlt, cle in *. destruct asc; apply cr_order; assumption.
Qed.
Lemma contiguous e x y : cle e x -> cle x y -> inw e = true -> inw x = false -> inw y = false.
Proof.
  intros A B E X. destruct (inw y) eqn:Y; [|reflexivity]. apply inw_iff in E, Y. assert (inw x = true); [|congruence].
  apply inw_iff. unfold cle in *. destruct asc; lia.
Qed.

(** What is iterated over in a branch: the values from the first in the range of create
    stamps, as long as they are in the range. *)
Definition seg (key : bytes) : list entry :=
  match dups t asc key with
  | [] => []
  | h :: r => match next_stamp_match (tk_stamp k) h r with
              | None => []
              | Some e => e :: take_while inw (after e (dups t asc key))
              end
  end.
Lemma next_stamp_in r h l e : next_stamp_match r h l = Some e -> In e (h :: l) /\ sr_contains r (val_create (snd e)) = true.
Proof.
  revert h. induction l as [|x l IH]; intros h; cbn [next_stamp_match]; destruct (iter_cmp r (val_create (snd h))) eqn:C; try discriminate.
  - intros H. injection H as <-. apply iter_cmp_in in C. split; [now left|exact C].
  - intros H. destruct (IH _ H) as [A B]. split; [now right|exact B].
  - intros H. injection H as <-. apply iter_cmp_in in C. split; [now left|exact C].
Qed.

Definition above (key : bytes) (e : entry) : bool := key_lt key (fst e).
Definition mu (key : bytes) : nat := length (filter (above key) t).
Lemma mu_decr (e n : entry) : In n t -> lex (fst e) (fst n) = Lt -> (mu (fst n) < mu (fst e))%nat.
Proof.
  intros I L. unfold mu. apply (filter_count _ _ t n); [|exact I| |].
  - intros y _ Y. unfold above in *. rewrite key_lt_iff in *. now apply (lex_trans_lt _ (fst n)).
  - unfold above. now rewrite key_lt_iff.
  - unfold above, key_lt. now rewrite lex_refl.
Qed.

Definition good (key : bytes) : Prop := exists a, nk_ok a /\ key = nk_key a /\ key_ok k P a.
Notation lb := (bkey P b).

(** Positioning on a branch. *)
Lemma set_pointer_ok m : forall at_, (mu (fst at_) < m)%nat -> is_head t asc at_ ->
  exists r n0, (forall n, (n0 <= n)%nat -> set_pointer_at_match n t asc k lb at_ = Ok r) /\
  match r with
  | Some e => In e t /\ good (fst e) /\ lex (fst at_) (fst e) <> Gt /\ inw e = true /\ seg (fst e) = e :: take_while inw (after e (dups t asc (fst e))) /\
      (cover k P b -> lex lb (fst at_) <> Gt -> forall e', In e' t -> good (fst e') -> lex (fst at_) (fst e') <> Gt -> lex (fst e') (fst e) = Lt -> seg (fst e') = [])
  | None => cover k P b -> lex lb (fst at_) <> Gt -> forall e', In e' t -> good (fst e') -> lex (fst at_) (fst e') <> Gt -> seg (fst e') = []
  end.
Proof.
  induction m as [|m IH]; intros at_ M H; [lia|]. pose proof (head_in t asc TO at_ H) as I. destruct (TK at_ I) as (a & A & KA).
  destruct (key_status_ok k P PO KS g0 d0 0 p0 GO G0 DO D0 N8 KO K0 a A) as (s & ES & _). pose proof (all_in_set_ok k P PO KS g0 d0 0 p0 GO G0 DO D0 N8 KO K0 a s A ES) as AS.
  rewrite <- KA in ES. destruct (head_split t asc TO at_ H) as (rest & DU & AF).
  (* continuing from a jump *)
  assert (forall j, lex (fst at_) j = Lt ->
     (cover k P b -> lex lb (fst at_) <> Gt -> forall e', In e' t -> good (fst e') -> lex (fst at_) (fst e') <> Gt -> seg (fst e') <> [] -> lex j (fst e') <> Gt) ->
     exists r n0, (forall n, (n0 <= n)%nat -> match set_range t asc j with Some x => set_pointer_at_match n t asc k lb x | None => Ok None end = Ok r) /\
     match r with
     | Some e => In e t /\ good (fst e) /\ lex (fst at_) (fst e) <> Gt /\ inw e = true /\ seg (fst e) = e :: take_while inw (after e (dups t asc (fst e))) /\
         (cover k P b -> lex lb (fst at_) <> Gt -> forall e', In e' t -> good (fst e') -> lex (fst at_) (fst e') <> Gt -> lex (fst e') (fst e) = Lt -> seg (fst e') = [])
     | None => cover k P b -> lex lb (fst at_) <> Gt -> forall e', In e' t -> good (fst e') -> lex (fst at_) (fst e') <> Gt -> seg (fst e') = []
     end) as JUMP.
  { intros j J1 J2. pose proof (set_range_spec t asc TO j) as SR. destruct (set_range t asc j) as [x|].
    - destruct SR as (HX & JX & LX). pose proof (lex_lt_le _ _ _ J1 JX) as AX. pose proof (mu_decr at_ x (head_in t asc TO x HX) AX) as MX.
      destruct (IH x ltac:(lia) HX) as (r & n0 & E & R). exists r, n0. split; [exact E|]. destruct r as [e|].
      + destruct R as (R1 & R2 & R3 & R4 & R5 & R6). split; [exact R1|]. split; [exact R2|]. split; [apply (lex_trans_le _ (fst x)); [rewrite AX; congruence|exact R3]|].
        split; [exact R4|]. split; [exact R5|]. intros CV LB e' I' G' L' LE. destruct (seg (fst e')) eqn:SE; [reflexivity|]. rewrite <- SE. apply R6; try assumption.
        * apply (lex_trans_le _ (fst at_)); [exact LB|rewrite AX; congruence].
        * apply LX; [exact I'|]. apply J2; try assumption. rewrite SE. discriminate.
      + intros CV LB e' I' G' L'. destruct (seg (fst e')) eqn:SE; [reflexivity|]. rewrite <- SE. apply R; try assumption.
        * apply (lex_trans_le _ (fst at_)); [exact LB|rewrite AX; congruence].
        * apply LX; [exact I'|]. apply J2; try assumption. rewrite SE. discriminate.
    - exists None, 0%nat. split; [reflexivity|]. intros CV LB e' I' G' L'. destruct (seg (fst e')) eqn:SE; [reflexivity|]. exfalso.
      apply (J2 CV LB e' I' G' L'); [rewrite SE; discriminate|]. apply lex_gt. now apply SR. }
  assert (seg (fst at_) = match next_stamp_match (tk_stamp k) at_ rest with None => [] | Some e => e :: take_while inw (after e (dups t asc (fst at_))) end) as SEG
    by (unfold seg; now rewrite DU).
  destruct (all_in_set s) eqn:AE.
  - assert (good (fst at_)) as GA by (exists a; split; [exact A|]; split; [exact KA|]; now apply AS).
    destruct (next_stamp_match (tk_stamp k) at_ rest) as [e|] eqn:NM.
    + exists (Some e), 1%nat. split.
      { intros [|n] L; [lia|]. cbn [set_pointer_at_match]. rewrite ES. cbn [obind]. now rewrite AE, AF, NM. }
      destruct (next_stamp_in _ _ _ _ NM) as [E1 E2]. rewrite <- DU in E1. apply in_dups in E1 as [E1 E3]. rewrite E3.
      split; [exact E1|]. split; [exact GA|]. split; [now rewrite lex_refl|]. split; [exact E2|]. split; [exact SEG|].
      intros _ _ e' _ _ L1 L2. exfalso. apply L1. now apply lex_gt.
    + destruct (JUMP (fst at_ ++ [255])) as (r & n0 & E & R).
      * rewrite <- (app_nil_r (fst at_)) at 1. now rewrite lex_app_same.
      * intros _ _ e' I' (a' & A' & KA' & _) L' SE. rewrite KA, KA'. rewrite KA, KA' in L'. apply lex_nk_255; try assumption.
        destruct (lex (nk_key a) (nk_key a')) eqn:C; [|reflexivity|congruence]. exfalso. apply SE. apply lex_eq in C. now rewrite KA', <- C, <- KA.
      * exists r, (S n0). split; [|exact R]. intros [|n] L; [lia|]. cbn [set_pointer_at_match]. rewrite ES. cbn [obind]. rewrite AE, AF, NM. apply E. lia.
  - destruct (jump_ok k P PO KS g0 d0 0 p0 GO G0 DO D0 NS N8 KO K0 b a s BO A) as (o & EJ & J); [now rewrite <- KA|exact AE|].
    destruct o as [j|].
    + destruct J as [J1 J2]. destruct (JUMP j) as (r & n0 & E & R).
      * now rewrite KA.
      * intros CV LB e' I' (a' & A' & KA' & K') L' _. rewrite KA'. rewrite KA in LB, L'. rewrite KA' in L'. now apply J2.
      * exists r, (S n0). split; [|exact R]. intros [|n] L; [lia|]. cbn [set_pointer_at_match]. rewrite ES. cbn [obind]. rewrite AE, EJ. cbn [obind]. apply E. lia.
    + exists None, 1%nat. split. { intros [|n] L; [lia|]. cbn [set_pointer_at_match]. rewrite ES. cbn [obind]. rewrite AE, EJ. reflexivity. }
      intros _ _ e' I' (a' & A' & KA' & K') L'. exfalso. apply L', lex_gt. rewrite KA, KA'. now apply J.
Qed.

Variable p : PktPredicates.
Variable stale : option entry.
Definition ib := p_limits p QBranch.
Hypothesis ST : stale = None \/ forall y, y < 2 ^ 32 -> member_next 32 ib y <> (None, y).

(** What is returned of a branch. *)
Definition branch_results (key : bytes) : list entry := zip_members 32 ib 0 (filter (entry_ok p) (seg key)).

(** From the end of a branch, the later scopes give [R]. *)
Definition later (key : bytes) (n0 : nat) (R : list entry) : Prop :=
  forall (e : entry) fuel, fst e = key -> (n0 <= fuel)%nat ->
  exists r, next_scope fuel t asc k lb (Some e) = Ok r /\
  match r with
  | None => R = []
  | Some x => forall n, (n0 <= n)%nat -> walk fuel t asc k lb p stale n (Some x) (Some x) 0 = Ok R
  end.

Lemma member_next_none w s y a : member_next w s y = (None, a) -> a = y.
Proof.
  unfold member_next. destruct (high (bound s) <? y); [intros H; now injection H|]. destruct (inc w y); [discriminate|].
  destruct (test w s y); [discriminate|]. intros H. now injection H.
Qed.
Lemma member_next_small s y r y' : y < 2 ^ 32 -> member_next 32 s y = (r, y') -> y' < 2 ^ 32.
Proof.
  unfold member_next, inc. intros Y. destruct (high (bound s) <? y); [intros H; injection H as _ <-; exact Y|].
  destruct (N.ltb_spec (y + 1) (2 ^ 32)) as [E|E].
  - intros H. injection H as _ <-. exact E.
  - destruct (test 32 s y); intros H; injection H as _ <-; exact Y.
Qed.
Lemma member_peek_none w s y : member_peek w s y = None -> member_next w s y = (None, y).
Proof. unfold member_peek, member_next. destruct (high (bound s) <? y); [reflexivity|discriminate]. Qed.
Lemma zip_none {A} w s y (l : list A) : member_next w s y = (None, y) -> zip_members w s y l = [].
Proof. destruct l; [reflexivity|]. cbn [zip_members]. now intros ->. Qed.
Lemma obind_ok {E A B} (f : A -> outcome E B) a : obind (Ok a) f = f a.
Proof. reflexivity. Qed.

Section Branch.
Variables (key : bytes) (m : nat) (R : list entry).
Hypothesis LR : later key m R.

Lemma get_next_split pre e l : dups t asc key = pre ++ e :: l -> get_next_entry t asc e = hd_error l.
Proof.
  intros D. assert (fst e = key) as K by (apply (in_dups t asc key); rewrite D; apply in_app_iff; right; now left).
  unfold get_next_entry. rewrite K, D, after_split; [reflexivity|]. rewrite <- D. now apply dups_nodup.
Qed.
Lemma rest_out e x l : StronglySorted cle (e :: x :: l) -> inw e = true -> inw x = false -> Forall (fun y => inw y = false) l.
Proof.
  intros S E X. apply Forall_forall. intros y Y. apply (contiguous e x y); [apply (sorted_hd _ _ _ S); now left| |exact E|exact X].
  inversion S; subst. now apply (sorted_hd _ x l).
Qed.
Lemma take_while_out (l : list entry) : Forall (fun y => inw y = false) l -> take_while inw l = [].
Proof. intros [|x r H _]; [reflexivity|]. cbn [take_while]. now rewrite H. Qed.

(** From inside a branch: [fst] with the pending entry [e], [snd] from the cursor at [e]. *)
Lemma branch_walk l : forall pre e, dups t asc key = pre ++ e :: l ->
  (inw e = true -> forall y n fuel, y < 2 ^ 32 -> (m + length l + 3 <= n)%nat -> (m <= fuel)%nat ->
     walk fuel t asc k lb p stale n (Some e) (Some e) y = Ok (zip_members 32 ib y (filter (entry_ok p) (e :: take_while inw l)) ++ R)) /\
  (inw e = true \/ Forall (fun x => inw x = false) l -> forall y n fuel, y < 2 ^ 32 -> (m + length l + 2 <= n)%nat -> (m <= fuel)%nat ->
     walk fuel t asc k lb p stale n None (Some e) y = Ok (zip_members 32 ib y (filter (entry_ok p) (take_while inw l)) ++ R)).
Proof.
  induction l as [|x l IH]; intros pre e D.
  - assert (fst e = key) as K by (apply (in_dups t asc key); rewrite D; apply in_app_iff; right; now left).
    pose proof (get_next_split pre e [] D) as GN. cbn [hd_error] in GN.
    assert (forall y n fuel, (m + 2 <= n)%nat -> (m <= fuel)%nat -> walk fuel t asc k lb p stale n None (Some e) y = Ok R) as X.
    { intros y [|n] fuel N F; [lia|]. cbn [walk]. unfold next_entry. rewrite GN. cbn iota. destruct (LR e fuel K F) as (r & E & Q). rewrite E. cbn [obind].
      destruct r as [x|]; [apply Q; lia|now rewrite Q]. }
    split.
    + intros W y [|n] fuel Y N F; [lia|]. cbn [length] in N. cbn [walk take_while filter]. destruct (entry_ok p e).
      2:{ rewrite X by lia. reflexivity. }
      cbn [zip_members]. fold ib. destruct (member_next 32 ib y) as [[[]|] y'] eqn:MN; pose proof (member_next_small _ _ _ _ Y MN) as Y'.
      * destruct (member_peek 32 ib y') eqn:MP.
        -- rewrite X by lia. reflexivity.
        -- unfold next_entry. rewrite GN. cbn iota. rewrite X by lia. reflexivity.
      * rewrite X by lia. reflexivity.
      * destruct (LR e fuel K F) as (r & E & Q). rewrite E. cbn [obind app]. destruct r as [x|]; [apply Q; lia|].
        destruct n as [|n]; [lia|]. cbn [walk]. unfold next_entry. destruct ST as [->|S']; [now rewrite Q|].
        exfalso. apply (S' y Y). pose proof (member_next_none _ _ _ _ MN). now subst.
    + intros _ y n fuel Y N F. cbn [take_while filter zip_members app]. apply X; [cbn [length] in N; lia|exact F].
  - assert (fst e = key) as K by (apply (in_dups t asc key); rewrite D; apply in_app_iff; right; now left).
    assert (fst x = key) as KX by (apply (in_dups t asc key); rewrite D; apply in_app_iff; right; right; now left).
    pose proof (get_next_split pre e (x :: l) D) as GN. cbn [hd_error] in GN.
    assert (dups t asc key = (pre ++ [e]) ++ x :: l) as DX by now rewrite <- app_assoc. destruct (IH _ _ DX) as [IH1 IH2].
    assert (StronglySorted cle (e :: x :: l)) as SS by (pose proof (dups_cle key) as S; rewrite D in S; apply sorted_app in S as (_ & S & _); exact S).
    assert (forall y n fuel, inw x = true -> walk fuel t asc k lb p stale n None (Some e) y = walk fuel t asc k lb p stale n (Some x) (Some x) y) as STEP.
    { intros y n fuel W. destruct n as [|n]; [reflexivity|]. cbn [walk]. unfold next_entry. rewrite GN. cbn iota. unfold inw in W. now rewrite W. }
    assert (forall y n fuel, inw x = false -> (m + 1 <= n)%nat -> (m <= fuel)%nat -> walk fuel t asc k lb p stale n None (Some e) y = Ok R) as OUT.
    { intros y [|n] fuel W N F; [lia|]. cbn [walk]. unfold next_entry. rewrite GN. cbn iota. unfold inw in W. rewrite W. cbn iota. destruct (LR x fuel KX F) as (r & E & Q). rewrite E. cbn [obind].
      destruct r as [z|]; [apply Q; lia|now rewrite Q]. }
    assert (forall y n fuel, y < 2 ^ 32 -> (m + length (x :: l) + 2 <= n)%nat -> (m <= fuel)%nat ->
     walk fuel t asc k lb p stale n None (Some e) y = Ok (zip_members 32 ib y (filter (entry_ok p) (take_while inw (x :: l))) ++ R)) as X.
    { intros y n fuel Y N F. cbn [length] in N. cbn [take_while]. destruct (inw x) eqn:W.
      - rewrite (STEP _ _ _ eq_refl). apply IH1; [reflexivity|exact Y|lia|exact F].
      - cbn [filter zip_members app]. apply OUT; [reflexivity|lia|exact F]. }
    split; [|intros _; exact X].
    intros W y [|n] fuel Y N F; [lia|]. cbn [length] in N. cbn [walk filter]. destruct (entry_ok p e).
    2:{ apply X; [exact Y|cbn [length]; lia|exact F]. }
    cbn [zip_members]. fold ib. destruct (member_next 32 ib y) as [[[]|] y'] eqn:MN; pose proof (member_next_small _ _ _ _ Y MN) as Y'.
    * destruct (member_peek 32 ib y') eqn:MP.
      -- rewrite X by (exact Y' || cbn [length]; lia). reflexivity.
      -- unfold next_entry. rewrite GN. cbn iota. cbn [take_while]. change (sr_contains (tk_stamp k) (val_create (snd x))) with (inw x). destruct (inw x) eqn:WX.
         ++ rewrite IH1 by (reflexivity || exact Y' || lia). reflexivity.
         ++ rewrite IH2; [|right; now apply (rest_out e x l)|exact Y'|lia|exact F]. rewrite take_while_out by now apply (rest_out e x l). reflexivity.
    * rewrite X by (exact Y' || cbn [length]; lia). reflexivity.
    * destruct (LR e fuel K F) as (r & E & Q). rewrite E. cbn [obind app]. destruct r as [z|]; [apply Q; lia|].
      destruct n as [|n]; [lia|]. cbn [walk]. unfold next_entry. destruct ST as [->|S']; [now rewrite Q|].
      exfalso. apply (S' y Y). pose proof (member_next_none _ _ _ _ MN). now subst.
Qed.
End Branch.

(** The branches visited from some key on. *)
Definition branches (from : bytes) (strict : bool) (ks : list bytes) : Prop :=
  StronglySorted (fun x y => lex x y = Lt) ks /\
  Forall (fun x => good x /\ seg x <> [] /\ (if strict then lex from x = Lt else lex from x <> Gt)) ks /\
  (cover k P b -> lex lb from <> Gt -> forall e, In e t -> good (fst e) -> seg (fst e) <> [] ->
    (if strict then lex from (fst e) = Lt else lex from (fst e) <> Gt) -> In (fst e) ks).

(** From a branch head: positioning, then the walk. *)
Definition from_head (n0 : nat) (at_ : entry) (R : list entry) : Prop :=
  forall fuel, (n0 <= fuel)%nat -> exists r, set_pointer_at_match fuel t asc k lb at_ = Ok r /\
  match r with None => R = [] | Some x => forall n, (n0 <= n)%nat -> walk fuel t asc k lb p stale n (Some x) (Some x) 0 = Ok R end.

Lemma in_split_dups e : In e t -> exists pre l, dups t asc (fst e) = pre ++ e :: l /\ after e (dups t asc (fst e)) = l.
Proof.
  intros I. assert (In e (dups t asc (fst e))) as X by now apply in_dups. apply in_split in X as (pre & l & E). exists pre, l. split; [exact E|].
  rewrite E. apply after_split. rewrite <- E. now apply dups_nodup.
Qed.

Lemma head_walk m : forall at_, (mu (fst at_) < m)%nat -> is_head t asc at_ ->
  exists ks n0, branches (fst at_) false ks /\ from_head n0 at_ (flat_map branch_results ks).
Proof.
  induction m as [|m IH]; intros at_ M H; [lia|].
  destruct (set_pointer_ok (S m) at_ M H) as (r & n1 & E & SP). destruct r as [e|].
  2:{ exists [], n1. split.
      - split; [constructor|]. split; [constructor|]. intros CV LB e I G S L. exfalso. apply S. now apply SP.
      - intros fuel F. exists None. split; [now apply E|reflexivity]. }
  destruct SP as (E1 & E2 & E3 & E4 & E5 & E6).
  (* the branches after that of [e] *)
  assert (exists ks n0, branches (fst e) true ks /\ later (fst e) n0 (flat_map branch_results ks)) as (ks & n2 & B & LT).
  { pose proof (next_range_spec t asc TO (fst e)) as NR. destruct (get_next_range t asc (fst e)) as [x|] eqn:GN.
    - destruct NR as (HX & LX & MX). pose proof (mu_decr e x (head_in t asc TO x HX) LX) as D.
      assert (mu (fst e) <= mu (fst at_))%nat as D2.
      { destruct (lex (fst at_) (fst e)) eqn:C; [apply lex_eq in C; now rewrite C|pose proof (mu_decr at_ e E1 C); lia|congruence]. }
      destruct (IH x ltac:(lia) HX) as (ks & n0 & (B1 & B2 & B3) & FH). exists ks, n0. split.
      + split; [exact B1|]. split.
        * eapply Forall_impl; [|exact B2]. intros y (Y1 & Y2 & Y3). split; [exact Y1|]. split; [exact Y2|]. now apply (lex_lt_le _ (fst x)).
        * intros CV LB e' I' G' S' L'. apply B3; try assumption; [|now apply MX]. apply (lex_trans_le _ (fst e)); [exact LB|rewrite LX; congruence].
      + intros e' fuel K F. unfold next_scope. rewrite K, GN. exact (FH fuel F).
    - exists [], 0%nat. split.
      + split; [constructor|]. split; [constructor|]. intros _ _ e' I' _ _ L'. exfalso. apply (NR e' I'). now apply lex_gt.
      + intros e' fuel K F. exists None. unfold next_scope. now rewrite K, GN. }
  destruct (in_split_dups e E1) as (pre & l & D & AF).
  exists (fst e :: ks), (n1 + n2 + length l + 3)%nat. destruct B as (B1 & B2 & B3). split.
  - split; [constructor; [exact B1|]; eapply Forall_impl; [|exact B2]; cbv beta; tauto|]. split.
    + constructor; [split; [exact E2|]; split; [rewrite E5; discriminate|exact E3]|]. eapply Forall_impl; [|exact B2]. intros y (Y1 & Y2 & Y3).
      split; [exact Y1|]. split; [exact Y2|]. apply (lex_trans_le _ (fst e)); [exact E3|rewrite Y3; congruence].
    + intros CV LB e' I' G' S' L'. destruct (lex (fst e') (fst e)) eqn:C.
      * left. symmetry. now apply lex_eq.
      * exfalso. apply S'. now apply E6.
      * right. apply B3; try assumption; [|now apply lex_gt]. now apply (lex_trans_le _ (fst at_)).
  - intros fuel F. exists (Some e). split; [apply E; lia|]. intros n N. cbn [flat_map]. unfold branch_results at 1. rewrite E5, AF.
    apply (branch_walk (fst e) n2 (flat_map branch_results ks) LT l pre e D); [exact E4|reflexivity|lia|lia].
Qed.

(** The whole iteration. *)
Lemma lb_least a : cover k P b -> nk_ok a -> key_ok k P a -> lex lb (nk_key a) <> Gt.
Proof.
  intros CV A KA. pose proof (tail_le k P g0 d0 0 p0 G0 D0 N8 K0 b a BO CV A KA) as TL.
  destruct BO as ((B1 & B2 & B3) & (B4 & B5 & B6) & _). pose proof A as (A1 & A2 & _). pose proof KA as (K1 & K2 & _).
  unfold bkey, nk_key. apply (lex_hkey_le k g0 d0 0 p0 G0 D0 N8 K0); try assumption. pose proof (B3 _ A1 K1). pose proof (B6 _ A2 K2).
  destruct (N.eq_dec (bg b) (kg a)) as [E|E]; [right|left; lia]. split; [exact E|].
  destruct (N.eq_dec (bd b) (kd a)) as [E'|E']; [right|left; lia]. split; [exact E'|exact TL].
Qed.
Lemma tree_entries : compile_tree_keys p asc = Ok k -> lower_bound k = Ok lb ->
  exists ks n0, StronglySorted (fun x y => lex x y = Lt) ks /\ Forall (fun x => good x /\ seg x <> []) ks /\
  (cover k P b -> forall e, In e t -> good (fst e) -> seg (fst e) <> [] -> In (fst e) ks) /\
  forall fuel, (n0 <= fuel)%nat -> query_tree_entries fuel t asc p stale = Ok (flat_map branch_results ks).
Proof.
  intros CK CL. unfold query_tree_entries. rewrite CK. cbn [obind]. rewrite CL. cbn [obind].
  assert (exists z, member_peek 32 (p_limits p QBranch) 0 = Some z) as [z Z].
  { unfold member_peek. destruct (N.ltb_spec (high (bound (p_limits p QBranch))) 0); [lia|eauto]. }
  rewrite Z. pose proof (set_range_spec t asc TO lb) as SR. destruct (set_range t asc lb) as [at_|].
  - destruct SR as (HA & LA & MA). destruct (head_walk (S (mu (fst at_))) at_ ltac:(lia) HA) as (ks & n0 & (B1 & B2 & B3) & FH).
    exists ks, n0. split; [exact B1|]. split; [eapply Forall_impl; [|exact B2]; cbv beta; tauto|]. split.
    + intros CV e I G S. apply B3; try assumption. apply MA; [exact I|]. destruct G as (a & A & -> & KA). now apply lb_least.
    + intros fuel F. destruct (FH fuel F) as (r & E & R). rewrite E. cbn [obind]. destruct r as [x|]; [now apply R|now rewrite R].
  - exists [], 0%nat. split; [constructor|]. split; [constructor|]. split; [|reflexivity]. intros CV e I G S. exfalso.
    specialize (SR e I). destruct G as (a & A & E & KA). rewrite E in SR. apply (lb_least a CV A KA). now apply lex_gt.
Qed.

(** When the range of create stamps is read in the direction of the iteration, all of the
    branch that is in the range is iterated over. *)
Lemma cr_decode e : cr e = val_create (snd e). Proof. reflexivity. Qed.
Lemma seg_filter key : asc = true \/ low sb < high sb -> seg key = filter inw (dups t asc key).
Proof.
  intros DIR. unfold seg. set (D := dups t asc key). pose proof (dups_cle key) as SC. fold D in SC. pose proof (dups_nodup t asc TO key) as ND. fold D in ND.
  assert (forall r pre h, D = pre ++ h :: r -> Forall (fun x => inw x = false) pre ->
    match next_stamp_match (tk_stamp k) h r with None => [] | Some e => e :: take_while inw (after e D) end = filter inw D) as G.
  { assert (forall l, Forall (fun x => inw x = false) l -> filter inw l = []) as FN.
    { induction 1 as [|x l H _ IH]; [reflexivity|]. cbn [filter]. now rewrite H. }
    assert (forall h l, StronglySorted cle (h :: l) -> inw h = true -> take_while inw l = filter inw l) as TF.
    { intros h l. revert h. induction l as [|x l IH]; intros h S H; [reflexivity|]. cbn [take_while filter]. destruct (inw x) eqn:X.
      - f_equal. apply (IH x); [|exact X]. now inversion S.
      - symmetry. apply FN. now apply (rest_out h x l). }
    induction r as [|x r IH]; intros pre h E FP; cbn [next_stamp_match]; destruct (iter_cmp (tk_stamp k) (val_create (snd h))) eqn:C.
    - rewrite E, filter_app, (FN pre FP). cbn [filter app]. destruct (inw h) eqn:W; [|reflexivity]. apply iter_cmp_in in W. congruence.
    - apply iter_cmp_in in C. rewrite E, filter_app, (FN pre FP), after_split by (now rewrite <- E). cbn [filter app]. change (inw h = true) in C. now rewrite C.
    - rewrite E, filter_app, (FN pre FP). cbn [filter app]. destruct (inw h) eqn:W; [|reflexivity]. apply iter_cmp_in in W. congruence.
    - apply (IH (pre ++ [h])); [now rewrite <- app_assoc|]. apply Forall_app. split; [exact FP|]. constructor; [|constructor].
      destruct (inw h) eqn:W; [|reflexivity]. apply iter_cmp_in in W. congruence.
    - apply iter_cmp_in in C. rewrite E, filter_app, (FN pre FP), after_split by (now rewrite <- E). change (inw h = true) in C. cbn [app]. change (filter inw (h :: x :: r)) with (if inw h then h :: filter inw (x :: r) else filter inw (x :: r)). rewrite C.
      f_equal. apply (TF h); [|exact C]. rewrite E in SC. now apply sorted_app in SC as (_ & SC & _).
    - symmetry. rewrite E, filter_app, (FN pre FP). cbn [app]. apply FN. apply Forall_forall. intros y Y.
      destruct (inw y) eqn:W; [|reflexivity]. exfalso. apply inw_iff in W.
      assert (h = y \/ cle h y) as CY.
      { destruct Y as [Y|Y]; [now left|right]. rewrite E in SC. apply sorted_app in SC as (_ & SC & _). now apply (sorted_hd _ _ _ SC). }
      assert (if asc then cr h <= cr y else cr y <= cr h) as CY' by (destruct CY as [<-|CY]; [destruct asc; lia|exact CY]).
      change (val_create (snd h)) with (cr h) in C. rewrite KT in C. destruct asc; cbn [stamp_range] in C.
      + rewrite iter_cmp_asc in C by exact SB. destruct (N.ltb_spec (cr h) (low sb)); [discriminate|]. destruct (N.leb_spec (cr h) (high sb)); [discriminate|]. lia.
      + destruct DIR as [DIR|DIR]; [discriminate|]. rewrite iter_cmp_desc in C by exact DIR. destruct (N.ltb_spec (high sb) (cr h)); [discriminate|]. destruct (N.leb_spec (low sb) (cr h)); [discriminate|]. lia. }
  destruct D as [|h r] eqn:ED; [reflexivity|]. rewrite <- ED in G |- *. apply (G r [] h ED). constructor.
Qed.
(** In any direction, what is iterated over is in the range. *)
Lemma take_while_in {A} (f : A -> bool) l x : In x (take_while f l) -> In x l /\ f x = true.
Proof.
  induction l as [|y l IH]; cbn [take_while]; [intros []|]. destruct (f y) eqn:F; [|intros []]. intros [<-|I]; [split; [now left|exact F]|].
  destruct (IH I). split; [now right|assumption].
Qed.
Lemma take_while_sorted {A} (R : A -> A -> Prop) (f : A -> bool) l : StronglySorted R l -> StronglySorted R (take_while f l).
Proof.
  induction 1 as [|x l H IH F]; cbn [take_while]; [constructor|]. destruct (f x); constructor; [exact IH|].
  apply Forall_forall. intros y Y. apply take_while_in in Y as [Y _]. rewrite Forall_forall in F. auto.
Qed.
Lemma seg_sound key : StronglySorted (vlt asc) (seg key) /\ forall e, In e (seg key) -> In e t /\ fst e = key /\ inw e = true.
Proof.
  unfold seg. pose proof (dups_sorted t asc TO key) as VS. destruct (dups t asc key) as [|h r] eqn:D; [split; [constructor|intros ? []]|].
  destruct (next_stamp_match (tk_stamp k) h r) as [e|] eqn:N; [|split; [constructor|intros ? []]].
  destruct (next_stamp_in _ _ _ _ N) as [I W]. rewrite <- D in I |- *. pose proof I as I'. apply in_dups in I' as [IT KE].
  destruct (in_split_dups e IT) as (pre & l & SP & AF). rewrite KE in SP, AF. rewrite AF. rewrite <- D, SP in VS. apply sorted_app in VS as (_ & VS & _).
  split.
  - inversion VS as [|? ? V1 V2]; subst. constructor; [now apply take_while_sorted|]. apply Forall_forall. intros y Y. apply take_while_in in Y as [Y _]. rewrite Forall_forall in V2. auto.
  - intros y [<-|Y]; [auto|]. apply take_while_in in Y as [Y WY]. assert (In y (dups t asc key)) as YD by (rewrite SP; apply in_app_iff; right; now right).
    apply in_dups in YD as [YT YK]. auto.
Qed.
End Walk.
