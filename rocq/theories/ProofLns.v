(** Lemmas about names and votes. *)
From Coq Require Import Permutation Sorted.
From Verif Require Import Bytes SpecSpace ModelSpace ProofSpace ModelPkt ModelTree ModelAbe ModelEval ModelQText ModelLns SpecLns.

(** ** Counting *)
Section Count.
Variables (vote_of : bytes -> bytes -> bytes -> option NetPktParts) (g sp : bytes).
Notation vo := (vote_of g sp).
Lemma tally_app P R h : tally vo (P ++ R) h = (tally vo P h + tally vo R h)%nat.
Proof. unfold tally. now rewrite filter_app, app_length. Qed.
Lemma tally_two P h k : h <> k -> (tally vo P h + tally vo P k <= List.length P)%nat.
Proof.
  intros NE. induction P as [|a P IH]; [reflexivity|]. unfold tally in *. cbn [filter List.length].
  destruct (votes_for vo h a) eqn:A; destruct (votes_for vo k a) eqn:B; cbn [List.length]; try lia. unfold votes_for in A, B. destruct (choice vo a); [|discriminate]. apply beqb_eq in A, B. congruence.
Qed.
Definition votes_of (P : list bytes) (h : bytes) : list NetPktParts :=
  flat_map (fun a => match vo a with Some v => [v] | None => [] end) (filter (votes_for vo h) P).
Lemma votes_some h a : votes_for vo h a = true -> exists v ls tag, vo a = Some v /\ pkt_links v = (tag, h) :: ls /\ beqb tag VOTE_TAG = true.
Proof.
  unfold votes_for, choice. destruct (vo a) as [v|]; [|discriminate]. destruct (pkt_links v) as [|[tag ptr] ls] eqn:LE; [discriminate|]. destruct (beqb tag VOTE_TAG) eqn:T; [|discriminate].
  intros E. apply beqb_eq in E. subst ptr. exists v, ls, tag. repeat split; assumption.
Qed.
Lemma votes_length P h : List.length (votes_of P h) = tally vo P h.
Proof.
  unfold votes_of, tally. induction P as [|a P IH]; [reflexivity|]. cbn [filter]. destruct (votes_for vo h a) eqn:V; [|exact IH]. destruct (votes_some h a V) as (v & ls & tag & E & _).
  cbn [flat_map List.length]. rewrite E. cbn [app List.length]. now rewrite IH.
Qed.
Lemma votes_stamp P h : max_stamp (votes_of P h) = settled vo P h.
Proof.
  unfold votes_of, settled, max_stamp. induction P as [|a P IH]; [reflexivity|]. cbn [filter]. destruct (votes_for vo h a) eqn:V; [|exact IH]. destruct (votes_some h a V) as (v & ls & tag & E & _).
  cbn [flat_map map fold_right]. rewrite E. unfold stamp_of at 1. rewrite E. cbn [app map fold_right]. now rewrite IH.
Qed.
Lemma votes_snoc P a h : votes_of (P ++ [a]) h = votes_of P h ++ (if votes_for vo h a then match vo a with Some v => [v] | None => [] end else []).
Proof. unfold votes_of. rewrite filter_app, flat_map_app. cbn [filter]. destruct (votes_for vo h a); cbn [flat_map]; now rewrite ?app_nil_r. Qed.

(** ** The loop over the authorities *)
Variable read_hash : bytes -> option NetPktParts.
Definition claim_at (h : bytes) : option Claim := match read_hash h with Some p => match claim_from p with Ok c => Some c | _ => None end | None => None end.
Definition counted (P : list bytes) (m : list Voting) : Prop :=
  NoDup (map fst m) /\ (forall h c vs, In (h, (c, vs)) m -> vs = votes_of P h /\ vs <> [] /\ c = claim_at h) /\
  forall h, votes_of P h <> [] -> In h (map fst m).
Lemma vote_push_none h v m : vote_push h v m = None <-> ~ In h (map fst m).
Proof.
  induction m as [|[h' [c vs]] m IH]; cbn [vote_push map In fst]; [tauto|]. destruct (beqb h' h) eqn:B.
  - apply beqb_eq in B. split; [discriminate|]. intros N. exfalso. apply N. auto.
  - assert (h' <> h) by (intros ->; rewrite beqb_refl in B; discriminate). destruct (vote_push h v m) as [[m' n]|]; cbn [option_map]; split; try discriminate.
    + intros N. exfalso. assert (Some (m', n) = None) by (apply IH; tauto). discriminate.
    + intros _ [E|E]; [contradiction|]. now apply IH.
    + reflexivity.
Qed.
Lemma vote_push_some h v m m' n : vote_push h v m = Some (m', n) -> exists a b c vs, m = a ++ (h, (c, vs)) :: b /\ m' = a ++ (h, (c, vs ++ [v])) :: b /\ n = lenN vs + 1 /\ ~ In h (map fst a).
Proof.
  revert m' n. induction m as [|[h' [c vs]] m IH]; intros m' n; cbn [vote_push]; [discriminate|]. destruct (beqb h' h) eqn:B.
  - intros [= <- <-]. apply beqb_eq in B. subst h'. exists [], m, c, vs. repeat split. intros [].
  - destruct (vote_push h v m) as [[m1 n1]|]; cbn [option_map]; [|discriminate]. intros [= <- <-]. destruct (IH m1 n1 eq_refl) as (a & b & c1 & vs1 & -> & -> & -> & NI).
    exists ((h', (c, vs)) :: a), b, c1, vs1. repeat split. cbn [map fst In]. intros [->|I]; [rewrite beqb_refl in B; discriminate|contradiction].
Qed.
Lemma counted_skip P m a : (forall h, votes_for vo h a = false) -> counted P m -> counted (P ++ [a]) m.
Proof.
  intros F (ND & A & B). split; [exact ND|]. split; intros h.
  - intros c vs I. destruct (A h c vs I) as (-> & NE & C). rewrite votes_snoc, F, app_nil_r. auto.
  - rewrite votes_snoc, F, app_nil_r. apply B.
Qed.
Lemma nodup_key (m : list Voting) h x y : NoDup (map fst m) -> In (h, x) m -> In (h, y) m -> x = y.
Proof.
  induction m as [|[k z] m IH]; intros ND; [intros []|]. cbn [map fst] in ND. inversion ND as [|? ? NI ND']; subst. intros [E|I] [E'|I'].
  - congruence.
  - injection E as -> ->. exfalso. apply NI, in_map_iff. exists (h, y). auto.
  - injection E' as -> ->. exfalso. apply NI, in_map_iff. exists (h, x). auto.
  - exact (IH ND' I I').
Qed.
Lemma collect_counted ph req auths : forall P m is, counted P m ->
  exists Q R m' is', auths = Q ++ R /\ collect vote_of read_hash g sp ph req auths m is = (m', is') /\ counted (P ++ Q) m' /\
    (R = [] \/ exists h, req <= N.of_nat (tally vo (P ++ Q) h)).
Proof.
  induction auths as [|a auths IH]; intros P m is C.
  { exists [], [], m, is. rewrite (app_nil_r P). split; [reflexivity|]. split; [reflexivity|]. split; [exact C|]. now left. }
  assert (step : forall m1 is1, counted (P ++ [a]) m1 -> exists Q R m' is', a :: auths = Q ++ R /\ collect vote_of read_hash g sp ph req auths m1 is1 = (m', is') /\ counted (P ++ Q) m' /\ (R = [] \/ exists h, req <= N.of_nat (tally vo (P ++ Q) h))).
  { intros m1 is1 C1. destruct (IH (P ++ [a]) m1 is1 C1) as (Q & R & m' & is' & E & K & C' & D). exists (a :: Q), R, m', is'. cbn [app]. rewrite <- app_assoc in C', D. split; [now rewrite E|]. split; [exact K|]. split; [exact C'|exact D]. }
  cbn [collect]. destruct (vo a) as [v|] eqn:V.
  2:{ apply step, counted_skip; [|exact C]. intros h. unfold votes_for, choice. now rewrite V. }
  destruct (pkt_links v) as [|[tag ptr] ls] eqn:L.
  { apply step, counted_skip; [|exact C]. intros h. unfold votes_for, choice. now rewrite V, L. }
  destruct (beqb tag VOTE_TAG) eqn:T.
  2:{ apply step, counted_skip; [|exact C]. intros h. unfold votes_for, choice. now rewrite V, L, T. }
  assert (VF : forall h, votes_for vo h a = beqb ptr h) by (intros h; unfold votes_for, choice; now rewrite V, L, T).
  destruct C as (ND & A & B). destruct (vote_push ptr v m) as [[m1 n]|] eqn:VP.
  - destruct (vote_push_some _ _ _ _ _ VP) as (x & y & c & vs & -> & -> & -> & NI).
    assert (I0 : In (ptr, (c, vs)) (x ++ (ptr, (c, vs)) :: y)) by (apply in_or_app; right; now left). destruct (A ptr c vs I0) as (EV & NE & CC).
    assert (C1 : counted (P ++ [a]) (x ++ (ptr, (c, vs ++ [v])) :: y)).
    { rewrite map_app in ND, B. cbn [map fst] in ND, B. split; [rewrite map_app; exact ND|]. split.
      - intros h c' vs' I. rewrite votes_snoc, VF, V. apply in_app_or in I as [I|[I|I]].
        + destruct (beqb ptr h) eqn:Q; [apply beqb_eq in Q; subst h; exfalso; apply NI, in_map_iff; exists (ptr, (c', vs')); auto|]. rewrite app_nil_r. apply A, in_or_app. auto.
        + injection I as <- <- <-. rewrite beqb_refl, <- EV. split; [reflexivity|]. split; [now destruct vs|exact CC].
        + destruct (beqb ptr h) eqn:Q.
          * apply beqb_eq in Q; subst h. exfalso. apply NoDup_remove_2 in ND. apply ND, in_or_app. right. apply in_map_iff. exists (ptr, (c', vs')). auto.
          * rewrite app_nil_r. apply A, in_or_app. right. now right.
      - intros h NV. rewrite votes_snoc, VF, V in NV. rewrite map_app. cbn [map fst]. destruct (beqb ptr h) eqn:Q; [apply beqb_eq in Q; subst h; apply in_or_app; right; now left|]. rewrite app_nil_r in NV. apply B, NV. }
    destruct (N.leb_spec req (lenN vs + 1)) as [LE|GT]; [|exact (step _ _ C1)].
    exists [a], auths, (x ++ (ptr, (c, vs ++ [v])) :: y), is. split; [reflexivity|]. split; [reflexivity|]. split; [exact C1|]. right. exists ptr. rewrite <- votes_length, votes_snoc, VF, V, beqb_refl, <- EV, app_length. cbn [List.length]. unfold lenN in LE. lia.
  - assert (NI := proj1 (vote_push_none ptr v m) VP). assert (Z : votes_of P ptr = []) by (destruct (votes_of P ptr) eqn:E; [reflexivity|]; exfalso; apply NI, B; congruence).
    assert (C1 : counted (P ++ [a]) (m ++ [(ptr, (claim_at ptr, [v]))])).
    { split; [|split].
      - rewrite map_app. cbn [map fst]. apply (Permutation_NoDup (Permutation_cons_append _ _)). now constructor.
      - intros h c' vs' I. rewrite votes_snoc, VF, V. apply in_app_or in I as [I|[I|[]]].
        + destruct (beqb ptr h) eqn:Q; [apply beqb_eq in Q; subst h; exfalso; apply NI, in_map_iff; exists (ptr, (c', vs')); auto|]. rewrite app_nil_r. now apply A.
        + injection I as <- <- <-. rewrite beqb_refl, Z. split; [reflexivity|]. split; [discriminate|reflexivity].
      - intros h NV. rewrite votes_snoc, VF, V in NV. rewrite map_app. apply in_or_app. cbn [map fst In]. destruct (beqb ptr h) eqn:Q; [apply beqb_eq in Q; auto|]. rewrite app_nil_r in NV. left. now apply B. }
    unfold claim_at in C1. destruct (read_hash ptr) as [p|]; [destruct (claim_from p)|]; exact (step _ _ C1).
Qed.
Lemma counted_nil : counted [] [].
Proof. split; [constructor|]. split; [intros h c vs []|]. intros h N. now apply N. Qed.

End Count.

(** ** The choice among the claims *)
Definition olt (a b : N * N) : Prop := fst a < fst b \/ fst a = fst b /\ snd a < snd b.
Lemma order_le_spec a b : order_le a b = true <-> ~ olt b a.
Proof.
  unfold order_le, olt. destruct a as [x y], b as [u v]. cbn [fst snd]. rewrite Bool.orb_true_iff, Bool.andb_true_iff, N.ltb_lt, N.eqb_eq, N.leb_le. lia.
Qed.
Lemma ins_perm v l : Permutation (ins v l) (v :: l).
Proof. induction l as [|x l IH]; [reflexivity|]. cbn [ins]. destruct (order_le _ _); [reflexivity|]. rewrite IH. apply perm_swap. Qed.
Lemma sort_perm l : Permutation (sort_votes l) l.
Proof. induction l as [|v l IH]; [reflexivity|]. cbn [sort_votes]. rewrite ins_perm. now constructor. Qed.
Lemma ins_sorted v l : StronglySorted (fun a b => order_le (order a) (order b) = true) l -> StronglySorted (fun a b => order_le (order a) (order b) = true) (ins v l).
Proof.
  induction 1 as [|x l S IH F]; cbn [ins]; [repeat constructor|]. destruct (order_le (order v) (order x)) eqn:E.
  - constructor; [now constructor|]. constructor; [exact E|]. eapply Forall_impl; [|exact F]. intros y Y. cbn beta in *. rewrite order_le_spec in *. unfold olt in *. lia.
  - constructor; [exact IH|]. apply (Permutation_Forall (Permutation_sym (ins_perm v l))). constructor; [|exact F]. cbn beta. apply order_le_spec. intros O. assert (order_le (order v) (order x) = true); [|congruence]. apply order_le_spec. unfold olt in *. lia.
Qed.
Lemma sort_sorted l : StronglySorted (fun a b => order_le (order a) (order b) = true) (sort_votes l).
Proof. induction l as [|v l IH]; [constructor|]. now apply ins_sorted. Qed.
Lemma filter_all {A} (f : A -> bool) l : Forall (fun x => f x = true) l -> filter f l = l.
Proof. induction 1 as [|x l E _ IH]; [reflexivity|]. cbn. now rewrite E, IH. Qed.
(** What is picked. *)
Lemma pick_spec shuffle m : Permutation (shuffle m) m -> Forall (fun v => snd (snd v) <> []) m ->
  match pick shuffle m with
  | NoVotes => m = []
  | Live v => In v m /\ Forall (fun w => ~ olt (order v) (order w)) m /\ (List.length m = 1%nat \/ exists w, In w m /\ olt (order w) (order v))
  | Tied vs => Permutation vs m /\ (2 <= List.length m)%nat /\ forall v w, In v m -> In w m -> order v = order w
  end.
Proof.
  intros P F. unfold pick.
  rewrite filter_all.
  2:{ apply (Permutation_Forall (Permutation_sym P)). eapply Forall_impl; [|exact F]. intros [h [c [|x vs]]] N; [contradiction|]. cbn [snd]. rewrite lenN_cons. now destruct (lenN vs). }
  set (l := sort_votes (shuffle m)). assert (PL : Permutation l m) by (unfold l; rewrite sort_perm; exact P). pose proof (sort_sorted (shuffle m)) as S. fold l in S.
  destruct (rev l) as [|live others] eqn:R.
  { apply (f_equal (@rev _)) in R. rewrite rev_involutive in R. cbn in R. rewrite R in PL. now apply Permutation_nil in PL. }
  assert (L : l = rev others ++ [live]) by (apply (f_equal (@rev _)) in R; now rewrite rev_involutive in R).
  assert (MAX : Forall (fun w => ~ olt (order live) (order w)) (rev others)).
  { rewrite L in S. clear -S. induction (rev others) as [|x r IH]; [constructor|]. cbn [app] in S. inversion S as [|? ? S' FX]; subst. constructor; [|now apply IH]. apply order_le_spec. rewrite Forall_forall in FX. apply FX, in_or_app. right. now left. }
  assert (MAXM : Forall (fun w => ~ olt (order live) (order w)) m).
  { apply (Permutation_Forall PL). rewrite L. apply Forall_app. split; [exact MAX|]. constructor; [|constructor]. unfold olt. lia. }
  destruct (take_while _ _) as [|t ts] eqn:TW.
  - split; [|split; [exact MAXM|]]. { apply (Permutation_in _ PL). rewrite L. apply in_or_app. right. now left. }
    destruct (rev others) as [|x r] eqn:RO; [left; apply Permutation_length in PL; symmetry in PL; etransitivity; [exact PL|]; rewrite L; reflexivity|]. right. exists x. split; [apply (Permutation_in _ PL); rewrite L; now left|].
    cbn [take_while] in TW. destruct (order_eqb (order live) (order x)) eqn:E; [discriminate|]. apply Forall_cons_iff in MAX as [MX _]. unfold order_eqb in E. apply Bool.andb_false_iff in E. rewrite !N.eqb_neq in E. unfold olt in *. lia.
  - (* the first is as good as the last, so all are *)
    destruct (rev others) as [|x r] eqn:RO; [discriminate|]. cbn [take_while] in TW. destruct (order_eqb (order live) (order x)) eqn:E; [|discriminate].
    unfold order_eqb in E. apply Bool.andb_true_iff in E as [E1 E2]. rewrite N.eqb_eq in E1, E2.
    assert (ALL : forall w, In w l -> order w = order live).
    { intros w W. rewrite L in W, S. cbn [app] in S, W. inversion S as [|? ? _ FX]; subst. assert (U : ~ olt (order w) (order x)).
      { destruct W as [<-|W]; [unfold olt; lia|]. rewrite Forall_forall in FX. apply order_le_spec, FX, W. }
      assert (D : ~ olt (order live) (order w)). { rewrite Forall_forall in MAX. destruct W as [<-|W]; [apply MAX; now left|]. apply in_app_or in W as [W|[<-|[]]]; [apply MAX; now right|unfold olt; lia]. }
      destruct (order w) as [p q], (order live) as [p' q'], (order x) as [p'' q'']. unfold olt in *. cbn [fst snd] in *. f_equal; lia. }
    assert (TWA : forall k, (forall w, In w k -> In w l) -> take_while (fun p => order_eqb (order live) (order p)) k = k).
    { induction k as [|y k IH]; intros K; [reflexivity|]. cbn [take_while]. rewrite (ALL y) by (apply K; now left). unfold order_eqb. rewrite !N.eqb_refl. cbn [andb]. apply (f_equal (cons y)), IH. intros w W. apply K. now right. }
    assert (t :: ts = x :: r) as TE.
    { rewrite <- TW. f_equal. apply TWA. intros w W. rewrite L. apply in_or_app. left. now right. }
    rewrite TE. rewrite <- L. split; [exact PL|]. split; [|].
    + apply Permutation_length in PL. apply Nat.le_trans with (List.length l); [|apply Nat.eq_le_incl; exact PL]. rewrite L, app_length. cbn [List.length]. lia.
    + intros v w V W. rewrite (ALL v), (ALL w); [reflexivity| |]; apply (Permutation_in _ (Permutation_sym PL)); assumption.
Qed.
