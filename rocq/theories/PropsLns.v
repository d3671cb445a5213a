(** * C49, C50 and C51: names, claims and votes *)
From Coq Require Import Permutation.
From Verif Require Import Bytes SpecSpace ModelSpace ProofSpace ProofRooted ModelTestSet ModelPkt SpecPkt ProofPkt2 PropsPkt SpecTree ModelTree ProofTree ModelPred SpecPred ProofPred PropsPred ModelAbe ModelEval ModelQText ProofQText2 ModelLns SpecLns ProofLns ProofLns2.

(** ** Names *)
(** A name is made from exactly the component lists that are names, and is that name. *)
Theorem C51_name_exact : forall cs n, name_from cs = Ok n <-> name_ok cs /\ names cs n.
Proof. exact name_from_iff. Qed.
Definition ex_name : list bytes := [str "bob"; str "x:y"; str "com"].
Definition ex_local : list bytes := [str "bob"; str "local"].
Example C51_name_ex : name_ok ex_name /\ name_ok ex_local /\ is_local ex_local /\ ~ is_local ex_name /\
  name_from ex_name = Ok (mkName (wire_space [str "com"; str "x:y"; str "bob"]) Public) /\ name_from [] = Err NMinLen.
Proof. unfold name_ok. repeat split; try reflexivity; try (cbn; lia); try (repeat constructor; cbn; lia). intros H. discriminate H. Qed.
(** Printed and read again, in any scope, it is the same name. *)
Theorem C51_text_round_trip : forall cs n, name_from cs = Ok n -> Forall bytes_ok cs ->
  exists t, name_text n = Ok t /\ forall fuel s, name_of_text (S fuel) s t = Ok n.
Proof.
  intros cs n N B. apply name_from_iff in N as [NO N]. exists (abl_display (name_abl cs)). split; [now apply name_text_abl|]. intros fuel s. unfold name_of_text. rewrite eval_line_wf by now apply name_abl_wf. now apply name_of_abl_names.
Qed.
Example C51_text_ex : exists n, name_from ex_name = Ok n /\ name_text n = Ok (str "bob:x\:y:com").
Proof. eexists. split; reflexivity. Qed.
(** A name is found again in the space of its claim: the space is [claims] and the components in reverse, and
    different names have different spaces. *)
Theorem C51_claim_space : forall cs n, name_from cs = Ok n ->
  exists r, claim_space n = Ok r /\ r = wire_rooted (str "claims" :: rev cs) /\
  (forall cs' n', name_from cs' = Ok n' -> claim_space n' = Ok r -> cs' = cs /\ n' = n) /\
  (claim_group n = repeat 0 32 <-> is_local cs) /\ (claim_group n = PUBLIC <-> ~ is_local cs) /\
  name_from_space (wire_space (rev cs)) = Ok n.
Proof.
  intros cs n N. apply name_from_iff in N as [NO N]. exists (wire_rooted (str "claims" :: rev cs)). split; [now apply claim_space_wire|]. split; [reflexivity|]. split.
  - intros cs' n' N' E. apply name_from_iff in N' as [NO' N']. rewrite (claim_space_wire cs' n' NO' N') in E. assert (EQ : wire_rooted (claims_c :: rev cs') = wire_rooted (str "claims" :: rev cs)) by congruence.
    assert (CS : claims_c :: rev cs' = str "claims" :: rev cs).
    { pose proof (proj1 (rs_space_wire (claims_c :: rev cs'))) as A. pose proof (proj1 (rs_space_wire (str "claims" :: rev cs))) as B. rewrite EQ in A. assert (WE : wire_space (claims_c :: rev cs') = wire_space (str "claims" :: rev cs)) by congruence.
      apply (wire_space_inj _ (proj1 (proj1 (claim_comps_ok cs' NO'))) _ (proj1 (proj1 (claim_comps_ok cs NO))) WE). }
    injection CS as CS. apply (f_equal (@rev _)) in CS. rewrite !rev_involutive in CS. subst cs'. split; [reflexivity|]. eapply names_eq; eassumption.
  - pose proof (claim_group_spec cs n (claim_group n) N) as G. destruct G as [G _]. specialize (G eq_refl) as [GL GP].
    assert (D : PUBLIC <> repeat 0 32) by discriminate. split; [|split].
    + split; [|exact GL]. intros E. destruct (n_type n) eqn:T; [unfold claim_group in E; rewrite T in E; contradiction|now apply N].
    + split; [|exact GP]. intros E L. apply GL in L. congruence.
    + apply name_from_space_wire; [apply Forall_rev, NO|rewrite rev_length; destruct NO as (_ & L & _); lia|]. rewrite rev_involutive. auto.
Qed.
Example C51_space_ex : exists n, name_from ex_local = Ok n /\ claim_space n = Ok (wire_rooted [str "claims"; str "local"; str "bob"]) /\ claim_group n = repeat 0 32.
Proof. eexists. repeat split; reflexivity. Qed.
(** The root name prints as the call [[LNS-ROOT]], and no text at all reads as the root name. *)
Theorem C51_root_refuted : exists t, name_text name_root = Ok t /\ t = str "[LNS-ROOT]" /\ forall fuel s t', name_of_text fuel s t' <> Ok name_root.
Proof.
  eexists. split; [reflexivity|]. split; [reflexivity|]. intros fuel s t'. unfold name_of_text. destruct (eval_line fuel s t') as [l|e| |]; try discriminate. unfold name_of_abl. match goal with |- (if ?b then _ else _) <> _ => destruct b; [discriminate|] end.
  intros E. apply name_from_iff in E as [NO [E _]]. destruct (name_ok_rev _ NO) as (_ & L & _ & _). cbn [name_root n_space] in E. destruct (rev (map snd l)) as [|c r]; [cbn in L; lia|discriminate].
Qed.
Print Assumptions C51_name_exact.
Print Assumptions C51_text_round_trip.
Print Assumptions C51_claim_space.
Print Assumptions C51_root_refuted.

(** ** Tags *)
(** The stamp and the rest of a tag are read as they were written. *)
Theorem C49_stamp_tag : forall stamp rest, lenN stamp = 8 -> lenN rest = 8 ->
  lenN (stamp_tag stamp rest) = 16 /\ as_stamp_tag (stamp_tag stamp rest) = (stamp, rest) /\
  (forall tag, lenN tag = 16 -> stamp_tag (fst (as_stamp_tag tag)) (snd (as_stamp_tag tag)) = tag).
Proof.
  intros s r S R. unfold lenN in *. unfold stamp_tag, as_stamp_tag. rewrite !firstn_all2 by lia. rewrite app_length. split; [lia|]. split.
  - rewrite firstn_app, skipn_app. replace (8 - List.length s)%nat with 0%nat by lia. rewrite firstn_all2, skipn_all2 by lia. cbn [firstn skipn app]. now rewrite app_nil_r.
  - intros tag T. cbn [fst snd]. rewrite (firstn_all2 (firstn 8 tag)) by (rewrite firstn_length; lia). rewrite (firstn_all2 (skipn 8 tag)) by (rewrite skipn_length; lia). apply firstn_skipn.
Qed.
Example C49_stamp_tag_ex : as_stamp_tag (stamp_tag [1;2;3;4;5;6;7;8] (str "abcdefgh")) = ([1;2;3;4;5;6;7;8], str "abcdefgh").
Proof. reflexivity. Qed.
(** The tag of a claim's link: the stamp, then the name at the end before the kind, never overlapping. *)
Theorem C49_lns_tag : forall stamp rest kind, lenN stamp = 8 ->
  (lenN rest < 8 -> lnstag stamp rest kind = Ok (stamp ++ repeat 0 (7 - List.length rest) ++ rest ++ [kind])) /\
  (8 <= lenN rest -> exists e, lnstag stamp rest kind = Err e) /\
  (forall t, lnstag stamp rest kind = Ok t -> lenN t = 16 /\ fst (as_stamp_tag t) = stamp /\ nth 15 t 0 = kind /\
     forall stamp' rest' kind', lenN stamp' = 8 -> Forall (fun b => b <> 0) rest -> Forall (fun b => b <> 0) rest' -> lnstag stamp' rest' kind' = Ok t -> stamp' = stamp /\ rest' = rest /\ kind' = kind).
Proof.
  assert (OK : forall stamp rest kind, lenN stamp = 8 -> lenN rest < 8 -> lnstag stamp rest kind = Ok (stamp ++ repeat 0 (7 - List.length rest) ++ rest ++ [kind])).
  { intros s r k S R. unfold lnstag. destruct (N.ltb_spec (lenN r) 8); [|lia]. unfold lenN in *. f_equal.
    assert (T : firstn (15 - List.length r) (s ++ repeat 0 8) = s ++ repeat 0 (7 - List.length r)).
    { rewrite firstn_app. rewrite (firstn_all2 s) by lia. f_equal. replace (15 - List.length r - List.length s)%nat with (7 - List.length r)%nat by lia. change 8%nat with (7 + 1)%nat.
      assert (G : forall n m, (n <= m)%nat -> firstn n (repeat 0 m) = repeat 0 n) by (clear; induction n as [|n IH]; intros [|m] L; try lia; [reflexivity|reflexivity|]; cbn; now rewrite IH by lia). apply G. lia. }
    rewrite T. rewrite firstn_app, !app_length, repeat_length. replace (15 - (List.length s + (7 - List.length r)))%nat with (List.length r) by lia. rewrite firstn_all2 by (rewrite app_length, repeat_length; lia).
    rewrite firstn_app, firstn_all. replace (List.length r - List.length r)%nat with 0%nat by lia. rewrite firstn_O. now rewrite app_nil_r, <- !app_assoc. }
  intros s r k S. split; [now apply OK|]. split.
  { intros R. unfold lnstag. destruct (N.ltb_spec (lenN r) 8); [lia|]. eauto. }
  intros t E. assert (R : lenN r < 8) by (unfold lnstag in E; destruct (N.ltb_spec (lenN r) 8); [assumption|discriminate]). rewrite OK in E by assumption. assert (ET : t = s ++ repeat 0 (7 - List.length r) ++ r ++ [k]) by congruence. subst t. clear E. unfold lenN in *. split; [rewrite !app_length, repeat_length; change (List.length [k]) with 1%nat; lia|]. split.
  { unfold as_stamp_tag. cbn [fst]. rewrite firstn_app. replace (8 - List.length s)%nat with 0%nat by lia. rewrite firstn_O, app_nil_r. apply firstn_all2. lia. }
  split.
  { rewrite app_nth2 by lia. rewrite app_nth2; rewrite repeat_length; [|lia]. rewrite app_nth2 by lia. replace (15 - List.length s - (7 - List.length r) - List.length r)%nat with 0%nat by lia. reflexivity. }
  intros s' r' k' S' Z Z' E. assert (R' : lenN r' < 8) by (unfold lnstag in E; destruct (N.ltb_spec (lenN r') 8); [assumption|discriminate]). rewrite OK in E by assumption. assert (E' : s' ++ repeat 0 (7 - List.length r') ++ r' ++ [k'] = s ++ repeat 0 (7 - List.length r) ++ r ++ [k]) by congruence. clear E. rename E' into E. unfold lenN in *.
  assert (App : forall a b c d : list N, List.length a = List.length b -> a ++ c = b ++ d -> a = b /\ c = d).
  { clear. induction a as [|x a IH]; intros [|y b] c d L E; try discriminate; [auto|]. cbn in E. injection E as -> E. destruct (IH b c d) as [-> ->]; auto. }
  apply App in E as [-> E]; [|lia]. rewrite !app_assoc in E. apply app_inj_tail in E as [E ->]. repeat split.
  assert (LR : List.length r' = List.length r).
  { assert (G : forall n m (x y : list N), Forall (fun b => b <> 0) x -> Forall (fun b => b <> 0) y -> repeat 0 n ++ x = repeat 0 m ++ y -> n = m).
    { clear. induction n as [|n IH]; intros [|m] x y X Y E; [reflexivity| | |].
      - cbn in E. subst x. apply Forall_cons_iff in X as [X _]. now destruct X.
      - cbn in E. subst y. apply Forall_cons_iff in Y as [Y _]. now destruct Y.
      - f_equal. cbn in E. injection E as E. exact (IH m x y X Y E). }
    apply G in E; try assumption. lia. }
  rewrite LR in E. now apply app_inv_head in E.
Qed.
Example C49_lns_tag_ex : lnstag [1;2;3;4;5;6;7;8] (str "root_1") 94 = Ok ([1;2;3;4;5;6;7;8; 0] ++ str "root_1^").
Proof. reflexivity. Qed.
(** Exactly the claim points are read as claims, with their name, and reading does not panic. *)
Theorem C49_claim_exact : forall hash np p, carries hash np p ->
  (forall cl, claim_from np = Ok cl <-> cl_pkt cl = np /\ exists cs, claim_point cs p /\ names cs (cl_name cl)) /\
  ((exists cl, claim_from np = Ok cl) \/ exists e, claim_from np = Err e).
Proof. intros hash np p C. split; [intros cl; now apply (claim_from_iff hash)|now apply (claim_from_total hash) with p]. Qed.
(** A claim that was made carries the name, the links, the data and the expiry it was made with.  Its tags change in
    the 8 bytes of the expiry only. *)
Theorem C49_claim_made : forall c cs n until tag ptr ls data nh cl, name_from cs = Ok n -> lenN until = 8 -> Forall link_ok ((tag, ptr) :: ls) ->
  claim_new c n until ((tag, ptr) :: ls) data nh = Ok cl ->
  cl_name cl = n /\ claim_until cl = Ok until /\ 0 < be_decode until /\
  exists p, carries (hash c) (cl_pkt cl) p /\ point_until p until /\
    p = PLink (claim_group n) LNS 0 ((until ++ skipn 8 tag, ptr) :: ls) (wire_rooted (str "claims" :: rev cs)) data.
Proof.
  intros c cs n until tag ptr ls data nh cl N U LO E. apply name_from_iff in N as [NO N]. unfold claim_new in E. destruct (_ && _); [discriminate|]. rewrite (claim_space_wire cs n NO N) in E. cbn [obind] in E.
  apply Forall_cons_iff in LO as [[LT LP] LO]. cbn [fst snd] in LT, LP.
  assert (LTAG : lenN (skipn 8 tag) = 8) by (unfold lenN in *; rewrite skipn_length; lia).
  assert (LO' : Forall link_ok ((until ++ skipn 8 tag, ptr) :: ls)) by (constructor; [split; cbn [fst snd]; [rewrite lenN_app; lia|exact LP]|exact LO]).
  destruct (try_linkpoint c (claim_group n) LNS (wire_rooted (claims_c :: rev cs)) ((until ++ skipn 8 tag, ptr) :: ls) data 0 nh) as [np|e| |] eqn:T; cbn [or_panic obind] in E; try discriminate.
  apply linkpoint_inv in T as (RO & SZ & ->); [|exact LO'].
  destruct (N.ltb_spec (get_create_stamp (pf (net_of c nh (PLink (claim_group n) LNS 0 ((until ++ skipn 8 tag, ptr) :: ls) (wire_rooted (claims_c :: rev cs)) data)))) (be_decode until)) as [LT'|LT']; cbn [negb] in E; [|discriminate].
  set (p := PLink (claim_group n) LNS 0 ((until ++ skipn 8 tag, ptr) :: ls) (wire_rooted (claims_c :: rev cs)) data) in *.
  assert (CA : carries (hash c) (net_of c nh p) p).
  { split; [reflexivity|]. split; [|reflexivity]. split; [exact SZ|]. cbn [p]. split; [unfold claim_group; destruct (n_type n); reflexivity|]. split; [reflexivity|]. split; [lia|]. split; assumption. }
  apply (claim_from_iff _ _ _ _ CA) in E as (CP & cs' & (g & cc & ls' & rs & d & k & EP & NO' & R & _) & N').
  injection EP as _ _ _ ER _. subst rs.
  assert (CS : claims_c :: rev cs = claims_c :: rev cs').
  { assert (A : rs_space (wire_rooted (claims_c :: rev cs)) = rs_space (rooted_with k (claims_c :: rev cs'))) by (f_equal; exact R). rewrite (proj1 (rs_space_wire _)) in A. unfold rs_space in A. rewrite rs_fields_rooted in A. cbn [obind] in A. assert (WE : wire_space (claims_c :: rev cs) = wire_space (claims_c :: rev cs')) by congruence.
    apply (wire_space_inj _ (proj1 (proj1 (claim_comps_ok cs NO))) _ (proj1 (proj1 (claim_comps_ok cs' NO'))) WE). }
  injection CS as CS. apply (f_equal (@rev _)) in CS. rewrite !rev_involutive in CS. subst cs'.
  split; [eapply names_eq; eassumption|]. split; [|split; [|exists p; rewrite CP; split; [exact CA|split; [|reflexivity]]]].
  - unfold claim_until. rewrite CP. change (pkt_links (net_of c nh p)) with ((until ++ skipn 8 tag, ptr) :: ls). cbv beta iota. unfold as_stamp_tag. cbn [fst]. f_equal. rewrite firstn_app. unfold lenN in U. rewrite firstn_all2 by lia. replace (8 - List.length until)%nat with 0%nat by lia. rewrite firstn_O. apply app_nil_r.
  - exact LT'.
  - exists (claim_group n), LNS, 0, (skipn 8 tag), ptr, ls, (wire_rooted (claims_c :: rev cs)), data. auto.
Qed.
Definition ex_cname : Name := match name_from ex_name with Ok n => n | _ => name_root end.
Definition ex_until : bytes := [0;0;0;0;0;0;255;1].
Definition ex_clinks : list Link := [(repeat 0 15 ++ [94], repeat 7 32); (repeat 0 9 ++ GROUP_TAG ++ [0], repeat 8 32)].
Example C49_claim_ex : exists cl, claim_new toy ex_cname ex_until ex_clinks (str "hi") ex_nh = Ok cl /\ name_from ex_name = Ok ex_cname /\ authorities (pkt_links (cl_pkt cl)) = [repeat 7 32].
Proof. eexists. split; [vm_compute; reflexivity|]. split; reflexivity. Qed.

(** ** Lookup entries *)
Lemma kept_filter {A} (P : A -> Prop) (f : A -> bool) l : (forall x, P x <-> f x = true) -> kept P l (filter f l).
Proof. intros E. induction l as [|x l IH]; [constructor|]. cbn [filter]. destruct (f x) eqn:F; constructor; try assumption; rewrite E; congruence. Qed.
Lemma kept_unique {A} (P : A -> Prop) (l k k' : list A) : kept P l k -> kept P l k' -> k = k'.
Proof. intros K. revert k'. induction K; intros k' K'; inversion K'; subst; try contradiction; auto; f_equal; auto. Qed.
(** An entry keeps exactly the links that have not expired and are not the removed one, in their order, and the new
    link comes first or last as asked. *)
Theorem C49_entry_links : forall ls remove add now,
  exists ks, kept (fun l => ~ expired (be_decode now) l /\ (forall h, remove = Some h -> snd l <> h)) ls ks /\
  lookup_links ls remove add now = match add with Some (true, l) => l :: ks | Some (false, l) => ks ++ [l] | None => ks end.
Proof.
  intros ls remove add now. unfold lookup_links.
  set (f1 := fun l : bytes * bytes => be_decode now <? be_decode (fst (as_stamp_tag (fst l)))). set (f2 := fun l : bytes * bytes => negb match remove with Some h => beqb (snd l) h | None => false end).
  exists (filter f1 (filter f2 ls)). split; [|destruct add as [[[] l]|]; reflexivity].
  replace (filter f1 (filter f2 ls)) with (filter (fun l => f1 l && f2 l) ls).
  - apply kept_filter. intros [t h]. unfold f1, f2, expired, as_stamp_tag. cbn [fst snd]. rewrite Bool.andb_true_iff, N.ltb_lt, N.nle_gt. destruct remove as [h0|].
    + rewrite Bool.negb_true_iff. split; intros [A B]; (split; [exact A|]).
      * destruct (beqb h h0) eqn:E; [|reflexivity]. apply beqb_eq in E. now destruct (B h0 eq_refl).
      * intros h1 [= <-] ->. rewrite beqb_refl in B. discriminate.
    + split; intros [A B]; (split; [exact A|]); [reflexivity|discriminate].
  - induction ls as [|l ls IH]; [reflexivity|]. cbn [filter]. destruct (f2 l); cbn [filter]; destruct (f1 l); cbn [andb]; now rewrite IH.
Qed.
Example C49_entry_ex : lookup_links [(repeat 0 7 ++ [9] ++ repeat 0 8, [1]); (repeat 0 7 ++ [5] ++ repeat 0 8, [2]); (repeat 0 7 ++ [8] ++ repeat 0 8, [3])]
    (Some [3]) (Some (true, (repeat 1 16, [4]))) (repeat 0 7 ++ [5]) = [(repeat 1 16, [4]); (repeat 0 7 ++ [9] ++ repeat 0 8, [1])].
Proof. reflexivity. Qed.
(** Saving a claim in place of [old]: [old] is linked by no entry that is saved, and the entries of the new
    claim's group and key link to it with its expiry. *)
Theorem C49_saved_entries : forall entry old new priority now es u, claim_until new = Ok u -> lenN u = 8 ->
  saved_entries entry old new priority now = Ok (Some es) ->
  (forall o tag p ls l, old = Some o -> In (tag, p, ls) es -> In l ls -> snd l <> np_hash (cl_pkt o)) /\
  (forall tag p, (tag = GROUP_TAG /\ claim_grp new = Some p) \/ (tag = PUBKEY_TAG /\ claim_pubkey new = Some p) ->
    exists ls ks, In (tag, p, ls) es /\ ls = (if priority then (u ++ repeat 0 8, np_hash (cl_pkt new)) :: ks else ks ++ [(u ++ repeat 0 8, np_hash (cl_pkt new))]) /\
      kept (fun l => ~ expired (be_decode now) l /\ forall o, old = Some o -> snd l <> np_hash (cl_pkt o)) (match entry tag p with Some ls0 => ls0 | None => [] end) ks) /\
  (forall o tag p ls0, old = Some o -> (tag = GROUP_TAG /\ claim_grp o = Some p /\ claim_grp new <> Some p) \/ (tag = PUBKEY_TAG /\ claim_pubkey o = Some p /\ claim_pubkey new <> Some p) ->
    entry tag p = Some ls0 -> exists ks, In (tag, p, ks) es /\ kept (fun l => ~ expired (be_decode now) l /\ snd l <> np_hash (cl_pkt o)) ls0 ks).
Proof.
  intros entry old new priority now es u U LU E. unfold saved_entries in E. rewrite U in E. cbn [obind] in E.
  destruct (match option_map (fun c => np_hash (cl_pkt c)) old with Some h => beqb h (np_hash (cl_pkt new)) | None => false end) eqn:SAME; [discriminate|]. match type of E with Ok (Some ?x) = _ => assert (EE : es = x) by congruence; subst es end. clear E.
  assert (TAG : stamp_tag u (repeat 0 8) = u ++ repeat 0 8) by (unfold stamp_tag, lenN in *; rewrite firstn_all2 by lia; reflexivity). rewrite TAG.
  set (link := (u ++ repeat 0 8, np_hash (cl_pkt new))).
  assert (RM : forall ls add o l, old = Some o -> In l (lookup_links ls (option_map (fun c => np_hash (cl_pkt c)) old) add now) -> add = None \/ (exists b, add = Some (b, link)) -> snd l <> np_hash (cl_pkt o)).
  { intros ls add o l -> I AD. cbn [option_map] in *. destruct (C49_entry_links ls (Some (np_hash (cl_pkt o))) add now) as (ks & K & EQ). rewrite EQ in I.
    assert (KS : forall ls' ks', kept (fun l => ~ expired (be_decode now) l /\ (forall h, Some (np_hash (cl_pkt o)) = Some h -> snd l <> h)) ls' ks' -> In l ks' -> snd l <> np_hash (cl_pkt o)).
    { clear. intros ls' ks'. induction 1 as [|x ls ks PX K IH|x ls ks NX K IH]; intros I; [destruct I| |auto]. destruct I as [->|I]; [now apply PX|auto]. }
    assert (LN : snd link <> np_hash (cl_pkt o)) by (cbn [link snd]; intros H; rewrite <- H, beqb_refl in SAME; discriminate).
    destruct AD as [->|[b ->]]; [eapply KS; eassumption|]. destruct b; [destruct I as [<-|I]; [exact LN|eapply KS; eassumption]|]. apply in_app_or in I as [I|[<-|[]]]; [eapply KS; eassumption|exact LN]. }
  assert (KE : forall ls (ks : list Link), kept (fun l => ~ expired (be_decode now) l /\ (forall h, option_map (fun c => np_hash (cl_pkt c)) old = Some h -> snd l <> h)) ls ks ->
     kept (fun l => ~ expired (be_decode now) l /\ forall o, old = Some o -> snd l <> np_hash (cl_pkt o)) ls ks).
  { intros ls ks. induction 1 as [|x ls ks PX K IH|x ls ks NX K IH]; [constructor|constructor; [|exact IH]|apply kept_no; [|exact IH]].
    - destruct PX as [A B]. split; [exact A|]. intros o ->. now apply B.
    - intros [A B]. apply NX. split; [exact A|]. intros h. destruct old as [o|]; [|discriminate]. intros [= <-]. now apply B. }
  split; [|split].
  - intros o tag p ls l O I L. assert (AUX : forall tg oo nn, In (tag, p, ls) (entry_for entry tg oo nn (option_map (fun c => np_hash (cl_pkt c)) old) priority link now) -> snd l <> np_hash (cl_pkt o)).
    { intros tg oo nn J. unfold entry_for in J. apply in_app_or in J as [J|J].
      - destruct oo as [p0|]; [|destruct J]. destruct (match nn with Some q => beqb p0 q | None => false end); [destruct J|]. destruct (entry tg p0) as [l0|]; [|destruct J]. destruct J as [J|[]]. match type of J with (_, _, ?x) = _ => assert (LE : ls = x) by congruence; rewrite LE in L end. refine (RM _ _ o l O L _); eauto.
      - destruct nn as [p0|]; [|destruct J]. destruct J as [J|[]]. match type of J with (_, _, ?x) = _ => assert (LE : ls = x) by congruence; rewrite LE in L end. refine (RM _ _ o l O L _); eauto. }
    apply in_app_or in I as [I|I]; eapply AUX; exact I.
  - intros tag p H. assert (AUX : forall oo, exists ls ks, In (tag, p, ls) (entry_for entry tag oo (Some p) (option_map (fun c => np_hash (cl_pkt c)) old) priority link now) /\ ls = (if priority then link :: ks else ks ++ [link]) /\
        kept (fun l => ~ expired (be_decode now) l /\ forall o, old = Some o -> snd l <> np_hash (cl_pkt o)) (match entry tag p with Some ls0 => ls0 | None => [] end) ks).
    { intros oo. destruct (C49_entry_links (match entry tag p with Some ls0 => ls0 | None => [] end) (option_map (fun c => np_hash (cl_pkt c)) old) (Some (priority, link)) now) as (ks & K & EQ). eexists _, ks. split; [unfold entry_for; apply in_or_app; right; left; reflexivity|]. split; [rewrite EQ; destruct priority; reflexivity|]. now apply KE. }
    destruct H as [[-> G]|[-> G]]; rewrite G; [destruct (AUX (match old with Some c => claim_grp c | None => None end)) as (ls & ks & I & R)|destruct (AUX (match old with Some c => claim_pubkey c | None => None end)) as (ls & ks & I & R)]; exists ls, ks; (split; [apply in_or_app; auto|exact R]).
  - intros o tag p ls0 -> H EN. cbn [option_map] in *. assert (AUX : forall nn, nn <> Some p -> exists ks, In (tag, p, ks) (entry_for entry tag (Some p) nn (Some (np_hash (cl_pkt o))) priority link now) /\ kept (fun l => ~ expired (be_decode now) l /\ snd l <> np_hash (cl_pkt o)) ls0 ks).
    { intros nn NN. destruct (C49_entry_links ls0 (Some (np_hash (cl_pkt o))) None now) as (ks & K & EQ). exists ks. split.
      - unfold entry_for. apply in_or_app. left. assert (X : match nn with Some q => beqb p q | None => false end = false). { destruct nn as [q|]; [|reflexivity]. destruct (beqb p q) eqn:B; [|reflexivity]. apply beqb_eq in B. subst q. now destruct NN. } rewrite X, EN, EQ. left. reflexivity.
      - clear -K. induction K as [|x ls ks PX K IH|x ls ks NX K IH]; [constructor|constructor; [|exact IH]|apply kept_no; [|exact IH]].
        + split; [apply PX|]. now apply PX.
        + intros [A B]. apply NX. split; [exact A|]. intros h [= <-]. exact B. }
    destruct H as [(-> & G & NN)|(-> & G & NN)]; rewrite G; destruct (AUX _ NN) as (ks & I & R); exists ks; (split; [apply in_or_app; auto|exact R]).
Qed.
Print Assumptions C49_stamp_tag.
Print Assumptions C49_lns_tag.
Print Assumptions C49_claim_exact.
Print Assumptions C49_claim_made.
Print Assumptions C49_entry_links.
Print Assumptions C49_saved_entries.
Definition ex_claim : Claim := match claim_new toy ex_cname ex_until ex_clinks (str "hi") ex_nh with Ok c => c | _ => mkClaim (net_of toy ex_nh (PData [])) name_root end.
Definition ex_clinks2 : list Link := [(repeat 0 9 ++ PUBKEY_TAG, repeat 9 32)].
Definition ex_claim2 : Claim := match claim_new toy ex_cname ex_until ex_clinks2 (str "hi") ex_nh with Ok c => c | _ => mkClaim (net_of toy ex_nh (PData [])) name_root end.
Example C49_saved_ex : claim_until ex_claim2 = Ok ex_until /\ claim_pubkey ex_claim2 = Some (repeat 9 32) /\
  exists es, saved_entries (fun _ _ => Some [(ex_until ++ repeat 1 8, np_hash (cl_pkt ex_claim)); (ex_until ++ repeat 0 8, repeat 3 32)]) (Some ex_claim) ex_claim2 true (repeat 0 8) = Ok (Some es) /\
    es = [(PUBKEY_TAG, repeat 9 32, [(ex_until ++ repeat 0 8, np_hash (cl_pkt ex_claim2)); (ex_until ++ repeat 0 8, repeat 3 32)])].
Proof. split; [vm_compute; reflexivity|]. split; [vm_compute; reflexivity|]. eexists. split; vm_compute; reflexivity. Qed.

(** ** Votes *)
Section Live.
Variable vote_of : bytes -> bytes -> bytes -> option NetPktParts.
Variable read_hash : bytes -> option NetPktParts.
Variable shuffle : list Voting -> list Voting.
Hypothesis shuffles : forall m, Permutation (shuffle m) m.
(** The claim [top], its authorities, and the space below it where they vote on [sub]. *)
Variables (top : Claim) (sub sp : bytes).
Hypothesis space_of : rs_try_append (get_rspace (cl_pkt top)) sub = Ok sp.
Let vo := vote_of (get_group (cl_pkt top)) sp.
Let auths := authorities (pkt_links (cl_pkt top)).
Hypothesis stamps : forall a v, vo a = Some v -> get_create_stamp (pf v) < 2 ^ 64.
Lemma settled_bound P h : settled vo P h < 2 ^ 64.
Proof.
  unfold settled. induction (filter (votes_for vo h) P) as [|a l IH]; [reflexivity|]. cbn [map fold_right]. assert (stamp_of vo a < 2 ^ 64) by (unfold stamp_of; destruct (vo a) eqn:E; [now apply (stamps a)|reflexivity]). lia.
Qed.
Let votes := votes_of vote_of (get_group (cl_pkt top)) sp.
Lemma order_votes P h c : order (h, (c, votes P h)) = (N.of_nat (tally vo P h), (2 ^ 64 - 1) - settled vo P h).
Proof. unfold order. cbn [snd]. unfold lenN, votes. now rewrite votes_length, votes_stamp. Qed.
Lemma votes_tally P h : votes P h <> [] <-> (0 < tally vo P h)%nat.
Proof. clear stamps read_hash. unfold vo. rewrite <- (votes_length vote_of). fold votes. destruct (votes P h); cbn [List.length]; split; try lia; try discriminate. intros H. now destruct H. Qed.
Lemma better_olt P h k c c' : better vo P h k <-> olt (order (k, (c, votes P k))) (order (h, (c', votes P h))).
Proof.
  rewrite !order_votes. unfold better, olt. cbn [fst snd]. pose proof (settled_bound P h). pose proof (settled_bound P k). lia.
Qed.
(** Half or more votes stop the count; with no claim at exactly half it makes no difference. *)
Definition no_half (l : list bytes) : Prop := forall h, (2 * tally vo l h)%nat <> List.length l.
Lemma best_prefix P R h : no_half (P ++ R) -> best vo (P ++ R) h -> (R = [] \/ exists k, (N.of_nat (List.length (P ++ R)) + 1) / 2 <= N.of_nat (tally vo P k)) -> best vo P h.
Proof.
  intros NH B [->|[k K]]; [now rewrite app_nil_r in B|]. destruct R as [|r R]; [now rewrite app_nil_r in B|].
  assert (K2 : (List.length (P ++ r :: R) <= 2 * tally vo P k)%nat) by (assert (N.of_nat (List.length (P ++ r :: R)) <= 2 * N.of_nat (tally vo P k)); [|lia]; pose proof (N.div_mod (N.of_nat (List.length (P ++ r :: R)) + 1) 2 ltac:(lia)); pose proof (N.mod_lt (N.of_nat (List.length (P ++ r :: R)) + 1) 2 ltac:(lia)); lia).
  assert (KF : (List.length (P ++ r :: R) < 2 * tally vo (P ++ r :: R) k)%nat) by (pose proof (NH k) as NK; unfold vo in *; rewrite (tally_app vote_of) in *; lia).
  assert (KH : k = h).
  { destruct (list_eq_dec N.eq_dec k h) as [E|NE]; [exact E|exfalso]. destruct B as [B0 B]. assert (PK : (0 < tally vo (P ++ r :: R) k)%nat) by lia. pose proof (B k NE PK) as BB. unfold better in BB. pose proof (tally_two vote_of (get_group (cl_pkt top)) sp (P ++ r :: R) k h NE) as TT. fold vo in TT. lia. }
  subst k. split; [destruct P; [cbn in K2; lia|cbn [app List.length] in K2; lia]|].
  intros k NE PK. left. pose proof (tally_two vote_of (get_group (cl_pkt top)) sp P k h NE) as TT. fold vo in TT. rewrite app_length in K2. cbn [List.length] in K2. lia.
Qed.
Lemma counted_votes P m : counted vote_of (get_group (cl_pkt top)) sp read_hash P m -> Forall (fun v : Voting => snd (snd v) <> []) m.
Proof. intros (_ & A & _). apply Forall_forall. intros [h [c vs]] I. cbn [snd]. now destruct (A h c vs I) as (_ & NE & _). Qed.
Lemma best_picked P m h : counted vote_of (get_group (cl_pkt top)) sp read_hash P m -> best vo P h -> pick shuffle m = Live (h, (claim_at read_hash h, votes P h)).
Proof.
  intros C [B0 B]. pose proof (pick_spec shuffle m (shuffles m) (counted_votes P m C)) as PS. destruct C as (ND & A & CO).
  assert (IH : In h (map fst m)) by (apply CO, votes_tally, B0). apply in_map_iff in IH as ([h' [c vs]] & EH & IH). cbn [fst] in EH. subst h'. destruct (A h c vs IH) as (-> & _ & ->). fold votes in IH |- *.
  assert (STR : forall k c' vs', In (k, (c', vs')) m -> k <> h -> olt (order (k, (c', vs'))) (order (h, (claim_at read_hash h, votes P h)))).
  { intros k c' vs' I NE. destruct (A k c' vs' I) as (-> & NV & _). apply better_olt. apply B; [exact NE|]. now apply votes_tally. }
  destruct (pick shuffle m) as [|vs|[k [c' vs']]].
  - subst m. destruct IH.
  - exfalso. destruct PS as (PP & L2 & EQ). destruct m as [|[k1 [c1 v1]] [|[k2 [c2 v2]] m]]; [cbn in L2; lia|cbn in L2; lia|]. cbn [map fst] in ND. inversion ND as [|? ? NI _]; subst.
    destruct (list_eq_dec N.eq_dec k1 h) as [->|N1]; [destruct (list_eq_dec N.eq_dec k2 h) as [->|N2]; [apply NI; now left|]|].
    + pose proof (STR k2 c2 v2 (or_intror (or_introl eq_refl)) N2) as X. rewrite (EQ (k2, (c2, v2)) _ (or_intror (or_introl eq_refl)) IH) in X. unfold olt in X. lia.
    + pose proof (STR k1 c1 v1 (or_introl eq_refl) N1) as X. rewrite (EQ (k1, (c1, v1)) _ (or_introl eq_refl) IH) in X. unfold olt in X. lia.
  - destruct PS as (IK & MX & _). destruct (list_eq_dec N.eq_dec k h) as [->|NE].
    + destruct (A h c' vs' IK) as (-> & _ & ->). reflexivity.
    + exfalso. rewrite Forall_forall in MX. apply (MX _ IH). now apply STR.
Qed.
(** The walk goes on from the best claim, with votes for it that were found, whatever the order of the hash map. *)
Lemma best_walk chain r is h : no_half auths -> best vo auths h ->
  exists sigs is', sigs <> [] /\ Forall (fun v => exists a, In a auths /\ vo a = Some v /\ choice vo a = Some h) sigs /\
    walk_live vote_of read_hash shuffle chain top (sub :: r) is =
    match claim_at read_hash h with Some c => walk_live vote_of read_hash shuffle ((c, sigs) :: chain) c r is' | None => Ok (false, chain, is' ++ [UnknownClaimIsLive h]) end.
Proof.
  intros NH B. cbn [walk_live]. rewrite space_of. cbn [or_panic obind]. fold auths.
  destruct (collect_counted vote_of (get_group (cl_pkt top)) sp read_hash (np_hash (cl_pkt top)) ((lenN auths + 1) / 2) auths [] [] is (counted_nil vote_of _ sp read_hash)) as (Q & R & m & is' & EA & EC & C & D).
  rewrite EC. cbn [app] in C, D. fold vo in D. assert (BQ : best vo Q h) by (apply (best_prefix Q R h); rewrite <- EA; assumption).
  rewrite (best_picked Q m h C BQ). exists (votes Q h), is'. split; [apply votes_tally, BQ|]. split; [|destruct (claim_at read_hash h); reflexivity].
  apply Forall_forall. intros v I. unfold votes, votes_of in I. apply in_flat_map in I as (a & IA & IV). apply filter_In in IA as [IA VF]. fold vo in IV, VF. exists a. split; [rewrite EA; apply in_or_app; now left|].
  unfold votes_for in VF. destruct (choice vo a) as [h'|] eqn:CH; [|discriminate]. apply beqb_eq in VF. subst h'. destruct (vo a) as [v'|]; [|destruct IV]. destruct IV as [->|[]]. auto.
Qed.
Lemma majority_best h : (List.length auths < 2 * tally vo auths h)%nat -> no_half auths /\ best vo auths h.
Proof.
  intros M. assert (O : forall k, k <> h -> (tally vo auths k < tally vo auths h)%nat /\ (2 * tally vo auths k)%nat <> List.length auths).
  { intros k NE. pose proof (tally_two vote_of (get_group (cl_pkt top)) sp auths k h NE) as TT. fold vo in TT. lia. }
  split; [|split; [lia|]].
  - intros k. destruct (list_eq_dec N.eq_dec k h) as [->|NE]; [lia|]. now apply O.
  - intros k NE _. left. now apply O.
Qed.
Lemma tie_walk chain r is : no_half auths -> (exists h k, h <> k /\ (0 < tally vo auths h)%nat /\ (0 < tally vo auths k)%nat) ->
  (forall h k, (0 < tally vo auths h)%nat -> (0 < tally vo auths k)%nat -> tally vo auths h = tally vo auths k /\ settled vo auths h = settled vo auths k) ->
  exists vs is', (forall h, In h (map fst vs) <-> (0 < tally vo auths h)%nat) /\
    walk_live vote_of read_hash shuffle chain top (sub :: r) is = Ok (false, chain, is' ++ [Tie vs]).
Proof.
  intros NH (h & k & HK & PH & PK) EQ. cbn [walk_live]. rewrite space_of. cbn [or_panic obind]. fold auths.
  destruct (collect_counted vote_of (get_group (cl_pkt top)) sp read_hash (np_hash (cl_pkt top)) ((lenN auths + 1) / 2) auths [] [] is (counted_nil vote_of _ sp read_hash)) as (Q & R & m & is' & EA & EC & C & D).
  rewrite EC. cbn [app] in C, D. fold vo in D.
  assert (RN : R = []).
  { destruct D as [D|[x X]]; [exact D|]. exfalso. unfold lenN in X.
    assert (X2 : (List.length auths <= 2 * tally vo Q x)%nat) by (assert (N.of_nat (List.length auths) <= 2 * N.of_nat (tally vo Q x)); [|lia]; pose proof (N.div_mod (N.of_nat (List.length auths) + 1) 2 ltac:(lia)); pose proof (N.mod_lt (N.of_nat (List.length auths) + 1) 2 ltac:(lia)); lia).
    assert (XA : (tally vo Q x <= tally vo auths x)%nat) by (rewrite EA; unfold vo; rewrite tally_app; lia).
    pose proof (NH x) as NX. assert (PX : (0 < tally vo auths x)%nat) by lia.
    destruct (EQ x h PX PH) as [E1 _]. destruct (EQ x k PX PK) as [E2 _]. pose proof (tally_two vote_of (get_group (cl_pkt top)) sp auths h k HK) as TT. fold vo in TT. lia. }
  subst R. rewrite app_nil_r in EA. subst Q. pose proof (pick_spec shuffle m (shuffles m) (counted_votes _ m C)) as PS. destruct C as (ND & A & CO).
  assert (ENT : forall x, (0 < tally vo auths x)%nat -> exists c, In (x, (c, votes auths x)) m).
  { intros x X. assert (I : In x (map fst m)) by (apply CO, votes_tally, X). apply in_map_iff in I as ([x' [c vs]] & E & I). cbn [fst] in E. subst x'. exists c. destruct (A x c vs I) as (-> & _ & _). exact I. }
  assert (OEQ : forall v w, In v m -> In w m -> order v = order w).
  { intros [x [c vs]] [y [c' vs']] I J. destruct (A _ _ _ I) as (-> & NX & _). destruct (A _ _ _ J) as (-> & NY & _). fold votes in NX, NY |- *. rewrite !order_votes. apply votes_tally in NX, NY. destruct (EQ x y NX NY) as [-> ->]. reflexivity. }
  destruct (ENT h PH) as [ch IH]. destruct (ENT k PK) as [ck IK].
  destruct (pick shuffle m) as [|vs|[x [c' vs']]].
  - subst m. destruct IH.
  - destruct PS as (PP & _ & _). exists vs, is'. split; [|reflexivity]. intros x. split.
    + intros I. apply in_map_iff in I as ([x' [c vs']] & E & I). cbn [fst] in E. subst x'. apply (Permutation_in _ PP) in I. destruct (A _ _ _ I) as (-> & NX & _). now apply votes_tally.
    + intros X. destruct (ENT x X) as [c I]. apply in_map_iff. exists (x, (c, votes auths x)). split; [reflexivity|]. apply (Permutation_in _ (Permutation_sym PP)), I.
  - exfalso. destruct PS as (IX & _ & [L1|(w & IW & O)]).
    + destruct m as [|a [|b m]]; try discriminate L1. destruct IH as [IH|[]]. destruct IK as [IK|[]]. congruence.
    + rewrite (OEQ _ _ IW IX) in O. unfold olt in O. lia.
Qed.
Lemma none_walk chain r is : (forall h, tally vo auths h = 0%nat) -> exists is', walk_live vote_of read_hash shuffle chain top (sub :: r) is = Ok (false, chain, is').
Proof.
  clear stamps.
  intros Z. cbn [walk_live]. rewrite space_of. cbn [or_panic obind]. fold auths.
  destruct (collect_counted vote_of (get_group (cl_pkt top)) sp read_hash (np_hash (cl_pkt top)) ((lenN auths + 1) / 2) auths [] [] is (counted_nil vote_of _ sp read_hash)) as (Q & R & m & is' & EA & EC & C & D).
  rewrite EC. cbn [app] in C. pose proof (pick_spec shuffle m (shuffles m) (counted_votes _ m C)) as PS. destruct C as (ND & A & CO). exists is'.
  assert (M : m = []).
  { destruct m as [|[x [c vs]] m]; [reflexivity|exfalso]. destruct (A x c vs (or_introl eq_refl)) as (-> & NE & _). fold votes in NE. apply votes_tally in NE. pose proof (Z x) as ZX. rewrite EA in ZX. unfold vo in ZX, NE. rewrite tally_app in ZX. lia. }
  destruct (pick shuffle m) as [|vs|v]; [reflexivity| |].
  - destruct PS as (_ & L & _). rewrite M in L. cbn in L. lia.
  - destruct PS as (I & _). rewrite M in I. destruct I.
Qed.
End Live.
(** C50: a claim with more than half of the votes is live, in whatever order the votes are counted and the hash map is
    read; *)
Theorem C50_majority : forall vote_of read_hash shuffle top sub sp chain r is h p c,
  (forall m, Permutation (shuffle m) m) -> rs_try_append (get_rspace (cl_pkt top)) sub = Ok sp ->
  let vo := vote_of (get_group (cl_pkt top)) sp in let auths := authorities (pkt_links (cl_pkt top)) in
  (forall a v, vo a = Some v -> get_create_stamp (pf v) < 2 ^ 64) ->
  (List.length auths < 2 * tally vo auths h)%nat -> read_hash h = Some p -> claim_from p = Ok c ->
  exists sigs is', sigs <> [] /\ Forall (fun v => exists a, In a auths /\ vo a = Some v /\ choice vo a = Some h) sigs /\
    walk_live vote_of read_hash shuffle chain top (sub :: r) is = walk_live vote_of read_hash shuffle ((c, sigs) :: chain) c r is'.
Proof.
  intros vote_of read_hash shuffle top sub sp chain r is h p c SH SP vo auths ST M RH CF. destruct (majority_best vote_of read_hash top sp ST h M) as [NH B].
  destruct (best_walk vote_of read_hash shuffle SH top sub sp SP ST chain r is h NH B) as (sigs & is' & NE & F & E). exists sigs, is'. unfold claim_at in E. rewrite RH, CF in E. auto.
Qed.
(** and so is the best one when no claim has exactly half of the votes. *)
Theorem C50_best_partial : forall vote_of read_hash shuffle top sub sp chain r is h p c,
  (forall m, Permutation (shuffle m) m) -> rs_try_append (get_rspace (cl_pkt top)) sub = Ok sp ->
  let vo := vote_of (get_group (cl_pkt top)) sp in let auths := authorities (pkt_links (cl_pkt top)) in
  (forall a v, vo a = Some v -> get_create_stamp (pf v) < 2 ^ 64) ->
  (forall k, (2 * tally vo auths k)%nat <> List.length auths) -> best vo auths h -> read_hash h = Some p -> claim_from p = Ok c ->
  exists sigs is', sigs <> [] /\ Forall (fun v => exists a, In a auths /\ vo a = Some v /\ choice vo a = Some h) sigs /\
    walk_live vote_of read_hash shuffle chain top (sub :: r) is = walk_live vote_of read_hash shuffle ((c, sigs) :: chain) c r is'.
Proof.
  intros vote_of read_hash shuffle top sub sp chain r is h p c SH SP vo auths ST NH B RH CF.
  destruct (best_walk vote_of read_hash shuffle SH top sub sp SP ST chain r is h NH B) as (sigs & is' & NE & F & E). exists sigs, is'. unfold claim_at in E. rewrite RH, CF in E. auto.
Qed.
(** When all claims with votes, two or more, are equally good, a tie of exactly these is reported. *)
Theorem C50_tie_partial : forall vote_of read_hash shuffle top sub sp chain r is,
  (forall m, Permutation (shuffle m) m) -> rs_try_append (get_rspace (cl_pkt top)) sub = Ok sp ->
  let vo := vote_of (get_group (cl_pkt top)) sp in let auths := authorities (pkt_links (cl_pkt top)) in
  (forall a v, vo a = Some v -> get_create_stamp (pf v) < 2 ^ 64) ->
  (forall k, (2 * tally vo auths k)%nat <> List.length auths) -> (exists h k, h <> k /\ (0 < tally vo auths h)%nat /\ (0 < tally vo auths k)%nat) ->
  (forall h k, (0 < tally vo auths h)%nat -> (0 < tally vo auths k)%nat -> tally vo auths h = tally vo auths k /\ settled vo auths h = settled vo auths k) ->
  exists vs is', (forall h, In h (map fst vs) <-> (0 < tally vo auths h)%nat) /\
    walk_live vote_of read_hash shuffle chain top (sub :: r) is = Ok (false, chain, is' ++ [Tie vs]).
Proof. intros vote_of read_hash shuffle top sub sp chain r is SH SP vo auths ST. now apply (tie_walk vote_of read_hash shuffle SH top sub sp SP ST chain r is). Qed.
(** Without votes the walk ends, and the name is not found. *)
Theorem C50_no_votes : forall vote_of read_hash shuffle top sub sp chain r is,
  (forall m, Permutation (shuffle m) m) -> rs_try_append (get_rspace (cl_pkt top)) sub = Ok sp ->
  (forall h, tally (vote_of (get_group (cl_pkt top)) sp) (authorities (pkt_links (cl_pkt top))) h = 0%nat) ->
  exists is', walk_live vote_of read_hash shuffle chain top (sub :: r) is = Ok (false, chain, is').
Proof. intros vote_of read_hash shuffle top sub sp chain r is SH SP. now apply (none_walk vote_of read_hash shuffle SH top sub sp SP chain r is). Qed.

(** *** Examples: three claims of dev:com and authorities of com *)
Definition ok_name (cs : list bytes) : Name := match name_from cs with Ok n => n | _ => name_root end.
Definition ok_claim (n : Name) (ls : list Link) (d : bytes) : Claim := match claim_new toy n ex_until ls d ex_nh with Ok c => c | _ => ex_claim end.
Definition key (k : N) : bytes := repeat k 32.
Definition auth_link (k : N) : Link := (repeat 0 15 ++ [94], key k).
Definition ex_dev (d : bytes) : Claim := ok_claim (ok_name [str "dev"; str "com"]) [auth_link 9] d.
Definition ex_com (n : nat) : Claim := ok_claim (ok_name [str "com"]) (map (fun k => auth_link (N.of_nat k)) (seq 1 n)) (str "com").
Definition hash_of (c : Claim) : bytes := np_hash (cl_pkt c).
Definition ex_vote (c : Claim) (stamp : N) : NetPktParts :=
  match try_linkpoint toy PUBLIC LNS (wire_rooted [str "claims"; str "com"; str "dev"]) [(VOTE_TAG, hash_of c)] [] stamp ex_nh with Ok p => p | _ => cl_pkt ex_claim end.
Definition ex_a := ex_dev (str "a").
Definition ex_b := ex_dev (str "b").
Definition ex_c := ex_dev (str "c").
Definition ex_read (h : bytes) : option NetPktParts :=
  option_map cl_pkt (find (fun c => beqb (hash_of c) h) [ex_a; ex_b; ex_c]).
(** The votes of the keys 1, 2, ... *)
Definition ex_votes (vs : list (Claim * N)) (_ _ a : bytes) : option NetPktParts :=
  match nth_error vs (N.to_nat (hd 0 a - 1)) with Some (c, s) => Some (ex_vote c s) | None => None end.
Definition ex_walk (vs : list (Claim * N)) (shuffle : list Voting -> list Voting) : outcome LnsError (option bytes * nat) :=
  match walk_live (ex_votes vs) ex_read shuffle [] (ex_com (List.length vs)) [str "dev"] [] with
  | Ok (found, chain, is) => Ok (if found then option_map (fun x => hash_of (fst x)) (hd_error chain) else None, List.length (filter (fun i => match i with Tie _ => true | _ => false end) is))
  | Err e => Err e | Panic => Panic | OutOfFuel => OutOfFuel
  end.
Definition winner (c : Claim) : outcome LnsError (option bytes * nat) := Ok (Some (hash_of c), 0%nat).
Definition is_tie : outcome LnsError (option bytes * nat) := Ok (None, 1%nat).
Definition ex_space : bytes := wire_rooted [str "claims"; str "com"; str "dev"].
Definition ex_tally (vs : list (Claim * N)) (c : Claim) : nat := tally (ex_votes vs [] []) (authorities (pkt_links (cl_pkt (ex_com (List.length vs))))) (hash_of c).
Definition ex_settled (vs : list (Claim * N)) (c : Claim) : N := settled (ex_votes vs [] []) (authorities (pkt_links (cl_pkt (ex_com (List.length vs))))) (hash_of c).
Example C50_ex : rs_try_append (get_rspace (cl_pkt (ex_com 5))) (str "dev") = Ok ex_space /\ claim_from (cl_pkt ex_a) = Ok ex_a /\
  ex_tally [(ex_a, 5); (ex_b, 7); (ex_b, 8); (ex_a, 6); (ex_c, 1)] ex_a = 2%nat /\ ex_settled [(ex_a, 5); (ex_b, 7); (ex_b, 8); (ex_a, 6); (ex_c, 1)] ex_b = 8 /\
  ex_walk [(ex_a, 5); (ex_b, 7); (ex_b, 8); (ex_a, 6); (ex_c, 1)] (@rev _) = winner ex_a /\
  ex_walk [(ex_a, 5); (ex_b, 5); (ex_c, 5)] (@rev _) = is_tie /\ ex_walk [(ex_b, 9); (ex_b, 9); (ex_a, 1)] (@rev _) = winner ex_b /\ ex_walk [] (@rev _) = Ok (None, 0%nat).
Proof. vm_compute. repeat split; reflexivity. Qed.
(** Two equally good claims and a worse one: no tie is reported, and the order of the hash map decides. *)
Theorem C50_tie_refuted : exists vs, let n := ex_tally vs in let s := ex_settled vs in
  n ex_a = n ex_b /\ s ex_a = s ex_b /\ (0 < n ex_c < n ex_a)%nat /\ hash_of ex_a <> hash_of ex_b /\
  ex_walk vs (fun m => m) = winner ex_b /\ ex_walk vs (@rev _) = winner ex_a.
Proof.
  exists [(ex_a, 5); (ex_a, 5); (ex_b, 5); (ex_b, 5); (ex_c, 5)]. split; [vm_compute; reflexivity|]. split; [vm_compute; reflexivity|]. split; [vm_compute; lia|].
  split; [intros H; vm_compute in H; discriminate|]. split; vm_compute; reflexivity.
Qed.
(** With four authorities the count stops at two votes.  The older votes would decide, but the others come first in
    the parent's links and win; and a tie of two is not noticed. *)
Theorem C50_half_refuted : exists vs, let n := ex_tally vs in let s := ex_settled vs in
  n ex_a = n ex_b /\ s ex_b < s ex_a /\ hash_of ex_a <> hash_of ex_b /\ ex_walk vs (fun m => m) = winner ex_a /\ ex_walk vs (@rev _) = winner ex_a /\
  ex_walk [(ex_a, 5); (ex_b, 5); (ex_b, 5); (ex_a, 5)] (@rev _) = winner ex_b.
Proof.
  exists [(ex_a, 5); (ex_a, 5); (ex_b, 3); (ex_b, 3)]. split; [vm_compute; reflexivity|]. split; [vm_compute; reflexivity|].
  split; [intros H; vm_compute in H; discriminate|]. split; [vm_compute; reflexivity|]. split; vm_compute; reflexivity.
Qed.
(** The root claim has seven authorities, and no claim below it can have exactly half of the votes. *)
Theorem C50_root : exists np, view lns_roots = Ok np /\ authorities (pkt_links np) <> [] /\ get_rspace np = wire_rooted [str "claims"] /\ get_group np = PUBLIC /\
  forall vo k, (2 * tally vo (authorities (pkt_links np)) k)%nat <> List.length (authorities (pkt_links np)).
Proof.
  destruct (view lns_roots) as [np|e| |] eqn:V; [|vm_compute in V; discriminate..]. assert (L : List.length (authorities (pkt_links np)) = 7%nat) by (vm_compute in V; injection V as <-; vm_compute; reflexivity).
  exists np. split; [reflexivity|]. split; [intros E; rewrite E in L; discriminate|]. split; [vm_compute in V; injection V as <-; vm_compute; reflexivity|]. split; [vm_compute in V; injection V as <-; vm_compute; reflexivity|]. intros vo k. rewrite L. lia.
Qed.
Print Assumptions C50_majority.
Print Assumptions C50_best_partial.
Print Assumptions C50_tie_partial.
Print Assumptions C50_no_votes.
Print Assumptions C50_tie_refuted.
Print Assumptions C50_half_refuted.
Print Assumptions C50_root.

(** ** Findings *)
(** F39: votes are looked for at depth 2 only, so the vote on a name of two or more components, which is at depth 3 or
    more, is never found. *)
Theorem F39_depth : forall hash np p g k cs, carries hash np p -> depth_honest p -> space_ok cs -> (List.length cs <= 8)%nat ->
  run_tests (compile_predicates (vote_preds g (wire_rooted cs) k)) np = true -> (List.length cs <= 2)%nat.
Proof.
  intros hash np p g k cs (HF & PO & _) DH SO L8 RT. unfold run_tests in RT. rewrite forallb_forall in RT. destruct cs as [|c0 cs0] eqn:CE; [cbn; lia|]. rewrite <- CE in *.
  assert (T1 : In (TField DepthF [(Equal, 2)]) (compile_predicates (vote_preds g (wire_rooted cs) k))).
  { unfold compile_predicates. apply in_or_app. left. apply in_flat_map. exists DepthF. split; [unfold compiled_fields; cbn [In]; auto 30|]. unfold into_tests.
    assert (E : p_sets (vote_preds g (wire_rooted cs) k) DepthF = add 8 (set_default 8) Equal 2) by reflexivity. rewrite E. left. vm_compute. reflexivity. }
  assert (T2 : In (TPrefix (wire_space cs)) (compile_predicates (vote_preds g (wire_rooted cs) k))).
  { unfold compile_predicates. apply in_or_app. right. change (p_prefix (vote_preds g (wire_rooted cs) k)) with (wire_rooted cs). pose proof (proj1 (rs_space_wire cs)) as E. rewrite CE in E |- *. cbn [wire_rooted] in *. unfold rooted_with in *. rewrite E. now left. }
  apply RT in T1, T2. cbn [run_test forallb] in T1, T2. rewrite Bool.andb_true_r in T1. cbn [uint_func] in T1. apply N.eqb_eq in T1.
  destruct (common_idx (fields (point_parts np))) as [[[h rs] s]|] eqn:CI; [|discriminate].
  assert (PR : point_rspace p = Some rs /\ field_val DepthF np = declared_depth rs).
  { unfold has_fields in HF. cbn [field_val]. unfold field_val. destruct (fields (point_parts np)) as [d|lp|lp sg|d|d]; try discriminate CI; cbn [common_idx] in CI; injection CI as <- <- <-; subst p; (split; [reflexivity|]); destruct lp as [hh tt]; cbn; destruct (ModelPkt.rspace tt); reflexivity. }
  destruct PR as [PR FV]. destruct (DH rs PR) as (cs1 & [SO1 HS] & DD).
  assert (RS : rs_space rs = Ok (wire_space cs1)).
  { destruct HS as [[d ->]|[-> ->]]; [unfold rs_space; now rewrite rs_fields_rooted|reflexivity]. }
  rewrite RS in T2. unfold space_starts_with in T2. apply starts_with_wire in T2 as [r ->]; [|apply SO1|apply SO]. rewrite FV, DD, app_length in T1. lia.
Qed.
Example F39_depth_ex : exists np p, carries toy_hash np p /\ depth_honest p /\
  run_tests (compile_predicates (vote_preds PUBLIC (wire_rooted [str "claims"; str "com"]) (key 4))) np = true.
Proof.
  exists (net_of toy ex_nh (PKey PUBLIC LNS 5 [(VOTE_TAG, hash_of ex_a)] (wire_rooted [str "claims"; str "com"]) [] (key 4) (repeat 1 64))), (PKey PUBLIC LNS 5 [(VOTE_TAG, hash_of ex_a)] (wire_rooted [str "claims"; str "com"]) [] (key 4) (repeat 1 64)).
  assert (SO : space_ok [str "claims"; str "com"]) by (split; [repeat constructor; cbn; lia|cbn; lia]).
  split; [split; [reflexivity|split; [|reflexivity]]|split; [|vm_compute; reflexivity]].
  - split; [vm_compute; discriminate|]. split; [reflexivity|]. split; [reflexivity|]. split; [reflexivity|]. split; [constructor; [|constructor]; split; vm_compute; reflexivity|]. split; [|split; reflexivity].
    right. exists 2, [str "claims"; str "com"]. split; [exact SO|]. split; [cbn; lia|]. split; reflexivity.
  - intros rs E. injection E as <-. exists [str "claims"; str "com"]. split; [split; [exact SO|left; exists 2; reflexivity]|reflexivity].
Qed.
Print Assumptions F39_depth.
(** F74: the name of the claim that is voted for is not compared with the name that is resolved: a claim of another name
    is returned for it.  If that has seven components, the next step panics. *)
Definition ex_other : Claim := ok_claim (ok_name [str "x"; str "y"]) [auth_link 9] (str "o").
Definition ex_seven : Claim := ok_claim (ok_name [str "a"; str "b"; str "c"; str "d"; str "e"; str "f"; str "g"]) [auth_link 9] (str "o").
Definition ex_read1 (c : Claim) (h : bytes) : option NetPktParts := if beqb (hash_of c) h then Some (cl_pkt c) else None.
Theorem F74_other_name : (exists sigs, walk_live (ex_votes [(ex_other, 5)]) (ex_read1 ex_other) (@rev _) [] (ex_com 1) [str "dev"] [] = Ok (true, [(ex_other, sigs)], [])) /\
  cl_name ex_other = ok_name [str "x"; str "y"] /\ name_from [str "x"; str "y"] = Ok (cl_name ex_other) /\
  walk_live (ex_votes [(ex_seven, 5)]) (ex_read1 ex_seven) (@rev _) [] (ex_com 1) [str "dev"; str "sub"] [] = Panic.
Proof.
  split; [eexists; vm_compute; reflexivity|]. split; [vm_compute; reflexivity|]. split; vm_compute; reflexivity.
Qed.
(** F75: the expiry is not looked at: a claim that ended before its votes were made is live. *)
Definition ex_old : Claim := match claim_new toy (ok_name [str "dev"; str "com"]) (repeat 0 7 ++ [1]) [auth_link 9] [] ex_nh with Ok c => c | _ => ex_claim end.
Theorem F75_expired_live : claim_until ex_old = Ok (repeat 0 7 ++ [1]) /\
  exists sigs, walk_live (ex_votes [(ex_old, 5)]) (ex_read1 ex_old) (@rev _) [] (ex_com 1) [str "dev"] [] = Ok (true, [(ex_old, sigs)], []) /\
    Forall (fun v => be_decode (repeat 0 7 ++ [1]) < get_create_stamp (pf v)) sigs /\ sigs <> [].
Proof. split; [vm_compute; reflexivity|]. eexists. split; [vm_compute; reflexivity|]. split; [repeat constructor|discriminate]. Qed.
(** F76: a key that is listed twice as an authority has two votes. *)
Definition ex_twice : Claim := ok_claim (ok_name [str "com"]) (map auth_link [1; 2; 1; 3; 1]) (str "com").
Theorem F76_double_votes : exists sigs, walk_live (ex_votes [(ex_a, 5); (ex_b, 5); (ex_b, 5)]) ex_read (@rev _) [] ex_twice [str "dev"] [] = Ok (true, [(ex_a, sigs)], []) /\
  NoDup [key 1; key 2; key 3] /\ (forall k, In k (authorities (pkt_links (cl_pkt ex_twice))) -> In k [key 1; key 2; key 3]) /\
  tally (ex_votes [(ex_a, 5); (ex_b, 5); (ex_b, 5)] [] []) [key 1; key 2; key 3] (hash_of ex_a) = 1%nat /\ tally (ex_votes [(ex_a, 5); (ex_b, 5); (ex_b, 5)] [] []) [key 1; key 2; key 3] (hash_of ex_b) = 2%nat.
Proof.
  eexists. split; [vm_compute; reflexivity|]. split; [|split; [|split; vm_compute; reflexivity]].
  - constructor; [intros [H|[H|[]]]; discriminate H|]. constructor; [intros [H|[]]; discriminate H|]. constructor; [intros []|constructor].
  - intros k I. vm_compute in I |- *. tauto.
Qed.
(** F77: the group and key of a claim are found by the end of a tag, so any tag that ends in [group#] names a group. *)
Theorem F77_tag_suffix : exists cl, claim_new toy ex_cname ex_until [(repeat 0 8 ++ str "mygroup#", key 4)] [] ex_nh = Ok cl /\ claim_grp cl = Some (key 4).
Proof. eexists. split; vm_compute; reflexivity. Qed.
Print Assumptions F74_other_name.
Print Assumptions F75_expired_live.
Print Assumptions F76_double_votes.
Print Assumptions F77_tag_suffix.
