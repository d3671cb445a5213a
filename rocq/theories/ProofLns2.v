(** Lemmas about names, claims and their entries. *)
From Coq Require Import Permutation.
From Verif Require Import Bytes SpecSpace ModelSpace ProofSpace ProofRooted ModelPkt SpecPkt ProofPkt2 SpecTree ModelTree ProofTree ModelAbe ModelEval ModelQText ProofQText2 ModelLns SpecLns ProofLns.

(** ** Names *)
Lemma wire_perm a b : Permutation a b -> List.length (wire_space a) = List.length (wire_space b).
Proof.
  induction 1 as [|x a b _ IH|x y a|a b c _ IH _ IH']; [reflexivity| | |congruence]; unfold wire_space in *; cbn [flat_map app List.length]; rewrite ?app_length in *; cbn [List.length]; rewrite ?app_length; lia.
Qed.
Lemma wire_rev cs : List.length (wire_space (rev cs)) = List.length (wire_space cs).
Proof. apply wire_perm. symmetry. apply Permutation_rev. Qed.
Lemma last_rev (cs : list bytes) d : last cs d = hd d (rev cs).
Proof.
  destruct cs as [|x cs] using rev_ind; [reflexivity|]. rewrite last_last, rev_app_distr. reflexivity.
Qed.
Lemma from_tail_iff b : from_tail b = Local <-> b = str "local".
Proof. unfold from_tail. destruct (beqb b (str "local")) eqn:E; [apply beqb_eq in E; tauto|]. split; [discriminate|]. intros ->. rewrite beqb_refl in E. discriminate. Qed.
Lemma names_eq cs n : names cs n -> forall n', names cs n' -> n = n'.
Proof.
  destruct n as [s t]. intros [E T] [s' t'] [E' T']. cbn [n_space n_type] in *. subst. f_equal. destruct t, t'; try reflexivity.
  - assert (Public = Local); [|discriminate]. now apply T, T'.
  - assert (Public = Local); [|discriminate]. now apply T', T.
Qed.
Lemma name_ok_rev cs : name_ok cs -> Forall component_ok (rev cs) /\ (1 <= List.length (rev cs) <= 7)%nat /\ lenN (wire_space (rev cs)) <= 234 /\ space_ok (rev cs).
Proof.
  intros (F & L & W). unfold lenN, space_ok. rewrite rev_length, wire_rev. split; [now apply Forall_rev|]. split; [exact L|]. split; [exact W|]. split; [now apply Forall_rev|lia].
Qed.
Lemma names_intro cs c r : rev cs = c :: r -> names cs (mkName (wire_space (rev cs)) (from_tail c)).
Proof.
  intros E. split; [reflexivity|]. cbn [n_type]. unfold is_local. rewrite last_rev, E. cbn [hd]. apply from_tail_iff.
Qed.
Lemma name_from_iff cs n : name_from cs = Ok n <-> name_ok cs /\ names cs n.
Proof.
  unfold name_from. destruct (rev cs) as [|c r] eqn:R.
  { split; [discriminate|]. intros ((_ & L & _) & _). rewrite <- (rev_involutive cs), R in L. cbn in L. lia. }
  assert (LC : List.length cs = S (List.length r)) by (rewrite <- rev_length, R; reflexivity).
  change (MAX_LNS_NAME_LEN) with 7. change MAX_LNS_NAME_SIZE with 234. destruct (N.ltb_spec 7 (lenN cs)) as [H7|H7].
  { split; [discriminate|]. intros ((_ & L & _) & _). unfold lenN in H7. lia. }
  rewrite <- R. destruct (try_from_iter (rev cs)) as [s|e| |] eqn:T.
  - apply try_from_iter_iff in T as (SO & L8 & ->). destruct (N.ltb_spec 234 (lenN (wire_space (rev cs)))) as [W|W].
    + split; [discriminate|]. intros ((_ & _ & L) & _). unfold lenN in W. rewrite wire_rev in W. lia.
    + assert (NO : name_ok cs). { destruct SO as [F _]. apply Forall_rev in F. rewrite rev_involutive in F. unfold lenN in H7, W. rewrite wire_rev in W. repeat split; try lia. exact F. }
      split; [intros [= <-]; split; [exact NO|eapply names_intro; exact R]|]. intros [_ N]. f_equal. eapply names_eq; [eapply names_intro; exact R|exact N].
  - split; [discriminate|]. intros [NO _]. destruct (name_ok_rev cs NO) as (F & L & W & SO). assert (X : try_from_iter (rev cs) = Ok (wire_space (rev cs))) by (apply try_from_iter_iff; repeat split; try apply SO; unfold lenN; lia). congruence.
  - exfalso. destruct (try_from_iter_total (rev cs)) as [[? X]|[? X]]; congruence.
  - exfalso. destruct (try_from_iter_total (rev cs)) as [[? X]|[? X]]; congruence.
Qed.
Lemma to_array_wire cs : Forall component_ok cs -> (List.length cs <= 8)%nat -> to_array (wire_space cs) = Ok cs.
Proof.
  intros F L. unfold to_array. rewrite iter_all_wire by assumption. cbn [obind]. change MAX_SPACE_DEPTH with 8. destruct (N.ltb_spec 8 (lenN cs)) as [H|H]; [unfold lenN in H; lia|]. reflexivity.
Qed.
Lemma name_from_space_wire cs n : Forall component_ok cs -> (List.length cs <= 8)%nat ->
  (name_from_space (wire_space cs) = Ok n <-> name_ok (rev cs) /\ names (rev cs) n).
Proof.
  intros F L. unfold name_from_space. rewrite to_array_wire by assumption. cbn [obind]. change MAX_LNS_NAME_LEN with 7. change MAX_LNS_NAME_SIZE with 234. destruct (N.ltb_spec 7 (lenN cs)) as [H7|H7].
  { split; [discriminate|]. intros ((_ & X & _) & _). rewrite rev_length in X. unfold lenN in H7. lia. }
  destruct cs as [|c r]. { split; [discriminate|]. intros ((_ & X & _) & _). cbn in X. lia. }
  destruct (N.ltb_spec 234 (lenN (wire_space (c :: r)))) as [W|W].
  { split; [discriminate|]. intros ((_ & _ & X) & _). rewrite wire_rev in X. unfold lenN in W. lia. }
  pose proof (names_intro (rev (c :: r)) c r (rev_involutive _)) as NI. rewrite rev_involutive in NI.
  split.
  - intros [= <-]. split; [|exact NI]. unfold lenN in H7, W. split; [now apply Forall_rev|]. rewrite wire_rev, rev_length. cbn [List.length] in *. lia.
  - intros [_ N]. f_equal. eapply names_eq; [exact NI|exact N].
Qed.
Lemma name_from_space_total cs : Forall component_ok cs -> (List.length cs <= 8)%nat -> (exists n, name_from_space (wire_space cs) = Ok n) \/ exists e, name_from_space (wire_space cs) = Err e.
Proof.
  intros F L. unfold name_from_space. rewrite to_array_wire by assumption. cbn [obind]. destruct (_ <? lenN cs); [eauto|]. destruct cs; [eauto|]. destruct (_ <? _); eauto.
Qed.
Definition name_abl (cs : list bytes) : ABList := match cs with [] => [] | c :: r => (None, c) :: map (fun x => (Some CColon, x)) r end.
Lemma name_abl_wf cs : name_ok cs -> Forall bytes_ok cs -> abl_wf (name_abl cs).
Proof.
  intros (F & L & _) B. destruct cs as [|c r]; [cbn in L; lia|]. cbn [name_abl]. apply Forall_cons_iff in F as [FC FR]. apply Forall_cons_iff in B as [BC BR]. split.
  - constructor; [exact BC|]. clear -BR. induction BR; constructor; auto.
  - split; [intros ->; unfold component_ok in FC; cbn in FC; lia|]. clear. induction r; constructor; [discriminate|assumption].
Qed.
Lemma name_abl_items cs : Forall component_ok cs -> abl_items (name_abl cs) = match cs with [] => [] | c :: r => ABytes c :: flat_map (fun x => [ACtr CColon; ABytes x]) r end.
Proof.
  intros F. destruct cs as [|c r]; [reflexivity|]. apply Forall_cons_iff in F as [FC FR]. unfold abl_items, name_abl. cbn [flat_map app]. destruct c as [|x c]; [unfold component_ok in FC; cbn in FC; lia|]. cbn [app]. f_equal.
  induction FR as [|y r Y FR IH]; [reflexivity|]. cbn [map flat_map app]. destruct y; [unfold component_ok in Y; cbn in Y; lia|]. cbn [app]. now rewrite IH.
Qed.
Lemma name_text_abl cs n : name_ok cs -> names cs n -> name_text n = Ok (abl_display (name_abl cs)).
Proof.
  intros NO [E _]. destruct (name_ok_rev cs NO) as (F & L & _ & _). unfold name_text, name_abe. rewrite E.
  destruct (wire_space (rev cs)) as [|w ws] eqn:W.
  { exfalso. destruct (rev cs) as [|c r]; [cbn in L; lia|]. discriminate. }
  rewrite <- W, to_array_wire by (try assumption; lia). cbn [obind]. rewrite rev_involutive. destruct cs as [|c r]; [cbn in L; lia|]. cbn [obind]. f_equal. rewrite <- print_items, name_abl_items by apply NO. reflexivity.
Qed.
Lemma abl_no_slash cs : existsb (fun '(c, _) => match c with Some CFSlash => true | _ => false end) (name_abl cs) = false.
Proof. destruct cs as [|c r]; [reflexivity|]. cbn [name_abl existsb orb]. induction r as [|x r IH]; [reflexivity|]. exact IH. Qed.
Lemma abl_snd cs : map snd (name_abl cs) = cs.
Proof. destruct cs as [|c r]; [reflexivity|]. cbn [name_abl map snd]. f_equal. induction r as [|x r IH]; [reflexivity|]. cbn [map snd]. now rewrite IH. Qed.
Lemma name_of_abl_names cs n : name_ok cs -> names cs n -> name_of_abl (name_abl cs) = Ok n.
Proof. intros NO N. unfold name_of_abl. rewrite abl_no_slash, abl_snd. now apply name_from_iff. Qed.

(** ** The space of a claim *)
Definition claims_c : bytes := str "claims".
Lemma claims_ok : component_ok claims_c. Proof. unfold component_ok. cbn. lia. Qed.
Lemma claim_prefix_wire : claim_prefix = wire_space [claims_c]. Proof. reflexivity. Qed.
Lemma claim_comps_ok cs : name_ok cs -> space_ok (claims_c :: rev cs) /\ (List.length (claims_c :: rev cs) <= 8)%nat.
Proof.
  intros NO. destruct (name_ok_rev cs NO) as (F & L & W & _). split; [|cbn [List.length]; lia]. split; [constructor; [exact claims_ok|exact F]|]. pose proof (lenN_wire_cons claims_c (rev cs)) as E. unfold lenN in E, W. change (N.of_nat (List.length claims_c)) with 6 in E. lia.
Qed.
Lemma claim_space_wire cs n : name_ok cs -> names cs n -> claim_space n = Ok (wire_rooted (claims_c :: rev cs)).
Proof.
  intros NO [E _]. destruct (claim_comps_ok cs NO) as [SO L8]. destruct (name_ok_rev cs NO) as (F & _ & _ & _). unfold claim_space. rewrite claim_prefix_wire, E.
  assert (S1 : space_ok [claims_c]) by (split; [repeat constructor; cbn; lia|cbn; lia]).
  rewrite try_into_rooted_wire by exact S1. cbn [obind firstn]. unfold rs_try_join. rewrite iter_all_wire by exact F. cbn [obind].
  destruct (rs_extend_wire (rev cs) [claims_c] S1) as (k & r & X & _ & _ & D); [cbn; lia|]. rewrite X. destruct D as [[-> K]|[_ D]]; [|exfalso; apply D; cbn [app]; auto].
  rewrite K. cbn [obind]. rewrite (proj1 (rs_space_wire ([claims_c] ++ rev cs))). cbn [obind app]. rewrite try_into_rooted_wire by exact SO. rewrite firstn_all2 by exact L8. reflexivity.
Qed.

(** ** Reading claims *)
(** A rooted space as packets have them has components. *)
Lemma rooted_comps rs : rooted_ok rs -> exists cs, rs_space rs = Ok (wire_space cs) /\ space_ok cs /\ (List.length cs <= 8)%nat /\ (rs = [] -> cs = []) /\ (rs <> [] -> exists d, rs = rooted_with d cs).
Proof.
  intros [->|(d & cs & SO & L & _ & ->)].
  - exists []. split; [reflexivity|]. split; [split; [constructor|cbn; lia]|]. split; [cbn; lia|]. split; [auto|]. intros H. now destruct H.
  - exists cs. split; [unfold rs_space; now rewrite rs_fields_rooted|]. split; [exact SO|]. split; [exact L|]. split; [discriminate|]. intros _. now exists d.
Qed.
Lemma app_one_cons {A} (x : A) r : [x] ++ r = x :: r. Proof. reflexivity. Qed.
Lemma claim_group_spec cs n g : names cs n -> (g = claim_group n <-> (is_local cs -> g = repeat 0 32) /\ (~ is_local cs -> g = PUBLIC)).
Proof.
  intros [_ T]. unfold claim_group. destruct (n_type n).
  - assert (NL : ~ is_local cs) by (intros X; apply T in X; discriminate). tauto.
  - assert (NL : is_local cs) by (now apply T). change PRIVATE with (repeat 0 32). tauto.
Qed.
Section Claims.
Variable hash : bytes -> bytes.
Lemma claim_from_iff np p cl : carries hash np p -> (claim_from np = Ok cl <-> cl_pkt cl = np /\ exists cs, claim_point cs p /\ names cs (cl_name cl)).
Proof.
  intros (HF & PO & _). unfold claim_from, get_rspace, get_domain, get_group, pkt_links, get_header, pf. unfold has_fields in HF.
  destruct (fields (point_parts np)) as [d|lp|lp s|d|d] eqn:FE.
  all: try (split; [discriminate|]; intros (_ & cs & (? & ? & ? & ? & ? & ? & X & _) & _); subst p; first [discriminate|contradiction]).
  destruct lp as [h t]. cbn [ModelPkt.head ModelPkt.tail] in *. subst p. cbn [point_ok] in PO. destruct PO as (_ & _ & _ & _ & _ & RO). cbn [get_links ModelPkt.tail].
  destruct (rooted_comps _ RO) as (cs & RS & [SF SW] & L8 & RE & RN). rewrite RS. cbn [or_panic obind].
  assert (NEEDS : forall cs', name_ok cs' -> forall k, ModelPkt.rspace t = rooted_with k (str "claims" :: rev cs') -> cs = str "claims" :: rev cs').
  { intros cs' NO k E. rewrite E in RS. unfold rs_space in RS. rewrite rs_fields_rooted in RS. cbn [obind] in RS. injection RS as RS. symmetry. apply (wire_space_inj _ (proj1 (proj1 (claim_comps_ok cs' NO))) _ SF RS). }
  assert (FC : Forall component_ok [claims_c]) by (repeat constructor; cbn; lia).
  destruct (starts_with (wire_space cs) claim_prefix) eqn:ST; cbn [negb].
  2:{ split; [discriminate|]. intros (_ & cs' & (g & c & ls & rs & d & k & E & NO & R & _) & _). injection E as _ _ _ _ ER _. subst rs. apply NEEDS in R; [|exact NO]. rewrite claim_prefix_wire in ST.
      assert (starts_with (wire_space cs) (wire_space [claims_c]) = true); [|congruence]. apply starts_with_wire; try assumption. exists (rev cs'). exact R. }
  rewrite claim_prefix_wire in ST. apply starts_with_wire in ST as (r & ER); try assumption. cbn [app] in ER. subst cs. apply Forall_cons_iff in SF as [_ FR].
  destruct (beqb (domain h) LNS) eqn:BD; cbn [negb].
  2:{ split; [discriminate|]. intros (_ & cs' & (g & c & ls & rs & d & k & E & NO & R & _) & _). injection E as _ ED _ _ _ _. rewrite ED, beqb_refl in BD. discriminate. }
  apply beqb_eq in BD. rewrite wire_space_cons, iter_next_wire by exact claims_ok. cbn [or_panic obind].
  assert (L7 : (List.length r <= 8)%nat) by (cbn [List.length] in L8; lia).
  assert (REL : exists k, ModelPkt.rspace t = rooted_with k (claims_c :: r)) by (apply RN; intros E0; apply RE in E0; discriminate).
  destruct (name_from_space (wire_space r)) as [n|e| |] eqn:NF; cbn [obind].
  - apply name_from_space_wire in NF as [NO N]; [|assumption..].
    destruct (beqb (ModelPkt.group h) (claim_group n)) eqn:BG; cbn [negb].
    + apply beqb_eq in BG. destruct (links t) as [|l ls] eqn:LE.
      * split; [discriminate|]. intros (_ & cs' & (g & c & ls & rs & d & k & E & _ & _ & NE & _) & _). injection E as _ _ _ EL _ _. now subst ls.
      * split.
        -- intros [= <-]. cbn [cl_pkt cl_name]. split; [reflexivity|]. exists (rev r). split; [|exact N]. destruct REL as [k REL].
           exists (ModelPkt.group h), (create_stamp h), (l :: ls), (ModelPkt.rspace t), (tdata t), k. rewrite rev_involutive, BD. split; [reflexivity|]. split; [exact NO|]. split; [exact REL|]. split; [discriminate|]. apply (claim_group_spec _ n); assumption.
        -- intros (CP & cs' & (g & c & ls' & rs & d & k & E & NO' & R & _) & N'). injection E as _ _ _ _ ER _. subst rs. apply (NEEDS cs' NO') in R. injection R as R. subst r. rewrite rev_involutive in N. destruct cl as [cp cn]. cbn [cl_pkt cl_name] in *. subst cp. do 2 f_equal. eapply names_eq; eassumption.
    + split; [discriminate|]. intros (CP & cs' & (g & c & ls' & rs & d & k & E & NO' & R & _ & G) & N'). injection E as EG _ _ _ ER _. subst rs g. apply (NEEDS cs' NO') in R. injection R as R. subst r. rewrite rev_involutive in N. apply (claim_group_spec _ n) in G; [|exact N]. rewrite G, beqb_refl in BG. discriminate.
  - split; [discriminate|]. intros (CP & cs' & (g & c & ls' & rs & d & k & E & NO' & R & _ & G) & N'). injection E as _ _ _ _ ER _. subst rs. apply (NEEDS cs' NO') in R. injection R as R.
    assert (name_from_space (wire_space r) = Ok (cl_name cl)); [|congruence]. apply name_from_space_wire; try assumption. subst r. now rewrite rev_involutive.
  - exfalso. destruct (name_from_space_total r FR L7) as [[? X]|[? X]]; congruence.
  - exfalso. destruct (name_from_space_total r FR L7) as [[? X]|[? X]]; congruence.
Qed.
Lemma claim_from_total np p : carries hash np p -> (exists cl, claim_from np = Ok cl) \/ exists e, claim_from np = Err e.
Proof.
  intros (HF & PO & _). unfold claim_from, get_rspace, get_domain, get_group, pkt_links, get_header, pf. unfold has_fields in HF.
  destruct (fields (point_parts np)) as [d|lp|lp s|d|d] eqn:FE; try (right; eexists; reflexivity).
  destruct lp as [h t]. cbn [ModelPkt.head ModelPkt.tail] in *. subst p. cbn [point_ok] in PO. destruct PO as (_ & _ & _ & _ & _ & RO). cbn [get_links ModelPkt.tail].
  destruct (rooted_comps _ RO) as (cs & RS & [SF SW] & L8 & RE & RN). rewrite RS. cbn [or_panic obind].
  destruct (starts_with (wire_space cs) claim_prefix) eqn:ST; cbn [negb]; [|eauto].
  assert (FC : Forall component_ok [claims_c]) by (repeat constructor; cbn; lia).
  rewrite claim_prefix_wire in ST. apply starts_with_wire in ST as (r & ER); try assumption. cbn [app] in ER. subst cs. apply Forall_cons_iff in SF as [_ FR].
  destruct (beqb (domain h) LNS); cbn [negb]; [|eauto]. rewrite wire_space_cons, iter_next_wire by exact claims_ok. cbn [or_panic obind].
  destruct (name_from_space_total r FR) as [[n ->]|[e ->]]; [cbn [List.length] in L8; lia| |cbn [obind]; eauto]. cbn [obind]. destruct (beqb _ (claim_group n)); cbn [negb]; [|eauto]. destruct (links t); eauto.
Qed.
End Claims.
