(** The text form of packets. *)
From Coq Require Import Lia.
From Verif Require Import Bytes SpecSpace ModelSpace ProofSpace ModelPkt ModelTree ModelAbe SpecAbe ProofAbe PropsAbe ModelFmt SpecFmt ProofFmt ModelEval ModelFn ProofEval3 PropsEval ModelLns ModelHtml SpecHtml ProofHtml ProofHtml2 ProofHtml3 ProofHtml4.

Lemma sep_inj c a : forall b r s, no c a -> no c b -> a ++ c :: r = b ++ c :: s -> a = b /\ r = s.
Proof.
  induction a as [|x a IH]; intros [|y b] r s A B E; cbn in E.
  - injection E as E. auto.
  - injection E as E _. inversion B; congruence.
  - injection E as E _. inversion A; congruence.
  - injection E as -> E. inversion A; inversion B; subst. destruct (IH _ _ _ H2 H6 E) as [-> ->]. auto.
Qed.
Lemma hex_no c x : bytes_ok [x] -> c = 10 \/ c = 9 -> no c (hex_lookup x).
Proof.
  intros O C. apply Forall_inv in O. unfold byte_ok in O. unfold hex_lookup.
  assert (D : forall d, d < 16 -> hex_char d <> c) by (intros d D; unfold hex_char; destruct (d <? 10); destruct C; lia).
  assert (x / 16 < 16) by (apply N.div_lt_upper_bound; lia). assert (x mod 16 < 16) by (apply N.mod_lt; lia).
  repeat constructor; try (destruct C; lia); now apply D.
Qed.
Lemma abtxt_no c b : bytes_ok b -> c = 10 \/ c = 9 -> no c (as_abtxt b).
Proof.
  intros O C. rewrite as_abtxt_flat. unfold no. apply Forall_forall. intros y I. apply in_flat_map in I as (x & X & I).
  assert (OX : bytes_ok [x]). { unfold bytes_ok in *. rewrite Forall_forall in O. specialize (O x X). auto. }
  pose proof (hex_no c x OX C) as H. unfold no in H. rewrite Forall_forall in H. unfold escape_default in I.
  repeat match type of I with context [if ?b then _ else _] => destruct b eqn:? end; try (apply H, I); repeat (destruct I as [<-|I]); try contradiction; try (destruct C; lia).
Qed.
Lemma cut_ok b : bytes_ok b -> bytes_ok (cut_prefix_nulls b).
Proof. intros O. destruct (cut_trimmed 0 b) as [[n E] _]. unfold cut_prefix_nulls. rewrite E in O. now apply Forall_app in O. Qed.
Lemma cut_ok255 b : bytes_ok b -> bytes_ok (cut_prefixeq 255 b).
Proof. intros O. destruct (cut_trimmed 255 b) as [[n E] _]. rewrite E in O. now apply Forall_app in O. Qed.
Lemma ab_str_no c b : bytes_ok b -> c = 10 \/ c = 9 -> no c (ab_as_str b).
Proof. intros O C. apply abtxt_no; [now apply cut_ok|exact C]. Qed.
Lemma ab_str_inj a b : bytes_ok a -> bytes_ok b -> lenN a = lenN b -> ab_as_str a = ab_as_str b -> a = b.
Proof.
  intros A B L E. apply C41_injective in E; [|now apply cut_ok..].
  destruct (cut_trimmed 0 a) as [[n EA] _], (cut_trimmed 0 b) as [[m EB] _]. unfold cut_prefix_nulls in E. rewrite E in EA. revert EA EB. generalize (cut_prefixeq 0 b). intros v -> ->.
  assert (n = m) by (rewrite !lenN_app in L; unfold lenN in L; rewrite !repeat_length in L; lia). now subst.
Qed.
Lemma segm_no c : bytes_ok c -> no 10 (fmt_segm2 c).
Proof.
  intros O. unfold fmt_segm2. assert (B : no 10 (b64_display c)) by (apply b64_no; [exact O|lia]). assert (A : no 10 (as_abtxt c)) by (apply abtxt_no; auto).
  destruct (lenN c =? 32); [|destruct (lenN c =? 16); [destruct (existsb escaped_byte c)|]].
  - rewrite !no_app. split; [apply no_dec; reflexivity|]. split; [exact B|apply no_dec; reflexivity].
  - rewrite no_app. split; [apply no_dec; reflexivity|]. unfold ab_to_abe_str, x_prefix_cut.
    assert (M : forall m, no 10 (ab_mode m)) by (intros []; apply no_dec; reflexivity).
    assert (D : no 10 (to_string (lenN c))) by (apply dec_no; lia).
    destruct (hd 0 c =? 255); destruct (lenN c =? 16); rewrite !no_app; repeat split; try (apply no_dec; reflexivity); auto; try (apply abtxt_no; [|now left]); auto using cut_ok, cut_ok255.
  - rewrite no_app. split; [apply no_dec; reflexivity|exact A].
  - rewrite no_app. split; [apply no_dec; reflexivity|exact A].
Qed.
Lemma comps_no cs : Forall bytes_ok cs -> no 10 (flat_map fmt_segm2 cs).
Proof. induction 1; cbn; [constructor|]. rewrite no_app. split; [now apply segm_no|assumption]. Qed.
Lemma comps_text_inj cs cs' : space_ok cs -> space_ok cs' -> Forall bytes_ok cs -> Forall bytes_ok cs' -> lenN cs <= 8 -> lenN cs' <= 8 -> flat_map fmt_segm2 cs = flat_map fmt_segm2 cs' -> wire_space cs = wire_space cs'.
Proof.
  intros S S' B B' L L' E. destruct (space_str_display o1 cs S B) as [n H]. destruct (space_str_display o1 cs' S' B') as [m H'].
  specialize (H (n + m)%nat ltac:(lia)). specialize (H' (n + m)%nat ltac:(lia)). rewrite E in H. rewrite H in H'.
  destruct (N.leb_spec (lenN cs) 8); [|lia]. destruct (N.leb_spec (lenN cs') 8); [|lia]. congruence.
Qed.
Lemma abe64_inj a b : bytes_ok a -> bytes_ok b -> b64_to_abe_str a = b64_to_abe_str b -> a = b.
Proof. intros A B E. unfold b64_to_abe_str in E. apply app_inv_head in E. apply app_inv_tail in E. now apply b64_inj. Qed.
Lemma abe64_no b : bytes_ok b -> no 10 (b64_to_abe_str b).
Proof. intros B. unfold b64_to_abe_str. rewrite !no_app. repeat split; try (apply no_dec; reflexivity). apply b64_no; [exact B|lia]. Qed.
Section W.
Variables public test : bytes.
Lemma group_no g : bytes_ok g -> no 10 (group_str public test g).
Proof. intros G. unfold group_str. destruct (beqb g PRIVATE), (beqb g public), (beqb g test); try (apply no_dec; reflexivity). now apply abe64_no. Qed.
Lemma group_inj a b : bytes_ok a -> bytes_ok b -> group_str public test a = group_str public test b -> a = b.
Proof.
  intros A B. unfold group_str. destruct (beqb a PRIVATE) eqn:A1, (beqb b PRIVATE) eqn:B1; [apply beqb_eq in A1, B1; congruence| | |].
  - destruct (beqb b public), (beqb b test); discriminate.
  - destruct (beqb a public), (beqb a test); discriminate.
  - destruct (beqb a public) eqn:A2, (beqb b public) eqn:B2; [apply beqb_eq in A2, B2; congruence| | |].
    + destruct (beqb b test); discriminate.
    + destruct (beqb a test); discriminate.
    + destruct (beqb a test) eqn:A3, (beqb b test) eqn:B3; [apply beqb_eq in A3, B3; congruence|discriminate|discriminate|]. now apply abe64_inj.
Qed.
End W.
Lemma str_link_inj t p t' p' r r' : bytes_ok t -> bytes_ok t' -> bytes_ok p -> bytes_ok p' -> lenN t = lenN t' -> str_link (t, p) ++ r = str_link (t', p') ++ r' -> (t, p) = (t', p') /\ r = r'.
Proof.
  intros T T' P P' L E. unfold str_link in E. cbn [fst snd] in E. rewrite <- !app_assoc in E. apply app_inv_head in E. cbn [app] in E.
  rewrite !app_assoc in E. assert (NS : forall b, bytes_ok b -> no 10 (ab_as_str b)) by (intros; apply ab_str_no; auto).
  assert (NB : forall b, bytes_ok b -> no 10 (b64_display b)) by (intros; apply b64_no; auto; lia).
  assert (SP : no 10 (str " ")) by (apply no_dec; reflexivity).
  apply sep_inj in E as [E ->]; [|rewrite !no_app; auto..].
  assert (X : ab_as_str t = ab_as_str t' /\ b64_display p = b64_display p').
  { clear -E P P'. assert (S : forall b, bytes_ok b -> no 32 (b64_display b)) by (intros; apply b64_no; auto; lia). specialize (S p P) as S1. specialize (S p' P') as S2. clear S.
    rewrite <- !app_assoc in E. apply (f_equal (@rev N)) in E. rewrite !rev_app_distr in E. change (rev (str " ")) with [32] in E. rewrite <- !app_assoc in E. cbn [app] in E.
    apply sep_inj in E as [E1 E2]; [|now apply Forall_rev..]. split; [rewrite <- (rev_involutive (ab_as_str t)), E2; apply rev_involutive|rewrite <- (rev_involutive (b64_display p)), E1; apply rev_involutive]. }
  destruct X as [X1 X2]. apply ab_str_inj in X1; auto. apply b64_inj in X2; auto. subst. auto.
Qed.
Lemma str_links_inj l : forall l' r r', Forall (fun x => bytes_ok (fst x) /\ bytes_ok (snd x) /\ lenN (fst x) = 16) l -> Forall (fun x => bytes_ok (fst x) /\ bytes_ok (snd x) /\ lenN (fst x) = 16) l' ->
  List.length l = List.length l' -> flat_map str_link l ++ r = flat_map str_link l' ++ r' -> l = l' /\ r = r'.
Proof.
  induction l as [|[t p] l IH]; intros [|[t' p'] l'] r r' F F' L E; try discriminate L; [auto|].
  inversion F as [|? ? (A & B & C) G]; inversion F' as [|? ? (A' & B' & C') G']; subst. cbn [fst snd] in *. cbn [flat_map] in E. rewrite <- !app_assoc in E. apply str_link_inj in E as [X E]; auto; [|congruence].
  apply IH in E as [-> ->]; auto. now rewrite X.
Qed.
Section W2.
Variable lossy : bytes -> bytes.
Variables public test : bytes.
Lemma type_no t : no 10 (type_name t).
Proof. unfold type_name. destruct (t =? DATA_POINT), (t =? LINK_POINT), (t =? KEY_POINT), (t =? ERROR_POINT); apply no_dec; reflexivity. Qed.
Lemma type_inj a b : type_name a = type_name b -> kind a = kind b.
Proof.
  unfold type_name, kind. change DATA_POINT with 1. change LINK_POINT with 3. change KEY_POINT with 7. change ERROR_POINT with 128. cbn [existsb].
  destruct (N.eqb_spec a 1), (N.eqb_spec a 3), (N.eqb_spec a 7), (N.eqb_spec a 128), (N.eqb_spec b 1), (N.eqb_spec b 3), (N.eqb_spec b 7), (N.eqb_spec b 128); cbn [orb]; intros E; try discriminate E; congruence.
Qed.
(** the text as a function of what it tells *)
Definition lines (limit : N) (p : printed) (cs : list bytes) : bytes :=
  let '(g, d, t, k, sp, ls) := told p in
  str "type" ++ [9] ++ type_name (hp_type p) ++ 10 ::
  str "hash" ++ [9] ++ b64_display (hp_hash p) ++ 10 ::
  str "group" ++ [9] ++ group_str public test g ++ 10 ::
  str "domain" ++ [9] ++ ab_as_str d ++ 10 ::
  str "space" ++ [9] ++ flat_map fmt_segm2 cs ++ 10 ::
  str "pubkey" ++ [9] ++ b64_to_abe_str k ++ 10 ::
  str "create" ++ [9] ++ to_string t ++ 10 ::
  str "links" ++ [9] ++ to_string (lenN ls) ++ 10 ::
  flat_map str_link ls ++
  str "data" ++ [9] ++ to_string (lenN (hp_data p)) ++ 10 :: lossy (takeN (N.min (lenN (hp_data p)) limit) (hp_data p)).
Lemma to_str_lines limit p cs : fields_ok (fields (point_parts p)) cs -> to_str lossy public test limit p = Ok (lines limit (printed_as p cs) cs).
Proof.
  intros F. unfold to_str, lines, told, printed_as, get_space, get_rspace, get_group, get_domain, get_header, html_pubkey, pkt_links, get_create_stamp, pf.
  destruct (fields (point_parts p)) as [d|lp|lp s|d|d]; cbn [fields_ok] in F; cbn [hp_hash hp_type hp_depth hp_data hp_link lp_view get_links get_data].
  1,4,5: subst cs; reflexivity.
  - destruct F as (A & B & C & D & E). destruct (space_of_reads _ _ E C) as (X & Y & _). rewrite X. cbn [obind]. unfold space_display. rewrite Y. reflexivity.
  - destruct F as ((A & B & C & D & E) & K). destruct (space_of_reads _ _ E C) as (X & Y & _). rewrite X. cbn [obind]. unfold space_display. rewrite Y. reflexivity.
Qed.
Definition told_ok (p : printed) (cs : list bytes) : Prop :=
  let '(g, d, t, k, sp, ls) := told p in
  bytes_ok (hp_hash p) /\ bytes_ok g /\ bytes_ok d /\ lenN d = 16 /\ bytes_ok k /\ sp = wire_space cs /\ space_ok cs /\ Forall bytes_ok cs /\ lenN cs <= 8 /\ Forall (fun x => bytes_ok (fst x) /\ bytes_ok (snd x) /\ lenN (fst x) = 16) ls.
Lemma lines_inj limit p cs q cs' : told_ok p cs -> told_ok q cs' -> lines limit p cs = lines limit q cs' ->
  kind (hp_type p) = kind (hp_type q) /\ hp_hash p = hp_hash q /\ told p = told q /\ lenN (hp_data p) = lenN (hp_data q) /\
  lossy (takeN (N.min (lenN (hp_data p)) limit) (hp_data p)) = lossy (takeN (N.min (lenN (hp_data q)) limit) (hp_data q)).
Proof.
  unfold told_ok, lines. destruct (told p) as [[[[[g d] t] k] sp] ls], (told q) as [[[[[g' d'] t'] k'] sp'] ls'].
  intros (H & G & D & D16 & K & W & S & C & C8 & L) (H' & G' & D' & D16' & K' & W' & S' & C' & C8' & L') E.
  repeat rewrite app_assoc in E. repeat rewrite <- app_assoc in E.
  apply app_inv_head in E. apply app_inv_head in E. apply sep_inj in E as [E1 E]; [|apply type_no..].
  apply app_inv_head in E. apply app_inv_head in E. apply sep_inj in E as [E2 E]; [|apply b64_no; auto; lia..].
  apply app_inv_head in E. apply app_inv_head in E. apply sep_inj in E as [E3 E]; [|apply group_no; auto..].
  apply app_inv_head in E. apply app_inv_head in E. apply sep_inj in E as [E4 E]; [|apply ab_str_no; auto..].
  apply app_inv_head in E. apply app_inv_head in E. apply sep_inj in E as [E5 E]; [|apply comps_no; auto..].
  apply app_inv_head in E. apply app_inv_head in E. apply sep_inj in E as [E6 E]; [|apply abe64_no; auto..].
  apply app_inv_head in E. apply app_inv_head in E. apply sep_inj in E as [E7 E]; [|apply dec_no; lia..].
  apply app_inv_head in E. apply app_inv_head in E. apply sep_inj in E as [E8 E]; [|apply dec_no; lia..].
  apply dec_inj in E7, E8. apply str_links_inj in E as [-> E]; [|auto|auto|unfold lenN in E8; lia].
  apply app_inv_head in E. apply app_inv_head in E. apply sep_inj in E as [E9 E]; [|apply dec_no; lia..]. apply dec_inj in E9.
  apply type_inj in E1. apply b64_inj in E2; auto. apply group_inj in E3; auto. apply ab_str_inj in E4; auto; [|congruence]. apply comps_text_inj in E5; auto. apply abe64_inj in E6; auto.
  assert (SP : sp = sp') by congruence. rewrite E3, E4, E6, E7, SP. auto.
Qed.
Lemma zeros_ok n : bytes_ok (repeat 0 n). Proof. induction n; cbn; constructor; auto. unfold byte_ok. lia. Qed.
Lemma printed_told p cs : bytes_ok (np_hash p) -> fields_ok (fields (point_parts p)) cs -> sizes_ok (printed_as p cs) -> told_ok (printed_as p cs) cs.
Proof.
  intros H F Z. unfold told_ok, told, sizes_ok, printed_as in *.
  assert (LP : forall lp, lp_ok lp cs -> lenN cs <= 8 -> Forall (fun l => lenN (fst l) = 16) (ModelPkt.links (ModelPkt.tail lp)) -> dropN 8 (ModelPkt.rspace (ModelPkt.tail lp)) = wire_space cs /\ space_ok cs /\ Forall bytes_ok cs /\
     Forall (fun x => bytes_ok (fst x) /\ bytes_ok (snd x) /\ lenN (fst x) = 16) (ModelPkt.links (ModelPkt.tail lp))).
  { intros lp (A & B & C & D & E) L8 L. destruct (space_of_reads _ _ E C) as (_ & _ & _ & O). assert (S : dropN 8 (ModelPkt.rspace (ModelPkt.tail lp)) = wire_space cs /\ space_ok cs).
    { destruct E as [[-> ->]|[_ [E1 E2]]]; [|auto]. split; [reflexivity|]. split; [constructor|cbn; lia]. }
    destruct S. repeat (split; [assumption|]). apply Forall_forall. intros x I. rewrite Forall_forall in D, L. destruct (D x I). auto. }
  destruct (fields (point_parts p)) as [d|lp|lp s|d|d]; cbn [hp_hash hp_link lp_view fields_ok] in *.
  1,4,5: subst cs; split; [exact H|]; split; [apply zeros_ok|]; split; [apply zeros_ok|]; split; [reflexivity|]; split; [apply zeros_ok|]; split; [reflexivity|]; split; [split; [constructor|vm_compute; discriminate]|]; split; [constructor|]; split; [vm_compute; discriminate|constructor].
  - unfold lp_view in *. destruct Z as (Z1 & Z2 & Z3). destruct (LP lp F Z2 Z3) as (X1 & X2 & X3 & X4). destruct F as (A & B & C & D & E).
    split; [exact H|]. split; [exact A|]. split; [exact B|]. split; [exact Z1|]. split; [apply zeros_ok|]. auto 10.
  - destruct F as (F & K). unfold lp_view in *. destruct Z as (Z1 & Z2 & Z3). destruct (LP lp F Z2 Z3) as (X1 & X2 & X3 & X4). destruct F as (A & B & C & D & E).
    split; [exact H|]. split; [exact A|]. split; [exact B|]. split; [exact Z1|]. split; [exact K|]. auto 10.
Qed.
End W2.
