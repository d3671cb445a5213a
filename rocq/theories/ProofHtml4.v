From Coq Require Import Lia.
From Verif Require Import Bytes SpecSpace ModelSpace ProofSpace ModelPkt ModelTree ModelAbe ModelFmt SpecFmt ProofFmt ModelFn ModelLns ModelHtml SpecHtml ProofHtml ProofHtml2 ProofHtml3.

(** ** Nesting *)
Definition closed (k : list tok) : Prop := forall st r, nested st (k ++ r) <-> nested st r.
Lemma closed_nil : closed []. Proof. now intros st r. Qed.
Lemma closed_app a b : closed a -> closed b -> closed (a ++ b).
Proof. intros A B st r. rewrite <- app_assoc, (A st), (B st). reflexivity. Qed.
Lemma closed_one t : closed [Text t]. Proof. now intros st r. Qed.
Lemma closed_text t : closed (text t). Proof. destruct t; [apply closed_nil|apply closed_one]. Qed.
Lemma closed_elem n a k : closed k -> closed (elem n a k).
Proof. intros K st r. unfold elem. cbn [app nested]. rewrite <- app_assoc, (K (n :: st)). cbn. tauto. Qed.
Lemma closed_cons t k : closed k -> closed (Text t :: k). Proof. intros K. apply (closed_app [Text t] k (closed_one t) K). Qed.
Lemma closed_flat {A} (f : A -> list tok) l : (forall x, closed (f x)) -> closed (flat_map f l).
Proof. intros F. induction l; cbn; [apply closed_nil|now apply closed_app]. Qed.
Lemma closed_comps i cs : closed (comp_elems i cs).
Proof. revert i. induction cs as [|c r IH]; intros i; cbn [comp_elems]; [apply closed_nil|]. apply closed_app; [apply closed_elem, closed_text|apply IH]. Qed.
Lemma page_closed public test shown p : closed (page public test shown p).
Proof.
  unfold page, b64_elem, number_elem. apply closed_elem. apply closed_app; [apply closed_elem, closed_text|].
  apply closed_app.
  - destruct (hp_link p) as [[[[[[[g d] t] k] sp] cs] ls]|]; [|apply closed_nil].
    repeat (apply closed_app); try (apply closed_elem, closed_text); try apply closed_one.
    + destruct k; [apply closed_elem, closed_text|apply closed_nil].
    + apply closed_elem, closed_cons, closed_comps.
    + apply closed_elem, closed_cons, closed_flat. intros [a b]. apply closed_app; [|apply closed_one]. apply closed_elem, closed_app; apply closed_elem, closed_text.
  - repeat apply closed_app; try (apply closed_elem, closed_text); try apply closed_one. destruct shown; [apply closed_elem, closed_text|apply closed_nil].
Qed.

(** ** The skeleton *)
Lemma sk_app a b : skeleton (a ++ b) = skeleton a ++ skeleton b. Proof. apply flat_map_app. Qed.
Lemma sk_text t : skeleton (text t) = []. Proof. now destruct t. Qed.
Lemma sk_one t : skeleton [Text t] = []. Proof. reflexivity. Qed.
Lemma sk_cons t k : skeleton (Text t :: k) = skeleton k. Proof. reflexivity. Qed.
Lemma sk_elem n a k : skeleton (elem n a k) = BOpen n (map fst a) :: skeleton k ++ [BClose n].
Proof. unfold elem. change (Open n a :: k ++ [Close n]) with ([Open n a] ++ k ++ [Close n]). now rewrite !sk_app. Qed.
Lemma sk_comps cs cs' : List.length cs = List.length cs' -> forall i, skeleton (comp_elems i cs) = skeleton (comp_elems i cs').
Proof.
  revert cs'. induction cs as [|c r IH]; intros [|c' r'] L i; try discriminate L; [reflexivity|]. cbn [comp_elems]. rewrite !sk_app, !sk_elem, !sk_text. rewrite (IH r'); [reflexivity|now injection L].
Qed.
Lemma sk_flat {A} (f : A -> list tok) l l' : (forall x y, skeleton (f x) = skeleton (f y)) -> List.length l = List.length l' -> skeleton (flat_map f l) = skeleton (flat_map f l').
Proof. intros F. revert l'. induction l as [|c r IH]; intros [|c' r'] L; try discriminate L; [reflexivity|]. cbn [flat_map]. rewrite !sk_app, (F c c'), (IH r'); [reflexivity|now injection L]. Qed.
Lemma page_skeleton public test shown shown' p q : same_shape p q -> (shown = None <-> shown' = None) -> skeleton (page public test shown p) = skeleton (page public test shown' q).
Proof.
  unfold same_shape, page, b64_elem, number_elem. intros S H.
  assert (E : forall a a', (shown = None <-> shown' = None) -> skeleton (match shown with Some t => elem (str "pre") [(str "lk-data", a)] (text (quoted t)) | None => [] end) =
    skeleton (match shown' with Some t => elem (str "pre") [(str "lk-data", a')] (text (quoted t)) | None => [] end)).
  { intros a a' [X Y]. destruct shown, shown'; [|discriminate (Y eq_refl)|discriminate (X eq_refl)|reflexivity]. now rewrite !sk_elem, !sk_text. }
  destruct (hp_link p) as [[[[[[[g d] t] k] sp] cs] ls]|], (hp_link q) as [[[[[[[g' d'] t'] k'] sp'] cs'] ls']|]; try contradiction.
  - destruct S as ((K1 & K2) & C & L).
    repeat rewrite ?sk_app, ?sk_elem, ?sk_text, ?sk_one, ?sk_cons. rewrite (E (to_string (lenN (hp_data p))) (to_string (lenN (hp_data q))) H). rewrite (sk_comps _ _ C 0).
    rewrite (sk_flat _ ls ls'); [|intros [] []; repeat rewrite ?sk_app, ?sk_elem, ?sk_text, ?sk_one, ?sk_cons; reflexivity|exact L].
    destruct k, k'; [|discriminate (K2 eq_refl)|discriminate (K1 eq_refl)|]; repeat rewrite ?sk_app, ?sk_elem, ?sk_text, ?sk_one, ?sk_cons; reflexivity.
  - repeat rewrite ?sk_app, ?sk_elem, ?sk_text, ?sk_one, ?sk_cons. rewrite (E (to_string (lenN (hp_data p))) (to_string (lenN (hp_data q))) H). reflexivity.
Qed.

(** ** What the elements tell *)
Lemma b64_inj a b : bytes_ok a -> bytes_ok b -> b64_display a = b64_display b -> a = b.
Proof.
  intros A B E. assert (X : b64_decode_raw true (b64_display a) = Some a) by (apply decode_raw_iff; now split).
  assert (Y : b64_decode_raw true (b64_display b) = Some b) by (apply decode_raw_iff; now split). congruence.
Qed.
Lemma dec_inj a b : to_string a = to_string b -> a = b.
Proof.
  intros E. pose proof (parse_to_string (N.max a b) a ltac:(lia)) as X. pose proof (parse_to_string (N.max a b) b ltac:(lia)) as Y. congruence.
Qed.
Lemma quoted_inj a : forall b, quoted a = quoted b -> a = b.
Proof.
  induction a as [|x a IH]; intros [|y b] E; [reflexivity| | |].
  - cbn [quoted flat_map] in E. destruct (y =? 38), (y =? 60), (y =? 62); discriminate E.
  - cbn [quoted flat_map] in E. destruct (x =? 38), (x =? 60), (x =? 62); discriminate E.
  - cbn [quoted flat_map] in E. fold (quoted a) in E. fold (quoted b) in E.
    change (str "&amp") with [38; 97; 109; 112] in E. change (str "&lt") with [38; 108; 116] in E. change (str "&gt") with [38; 103; 116] in E.
    destruct (N.eqb_spec x 38), (N.eqb_spec x 60), (N.eqb_spec x 62), (N.eqb_spec y 38), (N.eqb_spec y 60), (N.eqb_spec y 62);
      try lia; cbn [app] in E; try congruence; (f_equal; [congruence|apply IH; congruence]).
Qed.
Lemma text_inj a b n m r s : text a ++ Close n :: r = text b ++ Close m :: s -> a = b /\ n = m /\ r = s.
Proof. destruct a, b; cbn; intros E; try discriminate E; injection E; intros; subst; auto. Qed.
Lemma elem_inj n a k n' a' k' : elem n a k = elem n' a' k' -> a = a' /\ k ++ [Close n] = k' ++ [Close n'].
Proof. unfold elem. intros E. injection E as -> -> E. auto. Qed.
Lemma elem_inj_r n a k r n' a' k' r' : elem n a k ++ r = elem n' a' k' ++ r' -> a = a' /\ k ++ Close n :: r = k' ++ Close n' :: r'.
Proof. unfold elem. cbn [app]. intros E. injection E as -> -> E. rewrite <- !app_assoc in E. cbn [app] in E. auto. Qed.
Lemma leaf_inj n a t r n' a' t' r' : elem n a (text t) ++ r = elem n' a' (text t') ++ r' -> n = n' /\ a = a' /\ t = t' /\ r = r'.
Proof.
  unfold elem. cbn [app]. intros E. injection E as -> -> E. rewrite <- !app_assoc in E. cbn [app] in E. apply text_inj in E as (-> & _ & ->). auto.
Qed.
Lemma num_inj a n r a' n' r' : number_elem a n ++ r = number_elem a' n' ++ r' -> a = a' /\ n = n' /\ r = r'.
Proof. intros E. apply leaf_inj in E as (_ & A & _ & R). injection A as A N. apply dec_inj in N. auto. Qed.
Lemma b64e_inj c b s r c' b' s' r' : bytes_ok b -> bytes_ok b' -> b64_elem c b s ++ r = b64_elem c' b' s' ++ r' -> c = c' /\ b = b' /\ r = r'.
Proof.
  intros B B' E. apply leaf_inj in E as (_ & A & _ & R).
  assert (A1 : str "lk-" ++ c = str "lk-" ++ c') by congruence. assert (A2 : b64_display b = b64_display b') by congruence.
  apply app_inv_head in A1. apply b64_inj in A2; auto.
Qed.
Lemma comps_inj cs : forall i cs' r r', Forall bytes_ok cs -> Forall bytes_ok cs' -> comp_elems i cs ++ Close (str "ol") :: r = comp_elems i cs' ++ Close (str "ol") :: r' -> cs = cs' /\ r = r'.
Proof.
  induction cs as [|c cs IH]; intros i [|c' cs'] r r' O O' E; try discriminate E.
  - cbn in E. split; congruence.
  - inversion O; inversion O'; subst. cbn [comp_elems] in E. rewrite <- !app_assoc in E. apply leaf_inj in E as (_ & A & _ & E).
    assert (A2 : b64_display c = b64_display c') by congruence. apply b64_inj in A2; auto. apply IH in E as [-> ->]; auto. now subst.
Qed.
Section W.
Variables public test : bytes.
Definition link_elem : bytes * bytes -> list tok := fun '(tag, ptr) =>
  elem (str "li") [(str "lk-link-tag", b64_display tag)]
    (elem (str "span") [(str "lk-tag", b64_display tag)] (text (quoted (as_abtxt (cut_prefix_nulls tag)))) ++ b64_elem (str "ptr") ptr (label public test ptr)) ++ [Text [10]].
Lemma links_inj l : forall l' r r', Forall link_ok l -> Forall link_ok l' -> flat_map link_elem l ++ Close (str "ol") :: r = flat_map link_elem l' ++ Close (str "ol") :: r' -> l = l' /\ r = r'.
Proof.
  induction l as [|[t p] l IH]; intros [|[t' p'] l'] r r' O O' E; try discriminate E.
  - cbn in E. split; congruence.
  - inversion O as [|? ? [T P] Os]; inversion O' as [|? ? [T' P'] Os']; subst. cbn [fst snd] in *. cbn [flat_map link_elem] in E. rewrite <- !app_assoc in E. apply elem_inj_r in E as [EA E'].
    assert (A2 : b64_display t = b64_display t') by congruence. apply b64_inj in A2; auto. subst t'.
    rewrite <- ?app_assoc in E'. apply leaf_inj in E' as (_ & _ & _ & E'). rewrite <- ?app_assoc in E'. apply b64e_inj in E' as (_ & -> & E'); auto. cbn [app] in E'.
    match type of E' with _ :: _ :: ?x = _ :: _ :: ?y => assert (E : x = y) by congruence end. apply IH in E as [-> ->]; auto.
Qed.
Definition printed_ok (p : printed) : Prop :=
  bytes_ok (hp_hash p) /\ match hp_link p with
  | None => True
  | Some (g, d, _, k, sp, cs, ls) => bytes_ok g /\ bytes_ok d /\ match k with Some k => bytes_ok k | None => True end /\ bytes_ok sp /\ Forall bytes_ok cs /\ Forall link_ok ls
  end.
Lemma page_inj shown shown' p q : printed_ok p -> printed_ok q -> page public test shown p = page public test shown' q -> same_but_data p q /\ shown = shown'.
Proof.
  destruct p as [h ty dep dat lk], q as [h' ty' dep' dat' lk']. intros [PH P] [QH Q] E. unfold page in E. unfold same_but_data. cbn [hp_hash hp_type hp_depth hp_data hp_link] in *.
  set (ls := match lk with Some (_, _, _, _, _, _, l) => l | None => [] end) in E. set (ls' := match lk' with Some (_, _, _, _, _, _, l) => l | None => [] end) in E.
  set (key := match lk with Some (_, _, _, k, _, _, _) => k | None => None end) in E. set (key' := match lk' with Some (_, _, _, k, _, _, _) => k | None => None end) in E.
  assert (KO : match key with Some k => bytes_ok k | None => True end). { subst key. destruct lk as [[[[[[[g d] t] k] sp] cs] l]|]; [apply P|exact Logic.I]. }
  assert (KO' : match key' with Some k => bytes_ok k | None => True end). { subst key'. destruct lk' as [[[[[[[g d] t] k] sp] cs] l]|]; [apply Q|exact Logic.I]. }
  apply elem_inj in E as [EA EB].
  assert (A0 : b64_display h = b64_display h') by (cbn [app] in EA; congruence). apply b64_inj in A0; auto. subst h'.
  assert (A1 : to_string ty = to_string ty') by (cbn [app] in EA; congruence). apply dec_inj in A1. subst ty'.
  assert (A2 : key = key' /\ lenN dat = lenN dat' /\ lenN ls = lenN ls' /\ dep = dep').
  { cbn [app] in EA. destruct key as [k|], key' as [k'|]; cbn [app] in EA; try discriminate EA.
    - assert (X0 : b64_display k = b64_display k') by congruence. assert (X1 : to_string (lenN dat) = to_string (lenN dat')) by congruence. assert (X2 : to_string (lenN ls) = to_string (lenN ls')) by congruence.
      assert (X3 : to_string dep = to_string dep') by congruence. apply b64_inj in X0; auto. apply dec_inj in X1, X2, X3. subst. auto.
    - assert (X1 : to_string (lenN dat) = to_string (lenN dat')) by congruence. assert (X2 : to_string (lenN ls) = to_string (lenN ls')) by congruence.
      assert (X3 : to_string dep = to_string dep') by congruence. apply dec_inj in X1, X2, X3. subst. auto. }
  destruct A2 as (AK & AD & AL & ->). clear EA. rewrite <- AK, <- AD, <- AL in EB. rewrite <- !app_assoc in EB. apply b64e_inj in EB as (_ & _ & EB); auto.
  assert (FOOT : forall x x', number_elem (str "lk-data-size") (lenN dat) ++ [Text [10]] ++ match shown with Some t => elem (str "pre") x (text (quoted t)) | None => [] end ++ [Close (str "div")] =
                        number_elem (str "lk-data-size") (lenN dat) ++ [Text [10]] ++ match shown' with Some t => elem (str "pre") x' (text (quoted t)) | None => [] end ++ [Close (str "div")] -> shown = shown').
  { intros x x' E. apply num_inj in E as (_ & _ & E). cbn [app] in E. match type of E with _ :: ?x = _ :: ?y => assert (E1 : x = y) by congruence end.
    destruct shown as [t|], shown' as [t'|]; [|discriminate E1|discriminate E1|reflexivity]. apply leaf_inj in E1 as (_ & _ & T & _). apply quoted_inj in T. now subst. }
  destruct lk as [[[[[[[g d] t] k] sp] cs] l]|], lk' as [[[[[[[g' d'] t'] k'] sp'] cs'] l']|].
  - subst ls ls' key key'. subst k'. destruct P as (P1 & P2 & _ & P3 & P4 & P5), Q as (Q1 & Q2 & _ & Q3 & Q4 & Q5). rewrite <- !app_assoc in EB. apply app_inv_head in EB.
    apply leaf_inj in EB as (_ & A & _ & EB). assert (D : b64_display d = b64_display d') by congruence. apply b64_inj in D; auto. subst d'.
    apply b64e_inj in EB as (_ & <- & EB); auto. apply num_inj in EB as (_ & <- & EB). apply num_inj in EB as (_ & _ & EB).
    apply elem_inj_r in EB as [S' EB].
    assert (S : b64_display sp = b64_display sp') by congruence. apply b64_inj in S; auto. subst sp'.
    cbn [app] in EB. match type of EB with _ :: ?x = _ :: ?y => assert (E : x = y) by congruence end. clear EB. apply comps_inj in E as [<- E]; auto.
    match type of E with _ :: ?x = _ :: ?y => assert (EB : x = y) by congruence end. clear E. apply num_inj in EB as (_ & _ & EB).
    apply elem_inj_r in EB as [_ EB]. cbn [app] in EB. match type of EB with _ :: ?x = _ :: ?y => assert (E : x = y) by congruence end. clear EB.
    fold link_elem in E. apply links_inj in E as [<- E]; auto. split; [repeat split; auto|]. exact (FOOT _ _ E).
  - exfalso. revert EB. clear. cbn [app]. destruct key; cbn; discriminate.
  - exfalso. revert EB. clear -AK. cbn [app]. destruct key'; cbn; discriminate.
  - cbn [app] in EB. split; [repeat split; auto|]. exact (FOOT _ _ EB).
Qed.
Lemma printed_as_ok p cs : bytes_ok (np_hash p) -> fields_ok (fields (point_parts p)) cs -> printed_ok (printed_as p cs).
Proof.
  intros H F. unfold printed_ok, printed_as. destruct (fields (point_parts p)) as [d|lp|lp s|d|d]; cbn [hp_hash hp_link lp_view fields_ok] in *; (split; [exact H|]); try exact Logic.I.
  - destruct F as (A & B & C & D & E). destruct (space_of_reads _ _ E C) as (_ & _ & X & Y). unfold lp_view. auto 10.
  - destruct F as ((A & B & C & D & E) & K). destruct (space_of_reads _ _ E C) as (_ & _ & X & Y). unfold lp_view. auto 10.
Qed.
End W.

(** ** References *)
Definition refchar (c : N) : bool := letter c || (48 <=? c) && (c <=? 57) || (c =? 59).
Definition ends (t : bytes) : Prop := match t with [] => True | c :: _ => refchar c = false end.
Lemma fits n : forall t m r, n ++ t = m ++ r -> Forall (fun c => refchar c = true) n -> ends r -> (List.length n <= List.length m)%nat.
Proof.
  induction n as [|c n IH]; intros t [|d m] r E F R; cbn [List.length]; try lia.
  - cbn in E. subst r. inversion F; subst. cbn in R. congruence.
  - cbn in E. injection E as -> E. inversion F; subst. specialize (IH _ _ _ E H2 R). lia.
Qed.
Lemma app_len_inv {A} (a : list A) : forall b x y, a ++ x = b ++ y -> List.length a = List.length b -> a = b /\ x = y.
Proof. induction a as [|c a IH]; intros [|d b] x y E L; try discriminate L; [auto|]. cbn in *. injection E as -> E. injection L as L. destruct (IH _ _ _ E L) as [-> ->]. auto. Qed.
Lemma nodup_fun {A B} (l : list (A * B)) n v w : NoDup (map fst l) -> In (n, v) l -> In (n, w) l -> v = w.
Proof.
  induction l as [|[a b] l IH]; cbn [map fst]; intros D I J; [contradiction|]. inversion D as [|? ? X D']; subst.
  destruct I as [I|I], J as [J|J]; [congruence| | |now apply IH].
  - injection I as -> ->. destruct X. apply (in_map fst) in J. exact J.
  - injection J as -> ->. destruct X. apply (in_map fst) in I. exact I.
Qed.
Lemma ref_step refs n v t s : legacy refs -> In (n, v) refs -> ends t -> shows refs (38 :: n ++ t) s <-> exists s', s = v ++ s' /\ shows refs t s'.
Proof.
  intros (ND & _ & _ & _ & C) I E. split.
  - intros H. inversion H as [|? ? ? X|n' v' t' s' I' L H' EQ|? ? X H' EQ]; subst.
    + now destruct X.
    + assert (L1 := L n v t I EQ). assert (L2 : (List.length n' <= List.length n)%nat) by (eapply fits; [exact EQ|apply (C n' v' I')|exact E]).
      destruct (app_len_inv _ _ _ _ EQ ltac:(lia)) as [-> ->]. rewrite (nodup_fun _ _ _ _ ND I' I). eauto.
    + destruct (X n v t I eq_refl).
  - intros (s' & -> & H). apply SRef; [exact I| |exact H]. intros n' v' t' I' EQ. eapply fits; [symmetry; exact EQ|apply (C n' v' I')|exact E].
Qed.
Lemma quoted_ends x t : In x [38; 60; 62] -> separated (x :: t) -> ends (quoted t).
Proof.
  intros I S. destruct t as [|y t]; [exact Logic.I|]. specialize (S [] x y t eq_refl I). cbn [quoted flat_map].
  destruct (y =? 38); [reflexivity|]. destruct (y =? 60); [reflexivity|]. destruct (y =? 62); [reflexivity|]. exact S.
Qed.
Lemma separated_tail x t : separated (x :: t) -> separated t.
Proof. intros S a u v b E. apply (S (x :: a) u v b). now rewrite E. Qed.
Lemma quoted_shows refs t : legacy refs -> separated t -> forall s, shows refs (quoted t) s <-> s = t.
Proof.
  intros L. induction t as [|c t IH]; intros S s.
  - cbn. split; [intros H; inversion H; reflexivity|intros ->; constructor].
  - specialize (IH (separated_tail _ _ S)). cbn [quoted flat_map]. fold (quoted t).
    assert (R : forall n v, In (n, [v]) refs -> c = v -> In c [38; 60; 62] -> shows refs (38 :: n ++ quoted t) s <-> s = c :: t).
    { intros n v I <- Ic. rewrite (ref_step _ _ _ _ _ L I (quoted_ends _ _ Ic S)). split; [intros (s' & -> & H); now apply IH in H as ->|intros ->; exists t; split; [reflexivity|now apply IH]]. }
    destruct (N.eqb_spec c 38) as [->|N1]; [apply (R (str "amp") 38); cbn; auto; apply L|].
    destruct (N.eqb_spec c 60) as [->|N2]; [apply (R (str "lt") 60); cbn; auto; apply L|].
    destruct (N.eqb_spec c 62) as [->|N3]; [apply (R (str "gt") 62); cbn; auto; apply L|].
    cbn [app]. split.
    + intros H. inversion H as [|? ? s' X H'| |]; subst; try congruence. apply IH in H' as ->. reflexivity.
    + intros ->. apply SChar; [exact N1|now apply IH].
Qed.
Lemma quoted_amp t : forall a b, quoted t = a ++ 38 :: b -> exists n r, In n [str "amp"; str "lt"; str "gt"] /\ b = n ++ r.
Proof.
  induction t as [|c t IH]; intros a b E; [destruct a; discriminate E|]. cbn [quoted flat_map] in E. fold (quoted t) in E.
  assert (G : forall n, In n [str "amp"; str "lt"; str "gt"] -> no 38 n -> (38 :: n) ++ quoted t = a ++ 38 :: b -> exists n r, In n [str "amp"; str "lt"; str "gt"] /\ b = n ++ r).
  { intros n I F Q. destruct a as [|x a]; [cbn in Q; injection Q as <-; eauto|]. cbn in Q. injection Q as <- Q. clear E.
    assert (P : exists a', quoted t = a' ++ 38 :: b).
    { clear I IH. revert a Q. induction n as [|y n IHn]; intros a Q; [eauto|]. inversion F; subst. destruct a as [|z a]; cbn in Q; [injection Q as Q _; congruence|]. injection Q as _ Q. exact (IHn H2 _ Q). }
    destruct P as [a' P]. exact (IH _ _ P). }
  destruct (c =? 38) eqn:A1; [apply (G (str "amp")); cbn; auto; apply no_dec; reflexivity|].
  destruct (c =? 60) eqn:A2; [apply (G (str "lt")); cbn; auto; apply no_dec; reflexivity|].
  destruct (c =? 62) eqn:A3; [apply (G (str "gt")); cbn; auto; apply no_dec; reflexivity|].
  destruct a as [|x a]; cbn in E; injection E as E0 E; [subst; discriminate A1|]. exact (IH _ _ E).
Qed.
