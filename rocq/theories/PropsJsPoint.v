(** C101: making points in JavaScript. *)
From Coq Require Import List NArith Lia Bool.
From Verif Require Import Bytes ModelSpace ModelPkt SpecSpace ProofSpace ProofRooted PropsSpace SpecPkt ProofPkt ProofPkt2 PropsPkt SpecFmt ModelFmt ProofFmt PropsFmt ModelStore ModelPy ProofStatus ModelPyPoint SpecPyPoint PropsPyPoint ModelLns ModelJsPoint SpecJsPoint.
Import ListNotations.
Local Open Scope N_scope.

(** ** Arguments *)
Lemma js_says_iff v b : js_bytelike v = Ok b <-> js_says v b.
Proof.
  unfold js_says. destruct v as [x|cs|l|p t| |]; cbn [js_bytelike].
  - split; [intros E; injection E as <-; now left|]. intros [E|(cs & E & _)]; [injection E as <-; reflexivity|discriminate].
  - split; [intros E; injection E as <-; right; now exists cs|]. intros [E|(cs' & E & ->)]; [discriminate|injection E as <-; reflexivity].
  - split; [discriminate|]. intros [E|(cs & E & _)]; discriminate.
  - split; [discriminate|]. intros [E|(cs & E & _)]; discriminate.
  - split; [discriminate|]. intros [E|(cs & E & _)]; discriminate.
  - split; [discriminate|]. intros [E|(cs & E & _)]; discriminate.
Qed.
Lemma falsy_iff v : is_falsy v = true <-> left_out v.
Proof.
  unfold left_out. destruct v as [x|cs|l|p t| |]; cbn [is_falsy].
  - split; [discriminate|]. intros [E|(cs & E & _)]; discriminate.
  - rewrite N.eqb_eq. split.
    + intros E. right. exists cs. split; [reflexivity|]. destruct (List.concat cs); [reflexivity|]. rewrite lenN_cons in E. lia.
    + intros [E|(cs' & E & Z)]; [discriminate|]. injection E as <-. now rewrite Z.
  - split; [discriminate|]. intros [E|(cs & E & _)]; discriminate.
  - split; [discriminate|]. intros [E|(cs & E & _)]; discriminate.
  - split; [now left|reflexivity].
  - split; [discriminate|]. intros [E|(cs & E & _)]; discriminate.
Qed.
Lemma given_cases {A} (dflt : A) v x P :
  js_given dflt v x P <-> if is_falsy v then x = dflt else P v x.
Proof.
  unfold js_given. pose proof (falsy_iff v) as F. destruct (is_falsy v).
  - assert (left_out v) as L by now apply F. tauto.
  - assert (~ left_out v) as L by (intros L; apply F in L; discriminate). tauto.
Qed.
Lemma js_group_iff v g : js_group v = Ok g <-> js_given PUBLIC v g js_is_group.
Proof.
  rewrite given_cases. unfold js_group, opt_bytelike. destruct (is_falsy v); cbn [obind]; [split; congruence|]. unfold js_is_group. split.
  - destruct (js_bytelike v) as [b| | |] eqn:A; try discriminate. apply js_says_iff in A. cbn [obind]. destruct (b64_fit_or_parse 32 b) as [x|] eqn:F; [|discriminate]. cbn [raised_opt]. intros E. injection E as <-. exists b. split; [exact A|]. now apply names32_iff.
  - intros (b & S & N). apply js_says_iff in S. rewrite S. cbn [obind]. apply names32_iff in N. now rewrite N.
Qed.
Lemma js_domain_iff v d : js_domain v = Ok d <-> js_given (repeat 0 16) v d js_is_domain.
Proof.
  rewrite given_cases. unfold js_domain, opt_bytelike. destruct (is_falsy v); cbn [obind]; [split; congruence|]. unfold js_is_domain. split.
  - destruct (js_bytelike v) as [b| | |] eqn:A; try discriminate. apply js_says_iff in A. cbn [obind]. intros E. exists b. split; [exact A|]. now apply names16_iff.
  - intros (b & S & N). apply js_says_iff in S. rewrite S. cbn [obind]. now apply names16_iff.
Qed.
Lemma js_stamp_iff now v s : js_stamp now v = Ok s <-> js_given now v s js_is_stamp.
Proof.
  rewrite given_cases. unfold js_stamp. destruct (is_falsy v); [split; congruence|]. unfold js_is_stamp. split.
  - destruct v as [b|cs|l|p t| |]; try discriminate. destruct (N.eqb_spec (lenN b) 8); [|discriminate]. intros E. apply (f_equal (fun x => match x with Ok y => y | _ => 0 end)) in E. exists b. auto.
  - intros (b & -> & L & ->). now rewrite L.
Qed.
Lemma js_all_bytes_iff l cs : js_all_bytes l = Ok cs <-> Forall2 js_says l cs.
Proof.
  revert cs. induction l as [|v l IH]; intros cs; cbn [js_all_bytes].
  - split; [intros E; injection E as <-; constructor|]. intros F. inversion F. reflexivity.
  - split.
    + destruct (js_bytelike v) as [b| | |] eqn:B; try discriminate. cbn [obind]. destruct (js_all_bytes l) as [bs| | |] eqn:A; try discriminate. cbn [obind]. intros E. injection E as <-. constructor; [now apply js_says_iff|now apply IH].
    + intros F. inversion F as [|x y l' cs' S F']; subst. apply js_says_iff in S. rewrite S. cbn [obind]. apply IH in F'. now rewrite F'.
Qed.
Lemma js_space_list l r : js_space (JsIter l) = Ok r <-> exists cs, Forall2 js_says l cs /\ space_ok cs /\ (List.length cs <= 8)%nat /\ r = wire_rooted cs.
Proof.
  unfold js_space. cbn [is_falsy js_iter obind]. split.
  - destruct (js_all_bytes l) as [cs| | |] eqn:A; try discriminate. cbn [obind]. rewrite raised_ok. intros E. apply C17_rooted_build in E as (S & L & ->). exists cs. apply js_all_bytes_iff in A. auto.
  - intros (cs & F & S & L & ->). apply js_all_bytes_iff in F. rewrite F. cbn [obind]. apply raised_ok, C17_rooted_build. auto.
Qed.
Lemma js_space_bytes b r : js_space (JsU b) = Ok r <-> exists cs, space_ok cs /\ b = wire_space cs /\ r = wire_rooted (firstn 8 cs).
Proof. exact (space_bytes b r). Qed.
Lemma js_space_means v cs : js_given [] v cs js_is_space -> js_space v = Ok (wire_rooted cs) /\ space_ok cs /\ (List.length cs <= 8)%nat.
Proof.
  rewrite given_cases. destruct (is_falsy v) eqn:Z.
  - intros ->. split; [unfold js_space; now rewrite Z|]. split; [exact space_ok_nil|cbn; lia].
  - intros (S & L & M). split; [|auto]. destruct v as [b|t|l|p t| |]; try contradiction.
    + apply js_space_bytes. exists cs. rewrite firstn_all2 by exact L. auto.
    + apply js_space_list. exists cs. auto.
Qed.
(** An item that is the 48 bytes of a link. *)
Definition raw_link (v : JsVal) : Prop := exists b, v = JsU b.
Lemma byte_array n v b : as_byte_array n v = Ok b <-> v = JsU b /\ lenN b = n.
Proof.
  destruct v as [x|cs|l|p t| |]; cbn [as_byte_array]; try (split; [discriminate|intros [E _]; discriminate]).
  destruct (N.eqb_spec (lenN x) n) as [L|L]; cbn [negb]; split; try discriminate.
  - intros E. injection E as <-. auto.
  - intros [E _]. injection E as <-. reflexivity.
  - intros [E X]. injection E as <-. contradiction.
Qed.
Lemma try_as_link_iff v k : try_as_link v = Ok k <-> js_is_link v k /\ ~ raw_link v.
Proof.
  unfold try_as_link, js_is_link, raw_link. destruct v as [x|cs|l|p t| |]; cbn [reflect_ptr reflect_tag];
    try (cbn [as_byte_array obind]; split; [discriminate|intros [(_ & _ & [E|E]) _]; discriminate]).
  - cbn [as_byte_array obind]. split; [discriminate|]. intros [_ H]. exfalso. apply H. now exists x.
  - split.
    + destruct (as_byte_array 32 p) as [a| | |] eqn:A; try discriminate. apply byte_array in A as [-> La]. cbn [obind].
      destruct (as_byte_array 16 t) as [b| | |] eqn:B; try discriminate. apply byte_array in B as [-> Lb]. cbn [obind].
      intros E. injection E as <-. cbn [fst snd]. split; [auto|]. intros (b' & X). discriminate.
    + intros [(L1 & L2 & [E|E]) _]; [|discriminate]. injection E as -> ->.
      assert (as_byte_array 32 (JsU (snd k)) = Ok (snd k)) as -> by now apply byte_array.
      assert (as_byte_array 16 (JsU (fst k)) = Ok (fst k)) as -> by now apply byte_array.
      cbn [obind]. now destruct k.
Qed.
Lemma try_links_iff l ks : try_links l = Ok ks <-> Forall2 js_is_link l ks /\ Forall (fun v => ~ raw_link v) l.
Proof.
  revert ks. induction l as [|v l IH]; intros ks; cbn [try_links].
  - split; [intros E; injection E as <-; split; constructor|]. intros [F _]. inversion F. reflexivity.
  - split.
    + destruct (try_as_link v) as [k| | |] eqn:B; try discriminate. cbn [obind]. destruct (try_links l) as [bs| | |] eqn:A; try discriminate. cbn [obind]. intros E. injection E as <-.
      apply try_as_link_iff in B as [B N]. destruct (proj1 (IH bs) eq_refl) as [A' M]. split; constructor; assumption.
    + intros [F G]. inversion F as [|x y l' ks' S F']; subst. inversion G as [|x' l'' N G']; subst.
      assert (try_as_link v = Ok y) as -> by now apply try_as_link_iff. cbn [obind].
      assert (try_links l = Ok ks') as -> by now apply IH. reflexivity.
Qed.
Lemma cast_links_iff n : forall b ls, lenN b = 48 * N.of_nat n ->
  (cast_links n b = ls <-> Forall link_ok ls /\ b = List.concat (map (fun k => fst k ++ snd k) ls)).
Proof.
  induction n as [|n IH]; intros b ls L; cbn [cast_links].
  - assert (b = []) as -> by (destruct b; [reflexivity|rewrite lenN_cons in L; lia]). split.
    + intros <-. split; [constructor|reflexivity].
    + intros [F E]. destruct F as [|[t p] ls [T P] F]; [reflexivity|]. cbn [map List.concat fst snd] in *.
      apply (f_equal lenN) in E. rewrite !lenN_app in E. change (lenN []) with 0 in E. lia.
  - assert (L1 : lenN (takeN 48 b) = 48) by (rewrite lenN_takeN; lia).
    assert (L2 : lenN (dropN 48 b) = 48 * N.of_nat n) by (rewrite lenN_dropN; lia).
    split.
    + intros <-. destruct (proj1 (IH (dropN 48 b) _ L2) eq_refl) as [F E]. split.
      * constructor; [|exact F]. split; cbn [link_cast fst snd]; [rewrite lenN_takeN|rewrite lenN_dropN]; lia.
      * cbn [map List.concat link_cast fst snd]. rewrite takeN_dropN. rewrite <- E. now rewrite takeN_dropN.
    + intros [F E]. destruct F as [|k ls K F].
      { cbn in E. subst b. change (lenN []) with 0 in L. lia. }
      cbn [map List.concat] in E. destruct K as [T P].
      assert (LK : lenN (fst k ++ snd k) = 48) by (rewrite lenN_app; lia).
      assert (E1 : takeN 48 b = fst k ++ snd k) by (rewrite E; apply takeN_app_exact; congruence).
      assert (E2 : dropN 48 b = List.concat (map (fun k => fst k ++ snd k) ls)) by (rewrite E; apply dropN_app_exact; congruence).
      f_equal; [|now apply IH]. rewrite E1. unfold link_cast. rewrite takeN_app_exact, dropN_app_exact by congruence. now destruct k.
Qed.
(** No item of a list of links is the bytes of one. *)
Definition object_links (v : JsVal) : Prop := match v with JsIter l => Forall (fun v => ~ raw_link v) l | _ => True end.
Lemma js_links_iff v ls : js_links v = Ok ls <-> js_given [] v ls js_is_links /\ object_links v.
Proof.
  rewrite given_cases. unfold js_links. destruct (is_falsy v) eqn:Z.
  - split; [|intros [-> _]; reflexivity]. intros E. injection E as <-. split; [reflexivity|]. destruct v; try discriminate; exact I.
  - destruct v as [b|cs|l|p t| |]; cbn [js_iter obind js_is_links object_links]; try (split; [discriminate|intros [[] _]]).
    + destruct (N.eqb_spec (lenN b mod 48) 0) as [M|M]; cbn [negb].
      * assert (L : lenN b = 48 * N.of_nat (N.to_nat (lenN b / 48))).
        { rewrite N2Nat.id. pose proof (N.div_mod (lenN b) 48 ltac:(discriminate)) as D. lia. }
        pose proof (cast_links_iff _ b ls L) as X. split.
        { intros E. split; [|exact I]. apply X. congruence. }
        { intros [E _]. f_equal. now apply X. }
      * split; [discriminate|]. intros [[F E] _]. exfalso. apply M. subst b. clear -F.
        assert (H : lenN (List.concat (map (fun k : bytes * bytes => fst k ++ snd k) ls)) = lenN ls * 48).
        { induction F as [|k ls [T P] F IH]; [reflexivity|]. cbn [map List.concat]. rewrite !lenN_app, IH, lenN_cons, T, P. lia. }
        rewrite H. now apply N.mod_mul.
    + apply try_links_iff.
Qed.
Lemma js_links_ok v ls : js_given [] v ls js_is_links -> Forall link_ok ls.
Proof.
  rewrite given_cases. destruct (is_falsy v); [intros ->; constructor|].
  destruct v as [b|cs|l|p t| |]; cbn [js_is_links]; try contradiction; [intros [F _]; exact F|].
  intros F. induction F as [|x k l ls (T & P & _) F IH]; constructor; [split; assumption|exact IH].
Qed.

(** ** Points *)
Section Points.
  Variable c : crypto.
  Variables (nh : bytes) (now : N).
  Notation make := (js_point c now nh).
  Lemma js_made k g d cs ls data s : Forall link_ok ls -> space_ok cs -> (List.length cs <= 8)%nat ->
    let p := point_of c k (mkMeaning data g d cs ls s) in
    obind (raised (try_point c g d (wire_rooted cs) ls data s k nh)) (fun np => Ok (np_bytes np)) =
    if point_size p <=? 65024 then Ok (packet (hash c) nh p) else Err tt.
  Proof.
    intros F S L p. pose proof (wire_rooted_ok cs S L) as R. unfold try_point. destruct k as [k|].
    - rewrite try_keypoint_eval by assumption. change (key_point c g d s ls (wire_rooted cs) data k) with p. destruct (N.leb_spec (point_size p) 65024); cbn [raised obind]; [|reflexivity]. unfold np_bytes. now rewrite seg_net.
    - rewrite try_linkpoint_eval by assumption. change (PLink g d s ls (wire_rooted cs) data) with p. destruct (N.leb_spec (point_size p) 65024); cbn [raised obind]; [|reflexivity]. unfold np_bytes. now rewrite seg_net.
  Qed.
  (** The packet made is that of the arguments, unless it is too large; links as bytes in a list are left out here. *)
  Theorem C101_made_partial : forall k data f m, object_links (f_links f) -> js_means PUBLIC now data f m ->
    make k data f = if point_size (point_of c k m) <=? 65024 then Ok (packet (hash c) nh (point_of c k m)) else Err tt.
  Proof.
    intros k v f [data g d cs ls s] OL (D & G & DM & SP & LS & ST). cbn [m_data m_group m_domain m_space m_links m_stamp] in *.
    pose proof (js_links_ok _ _ LS) as LO.
    unfold js_point. apply js_says_iff in D. rewrite D. cbn [obind]. unfold common_args.
    apply js_group_iff in G. rewrite G. cbn [obind]. apply js_domain_iff in DM. rewrite DM. cbn [obind].
    apply js_space_means in SP as (SP & SO & L8). rewrite SP. cbn [obind].
    assert (js_links (f_links f) = Ok ls) as -> by now apply js_links_iff. cbn [obind].
    apply js_stamp_iff in ST. rewrite ST. cbn [obind].
    now apply js_made.
  Qed.
  (** Every packet made is that of the arguments, if the space, as bytes, has at most eight components. *)
  Definition shallow (v : JsVal) : Prop := match v with JsU b => forall cs, space_ok cs -> b = wire_space cs -> (List.length cs <= 8)%nat | _ => True end.
  Theorem C101_only_partial : forall k data f y, shallow (f_space f) -> make k data f = Ok y ->
    exists m, js_means PUBLIC now data f m /\ point_size (point_of c k m) <= 65024 /\ y = packet (hash c) nh (point_of c k m).
  Proof.
    intros k v f y PS. unfold js_point, common_args.
    destruct (js_bytelike v) as [data| | |] eqn:D; try discriminate. cbn [obind].
    destruct (js_group (f_group f)) as [g| | |] eqn:G; try discriminate. cbn [obind].
    destruct (js_domain (f_domain f)) as [d| | |] eqn:DM; try discriminate. cbn [obind].
    destruct (js_space (f_space f)) as [r| | |] eqn:SP; try discriminate. cbn [obind].
    destruct (js_links (f_links f)) as [ls| | |] eqn:LS; try discriminate. cbn [obind].
    destruct (js_stamp now (f_create f)) as [s| | |] eqn:ST; try discriminate. cbn [obind].
    assert (exists cs, js_given [] (f_space f) cs js_is_space /\ r = wire_rooted cs) as (cs & SM & ->).
    { destruct (is_falsy (f_space f)) eqn:Z.
      - unfold js_space in SP. rewrite Z in SP. injection SP as <-. exists []. split; [|reflexivity]. apply given_cases. now rewrite Z.
      - assert (forall cs, js_is_space (f_space f) cs -> js_given [] (f_space f) cs js_is_space) as GV by (intros cs H; apply given_cases; now rewrite Z).
        unfold shallow in PS. destruct (f_space f) as [b|t|l|p t| |];
          try (unfold js_space in SP; rewrite Z in SP; discriminate SP).
        + apply js_space_bytes in SP as (cs & S & -> & ->). pose proof (PS cs S eq_refl) as L. exists cs. rewrite firstn_all2 by exact L. split; [|reflexivity]. apply GV. split; [exact S|]. split; [exact L|reflexivity].
        + apply js_space_list in SP as (cs & F & S & L & ->). exists cs. split; [|reflexivity]. apply GV. split; [exact S|]. split; [exact L|exact F]. }
    pose proof (js_space_means _ _ SM) as (_ & SO & L8).
    apply js_links_iff in LS as [LS _]. pose proof (js_links_ok _ _ LS) as LO. intros E.
    pose proof (js_made k g d cs ls data s) as MD. cbv zeta in MD. rewrite MD in E; [|exact LO|exact SO|exact L8].
    destruct (N.leb_spec (point_size (point_of c k (mkMeaning data g d cs ls s))) 65024) as [LE|]; [|discriminate].
    exists (mkMeaning data g d cs ls s). split; [|split; [exact LE|]].
    - unfold js_means. cbn [m_data m_group m_domain m_space m_links m_stamp].
      split; [now apply js_says_iff|]. split; [now apply js_group_iff|]. split; [now apply js_domain_iff|]. split; [exact SM|]. split; [exact LS|now apply js_stamp_iff].
    - exact (eq_sym (f_equal (fun x => match x with Ok y => y | _ => y end) E)).
  Qed.
  (** A list of links with the 48 bytes of a link in it, which [try_as_link] means to take, is refused. *)
  Theorem C101_link_bytes_refuted : forall k data f y l tag ptr, lenN tag = 16 -> lenN ptr = 32 ->
    f_links f = JsIter l -> In (JsU (tag ++ ptr)) l -> js_is_link (JsU (tag ++ ptr)) (tag, ptr) /\ make k data f <> Ok y.
  Proof.
    intros k v f y l tag ptr T P E H. split; [split; [exact T|split; [exact P|now right]]|]. intros X. unfold js_point, common_args in X. rewrite E in X.
    destruct (js_bytelike v) as [data| | |]; try discriminate. cbn [obind] in X.
    destruct (js_group (f_group f)) as [g| | |]; try discriminate. cbn [obind] in X.
    destruct (js_domain (f_domain f)) as [d| | |]; try discriminate. cbn [obind] in X.
    destruct (js_space (f_space f)) as [r| | |]; try discriminate. cbn [obind] in X.
    destruct (js_links (JsIter l)) as [ls| | |] eqn:LS; try discriminate.
    apply js_links_iff in LS as [_ N]. cbn [object_links] in N. rewrite Forall_forall in N. apply (N _ H). now exists (tag ++ ptr).
  Qed.
  (** Of the bytes of a deeper space the components after the eighth are dropped. *)
  Theorem C101_deep_refuted : forall cs, space_ok cs -> (8 < List.length cs)%nat ->
    let f := mkFields JsFalsy JsFalsy (JsU (wire_space cs)) JsFalsy JsFalsy in
    (forall m, ~ js_means PUBLIC now (JsS []) f m) /\
    make None (JsS []) f = Ok (packet (hash c) nh (PLink PUBLIC (repeat 0 16) now [] (wire_rooted (firstn 8 cs)) [])).
  Proof.
    intros cs S L f. split.
    - intros m (_ & _ & _ & SP & _). apply given_cases in SP. cbn [f f_space is_falsy js_is_space] in SP. destruct SP as (S' & L' & E). assert (cs = m_space m) as X by (eapply C13_components_unique; split; [exact S|reflexivity|exact S'|exact E]). rewrite X in L. lia.
    - assert (space_ok (firstn 8 cs)) as S8 by (apply (space_ok_app_inv _ (skipn 8 cs)); now rewrite firstn_skipn). assert (List.length (firstn 8 cs) <= 8)%nat as L8 by (rewrite firstn_length; lia).
      unfold js_point, common_args, f. cbn [f_group f_domain f_space f_links f_create js_bytelike List.concat].
      assert (js_space (JsU (wire_space cs)) = Ok (wire_rooted (firstn 8 cs))) as -> by (apply js_space_bytes; eauto).
      unfold js_group, js_domain, opt_bytelike, js_links, js_stamp. cbn [is_falsy obind].
      pose proof (js_made None PUBLIC (repeat 0 16) (firstn 8 cs) [] [] now) as MD. cbv zeta in MD. rewrite MD; [|constructor|exact S8|exact L8].
      unfold point_of, link_point_of. cbn [m_data m_group m_domain m_space m_links m_stamp point_size]. change (lenN []) with 0. rewrite N.mul_0_r, !N.add_0_r.
      pose proof (rooted_ok_len _ (wire_rooted_ok _ S8 L8)) as RL. assert (64 + lenN (wire_rooted (firstn 8 cs)) <= 65024) as SZ by lia. apply N.leb_le in SZ. now rewrite SZ.
  Qed.
End Points.
(** ** Examples *)
Local Ltac small_space := split; [repeat (apply Forall_cons; [unfold component_ok; cbn; lia|]); apply Forall_nil|vm_compute; discriminate].
Local Ltac truthy := right; split; [intros [E|(cs & E & Z)]; [discriminate|try discriminate; injection E as <-; discriminate]|].
Definition ex_tag : bytes := repeat 0 15 ++ [116].
Definition ex_fields : JsFields := mkFields (JsS [b64_display ex_group]) (JsS [str "dom"]) (JsIter [JsU (str "a"); JsS [str "b"; str "c"]])
  (JsIter [JsObj (JsU ex_hash) (JsU ex_tag)]) (JsU [0;0;0;0;0;0;1;2]).
Definition ex_js_meaning : Meaning := mkMeaning (str "hi") ex_group (repeat 0 13 ++ str "dom") [str "a"; str "bc"] [(ex_tag, ex_hash)] 258.
Example C101_ex : object_links (f_links ex_fields) /\ shallow (f_space ex_fields) /\ js_means PUBLIC 5 (JsS [str "hi"]) ex_fields ex_js_meaning /\
  point_size (link_point_of ex_js_meaning) = 127.
Proof.
  split; [constructor; [intros (b & E); discriminate|constructor]|]. split; [exact I|]. split; [|reflexivity].
  assert (space_ok [str "a"; str "bc"]) as S by (small_space).
  split; [right; now exists [str "hi"]|]. split; [|split; [|split; [|split]]].
  - truthy. exists (b64_display ex_group). split; [right; exists [b64_display ex_group]; split; [reflexivity|cbn [List.concat]; now rewrite app_nil_r]|].
    split; [reflexivity|]. right. assert (bytes_ok ex_group) as O by (repeat constructor). split; [exact O|]. now apply C44_b64_print.
  - truthy. exists (str "dom"). split; [right; now exists [str "dom"]|]. split; [vm_compute; discriminate|reflexivity].
  - truthy. split; [exact S|]. split; [cbn; lia|]. constructor; [now left|]. constructor; [right; now exists [str "b"; str "c"]|constructor].
  - truthy. constructor; [|constructor]. split; [reflexivity|]. split; [reflexivity|]. now left.
  - truthy. exists [0;0;0;0;0;0;1;2]. split; [reflexivity|]. split; reflexivity.
Qed.
(** The same links as bytes. *)
Example C101_links_ex : js_links (JsU (ex_tag ++ ex_hash ++ ex_hash ++ ex_tag)) = Ok [(ex_tag, ex_hash); (takeN 16 ex_hash, dropN 16 ex_hash ++ ex_tag)] /\
  js_links (JsIter [JsU (ex_tag ++ ex_hash)]) = Err tt /\ js_links (JsU [1]) = Err tt.
Proof. split; [vm_compute; reflexivity|]. split; vm_compute; reflexivity. Qed.
Example C101_deep_ex : space_ok (repeat (str "a") 9) /\ (8 < List.length (repeat (str "a") 9))%nat.
Proof. split; [small_space|cbn; lia]. Qed.
Print Assumptions C101_made_partial.
Print Assumptions C101_only_partial.
Print Assumptions C101_link_bytes_refuted.
Print Assumptions C101_deep_refuted.
