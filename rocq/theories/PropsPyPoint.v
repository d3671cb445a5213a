(** C98: making points in Python. *)
From Coq Require Import List NArith Lia Bool.
From Verif Require Import Bytes ModelSpace ModelPkt SpecSpace ProofSpace ProofRooted PropsSpace SpecPkt ProofPkt ProofPkt2 PropsPkt SpecFmt ModelFmt ProofFmt PropsFmt ModelStore ModelPy ProofStatus ModelPyPoint SpecPyPoint.
Import ListNotations.
Local Open Scope N_scope.

(** ** Arguments *)
Lemma says_iff v b : bytelike v = Ok b <-> says v b.
Proof.
  unfold says. destruct v as [x|cs|l|]; cbn [bytelike].
  - split; [intros E; injection E as <-; now left|]. intros [E|(cs & E & _)]; [injection E as <-; reflexivity|discriminate].
  - split; [intros E; injection E as <-; right; now exists cs|]. intros [E|(cs' & E & ->)]; [discriminate|injection E as <-; reflexivity].
  - split; [discriminate|]. intros [E|(cs & E & _)]; discriminate.
  - split; [discriminate|]. intros [E|(cs & E & _)]; discriminate.
Qed.
Lemma bytes_iff v b : arg_bytes v = Ok b <-> v = PyB b.
Proof. destruct v as [x|cs|l|]; cbn [arg_bytes]; split; try discriminate; intros E; injection E as <-; reflexivity. Qed.
Lemma names32_iff b g : b64_fit_or_parse 32 b = Some g <-> names32 b g.
Proof.
  unfold b64_fit_or_parse, names32. destruct (b64_parse 32 b) as [x|] eqn:P.
  - pose proof P as Q. apply C44_b64_parse_exact in P as (O & L & T). split.
    + intros E. injection E as <-. auto.
    + intros (L' & [->|[O' T']]).
      * unfold b64_parse in Q. rewrite L' in Q. discriminate Q.
      * f_equal. assert (b64_parse 32 b = Some g) as R by (apply C44_b64_parse_exact; auto). congruence.
  - unfold fit, fit_front. destruct (N.eqb_spec (lenN b) 32) as [E|E]; cbn [negb].
    + rewrite E. cbn [N.ltb N.compare Pos.compare Pos.compare_cont N.sub Pos.sub_mask N.to_nat]. rewrite N.sub_diag. cbn [N.to_nat repeat]. rewrite app_nil_r. split.
      * intros X. injection X as <-. auto.
      * intros (L & [->|[O T]]); [reflexivity|]. assert (b64_parse 32 b = Some g) as R by (apply C44_b64_parse_exact; auto). congruence.
    + split; [discriminate|]. intros (L & [->|[O T]]); [contradiction|]. assert (b64_parse 32 b = Some g) as R by (apply C44_b64_parse_exact; auto). congruence.
Qed.
Lemma names16_iff b d : raised (fit_back 0 16 b) = Ok d <-> names16 b d.
Proof.
  unfold fit_back, names16. destruct (N.ltb_spec 16 (lenN b)); cbn [raised]; split.
  - discriminate.
  - intros [X _]. lia.
  - intros E. injection E as <-. auto.
  - intros [_ ->]. reflexivity.
Qed.
Lemma group_iff dflt v g : grp_arg dflt v = Ok g <-> given dflt v g is_group.
Proof.
  destruct v as [v|]; cbn [grp_arg given]; [|split; [intros E; injection E; auto|intros ->; reflexivity]]. unfold is_group. split.
  - destruct (arg_bytes v) as [b| | |] eqn:A; try discriminate. apply bytes_iff in A as ->. cbn [obind]. destruct (b64_fit_or_parse 32 b) as [x|] eqn:F; [|discriminate]. cbn [raised_opt]. intros E. injection E as <-. exists b. split; [reflexivity|]. now apply names32_iff.
  - intros (b & -> & N). cbn [arg_bytes obind]. apply names32_iff in N. now rewrite N.
Qed.
Lemma domain_some v d : domain_arg [] (Some v) = Ok d <-> exists b, v = PyB b /\ names16 b d.
Proof.
  cbn [domain_arg]. split.
  - destruct (arg_bytes v) as [b| | |] eqn:A; try discriminate. apply bytes_iff in A as ->. cbn [obind]. intros E. exists b. split; [reflexivity|]. now apply names16_iff.
  - intros (b & -> & N). cbn [arg_bytes obind]. now apply names16_iff.
Qed.
Lemma stamp_iff now v s : stamp_arg now v = Ok s <-> given now v s is_stamp.
Proof.
  destruct v as [v|]; cbn [stamp_arg given]; [|split; [intros E; injection E; auto|intros ->; reflexivity]]. unfold is_stamp. split.
  - destruct (arg_bytes v) as [b| | |] eqn:A; try discriminate. apply bytes_iff in A as ->. cbn [obind]. destruct (N.eqb_spec (lenN b) 8); [|discriminate]. intros E. apply (f_equal (fun x => match x with Ok y => y | _ => 0 end)) in E. exists b. auto.
  - intros (b & -> & L & ->). cbn [arg_bytes obind]. now rewrite L.
Qed.
Lemma all_bytes_iff l cs : all_bytes l = Ok cs <-> Forall2 says l cs.
Proof.
  revert cs. induction l as [|v l IH]; intros cs; cbn [all_bytes].
  - split; [intros E; injection E as <-; constructor|]. intros F. inversion F. reflexivity.
  - split.
    + destruct (bytelike v) as [b| | |] eqn:B; try discriminate. cbn [obind]. destruct (all_bytes l) as [bs| | |] eqn:A; try discriminate. cbn [obind]. intros E. injection E as <-. constructor; [now apply says_iff|now apply IH].
    + intros F. inversion F as [|x y l' cs' S F']; subst. apply says_iff in S. rewrite S. cbn [obind]. apply IH in F'. now rewrite F'.
Qed.
Lemma raised_ok {E A} (o : outcome E A) a : raised o = Ok a <-> o = Ok a.
Proof. destruct o; cbn [raised]; split; try discriminate; intros X; injection X as <-; reflexivity. Qed.
Lemma space_bytes b r : space_arg (Some (PyB b)) = Ok r <-> exists cs, space_ok cs /\ b = wire_space cs /\ r = wire_rooted (firstn 8 cs).
Proof.
  cbn [space_arg]. rewrite raised_ok. split.
  - unfold space_from_slice. destruct (check_components b) as [n| | |] eqn:C; try discriminate. apply check_components_iff in C as (cs & S & -> & _). cbn [obind]. rewrite try_into_rooted_wire by exact S. intros E. injection E as <-. exists cs. auto.
  - intros (cs & S & -> & ->). rewrite slice_space by exact S. cbn [obind]. now apply try_into_rooted_wire.
Qed.
Lemma space_list l r : space_arg (Some (PyList l)) = Ok r <-> exists cs, Forall2 says l cs /\ space_ok cs /\ (List.length cs <= 8)%nat /\ r = wire_rooted cs.
Proof.
  cbn [space_arg py_iter obind]. split.
  - destruct (all_bytes l) as [cs| | |] eqn:A; try discriminate. cbn [obind]. rewrite raised_ok. intros E. apply C17_rooted_build in E as (S & L & ->). exists cs. apply all_bytes_iff in A. auto.
  - intros (cs & F & S & L & ->). apply all_bytes_iff in F. rewrite F. cbn [obind]. apply raised_ok, C17_rooted_build. auto.
Qed.
Lemma space_means v cs : given [] v cs is_space -> space_arg v = Ok (wire_rooted cs) /\ space_ok cs /\ (List.length cs <= 8)%nat.
Proof.
  destruct v as [v|]; cbn [given].
  - intros (S & L & M). split; [|auto]. destruct v as [b|t|l|]; try contradiction.
    + apply space_bytes. exists cs. rewrite firstn_all2 by exact L. auto.
    + apply space_list. exists cs. auto.
  - intros ->. split; [reflexivity|]. split; [exact space_ok_nil|cbn; lia].
Qed.
(** [domain=] given as a text, which the interface allows, is an exception. *)
Definition text_domain (a : PyArgs) : Prop := exists cs, a_domain a = Some (PyS cs).
Lemma domain_means dflt v d : given dflt v d is_domain -> (forall cs, v <> Some (PyS cs)) -> domain_arg dflt v = Ok d.
Proof.
  destruct v as [v|]; cbn [given]; [|intros ->; reflexivity]. intros (b & [->|(cs & -> & _)] & N) T; [|exfalso; now apply (T cs)]. apply domain_some. eauto.
Qed.

(** ** Points *)
Section Points.
  Variable c : crypto.
  Variables (dgroup ddomain nh : bytes) (now recv : N).
  Notation make := (py_point c dgroup ddomain now recv nh).
  (** the point of a meaning, signed or not *)
  Definition point_of (k : option (skey c)) (m : Meaning) : point :=
    match k with
    | None => link_point_of m
    | Some k => let unsigned := PKey (m_group m) (m_domain m) (m_stamp m) (m_links m) (wire_rooted (m_space m)) (m_data m) (pubkey_of c k) [] in
        PKey (m_group m) (m_domain m) (m_stamp m) (m_links m) (wire_rooted (m_space m)) (m_data m) (pubkey_of c k) (sign_hash c k (hash c (unsigned_content unsigned)))
    end.
  Lemma made k g d cs ls data s : Forall link_ok ls -> space_ok cs -> (List.length cs <= 8)%nat ->
    let p := point_of k (mkMeaning data g d cs ls s) in
    obind (raised (try_point c g d (wire_rooted cs) ls data s k nh)) (fun np => Ok (from_dyn (np_bytes np) None recv)) =
    if point_size p <=? 65024 then Ok (from_dyn (packet (hash c) nh p) None recv) else Err tt.
  Proof.
    intros F S L p. pose proof (wire_rooted_ok cs S L) as R. unfold try_point. destruct k as [k|].
    - rewrite try_keypoint_eval by assumption. change (key_point c g d s ls (wire_rooted cs) data k) with p. destruct (N.leb_spec (point_size p) 65024); cbn [raised obind]; [|reflexivity]. unfold np_bytes. now rewrite seg_net.
    - rewrite try_linkpoint_eval by assumption. change (PLink g d s ls (wire_rooted cs) data) with p. destruct (N.leb_spec (point_size p) 65024); cbn [raised obind]; [|reflexivity]. unfold np_bytes. now rewrite seg_net.
  Qed.
  Definition links_ok (a : PyArgs) : Prop := match a_links a with None => True | Some l => Forall link_ok l end.
  (** The packet made is that of the arguments, unless it is too large; the text of a domain is left out here. *)
  Theorem C98_made_partial : forall k a m, links_ok a -> ~ text_domain a -> means dgroup ddomain now a m ->
    make k a = if point_size (point_of k m) <=? 65024 then Ok (from_dyn (packet (hash c) nh (point_of k m)) None recv) else Err tt.
  Proof.
    intros k a [data g d cs ls s] LO TD (D & G & DM & SP & LS & ST). cbn [m_data m_group m_domain m_space m_links m_stamp] in *. unfold py_point.
    assert (match a_data a with None => Ok [] | Some v => bytelike v end = Ok data) as ->.
    { destruct (a_data a) as [v|]; cbn [given] in D; [now apply says_iff|now subst]. }
    cbn [obind]. apply group_iff in G. rewrite G. cbn [obind]. rewrite (domain_means _ _ _ DM) by (intros t E; apply TD; now exists t). cbn [obind].
    apply space_means in SP as (SP & SO & L8). rewrite SP. cbn [obind]. cbv zeta. rewrite <- LS. apply stamp_iff in ST. rewrite ST. cbn [obind].
    apply made; [|exact SO|exact L8]. rewrite LS. unfold links_ok in LO. destruct (a_links a); [exact LO|constructor].
  Qed.
  (** Every packet made is that of the arguments, if the space is not a text and, as bytes, has at most eight components. *)
  Definition plain_space (a : PyArgs) : Prop :=
    match a_space a with Some (PyS _) => False | Some (PyB b) => forall cs, space_ok cs -> b = wire_space cs -> (List.length cs <= 8)%nat | _ => True end.
  Theorem C98_only_partial : forall k a y, links_ok a -> plain_space a -> make k a = Ok y ->
    exists m, means dgroup ddomain now a m /\ point_size (point_of k m) <= 65024 /\ y = from_dyn (packet (hash c) nh (point_of k m)) None recv.
  Proof.
    intros k a y LO PS. unfold py_point.
    destruct (match a_data a with None => Ok [] | Some v => bytelike v end) as [data| | |] eqn:D; try discriminate. cbn [obind].
    destruct (grp_arg dgroup (a_group a)) as [g| | |] eqn:G; try discriminate. cbn [obind].
    destruct (domain_arg ddomain (a_domain a)) as [d| | |] eqn:DM; try discriminate. cbn [obind].
    destruct (space_arg (a_space a)) as [r| | |] eqn:SP; try discriminate. cbn [obind]. cbv zeta.
    destruct (stamp_arg now (a_create a)) as [s| | |] eqn:ST; try discriminate. cbn [obind].
    assert (exists cs, given [] (a_space a) cs is_space /\ r = wire_rooted cs) as (cs & SM & ->).
    { unfold plain_space in PS. destruct (a_space a) as [[b|t|l|]|]; [|contradiction| |discriminate|].
      - apply space_bytes in SP as (cs & S & -> & ->). pose proof (PS cs S eq_refl) as L. exists cs. rewrite firstn_all2 by exact L. split; [|reflexivity]. split; [exact S|]. split; [exact L|reflexivity].
      - apply space_list in SP as (cs & F & S & L & ->). exists cs. split; [|reflexivity]. split; [exact S|]. split; [exact L|exact F].
      - cbn [space_arg] in SP. injection SP as <-. exists []. split; reflexivity. }
    pose proof (space_means _ _ SM) as (_ & SO & L8).
    set (ls := match a_links a with None => [] | Some l => l end). intros E.
    pose proof (made k g d cs ls data s) as MD. cbv zeta in MD. rewrite MD in E; [|unfold ls, links_ok in *; destruct (a_links a); [exact LO|constructor]|exact SO|exact L8].
    destruct (N.leb_spec (point_size (point_of k (mkMeaning data g d cs ls s))) 65024) as [LE|]; [|discriminate].
    exists (mkMeaning data g d cs ls s). split; [|split; [exact LE|]].
    - unfold means. cbn [m_data m_group m_domain m_space m_links m_stamp]. split; [|split; [now apply group_iff|split; [|split; [exact SM|split; [reflexivity|now apply stamp_iff]]]]].
      + destruct (a_data a) as [v|]; cbn [given]; [now apply says_iff|]. injection D as <-. reflexivity.
      + destruct (a_domain a) as [v|]; cbn [given]; [|cbn [domain_arg] in DM; injection DM as <-; reflexivity]. apply domain_some in DM as (b & -> & N). exists b. split; [now left|exact N].
    - exact (eq_sym (f_equal (fun x => match x with Ok y => y | _ => y end) E)).
  Qed.
  (** A text as domain, which the interface allows, is refused. *)
  Theorem C98_text_domain_refuted : forall k a y, text_domain a -> make k a <> Ok y.
  Proof.
    intros k a y (t & T) E. unfold py_point in E. rewrite T in E.
    destruct (match a_data a with None => Ok [] | Some v => bytelike v end); try discriminate. cbn [obind] in E. destruct (grp_arg dgroup (a_group a)); discriminate.
  Qed.
  (** A text as space, which the interface allows, has its characters as components. *)
  Theorem C98_text_space_refuted : forall chars, space_ok chars -> (List.length chars <= 8)%nat -> 64 + lenN (wire_rooted chars) <= 65024 ->
    make None (mkArgs None None None (Some (PyS chars)) None None) = Ok (from_dyn (packet (hash c) nh (PLink dgroup ddomain now [] (wire_rooted chars) [])) None recv).
  Proof.
    intros chars S L SZ. unfold py_point. cbn [a_data a_group a_domain a_space a_links a_create grp_arg domain_arg obind].
    assert (space_arg (Some (PyS chars)) = Ok (wire_rooted chars)) as ->.
    { cbn [space_arg py_iter obind]. assert (all_bytes (map (fun x => PyS [x]) chars) = Ok chars) as ->.
      { clear. induction chars as [|x l IH]; [reflexivity|]. cbn [map all_bytes bytelike List.concat]. rewrite IH. cbn [obind]. now rewrite app_nil_r. }
      cbn [obind]. apply raised_ok, C17_rooted_build. auto. }
    cbn [obind stamp_arg]. pose proof (made None dgroup ddomain chars [] [] now) as MD. cbv zeta in MD. rewrite MD; [|constructor|exact S|exact L].
    unfold point_of, link_point_of. cbn [m_data m_group m_domain m_space m_links m_stamp point_size]. change (lenN []) with 0. rewrite N.mul_0_r, !N.add_0_r.
    apply N.leb_le in SZ. now rewrite SZ.
  Qed.
  (** Of the bytes of a deeper space the components after the eighth are dropped. *)
  Theorem C98_deep_refuted : forall cs, space_ok cs -> (8 < List.length cs)%nat ->
    let a := mkArgs None None None (Some (PyB (wire_space cs))) None None in
    (forall m, ~ means dgroup ddomain now a m) /\
    make None a = Ok (from_dyn (packet (hash c) nh (PLink dgroup ddomain now [] (wire_rooted (firstn 8 cs)) [])) None recv).
  Proof.
    intros cs S L a. split.
    - intros m (_ & _ & _ & SP & _). cbn [a a_space given is_space] in SP. destruct SP as (S' & L' & E). assert (cs = m_space m) as X by (eapply C13_components_unique; split; [exact S|reflexivity|exact S'|exact E]). rewrite X in L. lia.
    - assert (space_ok (firstn 8 cs)) as S8 by (apply (space_ok_app_inv _ (skipn 8 cs)); now rewrite firstn_skipn). assert (List.length (firstn 8 cs) <= 8)%nat as L8 by (rewrite firstn_length; lia).
      unfold py_point, a. cbn [a_data a_group a_domain a_space a_links a_create grp_arg domain_arg obind].
      assert (space_arg (Some (PyB (wire_space cs))) = Ok (wire_rooted (firstn 8 cs))) as -> by (apply space_bytes; eauto).
      cbn [obind stamp_arg]. pose proof (made None dgroup ddomain (firstn 8 cs) [] [] now) as MD. cbv zeta in MD. rewrite MD; [|constructor|exact S8|exact L8].
      unfold point_of, link_point_of. cbn [m_data m_group m_domain m_space m_links m_stamp point_size]. change (lenN []) with 0. rewrite N.mul_0_r, !N.add_0_r.
      pose proof (rooted_ok_len _ (wire_rooted_ok _ S8 L8)) as RL. assert (64 + lenN (wire_rooted (firstn 8 cs)) <= 65024) as SZ by lia. apply N.leb_le in SZ. now rewrite SZ.
  Qed.
End Points.
(** A link is a tag of at most 16 bytes and a hash, as bytes or base64 text. *)
Theorem C98_link tag ptr l : py_link tag ptr = Ok l <-> exists t p, says tag t /\ says ptr p /\ names16 t (fst l) /\ names32 p (snd l).
Proof.
  unfold py_link. split.
  - destruct (bytelike tag) as [t| | |] eqn:T; try discriminate. destruct (bytelike ptr) as [p| | |] eqn:P; try discriminate. cbn [obind].
    destruct (raised (fit_back 0 16 t)) as [t'| | |] eqn:T'; try discriminate. cbn [obind]. destruct (b64_fit_or_parse 32 p) as [p'|] eqn:P'; [|discriminate]. cbn [raised_opt obind].
    intros E. injection E as <-. exists t, p. cbn [fst snd]. rewrite <- !says_iff, <- names16_iff, <- names32_iff. auto.
  - intros (t & p & T & P & A & B). apply says_iff in T, P. apply names16_iff in A. apply names32_iff in B. rewrite T, P. cbn [obind]. rewrite A. cbn [obind]. rewrite B. cbn [raised_opt obind]. now destruct l.
Qed.
(** ** Examples *)
Local Ltac small_space := split; [repeat (apply Forall_cons; [unfold component_ok; cbn; lia|]); apply Forall_nil|vm_compute; discriminate].
Definition ex_hash : bytes := repeat 7 32.
Definition ex_args : PyArgs := mkArgs (Some (PyS [str "h"; str "i"])) (Some (PyB (b64_display ex_group))) (Some (PyB (str "dom"))) (Some (PyList [PyB (str "a"); PyS [str "b"; str "c"]]))
  (Some [(repeat 0 15 ++ [116], ex_hash)]) (Some (PyB [0;0;0;0;0;0;1;2])).
Definition ex_meaning : Meaning := mkMeaning (str "hi") ex_group (repeat 0 13 ++ str "dom") [str "a"; str "bc"] [(repeat 0 15 ++ [116], ex_hash)] 258.
Example C98_ex : links_ok ex_args /\ ~ text_domain ex_args /\ plain_space ex_args /\ means [] [] 5 ex_args ex_meaning /\ point_size (link_point_of ex_meaning) = 127 /\
  py_link (PyS [str "t"]) (PyB ex_hash) = Ok (repeat 0 15 ++ [116], ex_hash).
Proof.
  split; [repeat constructor|]. split; [intros (t & E); discriminate|]. split; [exact I|]. split; [|split; reflexivity].
  assert (space_ok [str "a"; str "bc"]) as S by (small_space).
  split; [right; now exists [str "h"; str "i"]|]. split; [|split; [|split; [|split; [reflexivity|]]]].
  - exists (b64_display ex_group). split; [reflexivity|]. split; [reflexivity|]. right. assert (bytes_ok ex_group) as O by (repeat constructor). split; [exact O|]. now apply C44_b64_print.
  - exists (str "dom"). split; [now left|]. split; [vm_compute; discriminate|reflexivity].
  - split; [exact S|]. split; [cbn; lia|]. constructor; [now left|]. constructor; [right; now exists [str "b"; str "c"]|constructor].
  - exists [0;0;0;0;0;0;1;2]. split; [reflexivity|]. split; reflexivity.
Qed.
Example C98_text_space_ex : space_ok [str "/"; str "a"; str "/"; str "b"] /\ 64 + lenN (wire_rooted [str "/"; str "a"; str "/"; str "b"]) <= 65024 /\ text_domain (mkArgs None None (Some (PyS [str "d"])) None None None).
Proof. split; [small_space|]. split; [vm_compute; discriminate|]. now exists [str "d"]. Qed.
Example C98_deep_ex : space_ok (repeat (str "a") 9) /\ (8 < List.length (repeat (str "a") 9))%nat.
Proof. split; [small_space|cbn; lia]. Qed.
Print Assumptions C98_made_partial.
Print Assumptions C98_only_partial.
Print Assumptions C98_text_domain_refuted.
Print Assumptions C98_text_space_refuted.
Print Assumptions C98_deep_refuted.
Print Assumptions C98_link.
