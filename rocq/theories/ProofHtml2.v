From Coq Require Import Lia.
From Verif Require Import Bytes ModelSpace ModelPkt ModelTree ModelAbe ModelFmt SpecFmt ProofFmt ModelFn ModelLns ModelHtml SpecHtml ProofHtml.

Ltac lits := repeat match goal with |- context [str ?s] => let v := eval vm_compute in (str s) in change (str s) with v end.
Ltac same := unfold tag, endtag, plain; cbn [map flat_map attr_bytes]; lits; repeat first [rewrite <- app_assoc | rewrite <- app_comm_cons | rewrite app_nil_r | rewrite app_nil_l]; try reflexivity.
Ltac closed_no := apply no_dec; reflexivity.
Lemma starts_dec n : match n with [] => false | c :: r => letter c && forallb name_char r end = true -> starts n.
Proof.
  destruct n as [|c r]; [discriminate|]. intros H. apply andb_prop in H as [A B]. split; [exact A|]. apply Forall_forall. now rewrite forallb_forall in B.
Qed.
Lemma named_dec n : forallb name_char n = true -> named n.
Proof. intros H. apply Forall_forall. now rewrite forallb_forall in H. Qed.
Lemma av_ok a v l : a <> [] -> named a -> no 39 v -> avs_ok l -> avs_ok ((a, v) :: l).
Proof. intros. constructor; auto. Qed.
Ltac nm := apply named_dec; reflexivity.
Ltac st := apply starts_dec; reflexivity.
Ltac av := first [apply av_ok; [discriminate|nm|auto|av] | apply Forall_nil].

Section P.
Variables public test : bytes.
Notation lab := (label public test).

Lemma fmt_emits class b : named class -> bytes_ok b -> emits (fmt_b64 public test b class) (b64_elem class b (lab b)).
Proof.
  intros NC O. unfold b64_elem.
  replace (fmt_b64 public test b class) with
    (tag (str "span") (plain [(str "lk-" ++ class, b64_display b); (str "class", str "lk-b64 lk-c" ++ to_string (nth 14 b 0 / 16) ++ str " lk-d" ++ to_string (nth 15 b 0 / 16))]) [] ++ lab b ++ endtag (str "span")) by (unfold fmt_b64, label, PRIVATE; same).
  apply emits_leaf; [st| |discriminate|apply label_no; auto].
  apply av_ok; [discriminate|apply Forall_app; split; [nm|exact NC]|apply b64_no; auto; lia|]. apply av_ok; [discriminate|nm| |apply Forall_nil].
  rewrite !no_app. repeat (split; [first [closed_no | apply dec_no; lia]|]). apply dec_no; lia.
Qed.
Lemma num_emits a n : a <> [] -> named a -> emits (tag (str "span") (plain [(a, to_string n)]) [] ++ to_string n ++ endtag (str "span")) (number_elem a n).
Proof. intros NE A. apply emits_leaf; [st| |discriminate|apply dec_no; lia]. apply av_ok; auto; [apply dec_no; lia|apply Forall_nil]. Qed.
Lemma comps_emits cs : Forall bytes_ok cs -> forall i, emits (html_comps i cs) (comp_elems i cs) \/ cs = [].
Proof.
  induction cs as [|c cs IH]; intros F i; [now right|]. left. inversion F as [|? ? F1 F2]; subst. cbn [html_comps comp_elems].
  assert (X : emits (tag (str "li") (plain [(str "lk-space" ++ to_string i, b64_display c)]) [] ++ escape_html (as_abtxt c) ++ endtag (str "li"))
                (elem (str "li") [(str "lk-space" ++ to_string i, b64_display c)] (text (quoted (as_abtxt c))))).
  { rewrite escape_quoted. apply emits_leaf; [st| |discriminate|apply quoted_no]. apply av_ok; [discriminate|apply Forall_app; split; [nm|apply dec_named]|apply b64_no; auto; lia|apply Forall_nil]. }
  destruct (IH F2 (i + 1)) as [Y| ->].
  - pose proof (emits_app _ _ _ _ X Y) as Z. revert Z. same. auto.
  - cbn [html_comps comp_elems]. rewrite !app_nil_r. revert X. same. auto.
Qed.
(** a list item and a new line *)
Definition link_toks (l : bytes * bytes) : list tok :=
  elem (str "li") [(str "lk-link-tag", b64_display (fst l))]
    (elem (str "span") [(str "lk-tag", b64_display (fst l))] (text (quoted (as_abtxt (cut_prefix_nulls (fst l))))) ++ b64_elem (str "ptr") (snd l) (lab (snd l))).
Lemma link_emits l : bytes_ok (fst l) -> bytes_ok (snd l) -> exists f, html_link public test l = f ++ [10] /\ emits f (link_toks l).
Proof.
  intros T P. exists (tag (str "li") (plain [(str "lk-link-tag", b64_display (fst l))]) [] ++
    ((tag (str "span") (plain [(str "lk-tag", b64_display (fst l))]) [] ++ escape_html (ab_as_str (fst l)) ++ endtag (str "span")) ++ fmt_b64 public test (snd l) (str "ptr")) ++ endtag (str "li")).
  split; [unfold html_link; same|]. unfold link_toks. apply emits_elem; [st| |discriminate|].
  { apply av_ok; [discriminate|nm|apply b64_no; auto; lia|apply Forall_nil]. }
  apply emits_app; [|apply fmt_emits; [nm|exact P]]. rewrite escape_quoted. apply emits_leaf; [st| |discriminate|apply quoted_no].
  apply av_ok; [discriminate|nm|apply b64_no; auto; lia|apply Forall_nil].
Qed.
(** text, items each followed by a new line, and a last tag *)
Lemma links_emits ls e : Forall (fun l => bytes_ok (fst l) /\ bytes_ok (snd l)) ls -> starts e -> forall s, s <> [] -> no 60 s ->
  forall out t, run (out, MText t) (s ++ flat_map (html_link public test) ls ++ endtag e) =
    (out ++ text (t ++ s) ++ flat_map (fun l => link_toks l ++ [Text [10]]) ls ++ [Close e], MText []).
Proof.
  intros F SE. induction ls as [|l ls IH]; intros s NE NS out t.
  - cbn [flat_map app]. rewrite run_app, run_text by exact NS. apply (emits_end e SE).
  - inversion F as [|? ? [F1 F2] F3]; subst. destruct (link_emits l F1 F2) as (f & E & EM). cbn [flat_map]. rewrite E. rewrite <- !app_assoc. rewrite run_app, run_text by exact NS.
    rewrite run_app, EM. rewrite (IH F3 [10] ltac:(discriminate) ltac:(closed_no)). cbn [app text]. now rewrite <- !app_assoc.
Qed.
End P.

(** ** The whole packet *)
Section W.
Variable lossy : bytes -> bytes.
Variables public test : bytes.
Notation lab := (label public test).

Lemma attr_one w a v : whites w -> w <> [] -> a <> [] -> named a -> no 39 v -> attr_ok (w, a, v).
Proof. cbn. auto. Qed.
Ltac wh := repeat constructor.
Lemma elem_open n l e f k av : starts n -> Forall attr_ok l -> whites e -> l <> [] -> emits (f ++ endtag n) (k ++ [Close n]) -> av = map (fun '(_, a, v) => (a, v)) l -> emits (tag n l e ++ f ++ endtag n) (elem n av k).
Proof. intros S A W NE F ->. unfold elem. exact (emits_app _ [_] _ _ (emits_tag n l e S A W NE) F). Qed.
(** The outer element. *)
Lemma div_emits hash ptype key size nl depth f k : bytes_ok hash -> match key with Some b => bytes_ok b | None => True end -> emits (f ++ endtag (str "div")) (k ++ [Close (str "div")]) ->
  emits ((str "<div lk-point='" ++ b64_display hash ++ str "' lk-ptype='" ++ to_string ptype ++
    str "' class='lk-c" ++ to_string (nth 0 hash 0 / 16) ++ str "' " ++
    match key with Some k => str "lk-pubkey='" ++ b64_display k ++ str "'" | None => [] end ++ [10] ++
    str "lk-data-size='" ++ to_string size ++ str "' lk-links-len='" ++ to_string nl ++ str "' lk-depth='" ++ to_string depth ++ str "'>") ++ f ++ endtag (str "div"))
   (elem (str "div")
    ([(str "lk-point", b64_display hash); (str "lk-ptype", to_string ptype); (str "class", str "lk-c" ++ to_string (nth 0 hash 0 / 16))] ++
     match key with Some k => [(str "lk-pubkey", b64_display k)] | None => [] end ++
     [(str "lk-data-size", to_string size); (str "lk-links-len", to_string nl); (str "lk-depth", to_string depth)]) k).
Proof.
  intros H K F. set (pre := [([32], str "lk-point", b64_display hash); ([32], str "lk-ptype", to_string ptype); ([32], str "class", str "lk-c" ++ to_string (nth 0 hash 0 / 16))]).
  set (post := [([32], str "lk-links-len", to_string nl); ([32], str "lk-depth", to_string depth)]).
  assert (P1 : Forall attr_ok pre). { repeat (constructor; [apply attr_one; [wh|discriminate|discriminate|nm|]|]); [apply b64_no; auto; lia|apply dec_no; lia| |constructor]. rewrite no_app. split; [closed_no|apply dec_no; lia]. }
  assert (P2 : Forall attr_ok post) by (repeat (constructor; [apply attr_one; [wh|discriminate|discriminate|nm|apply dec_no; lia]|]); constructor).
  destruct key as [b|].
  - set (mid := [([32], str "lk-pubkey", b64_display b); ([10], str "lk-data-size", to_string size)]).
    assert (P3 : Forall attr_ok mid) by (repeat (constructor; [apply attr_one; [wh|discriminate|discriminate|nm|first [apply dec_no; lia|apply b64_no; auto; lia]]|]); constructor).
    assert (X := elem_open (str "div") (pre ++ mid ++ post) [] f k _ ltac:(st) ltac:(rewrite !Forall_app; auto) ltac:(wh) ltac:(discriminate) F eq_refl).
    revert X. unfold pre, mid, post. cbn [map app]. same. auto.
  - set (mid := [([32; 10], str "lk-data-size", to_string size)]).
    assert (P3 : Forall attr_ok mid) by (repeat (constructor; [apply attr_one; [wh|discriminate|discriminate|nm|apply dec_no; lia]|]); constructor).
    assert (X := elem_open (str "div") (pre ++ mid ++ post) [] f k _ ltac:(st) ltac:(rewrite !Forall_app; auto) ltac:(wh) ltac:(discriminate) F eq_refl).
    revert X. unfold pre, mid, post. cbn [map app]. same. auto.
Qed.
Lemma plain_tag n l : starts n -> avs_ok l -> l <> [] -> emits (tag n (plain l) []) [Open n l].
Proof. intros S A NE. rewrite <- (plain_map l) at 2. apply emits_tag; [exact S|now apply plain_ok|constructor|destruct l; [congruence|discriminate]]. Qed.
Lemma foot_emits (with_data : bool) data : emits (str "<span lk-data-size='" ++ to_string (lenN data) ++ str "'>" ++ to_string (lenN data) ++ str "</span>" ++ [10] ++
      (if with_data then str "<pre lk-data='" ++ to_string (lenN data) ++ str "'>" ++ escape_html (lossy data) ++ str "</pre>" else []) ++ endtag (str "div"))
  (number_elem (str "lk-data-size") (lenN data) ++ [Text [10]] ++
     match (if with_data then Some (lossy data) else None) with Some t => elem (str "pre") [(str "lk-data", to_string (lenN data))] (text (quoted t)) | None => [] end ++ [Close (str "div")]).
Proof.
  pose proof (num_emits (str "lk-data-size") (lenN data) ltac:(discriminate) ltac:(nm)) as X. destruct with_data.
  - assert (Y : emits ((tag (str "pre") (plain [(str "lk-data", to_string (lenN data))]) [] ++ escape_html (lossy data) ++ endtag (str "pre")) ++ endtag (str "div"))
                 (elem (str "pre") [(str "lk-data", to_string (lenN data))] (text (quoted (lossy data))) ++ [Close (str "div")])).
    { apply emits_app; [|apply emits_end; st]. rewrite escape_quoted. apply emits_leaf; [st| |discriminate|apply quoted_no]. apply av_ok; [discriminate|nm|apply dec_no; lia|apply Forall_nil]. }
    pose proof (emits_text _ _ [10] _ _ X ltac:(closed_no) Y) as Z. revert Z. cbn [text]. same. auto.
  - pose proof (emits_text _ _ [10] _ _ X ltac:(closed_no) (emits_end (str "div") ltac:(st))) as Z. revert Z. cbn [text]. same. auto.
Qed.
Lemma space_emits sp cs depth g k : bytes_ok sp -> Forall bytes_ok cs -> emits g k ->
  emits (str "<ol lk-space='" ++ b64_display sp ++ str "' lk-depth='" ++ to_string depth ++ str "'>" ++ [10] ++ html_comps 0 cs ++ str "</ol>" ++ [10] ++ g)
    (elem (str "ol") [(str "lk-space", b64_display sp); (str "lk-depth", to_string depth)] (Text [10] :: comp_elems 0 cs) ++ [Text [10]] ++ k).
Proof.
  intros S F G. set (av := [(str "lk-space", b64_display sp); (str "lk-depth", to_string depth)]).
  assert (A : avs_ok av) by (apply av_ok; [discriminate|nm|apply b64_no; auto; lia|apply av_ok; [discriminate|nm|apply dec_no; lia|apply Forall_nil]]).
  assert (E : emits (tag (str "ol") (plain av) [] ++ [10] ++ html_comps 0 cs ++ endtag (str "ol")) (elem (str "ol") av (Text [10] :: comp_elems 0 cs))).
  { pose proof (plain_tag (str "ol") av ltac:(st) A ltac:(discriminate)) as T. destruct (comps_emits cs F 0) as [C| ->].
    - exact (emits_text _ _ [10] _ _ T ltac:(closed_no) (emits_app _ _ _ _ C (emits_end (str "ol") ltac:(st)))).
    - exact (emits_text _ _ [10] _ _ T ltac:(closed_no) (emits_end (str "ol") ltac:(st))). }
  pose proof (emits_text _ _ [10] _ _ E ltac:(closed_no) G) as Z. revert Z. unfold av. cbn [text]. same. auto.
Qed.
Lemma linklist_emits ls g k : Forall link_ok ls -> emits g k ->
  emits (str "<ol lk-links='" ++ to_string (lenN ls) ++ str "'>" ++ [10] ++ flat_map (html_link public test) ls ++ str "</ol>" ++ g)
    (elem (str "ol") [(str "lk-links", to_string (lenN ls))] (Text [10] :: flat_map (fun '(tag, ptr) =>
           elem (str "li") [(str "lk-link-tag", b64_display tag)]
             (elem (str "span") [(str "lk-tag", b64_display tag)] (text (quoted (as_abtxt (cut_prefix_nulls tag)))) ++ b64_elem (str "ptr") ptr (lab ptr)) ++ [Text [10]]) ls) ++ k).
Proof.
  intros F G. set (av := [(str "lk-links", to_string (lenN ls))]).
  assert (A : avs_ok av) by (apply av_ok; [discriminate|nm|apply dec_no; lia|apply Forall_nil]).
  assert (E : emits (tag (str "ol") (plain av) [] ++ [10] ++ flat_map (html_link public test) ls ++ endtag (str "ol")) (elem (str "ol") av (Text [10] :: flat_map (fun l => link_toks public test l ++ [Text [10]]) ls))).
  { intros out t. rewrite run_app, (plain_tag (str "ol") av ltac:(st) A ltac:(discriminate)). rewrite (links_emits public test ls (str "ol") F ltac:(st) [10] ltac:(discriminate) ltac:(closed_no)).
    unfold elem. cbn [text app]. now rewrite <- !app_assoc. }
  pose proof (emits_app _ _ _ _ E G) as Z. revert Z. unfold av.
  replace (flat_map (fun l => link_toks public test l ++ [Text [10]]) ls) with (flat_map (fun '(tag, ptr) =>
           elem (str "li") [(str "lk-link-tag", b64_display tag)]
             (elem (str "span") [(str "lk-tag", b64_display tag)] (text (quoted (as_abtxt (cut_prefix_nulls tag)))) ++ b64_elem (str "ptr") ptr (lab ptr)) ++ [Text [10]]) ls).
  2:{ apply flat_map_ext. now intros [a b]. }
  same. auto.
Qed.
End W.
