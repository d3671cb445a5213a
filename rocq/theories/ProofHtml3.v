From Coq Require Import Lia.
From Verif Require Import Bytes SpecSpace ModelSpace ProofSpace ModelPkt ModelTree ModelAbe ModelFmt SpecFmt ProofFmt ModelFn ModelLns ModelHtml SpecHtml ProofHtml ProofHtml2.

Lemma space_of_reads rs cs : space_of rs cs -> bytes_ok rs -> rs_space rs = Ok (dropN 8 rs) /\ components (dropN 8 rs) = Ok cs /\ bytes_ok (dropN 8 rs) /\ Forall bytes_ok cs.
Proof.
  intros [[-> ->]|(L & OK & W)] O.
  - split; [reflexivity|]. split; [reflexivity|]. split; constructor.
  - split.
    + unfold rs_space, rs_fields. destruct rs as [|x r]; [change (lenN (@nil N)) with 0 in L; lia|]. destruct (N.ltb_spec (lenN (x :: r)) 8); [lia|]. reflexivity.
    + assert (B : bytes_ok (dropN 8 rs)) by (apply dropN_Forall, O). split; [|split; [exact B|]].
      * rewrite W. apply components_wire. apply OK.
      * rewrite W in B. clear -B. induction cs as [|c cs IH]; [constructor|]. unfold wire_space in B. cbn [flat_map] in B. inversion B as [|? ? _ B']; subst. apply Forall_app in B' as [B1 B2]. constructor; [exact B1|apply IH, B2].
Qed.
Section W.
Variable lossy : bytes -> bytes.
Variables public test : bytes.
Notation lab := (label public test).

Lemma emits_tokens f k : emits f k -> tokens f = Some k.
Proof. intros E. unfold tokens. change (fold_left step f ([], MText [])) with (run ([], MText []) f). rewrite E. cbn [app text]. now rewrite app_nil_r. Qed.
Lemma len_cont n g k : emits g k -> emits (str "<span lk-links-len='" ++ to_string n ++ str "'>" ++ to_string n ++ str "</span>" ++ g) (number_elem (str "lk-links-len") n ++ k).
Proof. intros G. pose proof (emits_app _ _ _ _ (num_emits (str "lk-links-len") n ltac:(discriminate) ltac:(nm)) G) as Z. revert Z. same. auto. Qed.
Lemma create_cont n g k : emits g k -> emits (str "<span lk-create='" ++ to_string n ++ str "'>" ++ to_string n ++ str "</span>" ++ g) (number_elem (str "lk-create") n ++ k).
Proof. intros G. pose proof (emits_app _ _ _ _ (num_emits (str "lk-create") n ltac:(discriminate) ltac:(nm)) G) as Z. revert Z. same. auto. Qed.
Lemma depth_cont n g k : emits g k -> emits (str "<span lk-depth='" ++ to_string n ++ str "' >" ++ to_string n ++ str "</span>" ++ g) (number_elem (str "lk-depth") n ++ k).
Proof.
  intros G. assert (ED : emits (tag (str "span") [([32], str "lk-depth", to_string n)] [32] ++ to_string n ++ endtag (str "span")) (number_elem (str "lk-depth") n)).
  { apply emits_leaf_w; [st| |repeat constructor|discriminate|apply dec_no; lia|reflexivity]. constructor; [|constructor]. apply attr_one; [repeat constructor|discriminate|discriminate|nm|apply dec_no; lia]. }
  pose proof (emits_app _ _ _ _ ED G) as Z. revert Z. same. auto.
Qed.
Lemma domain_cont d g k : bytes_ok d -> emits g k -> emits (str "<span lk-domain='" ++ b64_display d ++ str "'>" ++ escape_html (ab_as_str d) ++ str "</span>" ++ g)
  (elem (str "span") [(str "lk-domain", b64_display d)] (text (quoted (as_abtxt (cut_prefix_nulls d)))) ++ k).
Proof.
  intros D G. assert (EM : emits (tag (str "span") (plain [(str "lk-domain", b64_display d)]) [] ++ escape_html (ab_as_str d) ++ endtag (str "span"))
                 (elem (str "span") [(str "lk-domain", b64_display d)] (text (quoted (as_abtxt (cut_prefix_nulls d)))))).
  { rewrite escape_quoted. apply emits_leaf; [st| |discriminate|apply quoted_no]. apply av_ok; [discriminate|nm|apply b64_no; auto; lia|apply Forall_nil]. }
  pose proof (emits_app _ _ _ _ EM G) as Z. revert Z. same. auto.
Qed.
Lemma link_body lp key cs (with_data : bool) : lp_ok lp cs -> match key with Some b => bytes_ok b | None => True end ->
  forall g k, emits g k ->
  emits (match key with Some k => fmt_b64 public test k (str "pubkey") | None => [] end ++
                 str "<span lk-domain='" ++ b64_display (domain (ModelPkt.head lp)) ++ str "'>" ++ escape_html (ab_as_str (domain (ModelPkt.head lp))) ++ str "</span>" ++
                 fmt_b64 public test (group (ModelPkt.head lp)) (str "group") ++
                 str "<span lk-create='" ++ to_string (create_stamp (ModelPkt.head lp)) ++ str "'>" ++ to_string (create_stamp (ModelPkt.head lp)) ++ str "</span>" ++
                 str "<span lk-depth='" ++ to_string (hd 0 (ModelPkt.rspace (ModelPkt.tail lp))) ++ str "' >" ++ to_string (hd 0 (ModelPkt.rspace (ModelPkt.tail lp))) ++ str "</span>" ++
                 str "<ol lk-space='" ++ b64_display (dropN 8 (ModelPkt.rspace (ModelPkt.tail lp))) ++ str "' lk-depth='" ++ to_string (hd 0 (ModelPkt.rspace (ModelPkt.tail lp))) ++ str "'>" ++ [10] ++
                 html_comps 0 cs ++ str "</ol>" ++ [10] ++
                 str "<span lk-links-len='" ++ to_string (lenN (ModelPkt.links (ModelPkt.tail lp))) ++ str "'>" ++ to_string (lenN (ModelPkt.links (ModelPkt.tail lp))) ++ str "</span>" ++
                 str "<ol lk-links='" ++ to_string (lenN (ModelPkt.links (ModelPkt.tail lp))) ++ str "'>" ++ [10] ++
                 flat_map (html_link public test) (ModelPkt.links (ModelPkt.tail lp)) ++ str "</ol>" ++ g)
   (match key with Some k => b64_elem (str "pubkey") k (lab k) | None => [] end ++
         elem (str "span") [(str "lk-domain", b64_display (domain (ModelPkt.head lp)))] (text (quoted (as_abtxt (cut_prefix_nulls (domain (ModelPkt.head lp)))))) ++
         b64_elem (str "group") (group (ModelPkt.head lp)) (lab (group (ModelPkt.head lp))) ++ number_elem (str "lk-create") (create_stamp (ModelPkt.head lp)) ++ number_elem (str "lk-depth") (hd 0 (ModelPkt.rspace (ModelPkt.tail lp))) ++
         elem (str "ol") [(str "lk-space", b64_display (dropN 8 (ModelPkt.rspace (ModelPkt.tail lp)))); (str "lk-depth", to_string (hd 0 (ModelPkt.rspace (ModelPkt.tail lp))))] (Text [10] :: comp_elems 0 cs) ++ [Text [10]] ++
         number_elem (str "lk-links-len") (lenN (ModelPkt.links (ModelPkt.tail lp))) ++
         elem (str "ol") [(str "lk-links", to_string (lenN (ModelPkt.links (ModelPkt.tail lp))))] (Text [10] :: flat_map (fun '(tag, ptr) =>
           elem (str "li") [(str "lk-link-tag", b64_display tag)]
             (elem (str "span") [(str "lk-tag", b64_display tag)] (text (quoted (as_abtxt (cut_prefix_nulls tag)))) ++ b64_elem (str "ptr") ptr (lab ptr)) ++ [Text [10]]) (ModelPkt.links (ModelPkt.tail lp))) ++ k).
Proof.
  intros (G & D & R & L & S) K g k EG. destruct (space_of_reads _ _ S R) as (_ & _ & SB & CB).
  set (depth := hd 0 (ModelPkt.rspace (ModelPkt.tail lp))). set (sp := dropN 8 (ModelPkt.rspace (ModelPkt.tail lp))) in *. set (ls := ModelPkt.links (ModelPkt.tail lp)) in *. set (h := ModelPkt.head lp) in *.
  pose proof (linklist_emits lossy public test ls g k L EG) as E1.
  pose proof (len_cont (lenN ls) _ _ E1) as E2.
  pose proof (space_emits lossy sp cs depth _ _ SB CB E2) as E3.
  pose proof (depth_cont depth _ _ E3) as E4. pose proof (create_cont (create_stamp h) _ _ E4) as E5.
  pose proof (emits_app _ _ _ _ (fmt_emits public test (str "group") (group h) ltac:(nm) G) E5) as E6.
  pose proof (domain_cont (domain h) _ _ D E6) as E7. destruct key as [b|]; [|exact E7].
  exact (emits_app _ _ _ _ (fmt_emits public test (str "pubkey") b ltac:(nm) K) E7).
Qed.
Definition foot (with_data : bool) (data : bytes) : bytes :=
  str "<span lk-data-size='" ++ to_string (lenN data) ++ str "'>" ++ to_string (lenN data) ++ str "</span>" ++ [10] ++
  (if with_data then str "<pre lk-data='" ++ to_string (lenN data) ++ str "'>" ++ escape_html (lossy data) ++ str "</pre>" else []).
Definition foot_toks (with_data : bool) (data : bytes) : list tok :=
  number_elem (str "lk-data-size") (lenN data) ++ [Text [10]] ++
  match (if with_data then Some (lossy data) else None) with Some t => elem (str "pre") [(str "lk-data", to_string (lenN data))] (text (quoted t)) | None => [] end.
Lemma foot_closed with_data data : emits (foot with_data data ++ endtag (str "div")) (foot_toks with_data data ++ [Close (str "div")]).
Proof.
  pose proof (foot_emits lossy with_data data) as X. unfold foot, foot_toks. rewrite <- !app_assoc. exact X.
Qed.
Lemma html_page with_data p cs : bytes_ok (np_hash p) -> fields_ok (fields (point_parts p)) cs ->
  exists out, to_html lossy public test with_data p = Ok out /\
    tokens out = Some (page public test (if with_data then Some (lossy (hp_data (printed_as p cs))) else None) (printed_as p cs)).
Proof.
  intros H F. unfold to_html, printed_as, get_header, html_pubkey, get_space, get_depth, get_rspace, pkt_links, pf.
  pose proof (fmt_emits public test (str "hash") (np_hash p) ltac:(nm) H) as EH.
  assert (DATA : forall d, exists out, Ok (E := SpaceError)
      ((str "<div lk-point='" ++ b64_display (np_hash p) ++ str "' lk-ptype='" ++ to_string (point_type (pkt_header (point_parts p))) ++
        str "' class='lk-c" ++ to_string (nth 0 (np_hash p) 0 / 16) ++ str "' " ++ [] ++ [10] ++
        str "lk-data-size='" ++ to_string (lenN d) ++ str "' lk-links-len='" ++ to_string (lenN (@nil (bytes * bytes))) ++ str "' lk-depth='" ++ to_string (rs_depth []) ++ str "'>" ++
        fmt_b64 public test (np_hash p) (str "hash")) ++ [] ++ str "<span lk-data-size='" ++ to_string (lenN d) ++ str "'>" ++ to_string (lenN d) ++ str "</span>" ++ [10] ++
        (if with_data then str "<pre lk-data='" ++ to_string (lenN d) ++ str "'>" ++ escape_html (lossy d) ++ str "</pre>" else []) ++ str "</div>") = Ok out /\
      tokens out = Some (page public test (if with_data then Some (lossy d) else None) (mkPrinted (np_hash p) (point_type (pkt_header (point_parts p))) 0 d None))).
  { intros d. eexists; split; [reflexivity|]. apply emits_tokens. unfold page. cbn [hp_hash hp_type hp_depth hp_data hp_link].
    pose proof (emits_app _ _ _ _ EH (foot_closed with_data d)) as B. rewrite !app_assoc in B.
    pose proof (div_emits lossy (np_hash p) (point_type (pkt_header (point_parts p))) None (lenN d) (lenN (@nil (bytes * bytes))) 0 _ _ H Logic.I B) as Z.
    unfold foot, foot_toks in Z. change (rs_depth []) with 0. repeat rewrite app_nil_l in Z; repeat rewrite <- app_assoc in Z; repeat rewrite app_nil_l; repeat rewrite <- app_assoc; exact Z. }
  assert (LINK : forall lp key, lp_ok lp cs -> match key with Some b => bytes_ok b | None => True end -> exists out,
      obind (rs_space (ModelPkt.rspace (ModelPkt.tail lp))) (fun sp => obind (components sp) (fun cs => Ok (
        match key with Some k => fmt_b64 public test k (str "pubkey") | None => [] end ++
        str "<span lk-domain='" ++ b64_display (domain (ModelPkt.head lp)) ++ str "'>" ++ escape_html (ab_as_str (domain (ModelPkt.head lp))) ++ str "</span>" ++
        fmt_b64 public test (group (ModelPkt.head lp)) (str "group") ++
        str "<span lk-create='" ++ to_string (create_stamp (ModelPkt.head lp)) ++ str "'>" ++ to_string (create_stamp (ModelPkt.head lp)) ++ str "</span>" ++
        str "<span lk-depth='" ++ to_string (rs_depth (ModelPkt.rspace (ModelPkt.tail lp))) ++ str "' >" ++ to_string (rs_depth (ModelPkt.rspace (ModelPkt.tail lp))) ++ str "</span>" ++
        str "<ol lk-space='" ++ b64_display sp ++ str "' lk-depth='" ++ to_string (rs_depth (ModelPkt.rspace (ModelPkt.tail lp))) ++ str "'>" ++ [10] ++
        html_comps 0 cs ++ str "</ol>" ++ [10] ++
        str "<span lk-links-len='" ++ to_string (lenN (ModelPkt.links (ModelPkt.tail lp))) ++ str "'>" ++ to_string (lenN (ModelPkt.links (ModelPkt.tail lp))) ++ str "</span>" ++
        str "<ol lk-links='" ++ to_string (lenN (ModelPkt.links (ModelPkt.tail lp))) ++ str "'>" ++ [10] ++
        flat_map (html_link public test) (ModelPkt.links (ModelPkt.tail lp)) ++ str "</ol>"))) = Ok out /\
      forall g k, emits g k -> emits (out ++ g) (
         match key with Some k => b64_elem (str "pubkey") k (lab k) | None => [] end ++
         elem (str "span") [(str "lk-domain", b64_display (domain (ModelPkt.head lp)))] (text (quoted (as_abtxt (cut_prefix_nulls (domain (ModelPkt.head lp)))))) ++
         b64_elem (str "group") (group (ModelPkt.head lp)) (lab (group (ModelPkt.head lp))) ++ number_elem (str "lk-create") (create_stamp (ModelPkt.head lp)) ++ number_elem (str "lk-depth") (hd 0 (ModelPkt.rspace (ModelPkt.tail lp))) ++
         elem (str "ol") [(str "lk-space", b64_display (dropN 8 (ModelPkt.rspace (ModelPkt.tail lp)))); (str "lk-depth", to_string (hd 0 (ModelPkt.rspace (ModelPkt.tail lp))))] (Text [10] :: comp_elems 0 cs) ++ [Text [10]] ++
         number_elem (str "lk-links-len") (lenN (ModelPkt.links (ModelPkt.tail lp))) ++
         elem (str "ol") [(str "lk-links", to_string (lenN (ModelPkt.links (ModelPkt.tail lp))))] (Text [10] :: flat_map (fun '(tag, ptr) =>
           elem (str "li") [(str "lk-link-tag", b64_display tag)]
             (elem (str "span") [(str "lk-tag", b64_display tag)] (text (quoted (as_abtxt (cut_prefix_nulls tag)))) ++ b64_elem (str "ptr") ptr (lab ptr)) ++ [Text [10]]) (ModelPkt.links (ModelPkt.tail lp))) ++ k)).
  { intros lp key L K. destruct L as (L1 & L2 & L3 & L4 & L5). destruct (space_of_reads _ _ L5 L3) as (R1 & R2 & _). rewrite R1. cbn [obind]. rewrite R2. cbn [obind]. eexists. split; [reflexivity|].
    intros g k G. pose proof (link_body lp key cs with_data (conj L1 (conj L2 (conj L3 (conj L4 L5)))) K g k G) as Z. unfold rs_depth. rewrite <- !app_assoc. exact Z. }
  destruct (fields (point_parts p)) as [d|lp|lp s|d|d] eqn:E; cbn [fields_ok] in F; cbn [get_links get_data obind]; try exact (DATA d).
  - destruct (LINK lp None F Logic.I) as (mid & M & EM). rewrite M. cbn [obind]. eexists; split; [reflexivity|]. apply emits_tokens. unfold page, lp_view. cbn [hp_hash hp_type hp_depth hp_data hp_link].
    pose proof (emits_app _ _ _ _ EH (EM _ _ (foot_closed with_data (tdata (ModelPkt.tail lp))))) as B. rewrite !app_assoc in B.
    pose proof (div_emits lossy (np_hash p) (point_type (pkt_header (point_parts p))) None (lenN (tdata (ModelPkt.tail lp))) (lenN (ModelPkt.links (ModelPkt.tail lp))) (hd 0 (ModelPkt.rspace (ModelPkt.tail lp))) _ _ H Logic.I B) as Z.
    unfold foot, foot_toks in Z. unfold rs_depth. repeat rewrite app_nil_l in Z; repeat rewrite <- app_assoc in Z; repeat rewrite app_nil_l; repeat rewrite <- app_assoc; exact Z.
  - destruct F as [F K]. destruct (LINK lp (Some (s_pubkey s)) F K) as (mid & M & EM). rewrite M. cbn [obind]. eexists; split; [reflexivity|]. apply emits_tokens. unfold page, lp_view. cbn [hp_hash hp_type hp_depth hp_data hp_link].
    pose proof (emits_app _ _ _ _ EH (EM _ _ (foot_closed with_data (tdata (ModelPkt.tail lp))))) as B. rewrite !app_assoc in B.
    pose proof (div_emits lossy (np_hash p) (point_type (pkt_header (point_parts p))) (Some (s_pubkey s)) (lenN (tdata (ModelPkt.tail lp))) (lenN (ModelPkt.links (ModelPkt.tail lp))) (hd 0 (ModelPkt.rspace (ModelPkt.tail lp))) _ _ H K B) as Z.
    unfold foot, foot_toks in Z. unfold rs_depth. repeat rewrite app_nil_l in Z; repeat rewrite <- app_assoc in Z; repeat rewrite app_nil_l; repeat rewrite <- app_assoc; exact Z.
Qed.
End W.
