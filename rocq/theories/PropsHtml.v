(** Properties of the html form of packets. *)
From Coq Require Import Lia.
From Verif Require Import Bytes SpecSpace ModelSpace ModelPkt ModelTree ModelAbe ModelFmt ModelFn ModelLns ModelHtml SpecHtml SpecPkt PropsPkt ProofHtml ProofHtml2 ProofHtml3 ProofHtml4 ProofHtml5.

(** A keypoint by a hostile author: markup and quotes in the domain, the space, a tag and the data. *)
Definition evil_domain : bytes := repeat 0 2 ++ str "'><script>a&b;".
Definition evil_cs : list bytes := [str "</li><b x='1'>"; [0; 39; 34; 60]].
Definition evil_links : list Link := [(repeat 0 10 ++ str "</div>", repeat 60 32); (repeat 39 16, repeat 62 32)].
Definition evil : NetPktParts :=
  match try_keypoint toy (repeat 60 32) evil_domain (wire_rooted evil_cs) evil_links (str "</pre><script> && alert('x')") 77 99 ex_nh with Ok p => p | _ => mkNetParts [] [] (mkParts (mkPointHeader 0 0 0) (FData [])) end.
Definition evil_data : NetPktParts := match try_datapoint toy (str "</pre></div><img src='x'>") ex_nh with Ok p => p | _ => evil end.
Ltac bok := apply Forall_forall; let x := fresh in let I := fresh in intros x I; vm_compute in I; repeat (destruct I as [<-|I]; [reflexivity|]); contradiction.
Example C55_ex : try_keypoint toy (repeat 60 32) evil_domain (wire_rooted evil_cs) evil_links (str "</pre><script> && alert('x')") 77 99 ex_nh = Ok evil /\
  bytes_ok (np_hash evil) /\ fields_ok (fields (point_parts evil)) evil_cs /\ bytes_ok (np_hash evil_data) /\ fields_ok (fields (point_parts evil_data)) [].
Proof.
  split; [vm_compute; reflexivity|]. split; [bok|]. split; [|split; [bok|reflexivity]].
  split; [|bok]. split; [bok|]. split; [bok|]. split; [bok|]. split.
  - apply Forall_forall. intros x I. vm_compute in I. destruct I as [<-|[<-|[]]]; (split; bok).
  - right. split; [vm_compute; discriminate|]. split; [|vm_compute; reflexivity]. split; [repeat constructor; vm_compute; discriminate|vm_compute; discriminate].
Qed.

(** Printing a packet does not fail, and a browser's tokenizer reads exactly the elements of [page]: whatever the fields hold, nothing in
    them is read as a tag, an attribute or the end of a value. *)
Theorem C55_page lossy public test with_data p cs : bytes_ok (np_hash p) -> fields_ok (fields (point_parts p)) cs ->
  exists out, to_html lossy public test with_data p = Ok out /\
    tokens out = Some (page public test (if with_data then Some (lossy (hp_data (printed_as p cs))) else None) (printed_as p cs)).
Proof. apply html_page. Qed.
Print Assumptions C55_page.
(** Every element it opens it closes, in order, wherever it is pasted. *)
Theorem C55_nested lossy public test with_data p cs : bytes_ok (np_hash p) -> fields_ok (fields (point_parts p)) cs ->
  exists out k, to_html lossy public test with_data p = Ok out /\ tokens out = Some k /\ forall stack r, nested stack (k ++ r) <-> nested stack r.
Proof.
  intros H F. destruct (html_page lossy public test with_data p cs H F) as (out & E & T). eexists out, _. split; [exact E|]. split; [exact T|]. apply page_closed.
Qed.
Print Assumptions C55_nested.
(** The tags and the attribute names do not depend on the contents: only on the kind of packet and the numbers of links and components. *)
Theorem C55_skeleton lossy lossy' public test with_data p cs q cs' : bytes_ok (np_hash p) -> fields_ok (fields (point_parts p)) cs ->
  bytes_ok (np_hash q) -> fields_ok (fields (point_parts q)) cs' -> same_shape (printed_as p cs) (printed_as q cs') ->
  exists out out' k k', to_html lossy public test with_data p = Ok out /\ to_html lossy' public test with_data q = Ok out' /\ tokens out = Some k /\ tokens out' = Some k' /\ skeleton k = skeleton k'.
Proof.
  intros H F H' F' S. destruct (html_page lossy public test with_data p cs H F) as (out & E & T). destruct (html_page lossy' public test with_data q cs' H' F') as (out' & E' & T').
  eexists out, out', _, _. split; [exact E|]. split; [exact E'|]. split; [exact T|]. split; [exact T'|]. apply page_skeleton; [exact S|]. destruct with_data; split; congruence.
Qed.
Print Assumptions C55_skeleton.
(** The elements tell the packet: equal pages are of packets with the same hash, type, depth, group, domain, space, key, creation time and
    links, and show the same data. *)
Theorem C55_faithful lossy public test with_data p cs q cs' out : bytes_ok (np_hash p) -> fields_ok (fields (point_parts p)) cs ->
  bytes_ok (np_hash q) -> fields_ok (fields (point_parts q)) cs' -> to_html lossy public test with_data p = Ok out -> to_html lossy public test with_data q = Ok out ->
  same_but_data (printed_as p cs) (printed_as q cs') /\ (with_data = true -> lossy (hp_data (printed_as p cs)) = lossy (hp_data (printed_as q cs'))).
Proof.
  intros H F H' F' E E'. destruct (html_page lossy public test with_data p cs H F) as (o & X & T). destruct (html_page lossy public test with_data q cs' H' F') as (o' & X' & T').
  assert (o = out) by congruence. assert (o' = out) by congruence. subst o o'. rewrite T in T'.
  match type of T' with Some ?a = Some ?b => assert (P : a = b) by congruence end. apply page_inj in P as [P S]; [|now apply printed_as_ok..]. split; [exact P|]. intros ->. congruence.
Qed.
Print Assumptions C55_faithful.
(** Escaped text has no angle bracket, and every ampersand in it begins one of the three references. *)
Theorem C55_escape t : (forall c, In c (escape_html t) -> c <> 60 /\ c <> 62) /\
  forall a b, escape_html t = a ++ 38 :: b -> exists n r, In n [str "amp"; str "lt"; str "gt"] /\ b = n ++ r.
Proof.
  rewrite escape_quoted. split; [|apply quoted_amp]. destruct (quoted_no t) as [A B]. intros c I. unfold no in A, B. rewrite Forall_forall in A, B. split; [apply A, I|apply B, I].
Qed.
Print Assumptions C55_escape.
Example C55_escape_ex : escape_html (str "<a href='x'>&lt;") = str "&lta href='x'&gt&amplt;". Proof. vm_compute. reflexivity. Qed.
(** Different texts have different escaped forms. *)
Theorem C55_escape_injective a b : escape_html a = escape_html b -> a = b.
Proof. rewrite !escape_quoted. apply quoted_inj. Qed.
Print Assumptions C55_escape_injective.
(** A browser shows the text again, when no special character in it is followed by a letter, a digit or a semicolon. *)
Theorem C55_text_partial refs t s : legacy refs -> separated t -> shows refs (escape_html t) s <-> s = t.
Proof. intros L S. rewrite escape_quoted. now apply quoted_shows. Qed.
Print Assumptions C55_text_partial.
(** A part of the table of the standard. *)
Definition some_refs : list (bytes * bytes) :=
  [(str "amp", [38]); (str "amp;", [38]); (str "lt", [60]); (str "lt;", [60]); (str "gt", [62]); (str "gt;", [62]); (str "ltdot;", [226; 139; 150]); (str "gtdot;", [226; 139; 151])].
Lemma some_legacy : legacy some_refs.
Proof.
  split; [|split; [cbn; tauto|split; [cbn; tauto|split; [cbn; tauto|]]]].
  - cbn [some_refs map fst]. repeat constructor; vm_compute; intuition discriminate.
  - intros n v I. repeat (destruct I as [I|I]; [injection I as <- <-; split; [discriminate|repeat constructor]|]). contradiction.
Qed.
Fixpoint sep_b (t : bytes) : bool :=
  match t with x :: ((y :: _) as r) => negb (((x =? 38) || (x =? 60) || (x =? 62)) && refchar y) && sep_b r | _ => true end.
Lemma separated_b t : sep_b t = true -> separated t.
Proof.
  induction t as [|u t IH]; intros H a x y b E I; [destruct a; discriminate E|]. destruct a as [|w a].
  - cbn [app] in E. injection E as -> ->. cbn [sep_b] in H. apply andb_prop in H as [H _]. fold (refchar y). destruct I as [<-|[<-|[<-|[]]]]; cbn in H; now destruct (refchar y).
  - cbn [app] in E. injection E as _ E. apply (IH) with (a := a) (x := x) (b := b); auto. destruct t; [reflexivity|]. cbn [sep_b] in H. now apply andb_prop in H.
Qed.
Example C55_text_ex : legacy some_refs /\ separated (str "a < b && c <= -d; (x)>") /\ shows some_refs (str "a &lt b &amp&amp c &lt= -d; (x)&gt") (str "a < b && c <= -d; (x)>").
Proof.
  split; [exact some_legacy|]. assert (S : separated (str "a < b && c <= -d; (x)>")) by (apply separated_b; reflexivity).
  split; [exact S|]. change (str "a &lt b &amp&amp c &lt= -d; (x)&gt") with (escape_html (str "a < b && c <= -d; (x)>")). now apply (C55_text_partial _ _ _ some_legacy S).
Qed.
(** Otherwise it shows another text: the references are written without their semicolon, so one that follows is taken as theirs. *)
Theorem C55_text_refuted refs : legacy refs -> In (str "lt;", [60]) refs -> exists t u s, t <> u /\ shows refs (escape_html t) s /\ shows refs (escape_html u) s.
Proof.
  intros L I. exists (str "<;"), (str "<"), (str "<"). split; [discriminate|]. split.
  - change (escape_html (str "<;")) with (38 :: str "lt;" ++ []). change (str "<") with ([60] ++ []). apply SRef; [exact I| |constructor].
    intros n v t J E. eapply fits; [symmetry; exact E| |exact Logic.I]. apply (proj2 (proj2 (proj2 (proj2 L))) n v J).
  - change (escape_html (str "<")) with (38 :: str "lt" ++ []). change (str "<") with ([60] ++ []). apply SRef; [apply L| |constructor].
    intros n v t J E. eapply fits; [symmetry; exact E| |exact Logic.I]. apply (proj2 (proj2 (proj2 (proj2 L))) n v J).
Qed.
Print Assumptions C55_text_refuted.
(** F88: or another character altogether. *)
Theorem F88_other_character : shows some_refs (escape_html (str "x<dot;")) (str "x" ++ [226; 139; 150]).
Proof.
  change (escape_html (str "x<dot;")) with (120 :: 38 :: str "ltdot;" ++ []). change (str "x" ++ [226; 139; 150]) with (120 :: [226; 139; 150] ++ []). apply SChar; [discriminate|]. apply SRef; [cbn; tauto| |constructor].
  intros n v t J E. eapply fits; [symmetry; exact E| |exact Logic.I]. apply (proj2 (proj2 (proj2 (proj2 some_legacy))) n v J).
Qed.
Print Assumptions F88_other_character.

(** ** C73 *)
(** The text form exists for every packet, and equal texts are of packets with the same kind, hash, group, domain, space, key, creation
    time and links, data of one length, and the same visible data.  The data come last, so nothing in them can pass for a field. *)
Theorem C73_total lossy public test limit p cs : fields_ok (fields (point_parts p)) cs -> exists out, to_str lossy public test limit p = Ok out.
Proof. intros F. eexists. exact (to_str_lines _ _ _ _ _ _ F). Qed.
Print Assumptions C73_total.
Theorem C73_unambiguous lossy public test limit p cs q cs' out : bytes_ok (np_hash p) -> fields_ok (fields (point_parts p)) cs -> sizes_ok (printed_as p cs) ->
  bytes_ok (np_hash q) -> fields_ok (fields (point_parts q)) cs' -> sizes_ok (printed_as q cs') ->
  to_str lossy public test limit p = Ok out -> to_str lossy public test limit q = Ok out ->
  kind (hp_type (printed_as p cs)) = kind (hp_type (printed_as q cs')) /\ hp_hash (printed_as p cs) = hp_hash (printed_as q cs') /\ told (printed_as p cs) = told (printed_as q cs') /\
  lenN (hp_data (printed_as p cs)) = lenN (hp_data (printed_as q cs')) /\
  lossy (takeN (N.min (lenN (hp_data (printed_as p cs))) limit) (hp_data (printed_as p cs))) = lossy (takeN (N.min (lenN (hp_data (printed_as q cs'))) limit) (hp_data (printed_as q cs'))).
Proof.
  intros H F Z H' F' Z' E E'. rewrite (to_str_lines _ _ _ _ p cs F) in E. rewrite (to_str_lines _ _ _ _ q cs' F') in E'.
  apply (lines_inj lossy public test limit _ cs _ cs'); [now apply printed_told..|congruence].
Qed.
Print Assumptions C73_unambiguous.
(** The number of links is the number of the lines between `links` and `data`, whatever the tags hold; and the text of `evil`. *)
Example C73_ex : sizes_ok (printed_as evil evil_cs) /\
  to_str (fun b => b) (repeat 1 32) (repeat 2 32) 6 evil = Ok (str "type" ++ [9] ++ str "KeyPoint" ++ [10] ++ str "hash" ++ [9] ++ b64_display (np_hash evil) ++ [10] ++
    str "group" ++ [9] ++ str "[b:PDw8PDw8PDw8PDw8PDw8PDw8PDw8PDw8PDw8PDw8PDw]" ++ [10] ++ str "domain" ++ [9] ++ str "'><script>a&b;" ++ [10] ++ str "space" ++ [9] ++ str "/<\/li><b x='1'>/\0'""<" ++ [10] ++
    str "pubkey" ++ [9] ++ str "[b:AAAAAAAAAAAAAAAAAAAAAAAAAAAAAAAAAAAAAAAAAGM]" ++ [10] ++ str "create" ++ [9] ++ str "77" ++ [10] ++ str "links" ++ [9] ++ str "2" ++ [10] ++
    [9] ++ str "<\/div> PDw8PDw8PDw8PDw8PDw8PDw8PDw8PDw8PDw8PDw8PDw" ++ [10] ++ [9] ++ repeat 39 16 ++ str " Pj4-Pj4-Pj4-Pj4-Pj4-Pj4-Pj4-Pj4-Pj4-Pj4-Pj4" ++ [10] ++
    str "data" ++ [9] ++ str "28" ++ [10] ++ str "</pre>").
Proof. split; [|vm_compute; reflexivity]. split; [reflexivity|]. split; [vm_compute; discriminate|repeat constructor]. Qed.
