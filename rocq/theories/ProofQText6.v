From Verif Require Import Bytes ModelAbe SpecAbe ProofAbe ProofAbe2 PropsAbe ModelFmt PropsFmt ModelEval ModelFn SpecEval ProofEval ProofEval2 ProofEval3 PropsEval.
From Verif Require Import ModelSpace SpecSpace ProofSpace ProofRooted ProofTree SpecPkt ModelTestSet SpecTestSet ProofTestSet ModelPred SpecPred ProofPred PropsPred.
From Verif Require Import ModelQText SpecQText ProofQText ProofQText2 ProofQText3 ProofQText4 ProofQText5 ProofFmt.

(** ** Lines made of items *)
Lemma denotes_newline t l : denotes t l -> ~ In 10 t.
Proof.
  induction 1 as [|c t l D IH|t1 t2 l1 l2 D1 IH1 D2 IH2|t1 b t2 l NE R NB D IH]; [tauto| | |].
  - intros [H|H]; [destruct c; discriminate|contradiction].
  - intros [H|H]; [discriminate|]. apply in_app_iff in H as [H|[H|H]]; [contradiction|discriminate|contradiction].
  - intros H. apply in_app_iff in H as [H|H]; [exact (reads_newline t1 b R H)|contradiction].
Qed.
(** A delimiter, the text behind it and the value of that. *)
Definition segment : Type := (Ctr * bytes * bytes)%type.
Definition seg_text (g : segment) : bytes := let '(c, t, _) := g in delim c :: t.
Definition seg_value (g : segment) : option Ctr * bytes := let '(c, _, v) := g in (Some c, v).
Definition seg_ok (s : scope) (g : segment) : Prop := let '(_, t, v) := g in item s t v \/ t = [] /\ v = [].
Lemma segments s gs : Forall (seg_ok s) gs -> exists l n, denotes (flat_map seg_text gs) l /\ not_bytes l /\
  forall fuel, (n <= fuel)%nat -> forall acc, eval_items s (ctx_of fuel s) l acc = Ok (acc ++ map seg_value gs).
Proof.
  induction 1 as [|[[c t] v] gs G F (l & n & D & NB & E)]; [exists [], 0%nat; repeat split; try constructor; intros; cbn; now rewrite app_nil_r|].
  cbn [flat_map seg_text map seg_value app]. destruct G as [(x & X & DX & m & M)|[-> ->]].
  - exists (ACtr c :: x :: l), (Nat.max m n). split; [constructor; now apply DX|]. split; [exact I|]. intros fuel FU acc. cbn [eval_items match_expr obind push_item]. rewrite M by lia.
    cbn [obind]. unfold push_ctr. cbn [push_item]. rewrite push_bytes_last, E by lia. now rewrite <- app_assoc.
  - exists (ACtr c :: l), n. split; [constructor; exact D|]. split; [exact I|]. intros fuel FU acc. cbn [eval_items match_expr obind push_item]. unfold push_ctr. rewrite E by lia. now rewrite <- app_assoc.
Qed.
Definition line_ok (s : scope) (t : bytes) (v : ABList) : Prop :=
  t <> [] /\ ~ In 10 t /\ exists n, forall fuel, (n <= fuel)%nat -> eval_line fuel s t = Ok v.
Lemma segments_line s name gs : name <> [] -> bytes_ok name -> Forall (seg_ok s) gs -> line_ok s (as_abtxt name ++ flat_map seg_text gs) ((None, name) :: map seg_value gs).
Proof.
  intros NE O F. destruct (segments s gs F) as (l & n & D & NB & E). pose proof (abtxt_reads name O) as R.
  assert (DN : denotes (as_abtxt name ++ flat_map seg_text gs) (ABytes name :: l)) by now apply denotes_bytes.
  split; [|split; [exact (denotes_newline _ _ DN)|]].
  - intros Q. apply app_eq_nil in Q as [Q _]. rewrite Q in R. inversion R; [congruence|]. destruct u; [|discriminate]. match goal with U : reads1 [] _ |- _ => inversion U end.
  - exists (S n). intros [|fuel] FU; [lia|]. unfold eval_line. apply parse_denotes in DN. rewrite DN. change (eval (S fuel) s ?x) with (eval_items s (ctx_of fuel s) x []).
    cbn [eval_items match_expr obind push_item push_bytes]. rewrite E by lia. reflexivity.
Qed.

(** ** Items *)
Lemma abe_item s l v : normal l -> evaluates_abe s [ALst l] v -> item s (print1 (ALst l)) v.
Proof.
  intros N (n & E). exists (ALst l). split; [reflexivity|]. split.
  - intros tail m NB D. cbn [print1]. change ((91 :: flat_map print1 l ++ [93]) ++ tail) with (91 :: (flat_map print1 l ++ [93]) ++ tail). rewrite <- app_assoc. cbn [app].
    apply denotes_lst; [|exact D]. rewrite <- (norm_normal l N) at 2. apply print_denotes. now apply normal_ok.
  - exists n. intros fuel FU. destruct (E (S fuel)) as (abl & V & B); [lia|]. change (eval (S fuel) s [ALst l]) with (eval_items s (ctx_of fuel s) [ALst l] []) in V. cbn [eval_items] in V.
    assert (IB : forall i, match_expr s (ctx_of fuel s) (ALst l) = Ok i -> exists b, i = IBytes b).
    { intros i. cbn [match_expr]. destruct (match l with ACtr CFSlash :: _ => None | _ => _ end) as [r|].
      - destruct r as [a|e| |]; cbn [obind]; try discriminate. destruct (run_calls s (ctx_of fuel s) (split_fslash a) []); cbn [obind]; try discriminate. intros Q. injection Q as <-. eauto.
      - destruct (run_macro s (ctx_of fuel s) (tl l)); cbn [obind]; try discriminate. intros Q. injection Q as <-. eauto. }
    destruct (match_expr s (ctx_of fuel s) (ALst l)) as [i|e| |]; cbn [obind] in V; try discriminate. destruct (IB i eq_refl) as [b ->]. injection V as <-.
    cbn [push_item push_bytes] in B. cbn in B. injection B as <-. reflexivity.
Qed.
Lemma call1_normal id a : id <> [] -> bytes_ok id -> a <> [] -> bytes_ok a -> normal [ABytes id; ACtr CColon; ABytes a].
Proof. intros. constructor; try assumption; [exact I|]. constructor. constructor; try assumption; [exact I|constructor]. Qed.
Lemma print1_bytes b : print1 (ABytes b) = as_abtxt b. Proof. cbn [print1]. now rewrite ?as_abtxt_flat. Qed.
Lemma int_item o s k b : extends (core_scope o) s -> In k [1; 2; 4; 8; 16]%nat -> bytes_ok b -> lenN b = N.of_nat k -> item s (print1 (uint_to_abe false k b)) b.
Proof.
  intros X K O L. apply abe_item; [|exact (C43_int_abe o s false k b X K O L)]. apply call1_normal; [discriminate| |apply to_string_ne|].
  - unfold uint_name. apply bytes_ok_app. split; [apply bytes_okb; reflexivity|]. exact (reads_bytes_ok _ _ (to_string_reads _)).
  - unfold uint_display. exact (reads_bytes_ok _ _ (to_string_reads _)).
Qed.
Lemma b64_item o s b : extends (core_scope o) s -> bytes_ok b -> b <> [] -> item s (print1 (b64_to_abe b)) b.
Proof.
  intros X O NE. apply abe_item; [|exact (C43_b64_abe o s b X O NE)]. apply call1_normal; [discriminate|apply bytes_okb; reflexivity| |].
  - intros E. apply NE. assert (base64_decode (base64 b) = Some b) as H by now apply decode_raw_iff. rewrite E in H. now injection H.
  - exact (reads_bytes_ok _ _ (base64_reads b O)).
Qed.
Lemma bits_item o s x : extends (core_scope o) s -> byte_ok x -> item s (print1 (abe_bits [x])) [x].
Proof.
  intros X O. assert (BO : bytes_ok [x]) by (constructor; [exact O|constructor]).
  assert (S : shortest [x]) by (destruct (N.eq_dec x 0) as [->|NE]; [now left|right; split; [discriminate|split; [exact NE|change (lenN [x]) with 1; lia]]]).
  pose proof (digits_reads 2 8 [x] eq_refl ltac:(lia) eq_refl BO) as RD.
  assert (as_abtxt (flat_map (digits_of 2 8) [x]) = flat_map (digits_of 2 8) [x]) as E.
  { rewrite as_abtxt_flat. assert (forall n y, flat_map escape_default (digits_of 2 n y) = digits_of 2 n y) as H; [|cbn [flat_map]; rewrite flat_map_app, H; reflexivity].
    clear. intros n y. assert (Forall (fun c => escape_default c = [c]) (digits_of 2 n y)) as F.
    { revert y. induction n as [|n IH]; intros y; [constructor|]. cbn [digits_of]. apply Forall_app. split; [apply IH|]. constructor; [|constructor].
      pose proof (N.mod_lt y 2 ltac:(lia)) as M. destruct (y mod 2) as [|p]; [reflexivity|]. destruct p; try lia. reflexivity. }
    induction F as [|c l H F IH]; [reflexivity|]. cbn [flat_map]. now rewrite H, IH. }
  apply (enc_bin_evaluates o s 2 8 [x] [] _ (extends_basic _ _ X)); [left; auto|exact BO|exact S|].
  unfold enc_bin. cbn [len_set]. change (print1 (abe_bits [x])) with (91 :: (print1 (ABytes (str "b2")) ++ 58 :: print1 (ABytes (flat_map (digits_of 2 8) [x])) ++ []) ++ [93]).
  rewrite print1_bytes, (print1_bytes (flat_map _ _)), E, app_nil_r. reflexivity.
Qed.
Lemma plain_escape c : plain c -> escape_default c = [c].
Proof.
  intros [R NI]. unfold escape_default. assert (forall x, In x special -> c <> x) as D by (intros x IN ->; contradiction).
  assert (c <> 58 /\ c <> 92 /\ c <> 47 /\ c <> 91 /\ c <> 93) as (D1 & D2 & D3 & D4 & D5) by (repeat split; apply D; vm_compute; tauto).
  rewrite !(proj2 (N.eqb_neq _ _)) by (assumption || lia). replace (32 <=? c) with true by (symmetry; apply N.leb_le; lia). replace (c <=? 126) with true by (symmetry; apply N.leb_le; lia). reflexivity.
Qed.
Lemma plain_text t : Forall plain t -> as_abtxt t = t.
Proof. intros F. rewrite as_abtxt_flat. induction F as [|c t P F IH]; [reflexivity|]. cbn [flat_map]. now rewrite plain_escape, IH. Qed.
Lemma cut_padded f n t : f = 0 \/ f = 255 -> Forall plain t -> cut_prefixeq f (repeat f n ++ t) = t.
Proof.
  intros FF P. induction n as [|n IH]; cbn [repeat app cut_prefixeq].
  - destruct P as [|c t [R _] P]; [reflexivity|]. cbn [cut_prefixeq]. destruct (N.eqb_spec c f); [lia|reflexivity].
  - now rewrite N.eqb_refl.
Qed.
Lemma cut_plain b : padded_plain b -> exists m t, x_prefix_cut b = (m, t) /\ Forall plain t.
Proof.
  intros (f & n & t & FF & -> & P). unfold x_prefix_cut, cut_prefix_nulls. exists (hd 0 (repeat f n ++ t) =? 255), t. split; [|exact P].
  assert (hd 0 t <> 255) as HT by (destruct P as [|c t [R _] P]; cbn [hd]; [discriminate|lia]).
  destruct n as [|n]; cbn [repeat app hd].
  - destruct (N.eqb_spec (hd 0 t) 255); [contradiction|]. f_equal. exact (cut_padded 0 0 t (or_introl eq_refl) P).
  - destruct FF as [-> | ->]; [change (0 =? 255) with false|change (255 =? 255) with true]; cbv iota; f_equal.
    + exact (cut_padded 0 (S n) t (or_introl eq_refl) P).
    + exact (cut_padded 255 (S n) t (or_intror eq_refl) P).
Qed.
Lemma ab_item o s b : extends (core_scope o) s -> bytes_ok b -> lenN b = 16 -> padded_plain b -> item s (print1 (ab_to_abe b)) b.
Proof.
  intros X O L P. assert (print1 (ab_to_abe b) = ab_to_abe_str b) as ->; [|apply (ab_to_abe_str_evaluates o); [now apply extends_basic|exact O|rewrite L; reflexivity]].
  unfold ab_to_abe, ab_to_abe_str. destruct (cut_plain b P) as (m & t & -> & PT). rewrite L. change (16 =? 16) with true. cbv iota beta. rewrite (plain_text t PT).
  transitivity (91 :: (print1 (ABytes (ab_mode m)) ++ 58 :: print1 (ABytes t) ++ []) ++ [93]); [reflexivity|].
  rewrite !print1_bytes, (plain_text t PT), app_nil_r. destruct m; cbn [ab_mode]; rewrite <- app_assoc; reflexivity.
Qed.
(** ** The printed texts *)
Lemma fit_same k b : lenN b = k -> fit k b = Ok b.
Proof. intros L. apply (proj1 (proj2 (proj2 (C44_fit k 0 b b)))). auto. Qed.
Lemma num_segment o s k b : extends (core_scope o) s -> numeric k -> bytes_ok b -> List.length b = size_of k -> (k = RField DomainF -> padded_plain b) ->
  exists t, print_abe (canonical k [(None, b)]) = t /\ item s t b.
Proof.
  intros X K O L PD.
  assert (INT : forall n, lenN b = N.of_nat n -> In n [1; 2; 4; 8; 16]%nat ->
    item s (print_abe (or_raw (conv [(None, b)] (fun b => out_opt (fit (N.of_nat n) b)) (uint_to_abe false n)) [(None, b)])) b).
  { intros n LN IN. unfold conv. cbn [as_exact_bytes]. rewrite fit_same by exact LN. cbn [out_opt or_raw print_abe flat_map]. rewrite app_nil_r. now apply (int_item o). }
  assert (B64 : lenN b = 32 -> item s (print_abe (or_raw (conv [(None, b)] (b64_fit_or_parse 32) b64_to_abe) [(None, b)])) b).
  { intros LN. unfold conv. cbn [as_exact_bytes]. assert (b64_fit_or_parse 32 b = Some b) as -> by (rewrite <- LN; apply C44_b64_either; [exact O|intros ->; discriminate LN]).
    cbn [or_raw print_abe flat_map]. rewrite app_nil_r. apply (b64_item o); [exact X|exact O|]. intros ->. discriminate LN. }
  assert (BIT : lenN b = 1 -> item s (print_abe (or_raw (conv [(None, b)] (fun b => out_opt (fit 1 b)) abe_bits) [(None, b)])) b).
  { intros LN. unfold conv. cbn [as_exact_bytes]. rewrite fit_same by exact LN. cbn [out_opt or_raw print_abe flat_map]. rewrite app_nil_r.
    destruct b as [|x [|y b]]; [discriminate LN| |exfalso; rewrite !lenN_cons in LN; lia]. apply (bits_item o); [exact X|]. now apply Forall_inv in O. }
  assert (LN : lenN b = N.of_nat (size_of k)) by (unfold lenN; now rewrite L). eexists. split; [reflexivity|].
  destruct k as [f| | |q]; [destruct f; try contradiction|..]; cbn [canonical];
    try (apply INT; [exact LN|cbn; tauto]); try (apply B64; exact LN); try (apply BIT; exact LN); try contradiction.
  (* the domain *)
  unfold conv. cbn [as_exact_bytes]. assert (try_ab 16 b = Ok b) as ->.
  { unfold try_ab, fit_back. change (lenN b = 16) in LN. rewrite LN. reflexivity. }
  cbn [out_opt or_raw print_abe flat_map]. rewrite app_nil_r. apply (ab_item o); [exact X|exact O|exact LN|now apply PD].
Qed.

Lemma component_text o s c : extends (core_scope o) s -> c <> [] -> bytes_ok c -> (lenN c = 16 -> padded_plain c) ->
  item s (print1 (if lenN c =? 32 then b64_to_abe c else if lenN c =? 16 then ab_to_abe c else ABytes c)) c.
Proof.
  intros X NE O P. destruct (N.eqb_spec (lenN c) 32); [now apply (b64_item o)|]. destruct (N.eqb_spec (lenN c) 16); [now apply (ab_item o); auto|].
  rewrite print1_bytes. apply reads_item; [exact NE|now apply abtxt_reads].
Qed.
Definition comp_abe (c : bytes) : ABE := if lenN c =? 32 then b64_to_abe c else if lenN c =? 16 then ab_to_abe c else ABytes c.
Lemma prefix_canonical cs : space_ok cs -> (List.length cs <= 8)%nat -> canonical RPrefix (slash_abl cs) = flat_map (fun c => [ACtr CFSlash; comp_abe c]) cs.
Proof.
  intros SK L8. assert (try_from_iter cs = Ok (wire_space cs)) as T by (apply try_from_iter_iff; repeat split; try apply SK; unfold lenN; lia).
  assert (space_from_ablist (slash_abl cs) = Ok (wire_space cs)) as E.
  { destruct cs as [|c cs]; [reflexivity|]. pose proof (slash_parts (c :: cs) ltac:(apply SK)) as SP. unfold slash_abl in *. cbn [map] in *. unfold space_from_ablist.
    cbn [negb andb as_exact_bytes]. now rewrite SP, T. }
  cbn [canonical]. rewrite E. unfold space_to_abe. rewrite components_wire by apply SK. reflexivity.
Qed.
Lemma slashes_text cs : print_abe (flat_map (fun c => [ACtr CFSlash; comp_abe c]) cs) = flat_map seg_text (map (fun c => (CFSlash, print1 (comp_abe c), c)) cs).
Proof. unfold print_abe. induction cs as [|c cs IH]; [reflexivity|]. cbn [flat_map map seg_text app]. rewrite IH. cbn [print1 ctr_char delim]. reflexivity. Qed.
(** A text whose line, printed as an expression, has the same value. *)
Definition expressed (s : scope) (t : TextPredicate) : Prop := line_ok s (text_print true t) (text_abl t).
Lemma op_item s op : item s (print1 (ABytes [op_byte op])) (op_text (Op op)).
Proof. rewrite op_byte_text, print1_bytes. apply reads_item; [destruct op; discriminate|]. apply abtxt_reads. apply (proj2 (op_plain (Op op))). Qed.
Lemma line_head s k op gs v body : printable k -> Forall (seg_ok s) gs -> map seg_value gs = colonize v -> flat_map seg_text gs = 58 :: body ->
  print_abe (canonical k v) = body -> expressed s (k, op, v).
Proof.
  intros K F V T P. unfold expressed. destruct (name_cons k K) as (x & r & E). destruct (name_plain k K) as [NP NO].
  pose proof (segments_line s (rule_name k) ((CColon, print1 (ABytes [op_byte op]), op_text (Op op)) :: gs)) as L. cbn [flat_map seg_text map seg_value] in L. rewrite V, T in L.
  assert (text_print true (k, op, v) = as_abtxt (rule_name k) ++ (delim CColon :: print1 (ABytes [op_byte op])) ++ 58 :: body) as ->.
  { unfold text_print. unfold print_abe in *. rewrite flat_map_app, P. cbn [flat_map]. rewrite print1_bytes, app_nil_r, <- !app_assoc. reflexivity. }
  apply L; [rewrite E; discriminate|exact NO|]. constructor; [left; apply op_item|exact F].
Qed.
Lemma num_expressed o s k op b : extends (core_scope o) s -> numeric k -> bytes_ok b -> List.length b = size_of k -> (k = RField DomainF -> padded_plain b) -> expressed s (k, op, [(None, b)]).
Proof.
  intros X K O L PD. destruct (num_segment o s k b X K O L PD) as (t & E & IT). apply (line_head s k op [(CColon, t, b)] _ t); [now left| |reflexivity| |exact E].
  - constructor; [left; exact IT|constructor].
  - cbn [flat_map seg_text delim]. now rewrite app_nil_r.
Qed.
Lemma prefix_expressed o s op cs : extends (core_scope o) s -> space_ok cs -> (List.length cs <= 8)%nat -> cs <> [] -> Forall bytes_ok cs -> Forall (fun c => lenN c = 16 -> padded_plain c) cs ->
  expressed s (RPrefix, op, slash_abl cs).
Proof.
  intros X SK L8 NE B P. apply (line_head s RPrefix op ((CColon, [], []) :: map (fun c => (CFSlash, print1 (comp_abe c), c)) cs) _ (print_abe (canonical RPrefix (slash_abl cs)))); [now right| | | |reflexivity].
  - constructor; [now right|]. apply Forall_map. destruct SK as [C _]. rewrite Forall_forall in *. intros c IN. left. apply (component_text o); auto.
    destruct (C c IN) as [H _]. intros ->. cbn in H. lia.
  - cbn [map seg_value]. rewrite map_map. destruct cs as [|c cs]; [contradiction|]. reflexivity.
  - cbn [flat_map seg_text delim app]. now rewrite prefix_canonical, slashes_text.
Qed.
(** ** The whole text *)
Lemma lines_bound s ts : Forall (expressed s) ts -> exists n, Forall (fun t => text_print true t <> [] /\ ~ In 10 (text_print true t) /\ forall fuel, (n <= fuel)%nat -> eval_line fuel s (text_print true t) = Ok (text_abl t)) ts.
Proof.
  induction 1 as [|t ts (NE & NN & m & E) F (n & IH)]; [exists 0%nat; constructor|]. exists (Nat.max m n). constructor.
  - split; [exact NE|]. split; [exact NN|]. intros fuel FU. apply E. lia.
  - eapply Forall_impl; [|exact IH]. intros t' (A & B & C). split; [exact A|]. split; [exact B|]. intros fuel FU. apply C. lia.
Qed.
Lemma parse_expressed s ts : Forall (expressed s) ts -> exists n, forall fuel q, (n <= fuel)%nat -> query_parse fuel s q (flat_map (fun t => text_print true t ++ [10]) ts) = add_stmts q (map text_abl ts).
Proof.
  intros F. destruct (lines_bound s ts F) as (n & B). exists n. intros fuel q FU. revert q. unfold query_parse. induction B as [|t ts (NE & NN & E) B IH]; intros q; [reflexivity|].
  cbn [flat_map map add_stmts]. rewrite <- app_assoc. cbn [app]. rewrite split_line by exact NN. cbn [parse_lines]. specialize (E fuel FU). destruct (text_print true t) as [|x r]; [contradiction|].
  rewrite E. cbn [obind]. destruct (add_stmt q (text_abl t)) as [q'|e| |]; cbn [obind]; [|reflexivity..]. apply IH. now inversion F.
Qed.
