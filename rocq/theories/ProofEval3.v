(** Numbers in base 2 and 16, the text of spaces, and the encoders together. *)
From Verif Require Import Bytes ModelAbe SpecAbe ProofAbe ProofAbe2 ModelFmt SpecFmt ProofFmt PropsFmt ModelSpace SpecSpace ProofSpace ModelEval ModelFn SpecEval ProofEval ProofEval2.
Ltac Zify.zify_post_hook ::= Z.div_mod_to_equations.

(** ** Base 2 and 16 *)
Lemma f2_length {A B} (R : A -> B -> Prop) a b : Forall2 R a b -> List.length a = List.length b.
Proof. induction 1; cbn; congruence. Qed.
Lemma digit_char_is radix d : radix <= 36 -> d < radix -> is_digit radix (digit_char d) d.
Proof.
  intros R D. apply digit_of_iff; [assumption|]. unfold digit_of, digit_char. destruct (N.ltb_spec d 10).
  - assert ((48 <=? 48 + d) && (48 + d <=? 57) = true) as -> by lia. replace (48 + d - 48) with d by lia. now assert ((d <? radix) = true) as -> by lia.
  - assert ((48 <=? 55 + d) && (55 + d <=? 57) = false) as -> by lia. assert ((97 <=? 55 + d) && (55 + d <=? 122) = false) as -> by lia.
    assert ((65 <=? 55 + d) && (55 + d <=? 90) = true) as -> by lia. replace (55 + d - 55) with d by lia. now assert ((d <? radix) = true) as -> by lia.
Qed.
Lemma digits_of_spec radix w : 1 < radix -> radix <= 36 -> forall v, exists ds, Forall2 (is_digit radix) (digits_of radix w v) ds /\
  lenN ds = N.of_nat w /\ positional radix ds = v mod radix ^ N.of_nat w.
Proof.
  intros R1 R. induction w as [|w IH]; intros v.
  - exists []. split; [constructor|]. split; [reflexivity|]. now rewrite N.pow_0_r, N.mod_1_r.
  - destruct (IH (v / radix)) as (ds & F & L & P). exists (ds ++ [v mod radix]). cbn [digits_of]. split; [|split].
    + apply Forall2_app; [assumption|]. constructor; [|constructor]. apply digit_char_is; [assumption|]. apply N.mod_lt. lia.
    + rewrite lenN_app, L. change (lenN [v mod radix]) with 1. lia.
    + rewrite positional_app, P. rewrite Nat2N.inj_succ, N.pow_succ_r', (N.mod_mul_r v radix (radix ^ N.of_nat w)) by (try lia; apply N.pow_nonzero; lia). lia.
Qed.
Lemma byte_digits radix w b : 1 < radix -> radix <= 36 -> radix ^ N.of_nat w = 256 -> bytes_ok b ->
  exists ds, Forall2 (is_digit radix) (flat_map (digits_of radix w) b) ds /\ positional radix ds = be_decode b /\ lenN ds = N.of_nat w * lenN b.
Proof.
  intros R1 R P. induction b as [|x b IH]; intros O; [exists []; split; [constructor|split; [reflexivity|change (lenN (@nil N)) with 0; lia]]|].
  apply ok_cons in O as [X O]. destruct (IH O) as (ds & F & V & L). destruct (digits_of_spec radix w R1 R x) as (dx & Fx & Lx & Vx).
  exists (dx ++ ds). cbn [flat_map]. split; [now apply Forall2_app|]. split.
  - rewrite positional_app2, Vx, V, P, N.mod_small by assumption. rewrite be_decode_cons, L, N.pow_mul_r, P. reflexivity.
  - rewrite lenN_app, lenN_cons, Lx, L. lia.
Qed.
Lemma pad16 (c : bytes) : (List.length c <= 16)%nat -> List.length (repeat 0 (16 - List.length c) ++ c) = 16%nat.
Proof. intros L. rewrite app_length, repeat_length. lia. Qed.
Definition shortest (b : bytes) : Prop := b = [0] \/ (b <> [] /\ hd 0 b <> 0 /\ lenN b <= 16).
Lemma be_decode_lead b : bytes_ok b -> be_decode b = 0 <-> b = repeat 0 (List.length b).
Proof.
  intros O. induction O as [|x b X O IH]; [now split|]. rewrite be_decode_cons. cbn [List.length repeat]. split.
  - intros E. assert (x = 0) as -> by (pose proof (N.pow_nonzero 256 (lenN b)); nia). f_equal. apply IH. lia.
  - intros [= -> E]. apply IH in E. lia.
Qed.
Lemma be_decode_zeros n b : be_decode (repeat 0 n ++ b) = be_decode b.
Proof. induction n as [|n IH]; [reflexivity|]. cbn [repeat app]. rewrite be_decode_cons, IH. lia. Qed.
Lemma bin_iff radix w b v : 1 < radix -> radix <= 36 -> radix ^ N.of_nat w = 256 -> bytes_ok b ->
  bin [flat_map (digits_of radix w) b] radix = Ok (Some v) <-> b <> [] /\ be_decode b < 2 ^ 128 /\ v = (if be_decode b =? 0 then [0] else cut_prefix_nulls b).
Proof.
  intros R1 R P O. destruct (byte_digits radix w b R1 R P O) as (ds & F & V & L). unfold bin. cbn [arg nth].
  assert (NE : flat_map (digits_of radix w) b <> [] <-> b <> []).
  { assert (W : w <> 0%nat) by (intros ->; change (radix ^ N.of_nat 0) with 1 in P; lia).
    pose proof (f2_length _ _ _ F) as FL. split; intros H E; apply H; [now subst|]. rewrite E in FL. destruct ds; [|discriminate].
    destruct b; [reflexivity|]. rewrite lenN_cons in L. change (lenN (@nil N)) with 0 in L. lia. }
  assert (PR : forall n, parse_radix (umax_of 16) radix (flat_map (digits_of radix w) b) = Some n <-> b <> [] /\ n = be_decode b /\ n < 2 ^ 128).
  { intros n. rewrite parse_radix_iff by lia. change (umax_of 16) with (2 ^ 128 - 1). split.
    - intros [[(N1 & ds' & F' & V')|(r & E & N1)] M].
      + split; [tauto|]. split; [|lia]. rewrite <- V', <- V. f_equal. clear - F F' R.
        revert ds' F'. induction F as [|c d t ds D F IH]; intros ds' F'; inversion F' as [|? d' ? ds'' D' F'']; subst; [reflexivity|].
        f_equal; [|now apply IH]. apply digit_of_iff in D, D'; [congruence|assumption..].
      + exfalso. rewrite E in F. inversion F as [|? ? ? ? D]. now apply digit_plus in D.
    - intros (N1 & -> & M). split; [left|lia]. split; [tauto|]. now exists ds. }
  assert (CV : be_decode b < 2 ^ 128 -> (if be_decode b =? 0 then [0] else cut_prefix_nulls (be_encode 16 (be_decode b))) = if be_decode b =? 0 then [0] else cut_prefix_nulls b).
  { intros M. destruct (N.eqb_spec (be_decode b) 0) as [Z|Z]; [reflexivity|]. unfold cut_prefix_nulls.
    destruct (cut_trimmed 0 b) as [[n E] H]. set (c := cut_prefixeq 0 b) in *.
    assert (DC : be_decode b = be_decode c) by (rewrite E at 1; apply be_decode_zeros).
    assert (OC : bytes_ok c) by now apply cut_ok.
    assert (LC : (List.length c <= 16)%nat).
    { destruct H as [->|H]; [cbn; lia|]. destruct c as [|x c']; [cbn; lia|]. cbn [hd] in H. rewrite be_decode_cons in DC.
      apply Nat.nlt_ge. intros G. assert (16 <= lenN c') by (unfold lenN; cbn in G; lia).
      assert (256 ^ 16 <= 256 ^ lenN c') by (apply N.pow_le_mono_r; lia). change (256 ^ 16) with (2 ^ 128) in *. nia. }
    assert (BE : be_encode 16 (be_decode c) = repeat 0 (16 - List.length c) ++ c).
    { pose proof (be_encode_decode (repeat 0 (16 - List.length c) ++ c)) as Q. rewrite be_decode_zeros in Q.
      replace (List.length (repeat 0 (16 - List.length c) ++ c)) with 16%nat in Q by (symmetry; now apply pad16). apply Q.
      apply Forall_app. split; [|assumption]. apply Forall_forall. intros x I. apply repeat_spec in I. rewrite I. unfold byte_ok. lia. }
    rewrite DC, BE, cut_repeat by assumption. reflexivity. }
  split.
  - destruct (parse_radix _ radix _) as [n|] eqn:E; [|discriminate]. destruct (proj1 (PR n) eq_refl) as (N1 & -> & M). unfold val. intros H.
    apply (f_equal (fun x => match x with Ok (Some v) => v | _ => [] end)) in H. cbn beta iota in H. rewrite CV in H by assumption. auto.
  - intros (N1 & M & ->). assert (parse_radix (umax_of 16) radix (flat_map (digits_of radix w) b) = Some (be_decode b)) as -> by now apply PR. now rewrite CV.
Qed.
Lemma bin_back radix w b : 1 < radix -> radix <= 36 -> radix ^ N.of_nat w = 256 -> bytes_ok b ->
  bin [flat_map (digits_of radix w) b] radix = Ok (Some b) <-> shortest b.
Proof.
  intros R1 R P O. rewrite bin_iff by assumption. unfold shortest, cut_prefix_nulls. destruct (cut_trimmed 0 b) as [[n E] H]. split.
  - intros (N1 & M & V). destruct (N.eqb_spec (be_decode b) 0) as [Z|Z]; [now left|]. right. rewrite <- V in H. destruct H as [H|H]; [contradiction|].
    split; [assumption|]. split; [assumption|]. destruct b as [|x b]; [contradiction|]. cbn in H. rewrite be_decode_cons in M. rewrite lenN_cons.
    destruct (N.le_gt_cases (lenN b) 15); [lia|]. assert (256 ^ 16 <= 256 ^ lenN b) by (apply N.pow_le_mono_r; lia). change (256 ^ 16) with (2 ^ 128) in *. nia.
  - intros [->|(N1 & H0 & L)]; [now vm_compute|]. split; [assumption|]. pose proof (be_decode_bound b O) as B.
    assert (256 ^ lenN b <= 256 ^ 16) by (apply N.pow_le_mono_r; lia). change (256 ^ 16) with (2 ^ 128) in *. split; [lia|].
    destruct (N.eqb_spec (be_decode b) 0) as [Z|Z].
    + apply be_decode_lead in Z; [|assumption]. destruct b; [contradiction|]. cbn in Z, H0. congruence.
    + symmetry. apply (trimmed_fun 0 b); [apply cut_trimmed|]. split; [now exists 0%nat|now right].
Qed.

Lemma number_plain radix t n : radix <= 36 -> number radix t n -> Forall plain t.
Proof. intros R H. apply Forall_forall. intros c I. apply alnum_plain. eapply number_digit; eassumption. Qed.
Lemma digits_reads radix w b : 1 < radix -> radix <= 36 -> radix ^ N.of_nat w = 256 -> bytes_ok b -> reads (flat_map (digits_of radix w) b) (flat_map (digits_of radix w) b).
Proof.
  intros R1 R P O. destruct (byte_digits radix w b R1 R P O) as (ds & F & V & L). apply plain_reads.
  destruct (flat_map _ b) eqn:E; [constructor|]. apply (number_plain radix _ (be_decode b)); [assumption|]. split; [discriminate|]. now exists ds.
Qed.

(** ** What a call evaluates to *)
Lemma evaluates_fun s t b1 b2 : evaluates s t b1 -> evaluates s t b2 -> b1 = b2.
Proof.
  intros (l1 & n1 & P1 & E1) (l2 & n2 & P2 & E2). rewrite P1 in P2. injection P2 as <-.
  destruct (E1 (Nat.max n1 n2)) as (a1 & A1 & B1); [lia|]. destruct (E2 (Nat.max n1 n2)) as (a2 & A2 & B2); [lia|]. congruence.
Qed.
Lemma call_evaluates_iff s tid id ts bs v r : id <> [] -> lenN bs <= 15 -> reads tid id -> Forall2 reads ts bs ->
  (forall ctx, sc_func s ctx id bs true = r) ->
  evaluates s (91 :: tid ++ args_text ts ++ [93]) v <-> r = Ok (Some v).
Proof.
  intros NE L R F C. split.
  - intros (l & n & P & E). assert (P' : parse_abe_strict (91 :: tid ++ args_text ts ++ [93]) = Ok [ALst (ABytes id :: args_abe bs)]) by now apply parse_denotes, call_denotes.
    rewrite P' in P. injection P as <-. destruct (E (S (S n))) as (abl & V & B); [lia|]. rewrite eval_call in V by assumption. unfold call in V. cbn [tl] in V.
    rewrite C in V. destruct r as [[x|]| | |]; try discriminate. cbn [obind] in V. injection V as <-. cbn in B. congruence.
  - intros ->. apply item_evaluates, call_evaluates with id bs; auto.
Qed.
Lemma enc_bin_evaluates o s radix w b opts t : extends (basic_scope o) s -> (radix = 2 /\ w = 8%nat) \/ (radix = 16 /\ w = 2%nat) -> bytes_ok b -> shortest b ->
  enc_bin radix w b opts = Ok (Some t) -> item s t b.
Proof.
  intros X RW O S. unfold enc_bin. destruct (len_set opts); [|discriminate]. destruct (_ && _); [discriminate|]. unfold val. intros H.
  apply (f_equal (fun x => match x with Ok (Some v) => v | _ => [] end)) in H. cbn beta iota in H. subst t.
  assert (RW' : 1 < radix /\ radix <= 36 /\ radix ^ N.of_nat w = 256) by (destruct RW as [[-> ->]|[-> ->]]; now vm_compute). destruct RW' as (R1 & R & P).
  pose proof (proj2 (bin_back radix w b R1 R P O) S) as E. pose proof (digits_reads radix w b R1 R P O) as RD.
  destruct RW as [[-> ->]|[-> ->]].
  - change (str "[b" ++ to_string 2 ++ str ":" ++ ?x ++ str "]") with (91 :: str "b2" ++ 58 :: x ++ [93]).
    eapply (core_eval1 o s X) with (id := str "b2"); [discriminate|apply plain_reads; repeat constructor; vm_compute; intuition discriminate|exact RD|reflexivity|now left|cbn; lia|].
    intros ctx. exact E.
  - change (str "[b" ++ to_string 16 ++ str ":" ++ ?x ++ str "]") with (91 :: str "b16" ++ 58 :: x ++ [93]).
    eapply (core_eval1 o s X) with (id := str "b16"); [discriminate|apply plain_reads; repeat constructor; vm_compute; intuition discriminate|exact RD|reflexivity|now left|cbn; lia|].
    intros ctx. exact E.
Qed.

(** ** Spaces *)
Lemma reads_item s t v : v <> [] -> reads t v -> item s t v.
Proof.
  intros NE R. exists (ABytes v). split; [reflexivity|]. split; [|now exists 0%nat]. intros tail l NB D. now apply denotes_bytes.
Qed.
Lemma segm_item o s c : extends (basic_scope o) s -> component_ok c -> bytes_ok c -> exists t, fmt_segm2 c = 47 :: t /\ item s t c.
Proof.
  intros X [L1 L2] O. unfold fmt_segm2. fold (lenN c) in L1, L2. assert (NE : c <> []) by (intros ->; change (lenN (@nil N)) with 0 in L1; lia).
  destruct (lenN c =? 32).
  - exists (str "[b:" ++ b64_display c ++ str "]"). split; [reflexivity|]. now apply (b_text_evaluates o).
  - destruct (lenN c =? 16).
    + destruct (existsb escaped_byte c).
      * eexists; split; [reflexivity|]. apply (ab_to_abe_str_evaluates o); [assumption..|lia].
      * eexists; split; [reflexivity|]. apply reads_item; [assumption|now apply abtxt_reads].
    + eexists; split; [reflexivity|]. apply reads_item; [assumption|now apply abtxt_reads].
Qed.
Definition slash_list (xs : list ABE) : list ABE := flat_map (fun x => [ACtr CFSlash; x]) xs.
Definition slash_abl (cs : list bytes) : ABList := map (fun c => (Some CFSlash, c)) cs.
Lemma space_text o s cs : extends (basic_scope o) s -> Forall component_ok cs -> Forall bytes_ok cs ->
  exists xs, denotes (flat_map fmt_segm2 cs) (slash_list xs) /\ List.length xs = List.length cs /\ space_check_loop (slash_list xs) = true /\
    exists n, forall fuel acc, (n <= fuel)%nat -> eval_items s (ctx_of fuel s) (slash_list xs) acc = Ok (acc ++ slash_abl cs).
Proof.
  intros X F. induction F as [|c cs C F IH]; intros B.
  - exists []. split; [constructor|]. split; [reflexivity|]. split; [reflexivity|]. exists 0%nat. intros. cbn. now rewrite app_nil_r.
  - apply Forall_cons_iff in B as [B B']. destruct (IH B') as (xs & D & L & CH & n & E). destruct (segm_item o s c X C B) as (t & T & x & XE & DX & m & M).
    exists (x :: xs). split; [|split; [|split]].
    + cbn [flat_map]. rewrite T. apply (denotes_ctr CFSlash). apply DX; [|assumption]. now destruct xs.
    + cbn. now rewrite L.
    + cbn [slash_list flat_map app space_check_loop abe_is ctr_eqb]. rewrite XE. exact CH.
    + exists (Nat.max n m). intros fuel acc FU. cbn [slash_list flat_map app eval_items match_expr obind push_item]. rewrite M by lia. cbn [obind push_item]. unfold push_ctr.
      rewrite push_bytes_last. fold (slash_list xs). rewrite E, <- app_assoc by lia. reflexivity.
Qed.
Lemma slash_parts cs : Forall component_ok cs -> fslash_parts (slash_abl cs) = Some cs.
Proof.
  induction 1 as [|c cs [C _] F IH]; [reflexivity|]. cbn [slash_abl map fslash_parts]. fold (slash_abl cs). rewrite IH. destruct c; [cbn in C; lia|reflexivity].
Qed.
Lemma from_slash cs : Forall component_ok cs -> space_from_ablist (slash_abl cs) =
  match cs with [] => Ok [] | _ => match try_from_iter cs with Ok v => Ok v | Err _ => Err tt | Panic => Panic | OutOfFuel => OutOfFuel end end.
Proof.
  intros F. pose proof (slash_parts cs F) as P. destruct cs as [|c cs]; [reflexivity|]. unfold space_from_ablist.
  cbn [slash_abl map negb andb] in *. rewrite P. now destruct cs.
Qed.
Lemma display_wire cs : Forall component_ok cs -> space_display (wire_space cs) = Ok (flat_map fmt_segm2 cs).
Proof. intros F. unfold space_display. now rewrite components_wire. Qed.
(** The text of a space reads back as the space exactly when it has no more than eight components. *)
Lemma space_str_display o cs : space_ok cs -> Forall bytes_ok cs -> exists n, forall fuel, (n <= fuel)%nat ->
  space_str fuel o (flat_map fmt_segm2 cs) = if lenN cs <=? 8 then Ok (wire_space cs) else Err tt.
Proof.
  intros [F L] B. destruct (space_text o (basic_scope o) cs (extends_refl _) F B) as (xs & D & LX & CH & n & E).
  exists (S n). intros [|fuel] FU; [lia|].
  unfold space_str. apply parse_denotes in D. rewrite D.
  assert (space_check (slash_list xs) = true) as ->.
  { unfold space_check. destruct xs as [|x xs]; [reflexivity|exact CH]. }
  change (eval (S fuel) (basic_scope o) ?l) with (eval_items (basic_scope o) (ctx_of fuel (basic_scope o)) l []). rewrite E by lia. cbn [app].
  rewrite from_slash by assumption. destruct cs as [|c cs]; [reflexivity|].
  destruct (N.leb_spec (lenN (c :: cs)) 8) as [G|G].
  - assert (try_from_iter (c :: cs) = Ok (wire_space (c :: cs))) as -> by (apply try_from_iter_iff; now split). reflexivity.
  - destruct (try_from_iter_total (c :: cs)) as [[b H]|[e H]]; rewrite H; [|reflexivity]. apply try_from_iter_iff in H as (_ & H & _). lia.
Qed.
Lemma wire_ok cs : bytes_ok (wire_space cs) -> Forall bytes_ok cs.
Proof.
  induction cs as [|c cs IH]; intros O; [constructor|]. rewrite wire_space_cons in O. apply ok_cons in O as [_ O]. apply Forall_app in O as [O1 O2].
  constructor; [assumption|auto].
Qed.
(** [s] *)
Lemma sp_macro o s ctx l v : extends (core_scope o) s -> space_macro false ctx l = Ok (Some v) -> sc_macro s ctx [] l = Ok (Some v).
Proof.
  intros [_ X] H. apply X. cbn [core_scope basic_scope spair sc_macro escope find fst beqb or_else help_m encode_m space_m str]. exact H.
Qed.
Lemma encode_sp_evaluates o s b opts t : extends (core_scope o) s -> bytes_ok b -> b <> [] -> (forall cs, is_space b cs -> lenN cs <= 8) ->
  encode_sp b opts = Ok (Some t) -> item s t b.
Proof.
  intros X O NE L8. unfold encode_sp. destruct (space_from_slice b) as [sp| | |] eqn:SP; try discriminate.
  unfold space_from_slice in SP. destruct (check_components b) as [m| | |] eqn:C; try discriminate. injection SP as <-.
  apply check_components_iff in C as (cs & [F L] & -> & _). rewrite display_wire by assumption. cbn [obind of_out]. unfold val. intros H.
  apply (f_equal (fun x => match x with Ok (Some v) => v | _ => [] end)) in H. cbn beta iota in H. subst t.
  assert (G : lenN cs <= 8) by (apply L8; split; [now split|reflexivity]).
  destruct (space_text o s cs (extends_basic _ _ X) F (wire_ok cs O)) as (xs & D & LX & CH & n & E).
  exists (ALst (ACtr CFSlash :: slash_list xs)). split; [reflexivity|]. split.
  - intros tail l NB DT. change (str "[/" ++ ?x ++ str "]") with (91 :: (47 :: x ++ [93])). cbn [app]. rewrite <- app_assoc. cbn [app].
    apply (denotes_lst (47 :: flat_map fmt_segm2 cs) tail); [|assumption]. now apply (denotes_ctr CFSlash).
  - exists (S n). intros [|fuel] FU; [lia|]. destruct cs as [|c cs]; [contradiction|]. destruct xs as [|x xs]; [discriminate|].
    unfold match_expr. cbn [tl]. change (slash_list (x :: xs)) with (ACtr CFSlash :: x :: slash_list xs) in *. unfold run_macro.
    rewrite (sp_macro o s _ _ (wire_space (c :: cs)) X); [reflexivity|]. unfold space_macro.
    assert (c_eval (ctx_of (S fuel) s) (ACtr CFSlash :: x :: slash_list xs) = Ok (slash_abl (c :: cs))) as ->.
    { change (c_eval (ctx_of (S fuel) s) ?l) with (eval_items s (ctx_of fuel s) l []). apply E. lia. }
    rewrite from_slash by assumption.
    assert (try_from_iter (c :: cs) = Ok (wire_space (c :: cs))) as -> by (apply try_from_iter_iff; now repeat split). reflexivity.
Qed.

(** ** All encoders *)
Lemma enc_item o s id b opts t : extends (core_scope o) s -> bytes_ok b -> lenN b < 2 ^ 63 ->
  (id = str "b2" \/ id = str "b16" -> shortest b) -> (id = str "s" -> b <> [] /\ (forall cs, is_space b cs -> lenN cs <= 8)) ->
  sc_enc (core_scope o) id opts b = Ok (Some t) -> item s t b.
Proof.
  intros X O L HB HS H. rewrite (proj2 (core_flat o)) in H. cbn [escope sc_enc] in H.
  destruct (find _ (core_funcs o)) as [f|] eqn:F; [|discriminate]. apply find_some in F as [I P]. apply andb_true_iff in P as [P _]. apply beqb_eq in P. subst id.
  destruct (f_enc f) as [e|] eqn:E; [|discriminate]. pose proof (extends_basic o s X) as XB.
  assert (A : Forall (fun f => forall e, (f_id f = str "b2" \/ f_id f = str "b16" -> shortest b) -> (f_id f = str "s" -> b <> [] /\ (forall cs, is_space b cs -> lenN cs <= 8)) ->
      f_enc f = Some e -> e b opts = Ok (Some t) -> item s t b) (core_funcs o)); [|rewrite Forall_forall in A; now apply (A f I e HB HS E)].
  clear f e I E H HB HS. unfold core_funcs, basic_funcs. rewrite !Forall_app. repeat split; unfold bytes_fe, uint_fe, base_fe, comment_fe, help_fe, logic_fe, encode_fe, static_lns, stamp_fe, space_fe;
    repeat (apply Forall_cons; [intros e HB HS E H; cbn [f_enc fn fn_enc fn_ctx] in E; try discriminate E; injection E as <-; cbn [f_id fn_enc] in HB, HS|]); try apply Forall_nil.
  - now apply (encode_a_evaluates o s XB b opts).
  - eapply (encode_be_evaluates o s XB (str "u8") 1); try eassumption; try reflexivity; [discriminate|apply plain_reads; repeat constructor; vm_compute; intuition discriminate].
  - eapply (encode_be_evaluates o s XB (str "u16") 2); try eassumption; try reflexivity; [discriminate|apply plain_reads; repeat constructor; vm_compute; intuition discriminate].
  - eapply (encode_be_evaluates o s XB (str "u32") 4); try eassumption; try reflexivity; [discriminate|apply plain_reads; repeat constructor; vm_compute; intuition discriminate].
  - eapply (encode_be_evaluates o s XB (str "u64") 8); try eassumption; try reflexivity; [discriminate|apply plain_reads; repeat constructor; vm_compute; intuition discriminate].
  - eapply (encode_be_evaluates o s XB (str "u128") 16); try eassumption; try reflexivity; [discriminate|apply plain_reads; repeat constructor; vm_compute; intuition discriminate].
  - apply (enc_bin_evaluates o s 2 8 b opts); auto.
  - apply (enc_bin_evaluates o s 16 2 b opts); auto.
  - now apply (enc_b_evaluates o s XB b opts).
  - now apply (enc_bs_evaluates o s XB b opts).
  - now apply (hash_enc_evaluates o s X b opts).
  - now apply (at_enc_evaluates o s X b opts).
  - destruct (HS eq_refl). now apply (encode_sp_evaluates o s b opts).
Qed.
Lemma split_on_in {A} (p : A -> bool) l : forall g x, In g (split_on p l) -> In x g -> In x l.
Proof.
  induction l as [|y l IH]; intros g x I J; cbn [split_on] in I.
  - destruct I as [<-|[]]. contradiction.
  - destruct (split_on p l) as [|g0 gs] eqn:E.
    + destruct I as [<-|[]]. destruct J as [->|[]]. now left.
    + destruct (p y).
      * destruct I as [<-|I]; [contradiction|]. right. now apply (IH g).
      * destruct I as [<-|I]; [destruct J as [->|J]; [now left|right; apply (IH g0); [now left|assumption]]|right; apply (IH g); [now right|assumption]].
Qed.
(** The name occurs in the options. *)
Definition named (options id : bytes) : Prop := exists l, denotes options l /\ In (ABytes id) l.
Lemma encode_evaluates o s b options ignore t : extends (core_scope o) s ->
  (forall id opts t, sc_enc s id opts b = Ok (Some t) -> sc_enc (core_scope o) id opts b = Ok (Some t) \/ evaluates s t b) ->
  bytes_ok b -> lenN b < 2 ^ 63 ->
  (named options (str "b2") \/ named options (str "b16") -> shortest b) ->
  (named options (str "s") -> b <> [] /\ (forall cs, is_space b cs -> lenN cs <= 8)) ->
  encode (sc_enc s) b options ignore = Ok t -> evaluates s t b.
Proof.
  intros X P O L HB HS. unfold encode. destruct (parse_abe_strict options) as [l| | |] eqn:E; try discriminate. apply parse_denotes in E.
  unfold encode_abe. set (ps := match l with [] => [] | _ => _ end).
  assert (PS : forall p x, In p ps -> In x p -> In x l) by (intros p x; unfold ps; destruct l; [contradiction|apply split_on_in]). clearbody ps.
  assert (T : forall id opts r, (id = [] \/ In (ABytes id) l) -> sc_enc s id opts b = Ok (Some r) -> evaluates s r b).
  { intros id opts r I H. apply P in H as [H|H]; [|assumption]. apply item_evaluates. eapply (enc_item o s id); try eassumption.
    - intros D. apply HB. destruct I as [->|I]; [destruct D; discriminate|]. destruct D as [->| ->]; [left|right]; now exists l.
    - intros D. apply HS. destruct I as [->|I]; [discriminate|]. subst id. now exists l. }
  induction ps as [|p ps IH]; [discriminate|]. cbn [encode_pieces].
  destruct (encode_one (sc_enc s) b p ignore) as [[r|]| | |] eqn:EO; try discriminate; cbn [obind].
  2: { apply IH. intros q x I. apply PS. now right. }
  intros [= <-]. assert (PP : forall x, In x p -> In x l) by (intros x; apply PS; now left).
  assert (Q : forall id opts, (id = [] \/ In (ABytes id) l) ->
      match sc_enc s id opts b with Ok r => Ok r | Err _ => if ignore then Ok None else Err (ScopeEncode id) | Panic => Panic | OutOfFuel => OutOfFuel end = Ok (Some r) -> evaluates s r b).
  { intros id opts I H. apply (T id opts); [assumption|]. destruct (sc_enc s id opts b) as [[|]| | |]; try discriminate; [injection H as <-; reflexivity|destruct ignore; discriminate]. }
  unfold encode_one in EO. destruct p as [|[[|]|id|] [|[[|]| |] p]]; try discriminate.
  - injection EO as <-. now apply abtxt_evaluates.
  - eapply Q; [|exact EO]. now left.
  - eapply Q; [|exact EO]. right. apply PP. now left.
  - eapply Q; [|exact EO]. right. apply PP. now left.
Qed.
Lemma lk_encode_evaluates o s b options t : extends (core_scope o) s ->
  (forall id opts t, sc_enc s id opts b = Ok (Some t) -> sc_enc (core_scope o) id opts b = Ok (Some t) \/ evaluates s t b) ->
  bytes_ok b -> lenN b < 2 ^ 63 ->
  (named options (str "b2") \/ named options (str "b16") -> shortest b) ->
  (named options (str "s") -> b <> [] /\ (forall cs, is_space b cs -> lenN cs <= 8)) ->
  lk_encode s b options = Ok t -> evaluates s t b.
Proof.
  intros X P O L HB HS. unfold lk_encode, lk_try_encode. destruct (encode _ _ _ _) as [r| | |] eqn:E; try discriminate; intros [= <-].
  - now apply (encode_evaluates o s b options true).
  - now apply abtxt_evaluates.
Qed.
(** Encoding never panics and never runs forever. *)
Lemma display_total b cs : is_space b cs -> exists t, space_display b = Ok t.
Proof. intros [[F _] ->]. rewrite display_wire by assumption. now eexists. Qed.
Lemma enc_no_panic o id opts b : sc_enc (core_scope o) id opts b <> Panic /\ sc_enc (core_scope o) id opts b <> OutOfFuel.
Proof.
  rewrite (proj2 (core_flat o)). cbn [escope sc_enc].
  destruct (find _ (core_funcs o)) as [f|] eqn:F; [|split; discriminate]. apply find_some in F as [I _].
  destruct (f_enc f) as [e|] eqn:E; [|split; discriminate].
  assert (A : Forall (fun f => forall e, f_enc f = Some e -> e b opts <> Panic /\ e b opts <> OutOfFuel) (core_funcs o)); [|rewrite Forall_forall in A; now apply (A f I e)].
  clear f e I E. unfold core_funcs, basic_funcs. rewrite !Forall_app.
  assert (EB : forall id k, encode_be id k b opts <> Panic /\ encode_be id k b opts <> OutOfFuel) by (intros; unfold encode_be; destruct (_ =? _); split; discriminate).
  assert (EN : forall r w, enc_bin r w b opts <> Panic /\ enc_bin r w b opts <> OutOfFuel) by (intros; unfold enc_bin; destruct (len_set opts); [|split; discriminate]; destruct (_ && _); split; discriminate).
  repeat split; unfold bytes_fe, uint_fe, base_fe, comment_fe, help_fe, logic_fe, encode_fe, static_lns, stamp_fe, space_fe;
    repeat (apply Forall_cons; [intros e E; cbn [f_enc fn fn_enc fn_ctx] in E; try discriminate E; injection E as <-|]); try apply Forall_nil; try apply EB; try apply EN.
  - split; discriminate.
  - unfold enc_b. destruct opts as [|x opts]; [split; discriminate|]. generalize (x :: opts). clear. intros opts. induction opts as [|x opts IH]; [split; discriminate|].
    cbn [enc_b_opts]. destruct x; try apply IH. destruct (parse_uint 4 b0); [|split; discriminate]. destruct (_ =? _); [split; discriminate|apply IH].
  - split; discriminate.
  - unfold hash_enc. destruct (negb _), (beqb b PRIVATE_GROUP), (beqb b (o_public o)), (beqb b (o_test o)); split; discriminate.
  - unfold at_enc. destruct (beqb b _); split; discriminate.
  - unfold encode_sp, space_from_slice. destruct (check_components b) as [n| | |] eqn:C.
    + apply check_components_iff in C as (cs & S & E & _). destruct (display_total b cs) as [t ->]; [now split|]. split; discriminate.
    + split; discriminate.
    + destruct (check_components_total b) as [[x C']|[x C']]; rewrite C in C'; discriminate.
    + destruct (check_components_total b) as [[x C']|[x C']]; rewrite C in C'; discriminate.
Qed.
