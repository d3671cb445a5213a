(** Encoding and evaluating (C43), the byte functions (C45), the text of spaces (C66), and whether
    evaluation ends (C67). *)
From Verif Require Import Bytes ModelAbe SpecAbe ProofAbe ProofAbe2 ModelFmt SpecFmt ProofFmt PropsFmt ModelSpace SpecSpace ProofSpace ModelEval ModelFn SpecEval ProofEval ProofEval2 ProofEval3 ProofFn ProofEval4.

Definition o1 : oracle := {| o_public := repeat 1 32; o_test := repeat 2 32; o_now := 1000; o_help := fun _ => []; o_lossy := fun b => b; o_stamp := fun _ _ => [] |}.

(** ** C43 *)
(** Whatever the options choose, the text evaluates to the bytes. Not covered: [b2] and [b16] of
    bytes that are not a shortest number, [s] of the empty space and of spaces of more than eight
    components (see the refutations), and encoders of other scopes, which are assumed to be right. *)
Theorem C43_encode_partial o s b options ignore t : extends (core_scope o) s ->
  (forall id opts t, sc_enc s id opts b = Ok (Some t) -> sc_enc (core_scope o) id opts b = Ok (Some t) \/ evaluates s t b) ->
  bytes_ok b -> lenN b < 2 ^ 63 ->
  (named options (str "b2") \/ named options (str "b16") -> shortest b) ->
  (named options (str "s") -> b <> [] /\ (forall cs, is_space b cs -> lenN cs <= 8)) ->
  (lk_try_encode s b options ignore = Ok t -> evaluates s t b) /\ (lk_encode s b options = Ok t -> evaluates s t b).
Proof. intros X P O L HB HS. split; [now apply (encode_evaluates o s b options ignore)|now apply (lk_encode_evaluates o s b options)]. Qed.
Print Assumptions C43_encode_partial.
(** [lk_eval] gives the value of a text that evaluates. *)
Theorem C43_lk_eval s t b : evaluates s t b -> exists n, forall fuel, (n <= fuel)%nat -> lk_eval fuel s t false = Ok b.
Proof.
  intros (l & n & P & E). exists n. intros fuel F. destruct (E fuel F) as (abl & V & B). unfold lk_eval, parse_abe. rewrite P, V.
  destruct abl as [|[[c|] x] [|]]; cbn in B |- *; try discriminate; rewrite ?app_nil_r; congruence.
Qed.
Print Assumptions C43_lk_eval.
(** [b2] and [b16] work exactly for the shortest form of a number below 2^128. *)
Theorem C43_numbers_exact o post b : bytes_ok b ->
  (evaluates (spair (core_scope o) post) (str "[b2:" ++ flat_map (digits_of 2 8) b ++ str "]") b <-> shortest b) /\
  (evaluates (spair (core_scope o) post) (str "[b16:" ++ flat_map (digits_of 16 2) b ++ str "]") b <-> shortest b).
Proof.
  intros O.
  assert (G : forall id r w, (id = str "b2" /\ r = 2 /\ w = 8%nat) \/ (id = str "b16" /\ r = 16 /\ w = 2%nat) ->
    evaluates (spair (core_scope o) post) (91 :: id ++ args_text [flat_map (digits_of r w) b] ++ [93]) b <-> shortest b).
  { intros id r w D. assert (RW : 1 < r /\ r <= 36 /\ r ^ N.of_nat w = 256) by (destruct D as [(_ & -> & ->)|(_ & -> & ->)]; now vm_compute). destruct RW as (R1 & R & P).
    rewrite (call_evaluates_iff _ id id _ [flat_map (digits_of r w) b] b (bin [flat_map (digits_of r w) b] r)).
    - now apply bin_back.
    - destruct D as [(-> & _)|(-> & _)]; discriminate.
    - change (lenN [flat_map (digits_of r w) b]) with 1. lia.
    - destruct D as [(-> & _)|(-> & _)]; apply plain_reads; repeat constructor; vm_compute; intuition discriminate.
    - constructor; [|constructor]. now apply digits_reads.
    - intros ctx. cbn [spair sc_func]. rewrite (proj1 (core_flat o)).
      assert (NN : bin [flat_map (digits_of r w) b] r <> Ok None) by (unfold bin; destruct (parse_radix _ _ _); discriminate).
      assert (E : sc_func (escope (core_funcs o) []) ctx id [flat_map (digits_of r w) b] true = bin [flat_map (digits_of r w) b] r).
      { destruct D as [(-> & -> & ->)|(-> & -> & ->)].
        - rewrite (escope_some _ _ _ _ _ _ (fn_enc (str "b2") 1 1 (fun i => bin i 2) (enc_bin 2 8))); [reflexivity|reflexivity|now left|change (1 <= 1 <= 1); lia].
        - rewrite (escope_some _ _ _ _ _ _ (fn_enc (str "b16") 1 1 (fun i => bin i 16) (enc_bin 16 2))); [reflexivity|reflexivity|now left|change (1 <= 1 <= 1); lia]. }
      rewrite E. destruct (bin _ r) as [[|]| | |]; try reflexivity. now destruct NN. }
  split.
  - specialize (G (str "b2") 2 8%nat (or_introl (conj eq_refl (conj eq_refl eq_refl)))). cbn [args_text flat_map] in G. rewrite app_nil_r in G. exact G.
  - specialize (G (str "b16") 16 2%nat (or_intror (conj eq_refl (conj eq_refl eq_refl)))). cbn [args_text flat_map] in G. rewrite app_nil_r in G. exact G.
Qed.
Print Assumptions C43_numbers_exact.
Example C43_encode_ex : let s := core_scope o1 in
  lk_try_encode s [0; 0; 0; 9] (str "b:32/u32") false = Ok (str "[u32:9]") /\ evaluates s (str "[u32:9]") [0; 0; 0; 9].
Proof.
  split; [vm_compute; reflexivity|]. apply (C43_encode_partial o1 (core_scope o1) [0; 0; 0; 9] (str "b:32/u32") false).
  - apply extends_refl.
  - now left.
  - repeat constructor.
  - vm_compute. reflexivity.
  - assert (P : parse_abe_strict (str "b:32/u32") = Ok [ABytes (str "b"); ACtr CColon; ABytes (str "32"); ACtr CFSlash; ABytes (str "u32")]) by (vm_compute; reflexivity).
    intros [(l & D & I)|(l & D & I)]; apply parse_denotes in D; rewrite P in D; injection D as <-; vm_compute in I; intuition discriminate.
  - assert (P : parse_abe_strict (str "b:32/u32") = Ok [ABytes (str "b"); ACtr CColon; ABytes (str "32"); ACtr CFSlash; ABytes (str "u32")]) by (vm_compute; reflexivity).
    intros (l & D & I); apply parse_denotes in D; rewrite P in D; injection D as <-; vm_compute in I; intuition discriminate.
  - vm_compute. reflexivity.
Qed.
(** Leading zeros are lost: [0, 1] is written [b16:0001], which is [1]. *)
Theorem C43_numbers_refuted : let s := core_scope o1 in
  lk_try_encode s [0; 1] (str "b16") false = Ok (str "[b16:0001]") /\ lk_eval 3 s (str "[b16:0001]") false = Ok [1] /\
  lk_try_encode s [0; 1] (str "b2") false = Ok (str "[b2:0000000000000001]") /\ lk_eval 3 s (str "[b2:0000000000000001]") false = Ok [1].
Proof. vm_compute. repeat split. Qed.
Print Assumptions C43_numbers_refuted.
(** The empty space is written [/], which is an error. *)
Theorem C43_space_refuted : let s := core_scope o1 in
  lk_try_encode s [] (str "s") false = Ok (str "[/]") /\ forall fuel, (1 < fuel)%nat -> lk_eval fuel s (str "[/]") false = Err (LkEval EvalOther).
Proof. split; [vm_compute; reflexivity|]. intros [|[|fuel]] F; try lia. reflexivity. Qed.
Print Assumptions C43_space_refuted.
(** The text forms of the byte types evaluate to the bytes. *)
Theorem C43_ab_str o s b : extends (core_scope o) s -> bytes_ok b -> lenN b < 2 ^ 63 -> evaluates s (ab_to_abe_str b) b.
Proof. intros X O L. apply item_evaluates, (ab_to_abe_str_evaluates o); try assumption. now apply extends_basic. Qed.
Print Assumptions C43_ab_str.
Theorem C43_b64_str o s b : extends (core_scope o) s -> bytes_ok b -> evaluates s (b64_to_abe_str b) b.
Proof. intros X O. apply item_evaluates, (b_text_evaluates o); try assumption. now apply extends_basic. Qed.
Print Assumptions C43_b64_str.
Lemma call_abe s id bs v : bs <> [] -> Forall (fun b => b <> []) bs -> lenN bs <= 15 -> (forall ctx, sc_func s ctx id bs true = Ok (Some v)) ->
  evaluates_abe s [ALst (ABytes id :: flat_map (fun b => [ACtr CColon; ABytes b]) bs)] v.
Proof.
  intros NE F L H. assert (flat_map (fun b => [ACtr CColon; ABytes b]) bs = args_abe bs) as ->.
  { clear - F. induction F as [|b bs B F IH]; [reflexivity|]. cbn [flat_map args_abe]. fold (args_abe bs). rewrite IH. now destruct b. }
  exists 2%nat. intros [|[|fuel]] FU; try lia. rewrite eval_call by assumption. unfold call. cbn [tl]. rewrite H. now eexists.
Qed.
(** So do the expression forms, of base64 and of integers. *)
Theorem C43_b64_abe o s b : extends (core_scope o) s -> bytes_ok b -> b <> [] -> evaluates_abe s [b64_to_abe b] b.
Proof.
  intros X O NE. apply (call_abe s (str "b") [base64 b]); [discriminate| |change (lenN [base64 b]) with 1; lia|].
  - constructor; [|constructor]. intros E. apply NE. assert (base64_decode (base64 b) = Some b) by now apply decode_raw_iff. rewrite E in H. now injection H.
  - intros ctx. apply X. rewrite (proj1 (core_flat o)).
    rewrite (escope_some _ _ _ _ _ _ (fn_enc (str "b") 1 1 (fun i => of_opt (base64_decode (arg 0 i))) enc_b)); [|reflexivity|now left|change (1 <= 1 <= 1); lia].
    cbn [f_apply fn_enc arg nth]. unfold of_opt. assert (base64_decode (base64 b) = Some b) as -> by now apply decode_raw_iff. reflexivity.
Qed.
Print Assumptions C43_b64_abe.
Theorem C43_int_abe o s le k b : extends (core_scope o) s -> In k [1; 2; 4; 8; 16]%nat -> bytes_ok b -> lenN b = N.of_nat k -> evaluates_abe s [uint_to_abe le k b] b.
Proof.
  intros X K O L. apply (call_abe s (uint_name le k) [uint_display le b]); [discriminate| |change (lenN [uint_display le b]) with 1; lia|].
  - constructor; [|constructor]. apply to_string_ne.
  - intros ctx. apply X. rewrite (proj1 (core_flat o)). destruct (C44_int_bytes le k b O L) as [B S].
    assert (PU : parse_uint k (uint_display le b) = Some (uint_get le b)) by (unfold parse_uint, uint_display; apply parse_to_string; now apply in_size_umax).
    unfold uint_new in B. destruct le.
    + assert (R : parse_le k [uint_display true b] = Ok (Some b)) by (unfold parse_le; cbn [arg nth]; rewrite PU; unfold val; now rewrite B).
      cbn [In] in K. destruct K as [<-|[<-|[<-|[<-|[<-|[]]]]]].
      * rewrite (escope_some _ _ _ _ _ _ (fn (str "lu8") 1 1 (parse_le 1))); [exact R|reflexivity|now left|change (1 <= 1 <= 1); lia].
      * rewrite (escope_some _ _ _ _ _ _ (fn (str "lu16") 1 1 (parse_le 2))); [exact R|reflexivity|now left|change (1 <= 1 <= 1); lia].
      * rewrite (escope_some _ _ _ _ _ _ (fn (str "lu32") 1 1 (parse_le 4))); [exact R|reflexivity|now left|change (1 <= 1 <= 1); lia].
      * rewrite (escope_some _ _ _ _ _ _ (fn (str "lu64") 1 1 (parse_le 8))); [exact R|reflexivity|now left|change (1 <= 1 <= 1); lia].
      * rewrite (escope_some _ _ _ _ _ _ (fn (str "lu128") 1 1 (parse_le 16))); [exact R|reflexivity|now left|change (1 <= 1 <= 1); lia].
    + assert (R : parse_be k [uint_display false b] = Ok (Some b)) by (unfold parse_be; cbn [arg nth]; rewrite PU; unfold val; now rewrite B).
      cbn [In] in K. destruct K as [<-|[<-|[<-|[<-|[<-|[]]]]]].
      * rewrite (escope_some _ _ _ _ _ _ (fn_enc (str "u8") 1 1 (parse_be 1) (encode_be (str "u8") 1))); [exact R|reflexivity|now left|change (1 <= 1 <= 1); lia].
      * rewrite (escope_some _ _ _ _ _ _ (fn_enc (str "u16") 1 1 (parse_be 2) (encode_be (str "u16") 2))); [exact R|reflexivity|now left|change (1 <= 1 <= 1); lia].
      * rewrite (escope_some _ _ _ _ _ _ (fn_enc (str "u32") 1 1 (parse_be 4) (encode_be (str "u32") 4))); [exact R|reflexivity|now left|change (1 <= 1 <= 1); lia].
      * rewrite (escope_some _ _ _ _ _ _ (fn_enc (str "u64") 1 1 (parse_be 8) (encode_be (str "u64") 8))); [exact R|reflexivity|now left|change (1 <= 1 <= 1); lia].
      * rewrite (escope_some _ _ _ _ _ _ (fn_enc (str "u128") 1 1 (parse_be 16) (encode_be (str "u128") 16))); [exact R|reflexivity|now left|change (1 <= 1 <= 1); lia].
Qed.
Print Assumptions C43_int_abe.
Example C43_int_ex : evaluates_abe (core_scope o1) [uint_to_abe false 8 [0; 0; 0; 0; 0; 0; 1; 0]] [0; 0; 0; 0; 0; 0; 1; 0] /\ uint_to_abe true 2 [1; 2] = ALst [ABytes (str "lu16"); ACtr CColon; ABytes (str "513")].
Proof. split; [|reflexivity]. apply (C43_int_abe o1); [apply extends_refl|cbn; tauto|repeat constructor|reflexivity]. Qed.
(** The expression form of [AB] escapes its bytes and then takes the escaped text as the bytes: the
    tag [a:b] becomes [a\:b]. *)
Theorem C43_ab_abe_refuted :
  let b := repeat 0 13 ++ str "a:b" in
  lenN b = 16 /\ (forall fuel, (1 < fuel)%nat -> exists abl, eval fuel (core_scope o1) [ab_to_abe b] = Ok abl /\ as_exact_bytes abl = Some (repeat 0 12 ++ str "a\:b")).
Proof. split; [reflexivity|]. intros [|[|fuel]] F; try lia. eexists. split; [vm_compute; reflexivity|vm_compute; reflexivity]. Qed.
Print Assumptions C43_ab_abe_refuted.

(** ** C45 *)
Definition value_of (o : oracle) (id : bytes) (inp : list bytes) (v : bytes) : Prop :=
  forall ctx init, sc_func (core_scope o) ctx id inp init = Ok (Some v).
Lemma value_iff o id inp v f : find_func id (core_funcs o) = Some f -> f_init f = None -> (forall ctx init c' i', f_apply f ctx inp init = f_apply f c' inp i') -> f_lo f <= lenN inp <= f_hi f ->
  forall ctx, value_of o id inp v <-> okv (f_apply f ctx inp true) v.
Proof.
  intros F I U L ctx. unfold value_of. split.
  - intros H. specialize (H ctx true). rewrite (proj1 (core_flat o)), (escope_some _ _ _ _ _ _ f) in H; auto.
  - intros H c i. rewrite (proj1 (core_flat o)), (escope_some _ _ _ _ _ _ f); auto. now rewrite (U c i ctx true).
Qed.
Definition ctx0 : context := {| c_eval := fun _ => Err EvalOther; c_enc := fun _ _ _ => Ok None; c_with := fun _ _ => Err EvalOther |}.
(** Padding: the length argument, 16 if missing or empty, and the pad byte. *)
Theorem C45_pad o inp v : 1 <= lenN inp <= 3 -> forall id left default, In (id, left, default) [(str "a", true, 0); (str "lpad", true, 0); (str "f", true, 255); (str "rpad", false, 0)] ->
  value_of o id inp v <-> exists L p, length_arg true inp L /\ pad_arg default inp p /\ padded left p L (arg 0 inp) v /\ L < 2 ^ 63.
Proof.
  intros L id left d I. cbn [In] in I. destruct I as [E|[E|[E|[E|[]]]]]; injection E as <- <- <-.
  - rewrite (value_iff o _ inp v (fn_enc (str "a") 1 3 (fun i => pad i true 0 true false) encode_a)) with (ctx := ctx0); [|reflexivity..|exact L]. apply pad_strict. lia.
  - rewrite (value_iff o _ inp v (fn (str "lpad") 1 3 (fun i => pad i true 0 true false))) with (ctx := ctx0); [|reflexivity..|exact L]. apply pad_strict. lia.
  - rewrite (value_iff o _ inp v (fn (str "f") 1 3 (fun i => pad i true 255 true false))) with (ctx := ctx0); [|reflexivity..|exact L]. apply pad_strict. lia.
  - rewrite (value_iff o _ inp v (fn (str "rpad") 1 3 (fun i => pad i false 0 true false))) with (ctx := ctx0); [|reflexivity..|exact L]. apply pad_strict. lia.
Qed.
Print Assumptions C45_pad.
Theorem C45_pad_loose o inp v : 1 <= lenN inp <= 3 -> forall id left, In (id, left) [(str "~lpad", true); (str "~rpad", false)] ->
  value_of o id inp v <-> exists L, length_arg true inp L /\
    ((L < lenN (arg 0 inp) /\ v = arg 0 inp) \/ (exists p, pad_arg 0 inp p /\ padded left p L (arg 0 inp) v /\ L < 2 ^ 63)).
Proof.
  intros L id left I. cbn [In] in I. destruct I as [E|[E|[]]]; injection E as <- <-.
  - rewrite (value_iff o _ inp v (fn (str "~lpad") 1 3 (fun i => pad i true 0 false false))) with (ctx := ctx0); [|reflexivity..|exact L]. apply pad_loose. lia.
  - rewrite (value_iff o _ inp v (fn (str "~rpad") 1 3 (fun i => pad i false 0 false false))) with (ctx := ctx0); [|reflexivity..|exact L]. apply pad_loose. lia.
Qed.
Print Assumptions C45_pad_loose.
Theorem C45_fixed o inp v : 1 <= lenN inp <= 3 -> forall id left, In (id, left) [(str "lfixed", true); (str "rfixed", false)] ->
  value_of o id inp v <-> exists L p k, length_arg true inp L /\ pad_arg 0 inp p /\ kept left L (arg 0 inp) k /\ padded left p L k v /\ L < 2 ^ 63.
Proof.
  intros L id left I. cbn [In] in I. destruct I as [E|[E|[]]]; injection E as <- <-.
  - rewrite (value_iff o _ inp v (fn (str "lfixed") 1 3 (fun i => pad i true 0 false true))) with (ctx := ctx0); [|reflexivity..|exact L]. apply pad_fixed. lia.
  - rewrite (value_iff o _ inp v (fn (str "rfixed") 1 3 (fun i => pad i false 0 false true))) with (ctx := ctx0); [|reflexivity..|exact L]. apply pad_fixed. lia.
Qed.
Print Assumptions C45_fixed.
Theorem C45_cut o inp v : 1 <= lenN inp <= 2 -> forall id left loose, In (id, left, loose) [(str "lcut", true, false); (str "rcut", false, false); (str "~lcut", true, true); (str "~rcut", false, true)] ->
  value_of o id inp v <-> exists L, length_arg false inp L /\ (loose = false -> L <= lenN (arg 0 inp)) /\ kept left L (arg 0 inp) v.
Proof.
  intros L id left lo I. assert (S : forall left, okv (cut inp left true) v <-> exists L, length_arg false inp L /\ (false = false -> L <= lenN (arg 0 inp)) /\ kept left L (arg 0 inp) v).
  { intros l. rewrite cut_strict. split; intros (n & A & B & C); exists n; auto. }
  assert (S2 : forall left, okv (cut inp left false) v <-> exists L, length_arg false inp L /\ (true = false -> L <= lenN (arg 0 inp)) /\ kept left L (arg 0 inp) v).
  { intros l. rewrite cut_loose. split; [intros (n & A & C)|intros (n & A & B & C)]; exists n; auto. repeat split; auto; try discriminate; apply C. }
  cbn [In] in I. destruct I as [E|[E|[E|[E|[]]]]]; injection E as <- <- <-.
  - rewrite (value_iff o _ inp v (fn (str "lcut") 1 2 (fun i => cut i true true))) with (ctx := ctx0); [|reflexivity..|exact L]. apply S.
  - rewrite (value_iff o _ inp v (fn (str "rcut") 1 2 (fun i => cut i false true))) with (ctx := ctx0); [|reflexivity..|exact L]. apply S.
  - rewrite (value_iff o _ inp v (fn (str "~lcut") 1 2 (fun i => cut i true false))) with (ctx := ctx0); [|reflexivity..|exact L]. apply S2.
  - rewrite (value_iff o _ inp v (fn (str "~rcut") 1 2 (fun i => cut i false false))) with (ctx := ctx0); [|reflexivity..|exact L]. apply S2.
Qed.
Print Assumptions C45_cut.
Example C45_pad_ex : value_of o1 (str "a") [str "abc"; str "5"] [0; 0; 97; 98; 99] /\ value_of o1 (str "rpad") [str "abc"; str "5"; str "x"] (str "abcxx") /\
  value_of o1 (str "lfixed") [str "abc"; str "2"] (str "ab") /\ value_of o1 (str "rcut") [str "abc"; str "2"] (str "bc") /\ value_of o1 (str "~lcut") [str "abc"; str "9"] (str "abc").
Proof. repeat split; intros ctx init; vm_compute; reflexivity. Qed.
(** Replacing, when there is something to replace. *)
Theorem C45_replace o b from to v : from <> [] -> value_of o (str "replace") [b; from; to] v <-> replaced_bytes from to b v.
Proof.
  intros NE. rewrite (value_iff o _ _ v (fn (str "replace") 3 3 (fun i => of_out (replace (arg 0 i) (arg 1 i) (arg 2 i))))) with (ctx := ctx0); [|reflexivity..|change (3 <= 3 <= 3); lia].
  cbn [f_apply fn arg nth]. unfold replace. destruct (replace_loop_spec from to NE (List.length b) b []) as (w & E & R); [lia|]. rewrite E. cbn [app of_out]. rewrite okv_val. split.
  - now intros ->.
  - intros H. now apply (replaced_fun from to b).
Qed.
Print Assumptions C45_replace.
Example C45_replace_ex : value_of o1 (str "replace") [str "aaab"; str "aa"; str "x"] (str "xab").
Proof. intros ctx init. vm_compute. reflexivity. Qed.
(** Slices are those of Python. *)
Theorem C45_slice o b args start stop step : lenN b < 2 ^ 63 -> lenN args <= 3 ->
  index_arg (nth_error args 0) start -> index_arg (nth_error args 1) stop -> step_arg (nth_error args 2) step ->
  forall v, value_of o (str "slice") (b :: args) v <-> py_slice b start stop step v.
Proof.
  intros L LA A1 A2 A3 v. rewrite (value_iff o _ _ v (fn (str "slice") 1 4 (fun i => of_opt (slice (arg 0 i) (tl i))))) with (ctx := ctx0); [|reflexivity..|cbn [fn f_lo f_hi]; rewrite lenN_cons; lia].
  cbn [f_apply fn arg nth tl]. destruct (slice_spec b args start stop step L A1 A2 A3) as (r & E & P). rewrite E. cbn [of_opt]. rewrite okv_val. split; [now intros ->|]. intros H. now apply (py_slice_fun b start stop step).
Qed.
Print Assumptions C45_slice.
Example C45_slice_ex : value_of o1 (str "slice") [str "abcdef"; str "-2"; []; str "-2"] (str "eca") /\ value_of o1 (str "slice") [str "abcdef"; str "1"; str "-1"; str "2"] (str "bd") /\
  index_arg (Some (str "-2")) (Some (-2)%Z) /\ index_arg (Some []) None /\ step_arg (Some (str "-2")) (-2).
Proof.
  split; [intros ctx init; vm_compute; reflexivity|]. split; [intros ctx init; vm_compute; reflexivity|].
  assert (N2 : number 10 (str "2") 2) by (split; [discriminate|]; exists [2]; split; [constructor; [apply digit_of_iff; [lia|reflexivity]|constructor]|reflexivity]).
  split; [|split; [reflexivity|]].
  - exists (-2)%Z. split; [reflexivity|]. split; [|split; [reflexivity|discriminate]]. right. exists (str "2"), 2. repeat split; [now left].
  - right. exists (str "2"), 2. repeat split; [apply N2..|vm_compute; discriminate].
Qed.
(** Sums and differences of big endian numbers of the same size, between 0 and the largest. *)
Theorem C45_add o inp v : 1 <= lenN inp <= 16 -> Forall bytes_ok inp ->
  value_of o (str "+") inp v <-> exists k, Forall (fun i => List.length i = k) inp /\ (k <> 0%nat \/ lenN inp = 1) /\ List.length v = k /\ bytes_ok v /\
    be_decode v = N.min (sumN (map be_decode inp)) (256 ^ N.of_nat k - 1).
Proof.
  intros L O. rewrite (value_iff o _ inp v (fn (str "+") 1 16 (sat_op carry_add_be 255))) with (ctx := ctx0); [|reflexivity..|exact L]. cbn [f_apply fn].
  apply sum_iff; [|assumption]. intros ->. change (lenN (@nil bytes)) with 0 in L. lia.
Qed.
Print Assumptions C45_add.
Theorem C45_sub o a inp v : lenN inp <= 15 -> bytes_ok a -> Forall bytes_ok inp ->
  value_of o (str "-") (a :: inp) v <-> exists k, Forall (fun i => List.length i = k) (a :: inp) /\ (k <> 0%nat \/ inp = []) /\ List.length v = k /\ bytes_ok v /\
    be_decode v = be_decode a - sumN (map be_decode inp).
Proof.
  intros L Oa O. rewrite (value_iff o _ _ v (fn (str "-") 1 16 (sat_op carry_sub_be 0))) with (ctx := ctx0); [|reflexivity..|cbn [fn f_lo f_hi]; rewrite lenN_cons; lia]. cbn [f_apply fn].
  now apply sub_iff.
Qed.
Print Assumptions C45_sub.
Example C45_add_ex : value_of o1 (str "+") [[1; 200]; [0; 100]; [0; 1]] [2; 45] /\ value_of o1 (str "+") [[255]; [1]] [255] /\ value_of o1 (str "-") [[1; 0]; [0; 1]] [0; 255] /\ value_of o1 (str "-") [[1; 0]; [2; 0]] [0; 0].
Proof. repeat split; intros ctx init; vm_compute; reflexivity. Qed.
(** When these functions panic or never end. *)
Definition pad_ids : list bytes := map str ["a"; "f"; "lpad"; "rpad"; "~lpad"; "~rpad"; "lfixed"; "rfixed"]%string.
Definition sum_ids : list bytes := map str ["+"; "-"]%string.
Definition byte_ids : list bytes := pad_ids ++ sum_ids ++ map str
  ["?a"; "?a0"; "lcut"; "rcut"; "~lcut"; "~rcut"; "replace"; "slice"; "~utf8"; "u8"; "u16"; "u32"; "u64"; "u128"; "?u"; "lu"; "lu8"; "lu16"; "lu32"; "lu64"; "lu128"; "?lu"; "b2"; "b8"; "b16"; "?b"; "2mini"; "b"; "?bs"; "bs"]%string.
Theorem C45_total_partial o ctx id inp init : In id byte_ids ->
  (In id pad_ids -> forall L, length_arg true inp L -> L < 2 ^ 63) ->
  (In id sum_ids -> 2 <= lenN inp -> exists i, In i inp /\ i <> []) ->
  (id = str "replace" -> nth_error inp 1 <> Some []) ->
  exists r, sc_func (core_scope o) ctx id inp init = Ok r \/ sc_func (core_scope o) ctx id inp init = Err tt.
Proof.
  intros I HP HS HR. rewrite (proj1 (core_flat o)).
  assert (A : Forall (fun f => In (f_id f) byte_ids -> f_id f = id -> f_lo f <= lenN inp <= f_hi f -> f_apply f ctx inp init <> Panic /\ f_apply f ctx inp init <> OutOfFuel) (core_funcs o)).
  { assert (PAD : In id pad_ids -> lenN inp <= 3 -> forall l d c f, pad inp l d c f <> Panic /\ pad inp l d c f <> OutOfFuel).
    { intros J L3 l d c f. split.
      - intros H. apply pad_panic in H as (L & p & H & _ & G & _); [|assumption]. apply (HP J) in H. lia.
      - unfold pad. destruct (match inp with _ :: l :: _ => _ | _ => _ end); [|discriminate]. destruct (_ <? _); [destruct c; discriminate|].
        destruct (match nth_error inp 2 with None => _ | _ => _ end); [|discriminate]. destruct (_ <=? _); discriminate. }
    assert (SUM : In id sum_ids -> ~ (Forall (fun i => i = []) inp /\ 2 <= lenN inp)).
    { intros J [F L]. destruct (HS J L) as (i & Ii & NE). rewrite Forall_forall in F. now apply NE, F. }
    assert (CUT : forall l c, cut inp l c <> Panic /\ cut inp l c <> OutOfFuel).
    { intros. unfold cut. destruct (match inp with _ :: l :: _ => _ | _ => _ end); [|split; discriminate]. destruct (_ <? _); [destruct c; split; discriminate|]. split; discriminate. }
    assert (REP : id = str "replace" -> 3 <= lenN inp <= 3 -> of_out (replace (arg 0 inp) (arg 1 inp) (arg 2 inp)) <> Panic /\ of_out (replace (arg 0 inp) (arg 1 inp) (arg 2 inp)) <> OutOfFuel).
    { intros E L. specialize (HR E). destruct inp as [|b [|from [|to [|]]]]; rewrite ?lenN_cons in L; change (lenN (@nil bytes)) with 0 in L; try lia. cbn [nth_error] in HR. cbn [arg nth].
      assert (NE : from <> []) by congruence. unfold replace. destruct (replace_loop_spec from to NE (List.length b) b []) as (w & Ew & _); [lia|]. rewrite Ew. split; discriminate. }
    unfold core_funcs, basic_funcs. rewrite !Forall_app. repeat split; unfold bytes_fe, uint_fe, base_fe, comment_fe, help_fe, logic_fe, encode_fe, static_lns, stamp_fe, space_fe;
      repeat (apply Forall_cons; [intros J E L; cbn [f_id fn fn_enc fn_ctx f_lo f_hi f_apply] in *|]); try apply Forall_nil.
    all: try (subst id; apply PAD; [vm_compute; tauto|lia]).
    all: try apply CUT.
    all: try (exfalso; vm_compute in J; repeat (destruct J as [J|J]; [discriminate J|]); exact J).
    all: try (split; discriminate).
    all: try (subst id; now apply REP).
    all: try (split; [intros H; apply add_panic in H; subst id; apply SUM in H; [exact H|vm_compute; tauto]|apply add_panic]).
    all: try (split; [intros H; apply sub_panic in H; subst id; apply SUM in H; [exact H|vm_compute; tauto]|apply sub_panic]).
    all: unfold parse_be, parse_le, print_be, print_le, bin, of_opt.
    all: repeat match goal with |- context [match ?x with Some _ => _ | None => _ end] => destruct x | |- context [if ?x then _ else _] => destruct x end; split; discriminate. }
  cbn [escope sc_func]. destruct (find_func id (core_funcs o)) as [f|] eqn:F; [|now exists None; left].
  apply find_some in F as [IF P]. apply beqb_eq in P. rewrite Forall_forall in A. specialize (A f IF). rewrite P in A. specialize (A I eq_refl).
  destruct (match f_init f with Some i => _ | None => _ end); [now exists None; right|]. destruct ((lenN inp <? f_lo f) || (f_hi f <? lenN inp)) eqn:B; [now exists None; right|].
  destruct A as [A1 A2]; [lia|]. destruct (f_apply f ctx inp init) as [r|[]| |]; [exists r; now left|exists None; now right|contradiction..].
Qed.
Print Assumptions C45_total_partial.
Example C45_total_ex : In (str "lpad") byte_ids /\ (forall L, length_arg true [str "x"; str "20"] L -> L < 2 ^ 63).
Proof.
  split; [vm_compute; tauto|]. intros L H. apply len_arg_iff in H. assert (E : parse_usize (str "20") = Some 20) by (vm_compute; reflexivity).
  change (Some L) with (Some L) in H. cbn [str] in *. vm_compute in H. injection H as <-. vm_compute. reflexivity.
Qed.
(** The exceptions: a pad length of 2^63, sums of empty numbers, and replacing the empty string. *)
Theorem C45_total_refuted ctx :
  sc_func (core_scope o1) ctx (str "lpad") [[]; str "9223372036854775808"] true = Panic /\
  sc_func (core_scope o1) ctx (str "+") [[]; []] true = Panic /\
  sc_func (core_scope o1) ctx (str "-") [[]; []] true = Panic /\
  (forall fuel x b to r, replace_loop fuel (x :: b) [] to r = OutOfFuel).
Proof. split; [vm_compute; reflexivity|]. split; [vm_compute; reflexivity|]. split; [vm_compute; reflexivity|]. intros. apply replace_endless. Qed.
Print Assumptions C45_total_refuted.
(** The index -0 is the end, not the start, and indices of 2^63 and more are taken as negative. *)
Theorem C45_slice_refuted : value_of o1 (str "slice") [str "abcdef"; str "-0"] [] /\ value_of o1 (str "slice") [str "abcdef"; []; str "9223372036854775808"] [].
Proof. split; intros ctx init; vm_compute; reflexivity. Qed.
Print Assumptions C45_slice_refuted.

(** ** C66 *)
(** The text of a space reads back as the space, when it has no more than eight components. *)
Theorem C66_space_text o b cs : is_space b cs -> bytes_ok b -> exists t n, space_display b = Ok t /\
  forall fuel, (n <= fuel)%nat -> space_str fuel o t = if lenN cs <=? 8 then Ok b else Err tt.
Proof.
  intros [[F L] ->] O. exists (flat_map fmt_segm2 cs). destruct (space_str_display o cs) as [n H]; [now split|now apply wire_ok|]. exists n. split; [now apply display_wire|exact H].
Qed.
Print Assumptions C66_space_text.
Definition cs1 : list bytes := [str "hello"; repeat 0 14 ++ str "/x"; repeat 7 32; [0; 255]].
Example C66_ex : is_space (wire_space cs1) cs1 /\ bytes_ok (wire_space cs1) /\ space_display (wire_space cs1) = Ok (str "/hello/[a:\/x]/[b:BwcHBwcHBwcHBwcHBwcHBwcHBwcHBwcHBwcHBwcHBwc]/\0\f") /\
  space_str 3 o1 (str "/hello/[a:\/x]/[b:BwcHBwcHBwcHBwcHBwcHBwcHBwcHBwcHBwcHBwcHBwc]/\0\f") = Ok (wire_space cs1).
Proof.
  split; [split; [split|reflexivity]|].
  - repeat constructor; vm_compute; discriminate.
  - vm_compute. discriminate.
  - split; [|split; vm_compute; reflexivity]. apply Forall_forall. intros x I. vm_compute in I. unfold byte_ok. repeat (destruct I as [<-|I]; [lia|]). contradiction.
Qed.
(** The expression form of a space has the error of [AB]: a component of 16 bytes with a special
    character changes. *)
Theorem C66_space_abe_refuted : let c := repeat 0 13 ++ str "a:b" in
  exists l abl, space_to_abe (wire_space [c]) = Ok l /\ eval 3 (core_scope o1) l = Ok abl /\ space_from_ablist abl = Ok (wire_space [repeat 0 12 ++ str "a\:b"]).
Proof. do 2 eexists. repeat split; vm_compute; reflexivity. Qed.
Print Assumptions C66_space_abe_refuted.
(** The function [si] gives no value, whatever its arguments: the end of the range is at least 9. *)
Theorem F37_si_useless i v : si_fn i <> Ok (Some v).
Proof.
  unfold si_fn. destruct (space_from_slice (arg 0 i)); try discriminate. destruct (try_into_rooted a) as [rs| | |]; try discriminate.
  destruct (si_range i) as [[st e]|] eqn:R; [|discriminate]. assert (9 <= e) as HE.
  { unfold si_range in R. destruct (parse_usize (arg 1 i)) as [x|]; [|discriminate].
    destruct (match nth_error i 2 with None => _ | _ => _ end) as [oe|]; [|discriminate]. cbn zeta in R.
    destruct (8 <? x); [discriminate|]. destruct (_ <? x); [discriminate|]. assert (N.max (match oe with Some e => e | None => x + 1 end) 9 = e) by congruence. lia. }
  unfold rs_range. destruct (rs_fields rs) as [[[? ?] ?]| | |]; try discriminate. cbn [obind].
  assert ((8 <? st) || (8 <? e) = true) as -> by lia. discriminate.
Qed.
Print Assumptions F37_si_useless.

(** ** C67 *)
(** There is a text whose evaluation needs its own evaluation: the program recurses until the
    stack is gone. *)
Theorem C67_terminates_refuted o post fuel : lk_eval fuel (spair (core_scope o) post) E0 false = OutOfFuel.
Proof. unfold lk_eval, parse_abe. rewrite parse_E0. now rewrite quine_forever. Qed.
Print Assumptions C67_terminates_refuted.
Example C67_quine_text : lenN E0 = 102 /\ forallb (fun c => (32 <=? c) && (c <=? 126)) E0 = true /\ exists l, parse_abe_strict E0 = Ok l.
Proof. split; [vm_compute; reflexivity|]. split; [vm_compute; reflexivity|]. eexists. apply parse_E0. Qed.
(** Without the function [eval] the result depends on nothing but the nesting of the text, and
    without [replace] evaluation always ends. *)
Theorem C67_terminates_partial o l fuel : (depth l < fuel)%nat ->
  eval fuel (without [str "eval"] (core_scope o)) l = eval (S (depth l)) (without [str "eval"] (core_scope o)) l /\
  eval fuel (without [str "eval"; str "replace"] (core_scope o)) l <> OutOfFuel.
Proof.
  intros F. split; [apply (eval_stable o _ (depth l)); [reflexivity|lia..]|]. apply (eval_nf o _) with (depth l); [|lia|assumption].
  intros w [<-|[<-|[]]]; reflexivity.
Qed.
Print Assumptions C67_terminates_partial.
Example C67_ex : match parse_abe_strict (str "[/or:[u8:300]:[a:[/?:x/b]:9]]") with Ok l => depth l = 3%nat /\ eval 4 (without [str "eval"] (core_scope o1)) l = Ok [(None, [0; 0; 0] ++ str "[b:eA]")] | _ => False end.
Proof. vm_compute. repeat split. Qed.
