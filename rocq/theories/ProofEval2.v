(** The encoders of the core scope give text that evaluates to the bytes. *)
From Verif Require Import Bytes ModelAbe SpecAbe ProofAbe ProofAbe2 ModelFmt SpecFmt ProofFmt PropsFmt ModelSpace ProofSpace ModelEval ModelFn SpecEval ProofEval.
Ltac Zify.zify_post_hook ::= Z.div_mod_to_equations.

Lemma plain_reads t : Forall plain t -> reads t t.
Proof. induction 1 as [|c t P F IH]; [constructor|]. change (c :: t) with ([c] ++ t) at 1. constructor; [now constructor|assumption]. Qed.
Lemma alnum_plain c : 48 <= c <= 57 \/ 97 <= c <= 122 \/ 65 <= c <= 90 -> plain c.
Proof. intros H. unfold plain, special. cbn. split; [lia|]. intros I. repeat destruct I as [I|I]; subst; lia. Qed.
Lemma to_string_reads n : reads (to_string n) (to_string n).
Proof. apply plain_reads, Forall_forall. intros c I. apply alnum_plain. left. now apply to_string_digits in I. Qed.
Lemma abtxt_reads b : bytes_ok b -> reads (as_abtxt b) b.
Proof. intros O. rewrite as_abtxt_flat. now apply escape_all_reads. Qed.
Lemma cut_ok x b : bytes_ok b -> bytes_ok (cut_prefixeq x b).
Proof. induction 1 as [|y b Y F IH]; [constructor|]. cbn. destruct (y =? x); [assumption|now constructor]. Qed.
Lemma usize_to_string n : n < 2 ^ 64 -> parse_usize (to_string n) = Some n.
Proof. intros H. unfold parse_usize, parse_uint. apply parse_to_string. change (umax_of 8) with (2 ^ 64 - 1). lia. Qed.
Lemma to_string_ne n : to_string n <> [].
Proof. intros E. destruct (to_string_canonical n) as [[NE _] _]. contradiction. Qed.
Lemma abtxt_evaluates s b : bytes_ok b -> evaluates s (as_abtxt b) b.
Proof.
  intros O. destruct b as [|x b].
  - exists [], 1%nat. split; [reflexivity|]. intros [|f] L; [lia|]. exists []. now split.
  - exists [ABytes (x :: b)], 1%nat. split.
    + apply parse_denotes. rewrite <- (app_nil_r (as_abtxt _)). apply denotes_bytes; [discriminate|now apply abtxt_reads|exact I|constructor].
    + intros [|f] L; [lia|]. exists [(None, x :: b)]. now split.
Qed.

Lemma extends_refl a : extends a a.
Proof. split; auto. Qed.
Lemma extends_pair a b : extends a (spair a b).
Proof. split; intros; cbn [spair sc_func sc_macro]; now rewrite H. Qed.
Lemma extends_trans a b c : extends a b -> extends b c -> extends a c.
Proof. intros [A1 A2] [B1 B2]. split; auto. Qed.
Lemma extends_basic o s : extends (core_scope o) s -> extends (basic_scope o) s.
Proof.
  apply extends_trans. eapply extends_trans; [|apply extends_pair]. apply extends_pair.
Qed.

Section Core.
  Context (o : oracle) (s : scope) (EXT : extends (basic_scope o) s).
  Lemma core_call_evaluates tid id f ts bs v : id <> [] -> lenN bs <= 15 -> reads tid id -> Forall2 reads ts bs ->
    find_func id (basic_funcs o) = Some f -> (f_init f = None \/ f_init f = Some true) -> f_lo f <= lenN bs <= f_hi f ->
    (forall ctx, f_apply f ctx bs true = Ok (Some v)) -> item s (91 :: tid ++ args_text ts ++ [93]) v.
  Proof.
    intros NE L R F E I B A. apply call_evaluates with id bs; try assumption. intros fuel. apply EXT.
    rewrite (proj1 (basic_flat o)). now rewrite (escope_some _ _ _ _ _ _ f).
  Qed.
  (** One and two arguments *)
  Lemma core_eval1 tid id f t b v : id <> [] -> reads tid id -> reads t b ->
    find_func id (basic_funcs o) = Some f -> (f_init f = None \/ f_init f = Some true) -> f_lo f <= 1 <= f_hi f ->
    (forall ctx, f_apply f ctx [b] true = Ok (Some v)) -> item s (91 :: tid ++ 58 :: t ++ [93]) v.
  Proof.
    intros. replace (58 :: t ++ [93]) with (args_text [t] ++ [93]) by (cbn; now rewrite app_nil_r).
    apply core_call_evaluates with id f [b]; auto; [change (lenN [b]) with 1; lia].
  Qed.
  Lemma core_eval2 tid id f t1 b1 t2 b2 v : id <> [] -> reads tid id -> reads t1 b1 -> reads t2 b2 ->
    find_func id (basic_funcs o) = Some f -> (f_init f = None \/ f_init f = Some true) -> f_lo f <= 2 <= f_hi f ->
    (forall ctx, f_apply f ctx [b1; b2] true = Ok (Some v)) -> item s (91 :: tid ++ 58 :: t1 ++ 58 :: t2 ++ [93]) v.
  Proof.
    intros. replace (58 :: t1 ++ 58 :: t2 ++ [93]) with (args_text [t1; t2] ++ [93]) by (cbn; rewrite app_nil_r; cbn; now rewrite <- app_assoc).
    apply core_call_evaluates with id f [b1; b2]; auto; [change (lenN [b1; b2]) with 2; lia].
  Qed.
  Ltac rid := apply plain_reads; repeat constructor; vm_compute; intuition discriminate.

  (** [a] and [f] *)
  Lemma pad_back p cut n L inp : nth_error inp 0 = Some cut -> (match inp with _ :: l :: _ => l <> [] /\ parse_usize l = Some L | _ => L = 16 end) ->
    nth_error inp 2 = None -> L = n + lenN cut -> L < 2 ^ 63 -> pad inp true p true false = Ok (Some (repeat p (N.to_nat n) ++ cut)).
  Proof.
    intros N0 N1 N2 EL LL. unfold pad. assert (arg 0 inp = cut) as -> by (destruct inp; [discriminate|now injection N0]).
    assert (match inp with _ :: l :: _ => match l with [] => Some 16 | _ :: _ => parse_usize l end | _ => Some 16 end = Some L) as ->.
    { destruct inp as [|x [|l inp]]; subst; try reflexivity. destruct N1 as [NE P]. destruct l; [contradiction|assumption]. }
    cbn [negb]. destruct (N.ltb_spec L (lenN cut)); [lia|]. rewrite N2. destruct (N.leb_spec (2 ^ 63) L); [lia|].
    replace (L - lenN cut) with n by lia. reflexivity.
  Qed.
  Lemma cut_split x b : exists n, b = repeat x (N.to_nat n) ++ cut_prefixeq x b /\ lenN b = n + lenN (cut_prefixeq x b).
  Proof.
    destruct (cut_trimmed x b) as [[n E] _]. exists (N.of_nat n). rewrite Nat2N.id. split; [assumption|]. rewrite E at 1. now rewrite lenN_app, lenN_repeat.
  Qed.
  Lemma a_arg1 x id f b : bytes_ok b -> lenN b = 16 -> id <> [] -> reads id id -> find_func id (basic_funcs o) = Some f ->
    f = fn_enc (str "a") 1 3 (fun i => pad i true 0 true false) encode_a /\ x = 0 \/ f = fn (str "f") 1 3 (fun i => pad i true 255 true false) /\ x = 255 ->
    item s (91 :: id ++ 58 :: as_abtxt (cut_prefixeq x b) ++ [93]) b.
  Proof.
    intros O L NE R F E. destruct (cut_split x b) as (n & B & LB).
    apply core_eval1 with id f (cut_prefixeq x b); try assumption; [now apply abtxt_reads, cut_ok| | |].
    - destruct E as [[-> _]|[-> _]]; now left.
    - destruct E as [[-> _]|[-> _]]; cbn; lia.
    - intros ctx. rewrite B at 2. destruct E as [[-> ->]|[-> ->]]; cbn [f_apply fn fn_enc]; apply pad_back with 16; try reflexivity; lia.
  Qed.
  Lemma a_arg2 x id f b : bytes_ok b -> lenN b < 2 ^ 63 -> id <> [] -> reads id id -> find_func id (basic_funcs o) = Some f ->
    f = fn_enc (str "a") 1 3 (fun i => pad i true 0 true false) encode_a /\ x = 0 \/ f = fn (str "f") 1 3 (fun i => pad i true 255 true false) /\ x = 255 ->
    item s (91 :: id ++ 58 :: as_abtxt (cut_prefixeq x b) ++ 58 :: to_string (lenN b) ++ [93]) b.
  Proof.
    intros O L NE R F E. destruct (cut_split x b) as (n & B & LB).
    apply core_eval2 with id f (cut_prefixeq x b) (to_string (lenN b)); try assumption; [now apply abtxt_reads, cut_ok|apply to_string_reads| | |].
    - destruct E as [[-> _]|[-> _]]; now left.
    - destruct E as [[-> _]|[-> _]]; cbn; lia.
    - intros ctx. rewrite B at 3. destruct E as [[-> ->]|[-> ->]]; cbn [f_apply fn fn_enc]; apply pad_back with (lenN b); try reflexivity; try assumption;
        (split; [apply to_string_ne|apply usize_to_string; lia]).
  Qed.
  Lemma encode_a_evaluates b opts t : bytes_ok b -> lenN b < 2 ^ 63 -> encode_a b opts = Ok (Some t) -> item s t b.
  Proof.
    intros O L. unfold encode_a, val, cut_prefix_nulls. intros E. apply (f_equal (fun x => match x with Ok (Some v) => v | _ => [] end)) in E. cbn beta iota in E. subst t.
    destruct (N.eqb_spec (lenN b) 16) as [E|E].
    - apply (a_arg1 0 (str "a") (fn_enc (str "a") 1 3 (fun i => pad i true 0 true false) encode_a) b); auto; [discriminate|rid].
    - change (str "[a:" ++ ?x ++ str ":" ++ ?y ++ str "]") with (91 :: str "a" ++ 58 :: x ++ 58 :: y ++ [93]).
      apply (a_arg2 0 (str "a") (fn_enc (str "a") 1 3 (fun i => pad i true 0 true false) encode_a) b); auto; [discriminate|rid].
  Qed.
  Lemma ab_to_abe_str_evaluates b : bytes_ok b -> lenN b < 2 ^ 63 -> item s (ab_to_abe_str b) b.
  Proof.
    intros O L. unfold ab_to_abe_str, x_prefix_cut, cut_prefix_nulls. destruct (hd 0 b =? 255), (N.eqb_spec (lenN b) 16) as [E|E]; cbn [ab_mode].
    - apply (a_arg1 255 (str "f") (fn (str "f") 1 3 (fun i => pad i true 255 true false)) b); auto; [discriminate|rid].
    - apply (a_arg2 255 (str "f") (fn (str "f") 1 3 (fun i => pad i true 255 true false)) b); auto; [discriminate|rid].
    - apply (a_arg1 0 (str "a") (fn_enc (str "a") 1 3 (fun i => pad i true 0 true false) encode_a) b); auto; [discriminate|rid].
    - apply (a_arg2 0 (str "a") (fn_enc (str "a") 1 3 (fun i => pad i true 0 true false) encode_a) b); auto; [discriminate|rid].
  Qed.
  (** Integers *)
  Lemma encode_be_evaluates id k f b opts t : bytes_ok b -> id <> [] -> reads id id -> find_func id (basic_funcs o) = Some f ->
    f = fn_enc id 1 1 (parse_be k) (encode_be id k) -> encode_be id k b opts = Ok (Some t) -> item s t b.
  Proof.
    intros O NE R F E. unfold encode_be, val. destruct (N.eqb_spec (lenN b) (N.of_nat k)) as [L|L]; [|discriminate].
    intros H. apply (f_equal (fun x => match x with Ok (Some v) => v | _ => [] end)) in H. cbn beta iota in H. subst t.
    change (str "[" ++ id ++ str ":" ++ ?x ++ str "]") with (91 :: id ++ 58 :: x ++ [93]).
    apply core_eval1 with id f (to_string (be_decode b)); try assumption; [apply to_string_reads|subst f; now left|subst f; cbn; lia|].
    intros ctx. subst f. cbn [f_apply fn_enc]. unfold parse_be. cbn [arg nth].
    destruct (C44_int_bytes false k b O L) as [B S]. unfold uint_get, uint_new in *.
    unfold parse_uint. rewrite parse_to_string by now apply in_size_umax. unfold val. now rewrite B.
  Qed.
  (** base64 *)
  Lemma base64_reads b : bytes_ok b -> reads (base64 b) (base64 b).
  Proof.
    intros O. apply plain_reads, Forall_forall. intros c I. apply base64_chars in I as (d & D & ->); [|assumption].
    unfold b64_char. unfold plain, special. cbn. split; [|intros I]; repeat match goal with |- context [?a <? ?b] => destruct (N.ltb_spec a b) | |- context [?a =? ?b] => destruct (N.eqb_spec a b)
      | H : context [?a <? ?b] |- _ => destruct (N.ltb_spec a b) | H : context [?a =? ?b] |- _ => destruct (N.eqb_spec a b) end; lia.
  Qed.
  Lemma b_text_evaluates b : bytes_ok b -> item s (str "[b:" ++ base64 b ++ str "]") b.
  Proof.
    intros O. change (str "[b:" ++ base64 b ++ str "]") with (91 :: str "b" ++ 58 :: base64 b ++ [93]).
    eapply core_eval1 with (id := str "b"); [discriminate|rid|now apply base64_reads|reflexivity|now left|cbn; lia|].
    intros ctx. cbn [f_apply fn_enc arg nth]. unfold of_opt.
    assert (base64_decode (base64 b) = Some b) as -> by now apply decode_raw_iff. reflexivity.
  Qed.
  Lemma enc_b_evaluates b opts t : bytes_ok b -> enc_b b opts = Ok (Some t) -> item s t b.
  Proof.
    intros O H. assert (t = str "[b:" ++ base64 b ++ str "]") as ->; [|now apply b_text_evaluates].
    unfold enc_b in H. destruct opts as [|e opts]; [unfold val in H; congruence|]. revert H. generalize (e :: opts). clear e opts. intros opts.
    induction opts as [|e opts IH]; [discriminate|]. cbn [enc_b_opts]. destruct e as [|x|]; try apply IH. destruct (parse_uint 4 x); [|discriminate].
    destruct (_ =? _); [unfold val; congruence|apply IH].
  Qed.
  Lemma esc_slash_reads t : Forall (fun c => c = 47 \/ plain c) t -> reads (flat_map (fun c => if c =? 47 then [92; 47] else [c]) t) t.
  Proof.
    induction 1 as [|c t P F IH]; [constructor|]. cbn [flat_map]. constructor; [|assumption].
    destruct (N.eqb_spec c 47) as [->|NE]; [apply reads_escape; cbn; tauto|]. destruct P; [contradiction|now constructor].
  Qed.
  Lemma enc_bs_evaluates b opts t : bytes_ok b -> enc_bs b opts = Ok (Some t) -> item s t b.
  Proof.
    intros O. unfold enc_bs, val. intros H. apply (f_equal (fun x => match x with Ok (Some v) => v | _ => [] end)) in H. cbn beta iota in H. subst t.
    change (str "[bs:" ++ ?x ++ str "]") with (91 :: str "bs" ++ 58 :: x ++ [93]).
    eapply core_eval1 with (id := str "bs") (b := base64_std b); [discriminate|rid| |reflexivity|now left|cbn; lia|].
    - apply esc_slash_reads. unfold base64_std. apply Forall_app. split; apply Forall_forall.
      + intros c I. apply in_map_iff in I as (d & <- & I). pose proof (b64_digits_ok b O) as F. rewrite Forall_forall in F. apply F in I.
        unfold b64_char. unfold plain, special. cbn. repeat match goal with |- context [?a <? ?b] => destruct (N.ltb_spec a b) | |- context [?a =? ?b] => destruct (N.eqb_spec a b) end; lia.
      + intros c I. apply repeat_spec in I. subst c. right. unfold plain, special. cbn. lia.
    - intros ctx. cbn [f_apply fn_enc arg nth]. unfold of_opt. assert (base64_std_decode (base64_std b) = Some b) as -> by now apply base64_std_decode_iff. reflexivity.
  Qed.
End Core.

(** Group names *)
Section Names.
  Context (o : oracle) (s : scope) (EXT : extends (core_scope o) s).
  Lemma name_evaluates tid id f t b v : id <> [] -> reads tid id -> reads t b ->
    find_func id (core_funcs o) = Some f -> (f_init f = None \/ f_init f = Some true) -> f_lo f <= 1 <= f_hi f ->
    (forall ctx, f_apply f ctx [b] true = Ok (Some v)) -> item s (91 :: tid ++ 58 :: t ++ [93]) v.
  Proof.
    intros NE R R2 F I B A. replace (58 :: t ++ [93]) with (args_text [t] ++ [93]) by (cbn; now rewrite app_nil_r).
    apply call_evaluates with id [b]; auto; [change (lenN [b]) with 1; lia|]. intros fuel. apply EXT.
    rewrite (proj1 (core_flat o)). now rewrite (escope_some _ _ _ _ _ _ f).
  Qed.
  Ltac rid := apply plain_reads; repeat constructor; vm_compute; intuition discriminate.
  Lemma hash_enc_evaluates b opts t : hash_enc o b opts = Ok (Some t) -> item s t b.
  Proof.
    unfold hash_enc, val. destruct (negb _); [discriminate|].
    assert (P : forall x v, reads x x -> hash_fn o [x] = Ok (Some v) -> item s (91 :: str "#" ++ 58 :: x ++ [93]) v).
    { intros x v R H. eapply name_evaluates with (id := str "#"); [discriminate|rid|exact R|reflexivity|now right|cbn; lia|]. intros ctx. exact H. }
    destruct (beqb b PRIVATE_GROUP) eqn:E0; [|destruct (beqb b (o_public o)) eqn:E1; [|destruct (beqb b (o_test o)) eqn:E2; [|discriminate]]];
      intros H; apply (f_equal (fun x => match x with Ok (Some v) => v | _ => [] end)) in H; cbn beta iota in H; subst t.
    - apply beqb_eq in E0. subst b. apply (P (str "0")); [rid|reflexivity].
    - apply beqb_eq in E1. subst b. apply (P (str "pub")); [rid|reflexivity].
    - apply beqb_eq in E2. subst b. apply (P (str "test")); [rid|reflexivity].
  Qed.
  Lemma at_enc_evaluates b opts t : at_enc b opts = Ok (Some t) -> item s t b.
  Proof.
    unfold at_enc, val. destruct (beqb b PRIVATE_GROUP) eqn:E0; [|discriminate].
    intros H; apply (f_equal (fun x => match x with Ok (Some v) => v | _ => [] end)) in H; cbn beta iota in H; subst t. apply beqb_eq in E0. subst b.
    change (str "[@:none]") with (91 :: str "@" ++ 58 :: str "none" ++ [93]).
    eapply name_evaluates with (id := str "@") (b := str "none"); [discriminate|rid|rid|reflexivity|now right|cbn; lia|]. reflexivity.
  Qed.
End Names.
