(** ABE text: byte strings, expressions and their top level components (C41, C42, C64, C65). *)
From Verif Require Import Bytes ModelAbe SpecAbe ProofAbe ProofAbe2 ProofAbe3.

(** ** C41 *)
(** Printed and parsed again, up to any limit the bytes fit in. *)
Theorem C41_round_trip b : bytes_ok b ->
  parse_abtxt (as_abtxt b) None = Ok b /\
  forall max, parse_abtxt_upto_max (as_abtxt b) max = Ok b <-> lenN b <= max.
Proof.
  intros O. assert (R : reads (as_abtxt b) b) by (rewrite as_abtxt_flat; now apply escape_all_reads). split.
  - apply parse_abtxt_iff. now split.
  - intros max. unfold parse_abtxt_upto_max. rewrite parse_abtxt_iff. tauto.
Qed.
Print Assumptions C41_round_trip.
(** The printed text is printable ASCII, each special character behind a backslash. *)
Theorem C41_escaped b : bytes_ok b -> escaped (as_abtxt b).
Proof. intros O. apply reads_escaped with b. rewrite as_abtxt_flat. now apply escape_all_reads. Qed.
Print Assumptions C41_escaped.
(** Text that is accepted is text of the grammar, and it means what the grammar says. *)
Theorem C41_parse_exact t b :
  (parse_abtxt t None = Ok b <-> reads t b) /\
  (forall max, parse_abtxt_upto_max t max = Ok b <-> reads t b /\ lenN b <= max) /\
  (forall size, parse_abtxt_into t size = Ok b <-> reads t b /\ lenN b <= size).
Proof.
  split; [|split]; intros; unfold parse_abtxt_upto_max, parse_abtxt_into; rewrite parse_abtxt_iff; tauto.
Qed.
Print Assumptions C41_parse_exact.
Theorem C41_total t max : (exists b, parse_abtxt t max = Ok b) \/ (exists e, parse_abtxt t max = Err e).
Proof.
  unfold parse_abtxt. destruct (parse_loop_total (S (List.length t)) (lenN t) t max []) as [A B]; [lia|].
  destruct (parse_loop _ _ _ _ _); [left|right|congruence..]; now eexists.
Qed.
Print Assumptions C41_total.
(** Different byte strings print differently. *)
Theorem C41_injective a b : bytes_ok a -> bytes_ok b -> as_abtxt a = as_abtxt b -> a = b.
Proof.
  intros A B E. apply (reads_fun (as_abtxt a)); [|rewrite E]; rewrite as_abtxt_flat; now apply escape_all_reads.
Qed.
Print Assumptions C41_injective.

Example C41_ex : as_abtxt (str "a/b" ++ [0; 255; 10; 200]) = str "a\/b\0\f\n\xc8" /\
  parse_abtxt (str "a\/b\0\f\n\xC8") None = Ok (str "a/b" ++ [0; 255; 10; 200]) /\
  parse_abtxt_upto_max (str "a\/b\0\f\n\xc8") 6 = Err EFit /\ parse_abtxt (str "a/b") None = Err (EParse 47 1).
Proof. repeat split; vm_compute; reflexivity. Qed.

(** ** C42 *)
Theorem C42_parse_exact t l : parse_abe_strict t = Ok l <-> denotes t l.
Proof. apply parse_denotes. Qed.
Print Assumptions C42_parse_exact.
(** Every expression with byte strings of bytes, printed and parsed, is itself with neighbouring
    byte strings joined; a normal one is itself. *)
Theorem C42_print_parse l : abes_ok l ->
  parse_abe_strict (print_abe l) = Ok (norm l) /\ (normal l -> parse_abe_strict (print_abe l) = Ok l).
Proof.
  intros O. assert (H : parse_abe_strict (print_abe l) = Ok (norm l)) by now apply parse_denotes, print_denotes.
  split; [assumption|]. intros N. now rewrite (norm_normal l N) in H.
Qed.
Print Assumptions C42_print_parse.
(** What is parsed is normal and survives printing. *)
Theorem C42_parse_print t l : parse_abe_strict t = Ok l -> normal l /\ parse_abe_strict (print_abe l) = Ok l.
Proof.
  intros H. apply parse_denotes, denotes_normal in H. split; [assumption|]. apply C42_print_parse; [now apply normal_ok|assumption].
Qed.
Print Assumptions C42_parse_print.
(** The lenient parser accepts everything the strict one does, with the same result. *)
Theorem C42_lenient_agrees t l : parse_abe t false = Ok l -> parse_abe t true = Ok l.
Proof. apply lenient_agrees. Qed.
Print Assumptions C42_lenient_agrees.
Theorem C42_total t u : (exists l, parse_abe t u = Ok l) \/ (exists e, parse_abe t u = Err e).
Proof.
  assert (A : forall b, (exists l, abe_loop b (S (List.length t)) (lenN t) t 0 [] [] = Ok l) \/ (exists e, abe_loop b (S (List.length t)) (lenN t) t 0 [] [] = Err e)).
  { intros b. destruct (abe_loop_total b (lenN t) (S (List.length t)) t 0 [] []) as [A B]; [lia|constructor|].
    destruct (abe_loop _ _ _ _ _ _ _); [left|right|congruence..]; now eexists. }
  unfold parse_abe, parse_abe_strict, parse_abe_unencoded. destruct u; apply A.
Qed.
Print Assumptions C42_total.

Example C42_ex : let l := [ABytes (str "a"); ABytes [91]; ACtr CColon; ALst [ABytes (str "u8"); ACtr CFSlash; ALst []]; ABytes []] in
  abes_ok l /\ print_abe l = str "a\[:[u8/[]]" /\
  norm l = [ABytes (str "a["); ACtr CColon; ALst [ABytes (str "u8"); ACtr CFSlash; ALst []]] /\
  parse_abe_strict (print_abe l) = Ok (norm l) /\ normal (norm l).
Proof.
  cbv zeta. assert (P : parse_abe_strict (print_abe [ABytes (str "a"); ABytes [91]; ACtr CColon; ALst [ABytes (str "u8"); ACtr CFSlash; ALst []]; ABytes []])
    = Ok (norm [ABytes (str "a"); ABytes [91]; ACtr CColon; ALst [ABytes (str "u8"); ACtr CFSlash; ALst []]; ABytes []])) by (vm_compute; reflexivity).
  split; [repeat constructor; vm_compute; reflexivity|]. split; [vm_compute; reflexivity|]. split; [vm_compute; reflexivity|].
  split; [exact P|]. apply C42_parse_print in P. exact (proj1 P).
Qed.
Example C42_lenient_ex : parse_abe (str "a" ++ [200]) true = Ok [ABytes (str "a" ++ [200])] /\ parse_abe (str "a" ++ [200]) false <> Ok [ABytes (str "a" ++ [200])] /\
  parse_abe (str "[a") true = Err EUnmatchedOpen.
Proof. split; [|split]; [vm_compute; reflexivity|vm_compute; discriminate|vm_compute; reflexivity]. Qed.

(** ** C64 *)
(** The components are exactly the parts of the text between the top level delimiters. A last empty
    part is left out. *)
Theorem C64_components_exact t exclude l : t <> [] -> NoDup exclude ->
  lk_tokenize_abe t exclude = Ok l <->
  components exclude l /\
  ((t = join l /\ snd (last l (0, false, [])) <> []) \/ exists c, separator exclude c /\ t = join l ++ [c]).
Proof.
  intros NE ND. pose proof (plain_of_cset exclude ND) as P. unfold lk_tokenize_abe, tokenize_abe.
  set (p := plain_of exclude) in *. replace (match t with [] => Ok [] | _ => tok_loop (S (List.length t)) p 0 (lenN t) t 0 0 false [] end)
    with (tok_loop (S (List.length t)) p 0 (lenN t) t 0 0 false []) by now destruct t.
  split.
  - intros H. apply (tok_sound exclude p P) in H as (i & t1 & r & H & ->). apply tk_join in H as (C & F & T).
    split; [now split|]. cbn [join]. change ([] ++ t1) with t1.
    destruct T as [[-> [->|L]]|(c & S & ->)].
    + left. split; [reflexivity|]. cbn in NE |- *. now rewrite app_nil_r in NE.
    + left. split; [reflexivity|]. destruct r; [now cbn in L|exact L].
    + right. exists c. split; [assumption|]. now rewrite <- app_assoc.
  - intros [C T]. destruct l as [|[[c i] t1] r]; [contradiction|]. destruct C as (-> & C & F). cbn [join] in T.
    apply (tok_complete exclude p P (lenN t) 0 t i t1 r); [|lia].
    destruct T as [[-> L]|(c & S & ->)].
    + rewrite <- (app_nil_r (tail_text r)). apply join_tk; [assumption..|]. left. split; [reflexivity|].
      destruct r; [now left|right; exact L].
    + rewrite <- app_assoc. apply join_tk; [assumption..|]. right. now exists c.
Qed.
Print Assumptions C64_components_exact.
Theorem C64_total t exclude : (exists l, lk_tokenize_abe t exclude = Ok l) \/ (exists e, lk_tokenize_abe t exclude = Err e).
Proof.
  unfold lk_tokenize_abe, tokenize_abe. destruct t as [|c t]; [left; now eexists|].
  destruct (tok_total (plain_of exclude) 0 (lenN (c :: t)) (S (List.length (c :: t))) (c :: t) 0 0 false []) as [A B]; [lia|].
  destruct (tok_loop _ _ _ _ _ _ _ _ _); [left|right|congruence..]; now eexists.
Qed.
Print Assumptions C64_total.
(** "Loses nothing" is false: a delimiter at the end is dropped, so two texts have the same
    components. *)
Theorem C64_lossless_refuted : ~ (forall t1 t2 l, lk_tokenize_abe t1 [] = Ok l -> lk_tokenize_abe t2 [] = Ok l -> t1 = t2).
Proof.
  intros H. specialize (H (str "a/") (str "a") [(0, false, str "a")]).
  assert (E : str "a/" = str "a") by (apply H; vm_compute; reflexivity). vm_compute in E. discriminate.
Qed.
Print Assumptions C64_lossless_refuted.
(** It is true of texts that do not end in a delimiter. *)
Theorem C64_lossless_partial t1 t2 exclude l : NoDup exclude ->
  (forall c, separator exclude c -> last t1 0 <> c /\ last t2 0 <> c) ->
  lk_tokenize_abe t1 exclude = Ok l -> lk_tokenize_abe t2 exclude = Ok l -> t1 = t2.
Proof.
  intros ND S. assert (A : forall t, (forall c, separator exclude c -> last t 0 <> c) -> lk_tokenize_abe t exclude = Ok l -> t = join l /\ (t = [] <-> l = [])).
  { intros t L H. destruct t as [|x t]; [cbn in H; injection H as <-; now split|].
    apply C64_components_exact in H as [C [[E N]|(c & Sc & E)]]; [| |discriminate|assumption].
    - split; [assumption|]. split; [discriminate|]. intros ->. contradiction.
    - exfalso. apply (L c Sc). rewrite E. now rewrite last_last. }
  intros H1 H2. apply A in H1 as [-> _]; [|intros c Sc; now apply S]. apply A in H2 as [-> _]; [reflexivity|intros c Sc; now apply S].
Qed.
Print Assumptions C64_lossless_partial.
(** A delimiter excluded twice is not excluded. *)
Theorem F58_exclude_twice : lk_tokenize_abe (str "a/b") (str "/") = Ok [(0, false, str "a/b")] /\
  lk_tokenize_abe (str "a/b") (str "//") = Ok [(0, false, str "a"); (47, false, str "b")].
Proof. split; vm_compute; reflexivity. Qed.
Print Assumptions F58_exclude_twice.

Example C64_ex : lk_tokenize_abe (str "domain:[#:test]:/thing/[12/u32]") (str "/")
    = Ok [(0, false, str "domain"); (58, true, str "[#:test]"); (58, true, str "/thing/[12/u32]")]
  /\ NoDup (str "/") /\ lk_tokenize_abe (str "a]") [] = Err EUnmatchedClose
  /\ lk_tokenize_abe (str "a\:b:" ++ [10] ++ str "c") [] = Ok [(0, false, str "a\:b"); (58, false, []); (10, false, str "c")].
Proof.
  split; [vm_compute; reflexivity|]. split; [repeat constructor; cbn; tauto|]. split; vm_compute; reflexivity.
Qed.

(** ** C65 *)
Theorem C65_replaces l pat new r : pat <> [] ->
  replace_abe l pat new = Ok r <-> replaced1 pat new (ALst l) (ALst r).
Proof.
  intros NE. unfold replace_abe. destruct pat as [|a pat]; [contradiction|]. set (p := a :: pat) in *. split.
  - intros [= <-]. apply (replace1_spec p new NE (ALst l)).
  - intros H. apply (replaced1_fun p new NE) in H. cbn [replace1] in H. now injection H as ->.
Qed.
Print Assumptions C65_replaces.
Theorem C65_empty_pattern_refuted : ~ (forall l pat new, replace_abe l pat new <> Panic).
Proof. intros H. now apply (H [] [] []). Qed.
Print Assumptions C65_empty_pattern_refuted.
Example C65_ex : let a := ABytes (str "a") in let b := ABytes (str "b") in
  replace_abe [ALst [a; a; a]; a; b; a; a] [a; a] [b] = Ok [ALst [b; a]; a; b; b].
Proof. vm_compute. reflexivity. Qed.
