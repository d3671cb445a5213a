(** C83: encoding and evaluating inside expressions. *)
From Coq Require Import Lia.
From Verif Require Import Bytes ModelSpace SpecSpace ModelAbe SpecAbe ProofAbe ProofAbe2 ModelFmt SpecFmt ModelEval ModelFn SpecEval ProofFn ProofEval ProofEval2 ProofEval3 PropsEval ProofPktScope ProofPktScope2.
From Verif Require Import SpecCliQuery ProofCliQuery ProofCliQuery3 SpecRead ProofRead ProofRead3 SpecEncode ProofEncode.
Local Open Scope N_scope.

Lemma sym_reads id : In id [str "?"; str "??"; str "???"; str "~?"; str "e"; str "eval"] -> reads id id.
Proof. intros I. apply plain_reads. cbn [In] in I. repeat (destruct I as [<-|I]; [repeat constructor; vm_compute; intuition discriminate|]). destruct I. Qed.
Ltac sym := apply sym_reads; cbn [In]; tauto.
Section C83.
Variable o : oracle.
Variable s : scope.
Lemma lookup_enc ctx id f args : In (id, f) [(str "?", fun ctx i (_ : bool) => of_out (encode_arg ctx i));
    (str "??", fun ctx i _ => of_out (obind (encode_arg ctx i) (fun r => Ok match strip_brackets r with Some v => v | None => r end)));
    (str "???", fun ctx i _ => of_out (obind (encode_arg ctx i) (fun r => Ok match strip_brackets r with Some v => after_colon v | None => r end)))] ->
  lenN args = 2 -> sc_func (core_scope o) ctx id args true = f ctx args true.
Proof.
  intros I L. rewrite (proj1 (core_flat o)). cbn [In] in I. destruct I as [I|[I|[I|[]]]]; injection I as <- <-.
  - refine (escope_some _ _ _ _ _ _ (fn_ctx (str "?") None 2 8 _) _ (or_introl eq_refl) _); [reflexivity|]. cbn [f_lo f_hi fn_ctx]. lia.
  - refine (escope_some _ _ _ _ _ _ (fn_ctx (str "??") None 2 8 _) _ (or_introl eq_refl) _); [reflexivity|]. cbn [f_lo f_hi fn_ctx]. lia.
  - refine (escope_some _ _ _ _ _ _ (fn_ctx (str "???") None 2 8 _) _ (or_introl eq_refl) _); [reflexivity|]. cbn [f_lo f_hi fn_ctx]. lia.
Qed.
Lemma lookup_eval ctx t : sc_func (core_scope o) ctx (str "eval") [t] true = eval_fn ctx [t] true.
Proof. rewrite (proj1 (core_flat o)). refine (escope_some _ _ _ _ _ _ (fn_ctx (str "eval") None 1 1 eval_fn) _ (or_introl eq_refl) _); [reflexivity|]. cbn [f_lo f_hi fn_ctx]. change (lenN [t]) with 1. lia. Qed.
Lemma encode_two fuel b opts : encode_arg (ctx_of fuel s) [b; opts] = lk_try_encode s b opts false.
Proof. reflexivity. Qed.
Lemma text2 (id a b : bytes) : str "[" ++ id ++ str ":" ++ a ++ str ":" ++ b ++ str "]" = 91 :: id ++ args_text [a; b] ++ [93].
Proof. change (args_text [a; b]) with ([58] ++ a ++ [58] ++ b ++ []). rewrite app_nil_r, <- !app_assoc. reflexivity. Qed.
Lemma enc_call id f tv b to opts v : id <> [] -> reads id id -> In (id, f) [(str "?", fun ctx i (_ : bool) => of_out (encode_arg ctx i));
    (str "??", fun ctx i _ => of_out (obind (encode_arg ctx i) (fun r => Ok match strip_brackets r with Some v => v | None => r end)));
    (str "???", fun ctx i _ => of_out (obind (encode_arg ctx i) (fun r => Ok match strip_brackets r with Some v => after_colon v | None => r end)))] ->
  offers s (core_scope o) id -> argument s tv b -> argument s to opts ->
  evaluates s (str "[" ++ id ++ str ":" ++ tv ++ str ":" ++ to ++ str "]") v <-> f (ctx_of 0 s) [b; opts] true = Ok (Some v).
Proof.
  intros NE R I OF TV TO. rewrite text2. apply call_exprs with id [b; opts]; [exact NE|vm_compute; discriminate|exact R|constructor; [exact TV|constructor; [exact TO|constructor]]|].
  intros fuel. rewrite OF, (lookup_enc _ id f [b; opts] I eq_refl). cbn [In] in I. destruct I as [I|[I|[I|[]]]]; injection I as _ <-; reflexivity.
Qed.

(** [?] is the encoding of [lk_try_encode]. *)
Theorem C83_encode tv b to opts t : offers s (core_scope o) (str "?") -> argument s tv b -> argument s to opts ->
  evaluates s (str "[?:" ++ tv ++ str ":" ++ to ++ str "]") t <-> lk_try_encode s b opts false = Ok t.
Proof.
  intros OF TV TO. change (str "[?:" ++ ?x) with (str "[" ++ str "?" ++ str ":" ++ x).
  rewrite (enc_call (str "?") _ tv b to opts t ltac:(discriminate) ltac:(sym) (or_introl eq_refl) OF TV TO). rewrite encode_two.
  destruct (lk_try_encode s b opts false) as [x|x| |]; cbn [of_out]; unfold val, fails; split; congruence.
Qed.
(** [??] leaves out the brackets, [???] the name of the function as well. *)
Theorem C83_strip tv b to opts w : offers s (core_scope o) (str "??") -> argument s tv b -> argument s to opts ->
  evaluates s (str "[??:" ++ tv ++ str ":" ++ to ++ str "]") w <-> exists t, lk_try_encode s b opts false = Ok t /\ without_brackets t w.
Proof.
  intros OF TV TO. change (str "[??:" ++ ?x) with (str "[" ++ str "??" ++ str ":" ++ x).
  rewrite (enc_call (str "??") _ tv b to opts w ltac:(discriminate) ltac:(sym) (or_intror (or_introl eq_refl)) OF TV TO). rewrite encode_two.
  destruct (lk_try_encode s b opts false) as [x|x| |]; cbn [obind of_out val].
  - unfold val. split; [intros H; exists x; split; [reflexivity|]; apply brackets_iff; congruence|]. intros (t & H & W). injection H as ->. apply brackets_iff in W. now rewrite W.
  - split; [discriminate|intros (t & H & _); discriminate H].
  - split; [discriminate|intros (t & H & _); discriminate H].
  - split; [discriminate|intros (t & H & _); discriminate H].
Qed.
Theorem C83_args tv b to opts w : offers s (core_scope o) (str "???") -> argument s tv b -> argument s to opts ->
  evaluates s (str "[???:" ++ tv ++ str ":" ++ to ++ str "]") w <-> exists t, lk_try_encode s b opts false = Ok t /\ without_name t w.
Proof.
  intros OF TV TO. change (str "[???:" ++ ?x) with (str "[" ++ str "???" ++ str ":" ++ x).
  rewrite (enc_call (str "???") _ tv b to opts w ltac:(discriminate) ltac:(sym) (or_intror (or_intror (or_introl eq_refl))) OF TV TO). rewrite encode_two.
  destruct (lk_try_encode s b opts false) as [x|x| |]; cbn [obind of_out val].
  - unfold val. split; [intros H; exists x; split; [reflexivity|]; apply name_iff; congruence|]. intros (t & H & W). injection H as ->. apply name_iff in W. now rewrite W.
  - split; [discriminate|intros (t & H & _); discriminate H].
  - split; [discriminate|intros (t & H & _); discriminate H].
  - split; [discriminate|intros (t & H & _); discriminate H].
Qed.
Lemma of_eval_iff t l v fuel : parse_abe_strict t = Ok l -> of_eval (eval fuel s l) = Ok (Some v) <-> lk_eval fuel s t false = Ok v.
Proof. intros P. unfold lk_eval, parse_abe. rewrite P. destruct (eval fuel s l); cbn [of_eval]; unfold val, fails; split; congruence. Qed.
(** [eval] is [lk_eval]. *)
Theorem C83_eval tt t v : offers s (core_scope o) (str "eval") -> argument s tt t -> evaluates s (str "[eval:" ++ tt ++ str "]") v <-> lk_value s t v.
Proof.
  intros OF TT. assert (str "[eval:" ++ tt ++ str "]" = 91 :: str "eval" ++ args_text [tt] ++ [93]) as ->.
  { change (args_text [tt]) with ([58] ++ tt ++ []). now rewrite app_nil_r, <- !app_assoc. }
  rewrite (call_eventually s (str "eval") (str "eval") [tt] [t] v); [|discriminate|vm_compute; discriminate|sym|constructor; [exact TT|constructor]].
  unfold lk_value. split; intros [n E]; exists n; intros fuel FU; specialize (E fuel FU); [|rewrite OF]; [rewrite OF in E|]; rewrite lookup_eval in *; unfold eval_fn in *; change (arg 0 [t]) with t in *.
  - destruct (parse_abe_strict t) as [l| | |] eqn:P; try discriminate E. now apply (of_eval_iff t l).
  - unfold lk_eval, parse_abe in E. destruct (parse_abe_strict t) as [l| | |]; try discriminate E. change (c_eval (ctx_of fuel s) l) with (eval fuel s l). destruct (eval fuel s l); cbn [of_eval]; unfold val, fails; congruence.
Qed.
(** A call can be an argument. *)
Lemma call_text tid id ts vs v : id <> [] -> reads tid id -> Forall2 (argument s) ts vs -> evaluates s (91 :: tid ++ args_text ts ++ [93]) v -> expr_text s (91 :: tid ++ args_text ts ++ [93]) v.
Proof.
  intros NE R F (l & n & P & E). destruct (args_segs s ts vs F) as (gs & G & M & D).
  assert (DN : denotes (91 :: tid ++ args_text ts ++ [93]) [ALst (ABytes id :: flat_map aseg_abe gs)]).
  { replace (91 :: tid ++ args_text ts ++ [93]) with (91 :: (tid ++ args_text ts) ++ 93 :: []) by (cbn; now rewrite <- app_assoc).
    apply denotes_lst; [|constructor]. apply denotes_bytes; [exact NE|exact R| |exact D]. destruct gs as [|[[c es] x] gs]; exact Logic.I. }
  rewrite (proj2 (parse_denotes _ _) DN) in P. injection P as <-. exists [ALst (ABytes id :: flat_map aseg_abe gs)]. split; [exact DN|]. split; [discriminate|]. split; [repeat constructor; discriminate|]. exists n. exact E.
Qed.
(** Encoding and evaluating gives the bytes back, under the conditions of C43. *)
Theorem C83_round_trip_partial tv b to opts t : offers s (core_scope o) (str "?") -> offers s (core_scope o) (str "eval") -> argument s tv b -> argument s to opts ->
  extends (core_scope o) s -> (forall id opts t, sc_enc s id opts b = Ok (Some t) -> sc_enc (core_scope o) id opts b = Ok (Some t) \/ evaluates s t b) ->
  bytes_ok b -> lenN b < 2 ^ 63 ->
  (named opts (str "b2") \/ named opts (str "b16") -> shortest b) ->
  (named opts (str "s") -> b <> [] /\ (forall cs, is_space b cs -> lenN cs <= 8)) ->
  lk_try_encode s b opts false = Ok t -> evaluates s (str "[eval:[?:" ++ tv ++ str ":" ++ to ++ str "]]") b.
Proof.
  intros OF OE TV TO X EN O L HB HS E. pose proof (proj1 (C43_encode_partial o s b opts false t X EN O L HB HS) E) as ET.
  apply (C83_encode tv b to opts t OF TV TO) in E.
  replace (str "[eval:[?:" ++ tv ++ str ":" ++ to ++ str "]]") with (str "[eval:" ++ (str "[?:" ++ tv ++ str ":" ++ to ++ str "]") ++ str "]").
  2:{ change (str "[eval:[?:") with (str "[eval:" ++ str "[?:"). change (str "]]") with (str "]" ++ str "]"). now rewrite <- !app_assoc. }
  apply (C83_eval _ t b OE); [right|now apply C43_lk_eval].
  change (str "[?:" ++ ?x) with (str "[" ++ str "?" ++ str ":" ++ x) in E |- *. rewrite text2 in E |- *. apply call_text with (str "?") [b; opts]; [discriminate|sym| |exact E].
  constructor; [exact TV|]. constructor; [exact TO|constructor].
Qed.

(** ** Macros *)
Lemma macro_found ctx id m k : In (id, m) [(str "?", encode_macro false); (str "~?", encode_macro true); (str "e", e_macro)] -> sc_macro (core_scope o) ctx id k = m ctx k.
Proof.
  assert (E : forall fs ms, sc_macro (escope fs ms) ctx id k = match find (fun m => beqb (fst m) id) ms with None => Ok None | Some m => snd m ctx k end) by reflexivity.
  intros I. unfold core_scope, basic_scope. cbn [spair sc_macro]. rewrite !E. cbn [find]. unfold help_m, space_m, encode_m. cbn [find fst]. cbn [In] in I. destruct I as [I|[I|[I|[]]]]; injection I as <- <-;
    repeat match goal with |- context [beqb ?x ?y] => let b := eval vm_compute in (beqb x y) in change (beqb x y) with b end; cbv beta iota; cbn [snd]; unfold or_else;
    match goal with |- context [match ?x with _ => _ end] => destruct x as [[]| | |]; reflexivity end.
Qed.
Lemma macro_text id te rest t l k : id <> [] -> reads id id -> parse_abe_strict te = Ok l -> denotes rest k -> not_bytes k ->
  evaluates s (str "[/" ++ id ++ str ":" ++ te ++ rest ++ str "]") t <-> exists n, forall fuel, (n <= fuel)%nat -> sc_macro s (ctx_of fuel s) id (ACtr CColon :: l ++ k) = Ok (Some t).
Proof.
  intros NE R P D NB. replace (str "[/" ++ id ++ str ":" ++ te ++ rest ++ str "]") with (91 :: 47 :: id ++ (58 :: te ++ rest) ++ [93]) by (cbn; now rewrite <- app_assoc).
  apply macro_eventually; [exact NE|exact R| |exact Logic.I]. apply (denotes_ctr CColon). apply denotes_then; [now apply parse_denotes|exact D|exact NB].
Qed.
(** [/?] and [/~?] encode the value of an expression, the latter ignoring errors of encoders. *)
Theorem C83_macro id ignore te le rest opts b t : In (id, ignore) [(str "?", false); (str "~?", true)] -> offers_macro s (core_scope o) id -> slash_part te le -> lk_value s te b ->
  (rest = [] /\ opts = [] \/ rest = str "/" ++ opts /\ exists lo, parse_abe_strict opts = Ok lo) ->
  evaluates s (str "[/" ++ id ++ str ":" ++ te ++ rest ++ str "]") t <-> lk_try_encode s b opts ignore = Ok t.
Proof.
  intros I OF [PE NS] [n V] RE.
  assert (exists k lo, denotes rest k /\ not_bytes k /\ parse_abe_strict opts = Ok lo /\ hd [] (split_on (abe_is CFSlash) (le ++ k)) = le /\ after_fslash (le ++ k) = lo) as (k & lo & DK & NB & PO & H1 & H2).
  { destruct RE as [[-> ->]|[-> [lo PO]]].
    - exists [], []. split; [constructor|]. split; [exact Logic.I|]. split; [reflexivity|]. rewrite app_nil_r. now apply split_no_slash.
    - exists (ACtr CFSlash :: lo), lo. split; [apply (denotes_ctr CFSlash); now apply parse_denotes|]. split; [exact Logic.I|]. split; [exact PO|]. now apply split_slash. }
  rewrite (macro_text id te rest t le k); [| | |exact PE|exact DK|exact NB].
  - assert (forall fuel, (n <= fuel)%nat -> sc_macro s (ctx_of fuel s) id (ACtr CColon :: le ++ k) = of_out (lk_try_encode s b opts ignore)) as M.
    { intros fuel FU. rewrite OF. rewrite (macro_found _ id (encode_macro ignore)); [|cbn [In] in I |- *; destruct I as [I|[I|[]]]; injection I as <- <-; auto].
      unfold encode_macro. rewrite H1, H2. change (c_eval (ctx_of fuel s) le) with (eval fuel s le). specialize (V fuel FU). unfold lk_eval, parse_abe in V. rewrite PE in V.
      destruct (eval fuel s le); try discriminate V. injection V as ->. change (c_enc (ctx_of fuel s)) with (sc_enc s). unfold lk_try_encode, encode. now rewrite PO. }
    split.
    + intros [m E]. specialize (E (n + m)%nat ltac:(lia)). rewrite M in E by lia. destruct (lk_try_encode s b opts ignore); cbn in E; unfold val in E; try discriminate E. congruence.
    + intros E. exists n. intros fuel FU. rewrite M, E by exact FU. reflexivity.
  - destruct I as [I|[I|[]]]; injection I as <- <-; discriminate.
  - destruct I as [I|[I|[]]]; injection I as <- <-; sym.
Qed.
(** [/e] evaluates its expression, whatever delimiters it has. *)
Theorem C83_inner te le v : offers_macro s (core_scope o) (str "e") -> parse_abe_strict te = Ok le -> evaluates s (str "[/e:" ++ te ++ str "]") v <-> lk_value s te v.
Proof.
  intros OF PE. replace (str "[/e:" ++ te ++ str "]") with (str "[/" ++ str "e" ++ str ":" ++ te ++ [] ++ str "]") by reflexivity.
  rewrite (macro_text (str "e") te [] v le []); [|discriminate|sym|exact PE|constructor|exact Logic.I]. rewrite app_nil_r.
  unfold lk_value. split; intros [n E]; exists n; intros fuel FU; specialize (E fuel FU).
  - rewrite OF, (macro_found _ (str "e") e_macro) in E by (cbn; auto). now apply (of_eval_iff te le).
  - rewrite OF, (macro_found _ (str "e") e_macro) by (cbn; auto). now apply (of_eval_iff te le).
Qed.
End C83.
(** The text left by [???] need not tell the value: the text of a space has no colon, and nothing is left of it. *)
Theorem C83_args_refuted : exists a b t t', a <> b /\ lk_try_encode (core_scope o1) a (str "s") false = Ok t /\ lk_try_encode (core_scope o1) b (str "s") false = Ok t' /\ t <> t' /\
  forall s tv to, offers s (core_scope o1) (str "???") -> sc_enc s = sc_enc (core_scope o1) -> argument s to (str "s") ->
  (argument s tv a \/ argument s tv b) -> evaluates s (str "[???:" ++ tv ++ str ":" ++ to ++ str "]") [].
Proof.
  exists (wire_space [str "a"; str "b"]), (wire_space [str "c"]). assert (exists t t', lk_try_encode (core_scope o1) (wire_space [str "a"; str "b"]) (str "s") false = Ok t /\ lk_try_encode (core_scope o1) (wire_space [str "c"]) (str "s") false = Ok t' /\ t <> t' /\
    without_name t [] /\ without_name t' []) as (t & t' & E & E' & NE & W & W').
  { do 2 eexists. split; [vm_compute; reflexivity|]. split; [vm_compute; reflexivity|]. split; [discriminate|]. split; apply name_iff; vm_compute; reflexivity. }
  exists t, t'. split; [discriminate|]. split; [exact E|]. split; [exact E'|]. split; [exact NE|]. intros s tv to OF SE TO TV.
  destruct TV as [TV|TV]; apply (C83_args o1 s tv _ to (str "s") [] OF TV TO); [exists t|exists t']; (split; [|assumption]); unfold lk_try_encode in *; now rewrite SE.
Qed.

(** ** Examples *)
Definition gives (t v : bytes) : Prop := exists k abl, parse_abe_strict t = Ok k /\ eval 20 (core_scope o1) k = Ok abl /\ as_exact_bytes abl = Some v.
Ltac gives := do 2 eexists; split; [vm_compute; reflexivity|split; vm_compute; reflexivity].
Example C83_ex : (forall id, offers (core_scope o1) (core_scope o1) id) /\ (forall id, offers_macro (core_scope o1) (core_scope o1) id) /\
  argument (core_scope o1) (str "[u16:258]") [1; 2] /\ lk_try_encode (core_scope o1) [1; 2] (str "u8/u16/b") false = Ok (str "[u16:258]") /\
  argument (core_scope o1) (str "u8\/u16\/b") (str "u8/u16/b") /\
  gives (str "[?:[u16:258]:u8\/u16\/b]") (str "[u16:258]") /\ gives (str "[??:[u16:258]:u16]") (str "u16:258") /\ gives (str "[???:[u16:258]:u16]") (str "258") /\
  gives (str "[eval:[?:[u16:258]:u16]]") [1; 2] /\ gives (str "[/?:[u16:258]/u8/u16]") (str "[u16:258]") /\ gives (str "[/~?:abc/s/a]") (str "[a:abc:3]") /\
  gives (str "[/e:a/b:[u8:33]]") (str "a/b:!").
Proof.
  split; [intros id fuel args; reflexivity|]. split; [intros id fuel k; reflexivity|].
  split; [right; exists [ALst [ABytes (str "u16"); ACtr CColon; ABytes (str "258")]]; split; [apply parse_denotes; vm_compute; reflexivity|]; split; [discriminate|]; split; [repeat constructor; discriminate|]; exists 3%nat; intros [|[|[|fuel]]] FU; try lia; eexists; split; reflexivity|].
  split; [vm_compute; reflexivity|]. split; [apply reads_arg; apply (reads_app (str "u8") (str "u8") (str "\/u16\/b") (str "/u16/b")); [apply plain_reads; repeat constructor; vm_compute; intuition discriminate|]|].
  { change (str "\/u16\/b") with ([92; 47] ++ str "u16" ++ [92; 47] ++ str "b"). change (str "/u16/b") with (47 :: str "u16" ++ 47 :: str "b"). constructor; [apply reads_escape; cbn; tauto|].
    apply reads_app; [apply plain_reads; repeat constructor; vm_compute; intuition discriminate|]. constructor; [apply reads_escape; cbn; tauto|]. apply plain_reads; repeat constructor; vm_compute; intuition discriminate. }
  repeat (split; [gives|]). gives.
Qed.
Print Assumptions C83_encode.
Print Assumptions C83_strip.
Print Assumptions C83_args.
Print Assumptions C83_eval.
Print Assumptions C83_round_trip_partial.
Print Assumptions C83_macro.
Print Assumptions C83_inner.
Print Assumptions C83_args_refuted.
