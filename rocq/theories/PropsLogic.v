(** C84: tests, alternatives, comments and spaces in expressions. *)
From Coq Require Import Lia.
From Verif Require Import Bytes ModelSpace SpecSpace ProofSpace ProofTree ModelAbe SpecAbe ProofAbe ProofAbe2 ModelFmt SpecFmt ModelEval ModelFn SpecEval ProofFn ProofEval ProofEval2 ProofEval3 PropsEval ProofPktScope ProofPktScope2.
From Verif Require Import SpecCliQuery ProofCliQuery ProofCliQuery3 SpecRead ProofRead ProofRead3 SpecEncode ProofEncode PropsEncode SpecLogic ProofLogic.
Local Open Scope N_scope.

Ltac plain := apply plain_reads; repeat constructor; vm_compute; intuition discriminate.
Section C84.
Variable o : oracle.
Variable s : scope.
Lemma lookup_size ctx a b c : sc_func (core_scope o) ctx (str "size?") [a; b; c] true = size_test [a; b; c].
Proof. rewrite (proj1 (core_flat o)). refine (escope_some _ _ _ _ _ _ (fn (str "size?") 3 3 size_test) _ (or_introl eq_refl) _); [reflexivity|]. cbn [f_lo f_hi fn]. change (lenN [a; b; c]) with 3. lia. Qed.
Lemma lookup_val ctx a b c : sc_func (core_scope o) ctx (str "val?") [a; b; c] true = val_test [a; b; c].
Proof. rewrite (proj1 (core_flat o)). refine (escope_some _ _ _ _ _ _ (fn (str "val?") 3 3 val_test) _ (or_introl eq_refl) _); [reflexivity|]. cbn [f_lo f_hi fn]. change (lenN [a; b; c]) with 3. lia. Qed.
Lemma lookup_comment ctx args : 1 <= lenN args <= 15 -> sc_func (core_scope o) ctx (str "C") args true = Ok (Some []).
Proof. intros L. rewrite (proj1 (core_flat o)). refine (escope_some _ _ _ _ _ _ (fn (str "C") 1 16 (fun _ => val [])) _ (or_introl eq_refl) _); [reflexivity|]. cbn [f_lo f_hi fn]. lia. Qed.
Lemma text3 (id a b c : bytes) : str "[" ++ id ++ str ":" ++ a ++ str ":" ++ b ++ str ":" ++ c ++ str "]" = 91 :: id ++ args_text [a; b; c] ++ [93].
Proof. change (args_text [a; b; c]) with ([58] ++ a ++ [58] ++ b ++ [58] ++ c ++ []). rewrite app_nil_r, <- !app_assoc. reflexivity. Qed.

(** [size?] passes on the value iff it has the length. *)
Theorem C84_size tv v top op tn nt w : offers s (core_scope o) (str "size?") -> argument s tv v -> argument s top op -> argument s tn nt ->
  evaluates s (str "[size?:" ++ tv ++ str ":" ++ top ++ str ":" ++ tn ++ str "]") w <->
  op = str "=" /\ w = v /\ exists n, numeral 10 nt n /\ n < 2 ^ 64 /\ lenN v = n.
Proof.
  intros OF TV TO TN. change (str "[size?:" ++ ?x) with (str "[" ++ str "size?" ++ str ":" ++ x). rewrite text3.
  rewrite (call_exprs s (str "size?") (str "size?") [tv; top; tn] [v; op; nt] (size_test [v; op; nt]) w); [|discriminate|vm_compute; discriminate|plain|repeat (constructor; [assumption|]); constructor|intros fuel; now rewrite OF, lookup_size].
  unfold size_test, val, fails. change (arg 0 [v; op; nt]) with v. change (arg 1 [v; op; nt]) with op. change (arg 2 [v; op; nt]) with nt.
  destruct (parse_usize nt) as [n|] eqn:P.
  - pose proof (proj1 (usize_iff nt n) P) as [P1 P2]. destruct (beqb op (str "=")) eqn:B; [apply beqb_eq in B as ->|].
    + destruct (N.eqb_spec (lenN v) n) as [E|E]; split.
      * intros H. injection H as <-. split; [reflexivity|]. split; [reflexivity|]. exists n. auto.
      * intros (_ & -> & _). reflexivity.
      * discriminate.
      * intros (_ & _ & m & M1 & M2 & M3). exfalso. assert (parse_usize nt = Some m) as Q by now apply usize_iff. congruence.
    + split; [discriminate|]. intros (-> & _). rewrite beqb_refl in B. discriminate B.
  - split; [discriminate|]. intros (_ & _ & m & M1 & M2 & _). exfalso. assert (parse_usize nt = Some m) as Q by now apply usize_iff. congruence.
Qed.
(** [val?] passes on the value iff it is the other one. *)
Theorem C84_val tv v top op tx x w : offers s (core_scope o) (str "val?") -> argument s tv v -> argument s top op -> argument s tx x ->
  evaluates s (str "[val?:" ++ tv ++ str ":" ++ top ++ str ":" ++ tx ++ str "]") w <-> op = str "=" /\ w = v /\ v = x.
Proof.
  intros OF TV TO TN. change (str "[val?:" ++ ?x) with (str "[" ++ str "val?" ++ str ":" ++ x). rewrite text3.
  rewrite (call_exprs s (str "val?") (str "val?") [tv; top; tx] [v; op; x] (val_test [v; op; x]) w); [|discriminate|vm_compute; discriminate|plain|repeat (constructor; [assumption|]); constructor|intros fuel; now rewrite OF, lookup_val].
  unfold val_test, val, fails. change (arg 0 [v; op; x]) with v. change (arg 1 [v; op; x]) with op. change (arg 2 [v; op; x]) with x.
  destruct (beqb op (str "=")) eqn:B; [apply beqb_eq in B as ->|split; [discriminate|intros (-> & _); rewrite beqb_refl in B; discriminate B]].
  destruct (beqb v x) eqn:B; [apply beqb_eq in B as ->|split; [discriminate|intros (_ & _ & ->); rewrite beqb_refl in B; discriminate B]].
  split; [intros H; injection H as <-; auto|intros (_ & -> & _); reflexivity].
Qed.
(** A comment is nothing. *)
Theorem C84_comment ts vs w : offers s (core_scope o) (str "C") -> 1 <= lenN vs <= 15 -> Forall2 (argument s) ts vs ->
  evaluates s (str "[C" ++ behind_colon ts ++ str "]") w <-> w = [].
Proof.
  intros OF L A. rewrite behind_colon_args. change (str "[C" ++ ?x) with (91 :: str "C" ++ x).
  rewrite (call_exprs s (str "C") (str "C") ts vs (Ok (Some [])) w); [|discriminate|lia|plain|exact A|intros fuel; rewrite OF; now apply lookup_comment]. split; congruence.
Qed.

Lemma macro_found2 ctx id m k : In (id, m) [(str "or", or_macro); ([], space_macro false); (str "~", space_macro true)] -> sc_macro (core_scope o) ctx id k = m ctx k.
Proof.
  assert (E : forall fs ms, sc_macro (escope fs ms) ctx id k = match find (fun m => beqb (fst m) id) ms with None => Ok None | Some m => snd m ctx k end) by reflexivity.
  intros I. unfold core_scope, basic_scope. cbn [spair sc_macro]. rewrite !E. cbn [find]. unfold help_m, space_m, encode_m. cbn [find fst]. cbn [In] in I. destruct I as [I|[I|[I|[]]]]; injection I as <- <-;
    repeat match goal with |- context [beqb ?x ?y] => let b := eval vm_compute in (beqb x y) in change (beqb x y) with b end; cbv beta iota; cbn [snd]; unfold or_else; try reflexivity;
    match goal with |- context [match ?x with _ => _ end] => destruct x as [[]| | |]; reflexivity end.
Qed.
(** [/or] is the first of its parts that has a value. *)
Theorem C84_or ts ls v : offers_macro s (core_scope o) (str "or") -> ts <> [] -> Forall2 macro_part ts ls -> Forall (fun t => (exists w, lk_value s t w) \/ lk_fails s t) ts ->
  evaluates s (str "[/or" ++ behind_colon ts ++ str "]") v <-> first_value s ts v.
Proof.
  intros OF NE F D. rewrite <- (or_iff s ts ls v F D).
  change (str "[/or" ++ ?x ++ str "]") with (91 :: 47 :: str "or" ++ x ++ [93]).
  rewrite (macro_eventually s (str "or") _ _ v ltac:(discriminate) ltac:(plain) (parts_denote ts ls F)); [|destruct ls; exact Logic.I].
  assert (forall fuel, sc_macro s (ctx_of fuel s) (str "or") (flat_map (fun l => ACtr CColon :: l) ls) = or_loop (ctx_of fuel s) ls) as M.
  { intros fuel. rewrite OF, (macro_found2 _ (str "or") or_macro) by (cbn; auto). unfold or_macro. rewrite split_parts; [reflexivity| |].
    - clear - F. induction F as [|t l ts ls [_ C] F IH]; constructor; assumption.
    - intros ->. inversion F. congruence. }
  split; intros [n E]; exists n; intros fuel FU; specialize (E fuel FU); [rewrite <- M|rewrite M]; exact E.
Qed.
(** [//] and [/~/] are the space of the components that are not empty. *)
Theorem C84_space ts cs v : offers_macro s (core_scope o) [] -> ts <> [] -> Forall2 (argument s) ts cs ->
  evaluates s (str "[/" ++ behind_slash ts ++ str "]") v <-> space_ok (not_empty cs) /\ lenN (not_empty cs) <= 8 /\ v = wire_space (not_empty cs).
Proof.
  intros OF NE A. destruct (slash_segs s ts cs A) as (gs & G & M & D & _ & K). destruct (K NE) as [k KE]. destruct (slash_eval s gs cs G M) as [n E]. rewrite KE in *.
  change (str "[/" ++ ?x) with (91 :: 47 :: x). rewrite (nameless_eventually s _ k v D). split.
  - intros [m X]. specialize (X (n + m)%nat ltac:(lia)). rewrite OF, (macro_found2 _ [] (space_macro false)) in X by (cbn; auto). apply (space_macro_iff false _ _ cs v) in X; [exact X|]. apply E. lia.
  - intros X. exists n. intros fuel FU. rewrite OF, (macro_found2 _ [] (space_macro false)) by (cbn; auto). apply (space_macro_iff false _ _ cs v); [now apply E|exact X].
Qed.
Theorem C84_forgiving ts cs v : offers_macro s (core_scope o) (str "~") -> Forall2 (argument s) ts cs ->
  evaluates s (str "[/~" ++ behind_slash ts ++ str "]") v <-> space_ok (not_empty cs) /\ lenN (not_empty cs) <= 8 /\ v = wire_space (not_empty cs).
Proof.
  intros OF A. destruct (slash_segs s ts cs A) as (gs & G & M & D & _ & K). destruct (slash_eval s gs cs G M) as [n E].
  change (str "[/~" ++ ?x ++ str "]") with (91 :: 47 :: str "~" ++ x ++ [93]). rewrite (macro_eventually s (str "~") _ _ v ltac:(discriminate) ltac:(plain) D).
  2:{ destruct gs as [|[[c es] x] gs]; exact Logic.I. }
  split.
  - intros [m X]. specialize (X (n + m)%nat ltac:(lia)). rewrite OF, (macro_found2 _ (str "~") (space_macro true)) in X by (cbn; auto). apply (space_macro_iff true _ _ cs v) in X; [exact X|]. apply E. lia.
  - intros X. exists n. intros fuel FU. rewrite OF, (macro_found2 _ (str "~") (space_macro true)) by (cbn; auto). apply (space_macro_iff true _ _ cs v); [now apply E|exact X].
Qed.
(** Finding F110: the macro that is not "forgiving on empty components" forgives the same ones; an expression that gives nothing yields a parent of the space that was asked for. *)
Theorem F110_empty_component_dropped ta a tb b : offers_macro s (core_scope o) [] -> expr_text s ta a -> expr_text s tb b -> b = [] -> 1 <= lenN a <= 200 ->
  evaluates s (str "[//" ++ ta ++ str "/" ++ tb ++ str "]") (wire_space [a]).
Proof.
  intros OF A B -> L. replace (str "[//" ++ ta ++ str "/" ++ tb ++ str "]") with (str "[/" ++ behind_slash [ta; tb] ++ str "]").
  2:{ unfold behind_slash. cbn [map List.concat]. rewrite app_nil_r, <- !app_assoc. reflexivity. }
  apply (C84_space [ta; tb] [a; []] (wire_space [a]) OF); [discriminate|constructor; [now right|constructor; [now right|constructor]]|].
  assert (not_empty [a; []] = [a]) as ->. { destruct a; [change (lenN (@nil N)) with 0 in L; lia|reflexivity]. }
  split; [|split; [vm_compute; discriminate|reflexivity]]. apply space_okb. cbn [forallb wire_space flat_map]. apply andb_true_intro. split; [apply andb_true_intro; split; [apply andb_true_intro; split; apply N.leb_le; lia|reflexivity]|].
  apply N.leb_le. rewrite ?app_nil_r. rewrite ?lenN_cons, ?lenN_app. cbn. lia.
Qed.
End C84.

(** ** Examples *)
Definition bad : bytes := str "[u8:256]".
Example C84_ex : (forall id, offers (core_scope o1) (core_scope o1) id) /\ (forall id, offers_macro (core_scope o1) (core_scope o1) id) /\
  Forall2 macro_part [bad; str "x"; str "y"] [[ALst [ABytes (str "u8"); ACtr CColon; ABytes (str "256")]]; [ABytes (str "x")]; [ABytes (str "y")]] /\
  lk_fails (core_scope o1) bad /\ lk_value (core_scope o1) (str "x") (str "x") /\ first_value (core_scope o1) [bad; str "x"; str "y"] (str "x") /\
  gives (str "[/or:[u8:256]:x:y]") (str "x") /\ gives (str "[size?:abc:=:3]") (str "abc") /\ gives (str "[val?:[u8:65]:=:A]") (str "A") /\ gives (str "[C:a comment:of two]") [] /\
  gives (str "[//a/[u8:98]]") (wire_space [str "a"; str "b"]) /\ gives (str "[/~/a//b]") (wire_space [str "a"; str "b"]) /\ gives (str "[//a//b]") (wire_space [str "a"; str "b"]).
Proof.
  split; [intros id fuel args; reflexivity|]. split; [intros id fuel k; reflexivity|].
  split; [repeat constructor; try discriminate; vm_compute; reflexivity|].
  assert (B : lk_fails (core_scope o1) bad). { exists 3%nat. intros [|[|[|fuel]]] FU; try lia. eexists. vm_compute. reflexivity. }
  assert (X : lk_value (core_scope o1) (str "x") (str "x")). { exists 3%nat. intros [|[|[|fuel]]] FU; try lia. vm_compute. reflexivity. }
  split; [exact B|]. split; [exact X|]. split; [exists [bad], (str "x"), [str "y"]; split; [reflexivity|]; split; [constructor; [exact B|constructor]|exact X]|].
  repeat (split; [gives|]). gives.
Qed.
Print Assumptions C84_size.
Print Assumptions C84_val.
Print Assumptions C84_comment.
Print Assumptions C84_or.
Print Assumptions C84_space.
Print Assumptions C84_forgiving.
Print Assumptions F110_empty_component_dropped.
