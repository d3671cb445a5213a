(** C108: matching spaces against patterns. *)
From Verif Require Import Bytes ModelSpace SpecSpace ProofSpace ProofRooted ModelSpMatch SpecSpMatch.

Lemma item_fits i v vs : item_match i v = Some vs <-> fits [i] [v] vs.
Proof.
  split.
  - destruct i as [b|f]; cbn.
    + destruct (beqb v b) eqn:E; [|discriminate]. apply beqb_eq in E as ->. intros [= <-]. repeat constructor.
    + destruct (f v) eqn:E; [|discriminate]. intros [= <-]. constructor; [exact E|constructor].
  - intros F. inversion F as [|b is cs ws R|f c w is cs ws E R]; subst; inversion R; subst; cbn.
    + now rewrite (proj2 (beqb_eq v v) eq_refl).
    + now rewrite E.
Qed.
Lemma fits_cons i is cs ws : fits (i :: is) cs ws <-> exists c cs' vs vs', cs = c :: cs' /\ ws = vs ++ vs' /\ fits [i] [c] vs /\ fits is cs' vs'.
Proof.
  split.
  - intros F. inversion F as [|b is' cs' vs R|f c v is' cs' vs E R]; subst.
    + exists b, cs', [], ws. repeat split; [repeat constructor|exact R].
    + exists c, cs', [v], vs. repeat split; [|exact R]. constructor; [exact E|constructor].
  - intros (c & cs' & vs & vs' & -> & -> & F1 & F2). inversion F1 as [|b is' cs2 vs2 R|f c2 v is' cs2 vs2 E R]; subst; inversion R; subst; cbn; constructor; assumption.
Qed.
Lemma next_nil : iter_next [] = Ok (None, []).
Proof. reflexivity. Qed.
Lemma sp_iter_exact items rest : forall cs, Forall component_ok cs ->
  exists o, sp_iter_match items rest (wire_space cs) = Ok o /\
  forall vs r, o = Some (vs, r) <-> exists c1 c2, cs = c1 ++ c2 /\ fits items c1 vs /\ if rest then r = Some (wire_space c2) else c2 = [] /\ r = None.
Proof.
  induction items as [|i tail IH]; intros cs K.
  - cbn [sp_iter_match]. destruct rest.
    + eexists. split; [reflexivity|]. intros vs r. split.
      * intros [= <- <-]. exists [], cs. repeat constructor.
      * intros (c1 & c2 & -> & F & ->). inversion F; subst. reflexivity.
    + destruct cs as [|c cs].
      * eexists. split; [reflexivity|]. intros vs r. split.
        -- intros [= <- <-]. exists [], []. repeat constructor.
        -- intros (c1 & c2 & E & F & -> & ->). inversion F; subst. reflexivity.
      * inversion K; subst. rewrite wire_space_cons, iter_next_wire by assumption. eexists. split; [reflexivity|]. intros vs r. split; [discriminate|].
        intros (c1 & c2 & E & F & -> & ->). inversion F; subst. discriminate.
  - destruct cs as [|c cs].
    + exists None. split; [reflexivity|]. intros vs r. split; [discriminate|]. intros (c1 & c2 & E & F & _).
      apply fits_cons in F as (c & cs' & _ & _ & -> & _). discriminate.
    + inversion K as [|? ? K1 K2]; subst. rewrite wire_space_cons. cbn [sp_iter_match]. rewrite iter_next_wire by assumption. cbn [obind fst snd].
      assert (G : exists o, (match item_match i c with None => Ok None | Some vs => obind (sp_iter_match tail rest (wire_space cs))
          (fun o => Ok (match o with None => None | Some (ws, s) => Some (vs ++ ws, s) end)) end) = Ok o /\
        forall vs r, o = Some (vs, r) <-> exists c1 c2, c :: cs = c1 ++ c2 /\ fits (i :: tail) c1 vs /\ if rest then r = Some (wire_space c2) else c2 = [] /\ r = None).
      { destruct (IH cs K2) as (o & E & I). destruct (item_match i c) as [us|] eqn:M.
        - rewrite E. cbn [obind]. eexists. split; [reflexivity|]. intros vs r. split.
          + destruct o as [[ws s]|]; [|discriminate]. intros [= <- <-]. destruct (proj1 (I ws s) eq_refl) as (c1 & c2 & -> & F & R).
            exists (c :: c1), c2. split; [reflexivity|]. split; [|exact R]. apply fits_cons. exists c, c1, us, ws. repeat split; [|exact F]. now apply item_fits.
          + intros (c1 & c2 & X & F & R). apply fits_cons in F as (d & c1' & us' & ws & -> & -> & F1 & F2). cbn in X. injection X as -> ->.
            apply item_fits in F1. assert (us' = us) as -> by congruence. rewrite (proj2 (I ws r)); [reflexivity|]. now exists c1', c2.
        - exists None. split; [reflexivity|]. intros vs r. split; [discriminate|].
          intros (c1 & c2 & X & F & R). apply fits_cons in F as (d & c1' & us' & ws & -> & -> & F1 & F2). cbn in X. injection X as -> ->.
          apply item_fits in F1. congruence. }
      destruct tail as [|j tail]; [|exact G]. destruct rest; [exact G|]. clear G IH.
      destruct cs as [|d cs].
      * change (wire_space []) with (@nil N). rewrite next_nil. cbn [obind fst]. destruct (item_match i c) as [us|] eqn:M.
        -- eexists. split; [reflexivity|]. intros vs r. split.
           ++ intros [= <- <-]. exists [c], []. repeat split. now apply item_fits.
           ++ intros (c1 & c2 & X & F & -> & ->). rewrite app_nil_r in X. subst. apply item_fits in F. congruence.
        -- exists None. split; [reflexivity|]. intros vs r. split; [discriminate|]. intros (c1 & c2 & X & F & -> & ->). rewrite app_nil_r in X. subst. apply item_fits in F. congruence.
      * inversion K2; subst. rewrite wire_space_cons, iter_next_wire by assumption. cbn [obind fst]. exists None. split; [reflexivity|]. intros vs r. split; [discriminate|].
        intros (c1 & c2 & X & F & -> & ->). rewrite app_nil_r in X. subst. apply fits_cons in F as (e & cs' & us & ws & Y & _ & _ & F2). inversion F2; subst. discriminate.
Qed.
(** A space matches exactly when its components are those of the pattern: all of them, or the first of them when [..] follows; the
    values are those taken out of the components, and [..] is the space of the components left *)
Theorem C108_exact b cs items rest vs r : is_space b cs ->
  sp_match b items rest = Ok (Some (vs, r)) <->
  exists c1 c2, cs = c1 ++ c2 /\ fits items c1 vs /\ if rest then exists s, r = Some s /\ is_space s c2 else c2 = [] /\ r = None.
Proof.
  intros ((K & L) & ->). unfold sp_match. destruct (sp_iter_exact items rest cs K) as (o & -> & I). split.
  - intros [= ->]. destruct (proj1 (I vs r) eq_refl) as (c1 & c2 & -> & F & R). exists c1, c2. split; [reflexivity|]. split; [exact F|].
    destruct rest; [|exact R]. exists (wire_space c2). split; [exact R|]. split; [|reflexivity]. apply Forall_app in K as (_ & K). split; [exact K|].
    rewrite wire_space_app, app_length in L. lia.
  - intros (c1 & c2 & -> & F & R). f_equal. apply I. exists c1, c2. split; [reflexivity|]. split; [exact F|]. destruct rest; [|exact R]. destruct R as (s & -> & _ & ->). reflexivity.
Qed.
(** Otherwise there is no match; it never panics on a space *)
Theorem C108_total b cs items rest : is_space b cs -> exists o, sp_match b items rest = Ok o.
Proof. intros ((K & L) & ->). destruct (sp_iter_exact items rest cs K) as (o & E & _). now exists o. Qed.
(** A pattern of expressions only matches one list of components *)
Theorem C108_literal b cs ls : is_space b cs -> sp_match b (map Lit ls) false = Ok (Some ([], None)) <-> cs = ls.
Proof.
  assert (A : forall l, fits (map Lit l) l []) by (induction l; cbn; now constructor).
  assert (U : forall l c vs, fits (map Lit l) c vs -> c = l).
  { induction l as [|x l IH]; cbn; intros c vs F; inversion F; subst; [reflexivity|]. f_equal. eapply IH; eassumption. }
  intros S. rewrite C108_exact by exact S. split.
  - intros (c1 & c2 & -> & F & -> & _). rewrite app_nil_r. exact (U _ _ _ F).
  - intros ->. exists ls, []. rewrite app_nil_r. auto.
Qed.
(** Byte strings that are not spaces, which unchecked constructors let through: a truncated component counts as none, and a length
    of nought panics *)
Theorem C108_unchecked : sp_match [5; 1] [] false = Ok (Some ([], None)) /\ sp_match [0] [] false = Panic.
Proof. split; reflexivity. Qed.
(** The patterns of the test in space_macro.rs *)
Definition hw : list bytes := [[104;101;108;108;111]; [119;111;114;108;100]].
Example C108_ex : is_space (wire_space hw) hw /\
  sp_match (wire_space hw) [array 5; Lit [119;111;114;108;100]] false = Ok (Some ([[104;101;108;108;111]], None)) /\
  sp_match (wire_space hw) [array 5] false = Ok None /\ sp_match (wire_space hw) [array 5; array 4] false = Ok None /\
  sp_match (wire_space hw) [array 5] true = Ok (Some ([[104;101;108;108;111]], Some (wire_space [[119;111;114;108;100]]))).
Proof. repeat split; try (vm_compute; reflexivity); [|vm_compute; discriminate]. repeat constructor; vm_compute; discriminate. Qed.
Print Assumptions C108_exact.
Print Assumptions C108_total.
Print Assumptions C108_literal.
Print Assumptions C108_unchecked.
Print Assumptions C108_ex.
