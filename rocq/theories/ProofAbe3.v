(** Proofs about ABE text: top level components and replacement. *)
From Verif Require Import Bytes ModelAbe SpecAbe ProofAbe ProofAbe2.
Opaque N.land.

Section Tokenize.
Variable skip : list N.
Variable p : N.
Hypothesis P : cset skip p.

Lemma land_0 k : N.land 0 (ctr_bit k) = 0. Proof. now destruct k. Qed.
Lemma skip_in k : N.land p (ctr_bit k) <> 0 <-> In (as_char k) skip.
Proof. rewrite <- (P k). destruct (N.eqb_spec (N.land p (ctr_bit k)) 0); cbn; split; congruence. Qed.
Lemma skip_out k : N.land p (ctr_bit k) = 0 <-> ~ In (as_char k) skip.
Proof. rewrite <- skip_in. destruct (N.eq_dec (N.land p (ctr_bit k)) 0); tauto. Qed.
Lemma char_kind c : delims c \/ c = 91 \/ c = 93 -> exists k, c = as_char k.
Proof.
  unfold delims. cbn. intros H. destruct H as [[[<-|[<-|[]]]| ->]|[->| ->]];
    [exists Colon|exists ForwardSlash|exists Newline|exists OpenBracket|exists CloseBracket]; reflexivity.
Qed.
Lemma kind_char k : delims (as_char k) \/ as_char k = 91 \/ as_char k = 93.
Proof. unfold delims. destruct k; cbn; tauto. Qed.
Lemma unit_next u rest idx : unit_text skip u -> exists v, next_byte (u ++ rest) idx p 0 = Ok (BByte v rest).
Proof.
  intros [[v R]|(c & -> & I & K)].
  - exists v. now apply reads1_next.
  - apply char_kind in K as [k ->]. exists (as_char k). cbn [app]. rewrite ctr_next by apply land_0.
    apply skip_in in I. now rewrite (proj2 (N.eqb_neq _ _) I).
Qed.
Lemma unit_len u : unit_text skip u -> (0 < List.length u)%nat.
Proof. intros [[v R]|(c & -> & _)]; [now apply reads1_len with v|cbn; lia]. Qed.
Lemma next_unit t idx v rest : next_byte t idx p 0 = Ok (BByte v rest) -> exists u, unit_text skip u /\ t = u ++ rest.
Proof.
  intros H. apply next_byte_sound in H. inversion H as [|u v' rest' R|k rest' E Q|]; subst.
  - exists u. split; [left; now exists v|reflexivity].
  - exists [as_char k]. split; [|reflexivity]. right. exists (as_char k). repeat split; [now apply skip_in|apply kind_char].
Qed.
Lemma next_ctr t idx k rest : next_byte t idx p 0 = Ok (BCtr k rest) -> t = as_char k :: rest /\ ~ In (as_char k) skip.
Proof. intros H. apply next_byte_sound in H. inversion H; subst. split; [reflexivity|]. now apply skip_out. Qed.
Lemma ctr_next0 k rest idx : ~ In (as_char k) skip -> next_byte (as_char k :: rest) idx p 0 = Ok (BCtr k rest).
Proof. intros H. rewrite ctr_next by apply land_0. apply skip_out in H. now rewrite H. Qed.
Lemma sep_kind c : separator skip c -> exists k, c = as_char k /\ is_bracket k = false /\ ~ In (as_char k) skip.
Proof.
  intros [D N]. unfold delims in D. cbn in D. destruct D as [[<-|[<-|[]]]| ->];
    [exists Colon|exists ForwardSlash|exists Newline]; repeat split; assumption.
Qed.
Lemma kind_sep k : is_bracket k = false -> ~ In (as_char k) skip -> separator skip (as_char k).
Proof. intros B N. split; [|assumption]. unfold delims. destruct k; cbn in *; try discriminate; tauto. Qed.

(** The first component [t] with its flag, then the others. *)
Inductive tk : N -> bytes -> bool -> bytes -> list (N * bool * bytes) -> Prop :=
| tk_end d t i : component skip d t i -> tk d t i t []
| tk_trail d t i c : component skip d t i -> separator skip c -> tk d (t ++ [c]) i t []
| tk_more d t i c todo i' t' l : component skip d t i -> separator skip c -> todo <> [] -> tk 0 todo i' t' l ->
    tk d (t ++ c :: todo) i t ((c, i', t') :: l).
Lemma tk_lift d d' u i0 : (forall t i, component skip d t i -> component skip d' (u ++ t) (i0 || i)) ->
  forall todo i t r, tk d todo i t r -> tk d' (u ++ todo) (i0 || i) (u ++ t) r.
Proof.
  intros L todo i t r H. inversion H; subst.
  - apply tk_end. now apply L.
  - rewrite app_assoc. apply tk_trail; [now apply L|assumption].
  - rewrite app_assoc. apply tk_more; [now apply L|assumption..].
Qed.
Lemma eaten_app (cur u rest : bytes) : cur ++ takeN (lenN (u ++ rest) - lenN rest) (u ++ rest) = cur ++ u.
Proof. f_equal. apply takeN_app_exact. rewrite lenN_app. lia. Qed.
Lemma eaten_cons (cur : bytes) c (rest : bytes) : cur ++ takeN (lenN (c :: rest) - lenN rest) (c :: rest) = cur ++ [c].
Proof. apply (eaten_app cur [c] rest). Qed.
Lemma tok_sound len : forall f todo d head inner cur l, tok_loop f p 0 len todo d head inner cur = Ok l ->
  exists i t r, tk d todo i t r /\ l = (head, inner || i, cur ++ t) :: r.
Proof.
  induction f as [|f IH]; [discriminate|]. intros todo d head inner cur l. cbn [tok_loop].
  destruct (next_byte todo _ p 0) as [nb|e| |] eqn:N; try discriminate. destruct nb as [|k rest|v rest].
  - apply next_byte_sound in N. inversion N; subst. destruct (N.eqb_spec d 0) as [->|]; cbn [negb]; [|discriminate].
    intros [= <-]. exists false, [], []. rewrite app_nil_r, orb_false_r. split; [apply tk_end; constructor|reflexivity].
  - apply next_ctr in N as [-> S].
    destruct ((d =? 0) && negb (is_bracket k)) eqn:Z.
    + apply andb_true_iff in Z as [Z B]. apply N.eqb_eq in Z as ->. apply negb_true_iff in B.
      destruct rest as [|x rest].
      * intros [= <-]. exists false, [], []. rewrite app_nil_r, orb_false_r. split; [|reflexivity].
        apply (tk_trail 0 [] false); [constructor|now apply kind_sep].
      * destruct (tok_loop f _ _ _ _ _ _ _ _) as [l'|e| |] eqn:T; try discriminate. cbn [obind]. intros [= <-].
        apply IH in T as (i & t & r & H & ->). cbn in H |- *.
        exists false, [], ((as_char k, i, t) :: r). rewrite app_nil_r, orb_false_r. split; [|reflexivity].
        apply (tk_more 0 [] false); [constructor|now apply kind_sep|discriminate|assumption].
    + destruct (bracket_depth k d) as [d'|] eqn:D; [|discriminate]. intros H. apply IH in H as (i & t & r & H & ->).
      exists true, (as_char k :: t), r. rewrite orb_true_r. rewrite eaten_cons. rewrite <- app_assoc. split; [|reflexivity].
      replace true with (true || i) by reflexivity. apply (tk_lift d' d [as_char k] true); [|assumption].
      intros t0 i1 C. cbn [app orb]. destruct k; cbn in D, Z.
      * injection D as <-. apply comp_inner with i1; [lia|now apply (kind_sep ForwardSlash)|assumption].
      * injection D as <-. apply comp_inner with i1; [lia|now apply (kind_sep Colon)|assumption].
      * injection D as <-. apply comp_inner with i1; [lia|now apply (kind_sep Newline)|assumption].
      * injection D as <-. now apply comp_open with i1.
      * destruct (N.eqb_spec d 0); [discriminate|]. injection D as <-. now apply comp_close with i1.
  - apply next_unit in N as (u & U & ->). intros H. apply IH in H as (i & t & r & H & ->).
    exists i, (u ++ t), r. rewrite eaten_app, <- app_assoc. split; [|reflexivity].
    apply (tk_lift d d u false); [|assumption]. intros t0 i1 C. now apply comp_unit.
Qed.
Lemma comp_run len d t i : component skip d t i -> forall f head inner cur tail l, (List.length (t ++ tail) < f)%nat ->
  (forall f', (List.length tail < f')%nat -> tok_loop f' p 0 len tail 0 head (inner || i) (cur ++ t) = Ok l) ->
  tok_loop f p 0 len (t ++ tail) d head inner cur = Ok l.
Proof.
  induction 1 as [|d u t i U C IH|d c t i D S C IH|d t i S C IH|d t i D S C IH]; intros f head inner cur tail l F K.
  - rewrite orb_false_r, app_nil_r in K. apply K. exact F.
  - destruct f as [|f]; [lia|]. cbn [tok_loop]. rewrite <- app_assoc.
    destruct (unit_next u (t ++ tail) (len - lenN (u ++ t ++ tail)) U) as [v ->]. rewrite eaten_app. apply IH.
    + rewrite <- app_assoc, app_length in F. pose proof (unit_len u U). lia.
    + intros f' F'. rewrite <- app_assoc. now apply K.
  - destruct (sep_kind c S) as (k & -> & B & N). destruct f as [|f]; [lia|]. cbn [tok_loop app]. rewrite ctr_next0 by assumption.
    rewrite (proj2 (N.eqb_neq d 0) D). cbn [andb].
    assert (bracket_depth k d = Some d) as -> by now destruct k.
    rewrite eaten_cons. apply IH; [cbn in F; lia|]. intros f' F'. rewrite <- app_assoc. cbn [app orb].
    specialize (K f' F'). now rewrite orb_true_r in K.
  - destruct f as [|f]; [lia|]. cbn [tok_loop app]. rewrite (ctr_next0 OpenBracket) by assumption. rewrite andb_false_r. cbn [bracket_depth].
    rewrite eaten_cons. apply IH; [cbn in F; lia|]. intros f' F'. rewrite <- app_assoc. cbn [app orb].
    specialize (K f' F'). now rewrite orb_true_r in K.
  - destruct f as [|f]; [lia|]. cbn [tok_loop app]. rewrite (ctr_next0 CloseBracket) by assumption. rewrite andb_false_r. cbn [bracket_depth].
    rewrite (proj2 (N.eqb_neq d 0) D).
    rewrite eaten_cons. apply IH; [cbn in F; lia|]. intros f' F'. rewrite <- app_assoc. cbn [app orb].
    specialize (K f' F'). now rewrite orb_true_r in K.
Qed.
Lemma tok_complete len d todo i t r : tk d todo i t r -> forall f head inner cur, (List.length todo < f)%nat ->
  tok_loop f p 0 len todo d head inner cur = Ok ((head, inner || i, cur ++ t) :: r).
Proof.
  induction 1 as [d t i C|d t i c C S|d t i c todo i' t' l C S NE T IH]; intros f head inner cur F.
  - rewrite <- (app_nil_r t) at 1. apply (comp_run len d t i C); [now rewrite app_nil_r|].
    intros f' F'. destruct f' as [|f']; [lia|]. reflexivity.
  - apply (comp_run len d t i C); [assumption|]. intros f' F'. destruct f' as [|f']; [lia|]. cbn [tok_loop].
    destruct (sep_kind c S) as (k & -> & B & N). rewrite ctr_next0 by assumption. now rewrite B.
  - apply (comp_run len d t i C); [assumption|]. intros f' F'. destruct f' as [|f']; [lia|]. cbn [tok_loop].
    destruct (sep_kind c S) as (k & -> & B & N). rewrite ctr_next0 by assumption. rewrite B. cbn [negb]. change (0 =? 0) with true. cbn [andb].
    destruct todo as [|x todo]; [contradiction|]. rewrite IH by (cbn in F'; cbn; lia). reflexivity.
Qed.

(** What [tk] says in terms of [join]. *)
Lemma tk_join d todo i t r : tk d todo i t r ->
  component skip d t i /\ Forall (fun '(c, i, t) => separator skip c /\ component skip 0 t i) r /\
  ((todo = t ++ tail_text r /\ (r = [] \/ snd (last r (0, false, [])) <> []))
   \/ exists c, separator skip c /\ todo = t ++ tail_text r ++ [c]).
Proof.
  induction 1 as [d t i C|d t i c C S|d t i c todo i' t' l C S NE T (C' & F & IH)].
  - cbn. rewrite app_nil_r. repeat split; auto.
  - cbn. repeat split; auto. right. now exists c.
  - split; [assumption|]. split; [now constructor|]. cbn [tail_text flat_map]. change (flat_map _ l) with (tail_text l).
    destruct IH as [[-> L]|(c' & S' & ->)].
    + left. split; [reflexivity|]. right. destruct L as [->|L].
      * cbn in NE |- *. now rewrite app_nil_r in NE.
      * destruct l as [|x l]; [now cbn in L|exact L].
    + right. exists c'. split; [assumption|]. rewrite <- !app_comm_cons, <- !app_assoc. reflexivity.
Qed.
Lemma join_tk r : forall d t i tail, component skip d t i -> Forall (fun '(c, i, t) => separator skip c /\ component skip 0 t i) r ->
  (tail = [] /\ (r = [] \/ snd (last r (0, false, [])) <> []) \/ exists c, tail = [c] /\ separator skip c) ->
  tk d (t ++ tail_text r ++ tail) i t r.
Proof.
  induction r as [|[[c i'] t'] r IH]; intros d t i tail C F T.
  - destruct T as [[-> _]|(c & -> & S)]; cbn; [rewrite app_nil_r; now constructor|now constructor].
  - apply Forall_cons_iff in F as [[S C'] F']. cbn [tail_text flat_map]. change (flat_map _ r) with (tail_text r).
    rewrite <- !app_comm_cons, <- !app_assoc. apply tk_more; [assumption..| |].
    + destruct T as [[-> [T|T]]|(c' & -> & _)]; [discriminate| |destruct t'; [destruct (tail_text r)|]; discriminate].
      destruct r as [|x r]; [cbn in T; destruct t'; [contradiction|discriminate]|].
      destruct x as [[c1 i1] t1]. destruct t'; discriminate.
    + apply IH; [assumption..|]. destruct T as [[-> [T|T]]|T]; [discriminate| |right; assumption].
      left. split; [reflexivity|]. destruct r as [|x r]; [now left|right; exact T].
Qed.
End Tokenize.

(** ** Replacement *)
Lemma ctr_eqb_eq a b : ctr_eqb a b = true <-> a = b.
Proof. destruct a, b; cbn; split; congruence. Qed.
Lemma abe_eqb_eq a : forall b, abe_eqb a b = true <-> a = b.
Proof.
  induction a as [c|b|l F] using abe_ind2; intros [c'|b'|l']; cbn; try (split; congruence).
  - rewrite ctr_eqb_eq. split; congruence.
  - rewrite beqb_eq. split; congruence.
  - assert (E : forall l', (fix eq (x y : list ABE) : bool := match x, y with [], [] => true | a :: x', b :: y' => abe_eqb a b && eq x' y' | _, _ => false end) l l' = true <-> l = l').
    { clear l'. induction F as [|x l Hx F IH]; intros [|y l']; try (split; congruence).
      rewrite andb_true_iff, Hx, IH. split; [intros [-> ->]; reflexivity|intros [= -> ->]; now split]. }
    rewrite E. split; congruence.
Qed.
Lemma abe_prefix_app p : forall l, abe_prefix l p = true <-> exists r, l = p ++ r.
Proof.
  induction p as [|a p IH]; intros l; [split; [intros _; now exists l|destruct l; reflexivity]|].
  destruct l as [|b l]; cbn; [split; [discriminate|intros [r E]; discriminate]|].
  rewrite andb_true_iff, abe_eqb_eq, IH. split.
  - intros [-> [r ->]]. now exists r.
  - intros [r [= -> ->]]. split; [reflexivity|now exists r].
Qed.

Lemma dropN_app_len {A} (p r : list A) : dropN (lenN p) (p ++ r) = r.
Proof. unfold dropN, lenN. rewrite Nat2N.id. rewrite skipn_app, skipn_all, Nat.sub_diag. reflexivity. Qed.
Lemma splice_flat pat new : pat <> [] -> forall f l, (List.length l < f)%nat -> replaced pat new l (splice_all f l pat new).
Proof.
  intros NE. induction f as [|f IH]; intros l F; [lia|]. destruct l as [|a l]; [constructor|]. cbn [splice_all].
  destruct (abe_prefix (a :: l) pat) eqn:H.
  - apply abe_prefix_app in H as [r E]. rewrite E, dropN_app_len. constructor. apply IH.
    apply (f_equal (@List.length _)) in E. rewrite app_length in E. cbn in E, F. destruct pat; [contradiction|cbn in E; lia].
  - constructor; [|apply IH; cbn in F; lia]. intros [r E].
    now rewrite (proj2 (abe_prefix_app pat (a :: l)) (ex_intro _ r E)) in H.
Qed.
Lemma replaced_fun pat new : pat <> [] -> forall l r, replaced pat new l r -> forall r', replaced pat new l r' -> r = r'.
Proof.
  intros NE. induction 1 as [|l r H IH|a l r M H IH]; intros r' H'.
  - inversion H' as [|l2 r2 ? E|]; subst; [reflexivity|]. destruct pat; [contradiction|discriminate].
  - inversion H' as [E|l2 r2 ? E|a l2 r2 M2 ? E]; subst.
    + destruct pat; [contradiction|discriminate].
    + apply app_inv_head in E as ->. f_equal. now apply IH.
    + destruct M2. now exists l.
  - inversion H' as [|l2 r2 ? E|a2 l2 r2 M2 ?]; subst.
    + destruct M. now exists l2.
    + f_equal. now apply IH.
Qed.
Lemma replace1_spec pat new : pat <> [] -> forall e, replaced1 pat new e (replace1 e pat new).
Proof.
  intros NE. induction e as [c|b|l F] using abe_ind2; cbn [replace1]; [constructor..|].
  apply rep_lst with (map (fun x => replace1 x pat new) l).
  - induction F; cbn; constructor; assumption.
  - apply splice_flat; [assumption|lia].
Qed.
Lemma replaced1_fun pat new : pat <> [] -> forall e r, replaced1 pat new e r -> r = replace1 e pat new.
Proof.
  intros NE. induction e as [c|b|l F] using abe_ind2; intros r H; inversion H as [| |? l' l'' H1 H2]; subst; [reflexivity..|].
  cbn [replace1].
  assert (l' = map (fun x => replace1 x pat new) l) as ->.
  { clear H H2. revert l' H1. induction F as [|x l Hx F IH]; intros l' H1; inversion H1; subst; [reflexivity|].
    cbn. f_equal; [now apply Hx|now apply IH]. }
  f_equal. apply (replaced_fun pat new NE _ _ H2). apply splice_flat; [assumption|lia].
Qed.
Lemma tok_total p e len : forall f t d head inner cur, (List.length t < f)%nat ->
  tok_loop f p e len t d head inner cur <> OutOfFuel /\ tok_loop f p e len t d head inner cur <> Panic.
Proof.
  induction f as [|f IH]; [lia|]. intros t d head inner cur F. cbn [tok_loop].
  pose proof (next_byte_fuel t (len - lenN t) p e) as NF.
  destruct (next_byte t _ _ _) as [nb| | |] eqn:N; try (split; discriminate); try tauto.
  apply next_byte_sound in N. apply nb_shorter in N. destruct nb as [|k rest|v rest].
  - destruct (negb _); split; discriminate.
  - destruct (_ && _).
    + destruct rest as [|x rest]; [split; discriminate|].
      destruct (IH (x :: rest) d (as_char k) false []) as [A B]; [lia|].
      destruct (tok_loop f _ _ _ _ _ _ _ _); cbn [obind]; try (split; discriminate); tauto.
    + destruct (bracket_depth k d); [|split; discriminate]. apply IH. lia.
  - apply IH. lia.
Qed.
(** The excluded delimiters. *)
Definition bit (k : CtrChar) (a : N) : bool := negb (N.land a (ctr_bit k) =? 0).
Definition same (k k' : CtrChar) : bool := as_char k =? as_char k'.
Transparent N.land.
Lemma bit_test k a : bit k a = N.testbit a (N.log2 (ctr_bit k)).
Proof.
  unfold bit. assert (P : ctr_bit k = 2 ^ N.log2 (ctr_bit k)) by now destruct k.
  set (n := N.log2 (ctr_bit k)) in *. rewrite P. destruct (N.eqb_spec (N.land a (2 ^ n)) 0) as [E|E]; cbn.
  - apply (f_equal (fun x => N.testbit x n)) in E. rewrite N.land_spec, N.pow2_bits_true, andb_true_r in E. now rewrite E.
  - destruct (N.testbit a n) eqn:T; [reflexivity|]. destruct E. apply N.bits_inj. intros m. rewrite N.land_spec, N.bits_0.
    destruct (N.eq_dec m n) as [->|NE]; [now rewrite T|]. rewrite N.pow2_bits_false by congruence. apply andb_false_r.
Qed.
Lemma bit_xor k k' a : bit k (N.lxor a (ctr_bit k')) = xorb (bit k a) (same k k').
Proof. rewrite !bit_test, N.lxor_spec. f_equal. now destruct k, k'. Qed.
Lemma fold_bit k : forall l a, NoDup l ->
  bit k (fold_left (fun a b => match ctr_of b with Some k => N.lxor a (ctr_bit k) | None => a end) l a)
  = xorb (bit k a) (if in_dec N.eq_dec (as_char k) l then true else false).
Proof.
  induction l as [|b l IH]; intros a ND; cbn [fold_left]; [cbn; now rewrite xorb_false_r|].
  inversion ND as [|? ? NI ND']; subst. rewrite IH by assumption.
  destruct (ctr_of b) as [k'|] eqn:K.
  - apply ctr_of_char in K as ->. rewrite bit_xor. rewrite xorb_assoc. f_equal. unfold same.
    destruct (N.eqb_spec (as_char k) (as_char k')) as [E|E].
    + rewrite E. destruct (in_dec N.eq_dec (as_char k') l); [contradiction|].
      destruct (in_dec _ _ (_ :: l)) as [|n0]; [reflexivity|destruct n0; now left].
    + destruct (in_dec N.eq_dec (as_char k) l), (in_dec _ _ (_ :: l)) as [j|j]; try reflexivity.
      * destruct j. now right.
      * destruct j as [j|j]; [congruence|contradiction].
  - f_equal. destruct (in_dec N.eq_dec (as_char k) l) as [i|i], (in_dec _ _ (_ :: l)) as [j|j]; try reflexivity.
    + destruct j. now right.
    + destruct j as [j|j]; [|contradiction]. subst b. now rewrite (proj2 (ctr_of_char _ k) eq_refl) in K.
Qed.
Lemma plain_of_cset l : NoDup l -> cset l (plain_of l).
Proof.
  intros ND k. fold (bit k (plain_of l)). unfold plain_of. rewrite fold_bit by assumption.
  assert (bit k 0 = false) as -> by now destruct k. destruct (in_dec N.eq_dec (as_char k) l); cbn; split; congruence.
Qed.
