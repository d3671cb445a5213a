(** The byte functions of the core scope. *)
From Verif Require Import Bytes ModelAbe SpecAbe ModelFmt SpecFmt ProofFmt PropsFmt ModelEval ModelFn SpecEval ProofEval ProofEval2 ProofEval3.
Ltac Zify.zify_post_hook ::= Z.div_mod_to_equations.

(** ** Arguments *)
Lemma usize_iff t n : parse_usize t = Some n <-> numeral 10 t n /\ n < 2 ^ 64.
Proof. unfold parse_usize, parse_uint. rewrite parse_radix_iff by lia. change (umax_of 8) with (2 ^ 64 - 1). intuition lia. Qed.
Lemma numeral_nil n : ~ numeral 10 [] n.
Proof. intros [[H _]|(r & H & _)]; [contradiction|discriminate]. Qed.
Lemma len_arg_iff inp L : match inp with _ :: l :: _ => match l with [] => Some 16 | _ => parse_usize l end | _ => Some 16 end = Some L <-> length_arg true inp L.
Proof.
  unfold length_arg. destruct inp as [|x [|l inp]]; [intuition congruence..|]. destruct l as [|c l].
  - split; [intros [= <-]; now left|]. intros [(_ & _ & ->)|[H _]]; [reflexivity|]. now apply numeral_nil in H.
  - rewrite usize_iff. split; [now right|]. intros [(_ & H & _)|H]; [discriminate|assumption].
Qed.
Lemma len_arg_strict inp L : match inp with _ :: l :: _ => parse_usize l | _ => Some 16 end = Some L <-> length_arg false inp L.
Proof.
  unfold length_arg. destruct inp as [|x [|l inp]]; [intuition congruence..|]. rewrite usize_iff. split; [now right|]. intros [(H & _)|H]; [discriminate|assumption].
Qed.
Lemma pad_arg_iff d inp p : (lenN inp <= 3) -> match nth_error inp 2 with None => Some d | Some [p] => Some p | Some _ => None end = Some p <-> pad_arg d inp p.
Proof.
  intros L. unfold pad_arg. destruct inp as [|x [|y [|z inp]]]; cbn; try (intuition congruence).
  destruct z as [|c [|]]; intuition congruence.
Qed.
Lemma padded_iff left p L b v : padded left p L b v <-> lenN b <= L /\ v = (if left then repeat p (N.to_nat (L - lenN b)) ++ b else b ++ repeat p (N.to_nat (L - lenN b))).
Proof.
  unfold padded, left_padded, right_padded. destruct left; split.
  - intros (n & -> & H). rewrite lenN_app, lenN_repeat in H. split; [lia|]. do 2 f_equal. lia.
  - intros [H ->]. eexists. split; [reflexivity|]. rewrite lenN_app, lenN_repeat. lia.
  - intros (n & -> & H). rewrite lenN_app, lenN_repeat in H. split; [lia|]. do 2 f_equal. lia.
  - intros [H ->]. eexists. split; [reflexivity|]. rewrite lenN_app, lenN_repeat. lia.
Qed.
Lemma kept_iff left L b v : kept left L b v <-> v = if left then takeN (N.min L (lenN b)) b else dropN (lenN b - N.min L (lenN b)) b.
Proof.
  unfold kept. split.
  - intros [H [x E]]. destruct left; subst b; rewrite lenN_app in *.
    + rewrite <- H. symmetry. now apply takeN_app_exact.
    + rewrite <- H. replace (lenN x + lenN v - lenN v) with (lenN x) by lia. unfold dropN, lenN. now rewrite Nat2N.id, skipn_app, skipn_all, Nat.sub_diag.
  - intros ->. assert (M : N.min L (lenN b) <= lenN b) by lia. set (m := N.min L (lenN b)) in *. clearbody m. destruct left.
    + split; [unfold takeN, lenN in *; rewrite firstn_length; lia|]. exists (dropN m b). symmetry. apply firstn_skipn.
    + split; [unfold dropN, lenN in *; rewrite skipn_length; lia|]. exists (takeN (lenN b - m) b). symmetry. apply firstn_skipn.
Qed.
Definition okv (r : ar) (v : bytes) : Prop := r = Ok (Some v).
Lemma okv_val x v : okv (val x) v <-> v = x.
Proof. unfold okv, val. split; [intros H; now injection H|intros ->; reflexivity]. Qed.

(** ** Padding and cutting *)
Lemma pad_strict inp left d v : lenN inp <= 3 -> okv (pad inp left d true false) v <->
  exists L p, length_arg true inp L /\ pad_arg d inp p /\ padded left p L (arg 0 inp) v /\ L < 2 ^ 63.
Proof.
  intros LI. unfold pad. cbn [negb]. split.
  - destruct (match inp with _ :: l :: _ => _ | _ => _ end) as [L|] eqn:EL; [|discriminate]. apply len_arg_iff in EL.
    destruct (N.ltb_spec L (lenN (arg 0 inp))); [discriminate|].
    destruct (match nth_error inp 2 with None => _ | _ => _ end) as [p|] eqn:EP; [|discriminate]. apply pad_arg_iff in EP; [|assumption].
    destruct (N.leb_spec (2 ^ 63) L); [discriminate|]. intros H1. apply okv_val in H1. exists L, p. rewrite padded_iff. auto.
  - intros (L & p & EL & EP & P & LT). apply len_arg_iff in EL. rewrite EL. apply pad_arg_iff in EP; [|assumption]. rewrite EP. apply padded_iff in P as [P ->].
    destruct (N.ltb_spec L (lenN (arg 0 inp))); [lia|]. destruct (N.leb_spec (2 ^ 63) L); [lia|]. now apply okv_val.
Qed.
Lemma pad_loose inp left d v : lenN inp <= 3 -> okv (pad inp left d false false) v <->
  exists L, length_arg true inp L /\ ((L < lenN (arg 0 inp) /\ v = arg 0 inp) \/ (exists p, pad_arg d inp p /\ padded left p L (arg 0 inp) v /\ L < 2 ^ 63)).
Proof.
  intros LI. unfold pad. cbn [negb]. split.
  - destruct (match inp with _ :: l :: _ => _ | _ => _ end) as [L|] eqn:EL; [|discriminate]. apply len_arg_iff in EL.
    destruct (N.ltb_spec L (lenN (arg 0 inp))).
    + intros H1. apply okv_val in H1. exists L. auto.
    + destruct (match nth_error inp 2 with None => _ | _ => _ end) as [p|] eqn:EP; [|discriminate]. apply pad_arg_iff in EP; [|assumption].
      destruct (N.leb_spec (2 ^ 63) L); [discriminate|]. intros H1. apply okv_val in H1. exists L. split; [assumption|]. right. exists p. rewrite padded_iff. auto.
  - intros (L & EL & D). apply len_arg_iff in EL. rewrite EL. destruct (N.ltb_spec L (lenN (arg 0 inp))) as [G|G].
    + destruct D as [[_ ->]|(p & _ & P & _)]; [now apply okv_val|]. apply padded_iff in P. lia.
    + destruct D as [[D _]|(p & EP & P & LT)]; [lia|]. apply pad_arg_iff in EP; [|assumption]. rewrite EP. apply padded_iff in P as [P ->].
      destruct (N.leb_spec (2 ^ 63) L); [lia|]. now apply okv_val.
Qed.
Lemma pad_fixed inp left d v : lenN inp <= 3 -> okv (pad inp left d false true) v <->
  exists L p k, length_arg true inp L /\ pad_arg d inp p /\ kept left L (arg 0 inp) k /\ padded left p L k v /\ L < 2 ^ 63.
Proof.
  intros LI. unfold pad. cbn [negb].
  assert (K : forall L, kept left L (arg 0 inp) (if left then takeN (N.min L (lenN (arg 0 inp))) (arg 0 inp) else dropN (lenN (arg 0 inp) - N.min L (lenN (arg 0 inp))) (arg 0 inp))).
  { intros L. now apply kept_iff. }
  split.
  - destruct (match inp with _ :: l :: _ => _ | _ => _ end) as [L|] eqn:EL; [|discriminate]. apply len_arg_iff in EL. specialize (K L).
    set (k := if left then _ else _) in *. clearbody k. pose proof K as [KL _].
    destruct (N.ltb_spec L (lenN k)); [lia|].
    destruct (match nth_error inp 2 with None => _ | _ => _ end) as [p|] eqn:EP; [|discriminate]. apply pad_arg_iff in EP; [|assumption].
    destruct (N.leb_spec (2 ^ 63) L); [discriminate|]. intros H1. apply okv_val in H1. exists L, p, k. rewrite padded_iff. auto 10.
  - intros (L & p & k & EL & EP & KK & P & LT). apply len_arg_iff in EL. rewrite EL. apply pad_arg_iff in EP; [|assumption]. rewrite EP.
    apply kept_iff in KK. rewrite <- KK. apply padded_iff in P as [P ->].
    destruct (N.ltb_spec L (lenN k)); [lia|]. destruct (N.leb_spec (2 ^ 63) L); [lia|]. now apply okv_val.
Qed.
Lemma pad_panic inp left d check fixed : lenN inp <= 3 -> pad inp left d check fixed = Panic <->
  exists L p, length_arg true inp L /\ pad_arg d inp p /\ 2 ^ 63 <= L /\ (fixed = true \/ lenN (arg 0 inp) <= L).
Proof.
  intros LI. unfold pad.
  set (k := fun L => if negb fixed then arg 0 inp else if left then takeN (N.min L (lenN (arg 0 inp))) (arg 0 inp) else dropN (lenN (arg 0 inp) - N.min L (lenN (arg 0 inp))) (arg 0 inp)).
  assert (K : forall L, lenN (k L) <= L <-> fixed = true \/ lenN (arg 0 inp) <= L).
  { intros L. unfold k. destruct fixed; cbn [negb]; [|intuition discriminate]. split; [now left|]. intros _.
    pose proof (proj2 (kept_iff left L (arg 0 inp) _) eq_refl) as [H _]. rewrite H. lia. }
  split.
  - destruct (match inp with _ :: l :: _ => _ | _ => _ end) as [L|] eqn:EL; [|discriminate]. apply len_arg_iff in EL. fold (k L).
    destruct (N.ltb_spec L (lenN (k L))); [destruct check; discriminate|].
    destruct (match nth_error inp 2 with None => _ | _ => _ end) as [p|] eqn:EP; [|discriminate]. apply pad_arg_iff in EP; [|assumption].
    destruct (N.leb_spec (2 ^ 63) L); [|discriminate]. intros _. exists L, p. rewrite <- K. auto.
  - intros (L & p & EL & EP & LT & KK). apply len_arg_iff in EL. rewrite EL. apply pad_arg_iff in EP; [|assumption]. rewrite EP. fold (k L).
    apply K in KK. destruct (N.ltb_spec L (lenN (k L))); [lia|]. destruct (N.leb_spec (2 ^ 63) L); [reflexivity|lia].
Qed.
Lemma cut_strict inp left v : okv (cut inp left true) v <-> exists L, length_arg false inp L /\ L <= lenN (arg 0 inp) /\ kept left L (arg 0 inp) v.
Proof.
  unfold cut. split.
  - destruct (match inp with _ :: l :: _ => _ | _ => _ end) as [L|] eqn:EL; [|discriminate]. apply len_arg_strict in EL.
    destruct (N.ltb_spec (lenN (arg 0 inp)) L); [discriminate|]. intros H1. apply okv_val in H1. exists L. rewrite kept_iff, N.min_l by assumption. auto.
  - intros (L & EL & LE & K). apply len_arg_strict in EL. rewrite EL. destruct (N.ltb_spec (lenN (arg 0 inp)) L); [lia|].
    rewrite kept_iff, N.min_l in K by assumption. now apply okv_val.
Qed.
Lemma cut_loose inp left v : okv (cut inp left false) v <-> exists L, length_arg false inp L /\ kept left L (arg 0 inp) v.
Proof.
  unfold cut. split.
  - destruct (match inp with _ :: l :: _ => _ | _ => _ end) as [L|] eqn:EL; [|discriminate]. apply len_arg_strict in EL. intros H. exists L. split; [assumption|]. rewrite kept_iff.
    destruct (N.ltb_spec (lenN (arg 0 inp)) L); apply okv_val in H; subst v.
    + rewrite N.min_r by lia. rewrite N.sub_diag. unfold takeN, dropN, lenN. rewrite Nat2N.id, firstn_all. now destruct left.
    + now rewrite N.min_l.
  - intros (L & EL & K). apply len_arg_strict in EL. rewrite EL. rewrite kept_iff in K. destruct (N.ltb_spec (lenN (arg 0 inp)) L); apply okv_val; subst v.
    + rewrite N.min_r by lia. rewrite N.sub_diag. unfold takeN, dropN, lenN. rewrite Nat2N.id, firstn_all. now destruct left.
    + now rewrite N.min_l.
Qed.

(** ** Replacing *)
Lemma starts_with_iff b p : starts_with b p = true <-> exists r, b = p ++ r.
Proof.
  revert b. induction p as [|x p IH]; intros b; [split; [intros _; now exists b|destruct b; reflexivity]|].
  destruct b as [|y b]; cbn; [split; [discriminate|intros [r H]; discriminate]|]. rewrite andb_true_iff, IH, N.eqb_eq. split.
  - intros [-> [r ->]]. now exists r.
  - intros [r [= -> ->]]. split; [reflexivity|now exists r].
Qed.
Lemma dropN_app_len (a b : bytes) : dropN (lenN a) (a ++ b) = b.
Proof. unfold dropN, lenN. now rewrite Nat2N.id, skipn_app, skipn_all, Nat.sub_diag. Qed.
Lemma replace_loop_spec from to : from <> [] -> forall fuel b r, (List.length b <= fuel)%nat ->
  exists v, replace_loop fuel b from to r = Ok (r ++ v) /\ replaced_bytes from to b v.
Proof.
  intros NE. induction fuel as [|fuel IH]; intros b r L.
  - destruct b; [|cbn in L; lia]. exists []. cbn. rewrite app_nil_r. split; [reflexivity|constructor].
  - destruct b as [|h b]; [exists []; cbn; rewrite app_nil_r; split; [reflexivity|constructor]|]. cbn [replace_loop].
    destruct (starts_with (h :: b) from) eqn:S.
    + apply starts_with_iff in S as [rest E]. rewrite E, dropN_app_len. destruct (IH rest (r ++ to)) as (v & V & R).
      { apply (f_equal (@List.length N)) in E. rewrite app_length in E. cbn in E, L. destruct from; [contradiction|]. cbn in E. lia. }
      exists (to ++ v). rewrite V, app_assoc. split; [reflexivity|]. now constructor.
    + destruct (IH b (r ++ [h])) as (v & V & R); [cbn in L; lia|]. exists (h :: v). rewrite V, <- app_assoc. split; [reflexivity|].
      constructor; [|assumption]. intros H. apply starts_with_iff in H. congruence.
Qed.
Lemma replaced_fun from to b v : replaced_bytes from to b v -> from <> [] -> forall w, replaced_bytes from to b w -> v = w.
Proof.
  intros H NE. induction H as [|b r H IH|x b r M H IH]; intros w W.
  - inversion W as [|b' r' W' E1 E2|]; subst; [reflexivity|]. destruct from; [contradiction|discriminate].
  - inversion W as [E1 E2|b' r' W' E1 E2|x' b' r' M' W' E1 E2]; subst.
    + destruct from; [contradiction|discriminate].
    + apply app_inv_head in E1. subst b'. f_equal. auto.
    + destruct M'. exists b. assumption.
  - inversion W as [|b' r' W' E1 E2|x' b' r' M' W' E1 E2]; subst.
    + destruct M. exists b'. now symmetry.
    + f_equal. auto.
Qed.
Lemma replace_endless fuel x b to r : replace_loop fuel (x :: b) [] to r = OutOfFuel.
Proof. revert r. induction fuel as [|fuel IH]; intros r; [reflexivity|]. cbn [replace_loop]. change (starts_with (x :: b) []) with true. cbn iota. apply IH. Qed.

(** ** Saturating sums *)
Lemma carry_add_spec a : forall b r c, List.length a = List.length b -> bytes_ok a -> bytes_ok b -> carry_add a b = (r, c) ->
  bytes_ok r /\ List.length r = List.length a /\ be_decode r + (if c then 256 ^ lenN a else 0) = be_decode a + be_decode b.
Proof.
  induction a as [|x a IH]; intros [|y b] r c L A B E; try discriminate; cbn [carry_add] in E.
  - injection E as <- <-. now repeat split.
  - destruct (carry_add a b) as [r' c'] eqn:E'. injection E as <- <-. apply ok_cons in A as [X A]. apply ok_cons in B as [Y B]. injection L as L.
    destruct (IH b r' c' L A B E') as (O & LR & V). assert (LR' : lenN r' = lenN a) by (unfold lenN; now rewrite LR). assert (LB : lenN b = lenN a) by (unfold lenN; now rewrite L).
    split; [apply ok_cons; split; [apply N.mod_lt; lia|assumption]|]. split; [cbn; now rewrite LR|].
    rewrite !be_decode_cons, LR', LB, lenN_cons, N.add_1_l, N.pow_succ_r'. set (P := 256 ^ lenN a) in *. clearbody P.
    set (s := x + y + (if c' then 1 else 0)). assert (S2 : s = 256 * (s / 256) + s mod 256) by (apply N.div_mod; lia).
    assert (HS : s < 512) by (unfold s; destruct c'; lia). destruct (N.leb_spec 256 s) as [G|G].
    + assert (s / 256 = 1) by (symmetry; apply N.div_unique with (s - 256); lia). rewrite H in S2. unfold s in *. destruct c'; nia.
    + rewrite N.mod_small by lia. unfold s. destruct c'; nia.
Qed.
Lemma carry_sub_spec a : forall b r c, List.length a = List.length b -> bytes_ok a -> bytes_ok b -> carry_sub a b = (r, c) ->
  bytes_ok r /\ List.length r = List.length a /\ be_decode r + be_decode b = be_decode a + (if c then 256 ^ lenN a else 0).
Proof.
  induction a as [|x a IH]; intros [|y b] r c L A B E; try discriminate; cbn [carry_sub] in E.
  - injection E as <- <-. now repeat split.
  - destruct (carry_sub a b) as [r' c'] eqn:E'. injection E as <- <-. apply ok_cons in A as [X A]. apply ok_cons in B as [Y B]. injection L as L.
    destruct (IH b r' c' L A B E') as (O & LR & V). assert (LR' : lenN r' = lenN a) by (unfold lenN; now rewrite LR). assert (LB : lenN b = lenN a) by (unfold lenN; now rewrite L).
    split; [apply ok_cons; split; [apply N.mod_lt; lia|assumption]|]. split; [cbn; now rewrite LR|].
    rewrite !be_decode_cons, LR', LB, lenN_cons, N.add_1_l, N.pow_succ_r'. set (P := 256 ^ lenN a) in *. clearbody P.
    set (y' := y + (if c' then 1 else 0)). assert (HY : y' <= 256) by (unfold y'; destruct c'; lia).
    destruct (N.ltb_spec x y') as [G|G].
    + rewrite N.mod_small by lia. unfold y' in *. destruct c'; nia.
    + assert ((x + 256 - y') mod 256 = x - y') as -> by (replace (x + 256 - y') with (x - y' + 1 * 256) by lia; rewrite N.mod_add by lia; apply N.mod_small; lia).
      unfold y' in *. destruct c'; nia.
Qed.
Lemma be_decode_repeat k : be_decode (repeat 255 k) = 256 ^ N.of_nat k - 1 /\ be_decode (repeat 0 k) = 0.
Proof.
  induction k as [|k [IH1 IH2]]; [split; reflexivity|]. cbn [repeat]. rewrite !be_decode_cons, !lenN_repeat, IH1, IH2, Nat2N.inj_succ, N.pow_succ_r'.
  assert (0 < 256 ^ N.of_nat k) by (apply N.neq_0_lt_0, N.pow_nonzero; lia). split; lia.
Qed.
Definition max_of (k : nat) : N := 256 ^ N.of_nat k - 1.
Lemma fold_add_spec is : forall r, r <> [] -> bytes_ok r -> Forall bytes_ok is -> Forall (fun i => List.length i = List.length r) is ->
  exists v, sat_fold carry_add_be 255 r is = Ok (Some v) /\ bytes_ok v /\ List.length v = List.length r /\
    be_decode v = N.min (be_decode r + sumN (map be_decode is)) (max_of (List.length r)).
Proof.
  induction is as [|i is IH]; intros r NE O F L; cbn [sat_fold map sumN fold_right].
  - exists r. repeat split; auto. pose proof (be_decode_bound r O). unfold max_of. unfold lenN in *. lia.
  - apply Forall_cons_iff in F as [Oi F]. apply Forall_cons_iff in L as [Li L]. unfold carry_add_be. destruct r as [|x r]; [contradiction|].
    destruct (carry_add (x :: r) i) as [r' c] eqn:E. destruct (carry_add_spec (x :: r) i r' c (eq_sym Li) O Oi E) as (O' & L' & V). fold (sumN (map be_decode is)).
    pose proof (be_decode_bound r' O') as B. assert (LR : lenN r' = N.of_nat (List.length (x :: r))) by (unfold lenN; now rewrite L').
    unfold lenN in V, B. rewrite L' in B. destruct c.
    + exists (repeat 255 (List.length r')). split; [reflexivity|]. split; [apply Forall_forall; intros y I; apply repeat_spec in I; subst; unfold byte_ok; lia|].
      split; [now rewrite repeat_length|]. rewrite (proj1 (be_decode_repeat _)), L'. unfold max_of. set (P := 256 ^ N.of_nat (List.length (x :: r))) in *. clearbody P. lia.
    + destruct (IH r') as (v & EV & Ov & Lv & Vv); [intros ->; discriminate|assumption..| |].
      { eapply Forall_impl; [|exact L]. cbn beta. intros j J. congruence. }
      exists v. split; [assumption|]. split; [assumption|]. split; [congruence|]. rewrite Vv, L'. f_equal. lia.
Qed.
Lemma fold_sub_spec is : forall r, r <> [] -> bytes_ok r -> Forall bytes_ok is -> Forall (fun i => List.length i = List.length r) is ->
  exists v, sat_fold carry_sub_be 0 r is = Ok (Some v) /\ bytes_ok v /\ List.length v = List.length r /\
    be_decode v = be_decode r - sumN (map be_decode is).
Proof.
  induction is as [|i is IH]; intros r NE O F L; cbn [sat_fold map sumN fold_right].
  - exists r. repeat split; auto. lia.
  - apply Forall_cons_iff in F as [Oi F]. apply Forall_cons_iff in L as [Li L]. unfold carry_sub_be. destruct r as [|x r]; [contradiction|].
    destruct (carry_sub (x :: r) i) as [r' c] eqn:E. destruct (carry_sub_spec (x :: r) i r' c (eq_sym Li) O Oi E) as (O' & L' & V). fold (sumN (map be_decode is)).
    pose proof (be_decode_bound r' O') as B. unfold lenN in V, B. rewrite L' in B. destruct c.
    + exists (repeat 0 (List.length r')). split; [reflexivity|]. split; [apply Forall_forall; intros y I; apply repeat_spec in I; subst; unfold byte_ok; lia|].
      split; [now rewrite repeat_length|]. rewrite (proj2 (be_decode_repeat _)). set (P := 256 ^ N.of_nat (List.length (x :: r))) in *. clearbody P. lia.
    + destruct (IH r') as (v & EV & Ov & Lv & Vv); [intros ->; discriminate|assumption..| |].
      { eapply Forall_impl; [|exact L]. cbn beta. intros j J. congruence. }
      exists v. split; [assumption|]. split; [assumption|]. split; [congruence|]. rewrite Vv. lia.
Qed.
Lemma sat_op_same op full inp : sat_op op full inp = if forallb (fun v => lenN v =? lenN (arg 0 inp)) inp then sat_fold op full (arg 0 inp) (tl inp) else fails.
Proof. reflexivity. Qed.
Lemma same_len inp : forallb (fun v => lenN v =? lenN (arg 0 inp)) inp = true <-> exists k, Forall (fun i => List.length i = k) inp.
Proof.
  rewrite forallb_forall. split.
  - intros H. exists (List.length (arg 0 inp)). apply Forall_forall. intros x I. apply H in I. apply N.eqb_eq in I. unfold lenN in I. lia.
  - intros [k F] x I. rewrite Forall_forall in F. destruct inp as [|y inp]; [contradiction|]. cbn [arg nth]. apply N.eqb_eq. unfold lenN. rewrite (F x I), (F y); [reflexivity|now left].
Qed.
Definition total (inp : list bytes) : N := sumN (map be_decode inp).
Lemma sum_iff inp v : inp <> [] -> Forall bytes_ok inp -> okv (sat_op carry_add_be 255 inp) v <->
  exists k, Forall (fun i => List.length i = k) inp /\ (k <> 0%nat \/ lenN inp = 1) /\ List.length v = k /\ bytes_ok v /\ be_decode v = N.min (total inp) (max_of k).
Proof.
  intros NE O. rewrite sat_op_same. destruct inp as [|a inp]; [contradiction|]. cbn [arg nth tl]. pose proof (same_len (a :: inp)) as S. cbn [arg nth] in S.
  apply Forall_cons_iff in O as [Oa O]. split.
  - destruct (forallb _ _); [|discriminate]. destruct (proj1 S eq_refl) as [k F]. apply Forall_cons_iff in F as [K F]. intros H. exists k. split; [now constructor|].
    assert (D : k <> 0%nat \/ inp = []) by (destruct inp as [|i inp]; [now right|]; destruct a as [|x a]; [discriminate H|left; cbn in K; lia]).
    destruct D as [D| ->].
    + destruct (fold_add_spec inp a) as (w & E & Ow & Lw & Vw); [intros ->; cbn in K; lia|assumption..|rewrite K; assumption|].
      rewrite E in H. injection H as <-. rewrite K in *. split; [now left|]. auto.
    + apply okv_val in H. subst v. split; [now right|]. split; [assumption|]. split; [assumption|]. unfold total. cbn. pose proof (be_decode_bound a Oa). unfold max_of, lenN in *. rewrite K in *. lia.
  - intros (k & F & D & Lv & Ov & V). rewrite (proj2 S) by now exists k. apply Forall_cons_iff in F as [K F].
    assert (U : forall w, okv (sat_fold carry_add_be 255 a inp) w -> bytes_ok w -> List.length w = k -> be_decode w = be_decode v -> okv (sat_fold carry_add_be 255 a inp) v).
    { intros w H Ow Lw E. assert (w = v) as <-; [|assumption]. rewrite <- (be_encode_decode w Ow), <- (be_encode_decode v Ov). congruence. }
    destruct (Nat.eq_dec k 0) as [->|NK].
    + destruct D as [D|D]; [contradiction|]. destruct inp as [|i inp]; [|rewrite !lenN_cons in D; lia]. apply (U a); auto; [reflexivity|]. rewrite V. unfold total. cbn.
      destruct a; [reflexivity|discriminate].
    + destruct (fold_add_spec inp a) as (w & E & Ow & Lw & Vw); [intros ->; cbn in K; lia|assumption..|rewrite K; assumption|].
      apply (U w); auto; [congruence|]. rewrite Vw, V, K. reflexivity.
Qed.
Lemma sub_iff a inp v : bytes_ok a -> Forall bytes_ok inp -> okv (sat_op carry_sub_be 0 (a :: inp)) v <->
  exists k, Forall (fun i => List.length i = k) (a :: inp) /\ (k <> 0%nat \/ inp = []) /\ List.length v = k /\ bytes_ok v /\ be_decode v = be_decode a - total inp.
Proof.
  intros Oa O. rewrite sat_op_same. cbn [arg nth tl]. pose proof (same_len (a :: inp)) as S. cbn [arg nth] in S. split.
  - destruct (forallb _ _); [|discriminate]. destruct (proj1 S eq_refl) as [k F]. apply Forall_cons_iff in F as [K F]. intros H. exists k. split; [now constructor|].
    assert (D : k <> 0%nat \/ inp = []) by (destruct inp as [|i inp]; [now right|]; destruct a as [|x a]; [discriminate H|left; cbn in K; lia]).
    destruct D as [D| ->].
    + destruct (fold_sub_spec inp a) as (w & E & Ow & Lw & Vw); [intros ->; cbn in K; lia|assumption..|rewrite K; assumption|].
      rewrite E in H. injection H as <-. rewrite K in *. split; [now left|]. auto.
    + apply okv_val in H. subst v. split; [now right|]. split; [assumption|]. split; [assumption|]. unfold total. cbn. lia.
  - intros (k & F & D & Lv & Ov & V). rewrite (proj2 S) by now exists k. apply Forall_cons_iff in F as [K F].
    assert (U : forall w, okv (sat_fold carry_sub_be 0 a inp) w -> bytes_ok w -> List.length w = k -> be_decode w = be_decode v -> okv (sat_fold carry_sub_be 0 a inp) v).
    { intros w H Ow Lw E. assert (w = v) as <-; [|assumption]. rewrite <- (be_encode_decode w Ow), <- (be_encode_decode v Ov). congruence. }
    destruct (Nat.eq_dec k 0) as [->|NK].
    + destruct D as [D|D]; [contradiction|]. subst inp. apply (U a); auto; [reflexivity|]. rewrite V. unfold total. cbn. lia.
    + destruct (fold_sub_spec inp a) as (w & E & Ow & Lw & Vw); [intros ->; cbn in K; lia|assumption..|rewrite K; assumption|].
      apply (U w); auto; [congruence|]. rewrite Vw, V. reflexivity.
Qed.
Lemma sat_panic add full inp : (forall a b, add a b = Panic <-> a = []) -> (forall a b, add a b <> OutOfFuel) ->
  (forall a b r c, add a b = Ok (r, c) -> List.length a = List.length b -> List.length r = List.length a) ->
  (sat_op add full inp = Panic <-> Forall (fun i => i = []) inp /\ 2 <= lenN inp) /\ sat_op add full inp <> OutOfFuel.
Proof.
  intros HP HF HL. rewrite sat_op_same. split.
  - split.
    + destruct (forallb _ _) eqn:S; [|discriminate]. apply same_len in S as [k F]. destruct inp as [|a inp]; [discriminate|]. cbn [arg nth tl].
      apply Forall_cons_iff in F as [K F]. intros H. assert (k = 0%nat /\ inp <> []) as [-> NE].
      { split; [|intros ->; discriminate]. revert a K H. induction F as [|i inp Ki F IH]; intros a K H; [discriminate|]. cbn [sat_fold] in H.
        destruct (add a i) as [[r c]| | |] eqn:E; try discriminate.
        - destruct c; [discriminate|]. apply (IH r); [|assumption]. rewrite (HL _ _ _ _ E); congruence.
        - apply HP in E. subst a. now symmetry. }
      split.
      * constructor; [now destruct a|]. eapply Forall_impl; [|exact F]. now intros [|].
      * destruct inp; [contradiction|]. rewrite !lenN_cons. lia.
    + intros [F L]. assert (forallb (fun v => lenN v =? lenN (arg 0 inp)) inp = true) as ->.
      { apply same_len. exists 0%nat. eapply Forall_impl; [|exact F]. now intros a ->. }
      destruct inp as [|a [|i inp]]; [change (lenN (@nil bytes)) with 0 in L; lia|change (lenN [a]) with 1 in L; lia|]. apply Forall_cons_iff in F as [-> F].
      cbn [arg nth tl sat_fold]. now rewrite (proj2 (HP [] i) eq_refl).
  - destruct (forallb _ _); [|discriminate]. generalize (arg 0 inp). induction (tl inp) as [|i is IH]; intros r; [discriminate|]. cbn [sat_fold].
    destruct (add r i) as [[r' c]| | |] eqn:E; try discriminate; [destruct c; [discriminate|apply IH]|]. now apply HF in E.
Qed.
Lemma carry_len a : forall b, List.length a = List.length b -> List.length (fst (carry_add a b)) = List.length a /\ List.length (fst (carry_sub a b)) = List.length a.
Proof.
  induction a as [|x a IH]; intros [|y b] L; try discriminate; [now split|]. injection L as L. destruct (IH b L) as [A B]. cbn [carry_add carry_sub].
  destruct (carry_add a b), (carry_sub a b). cbn in *. now rewrite A, B.
Qed.
Lemma add_panic inp : (sat_op carry_add_be 255 inp = Panic <-> Forall (fun i => i = []) inp /\ 2 <= lenN inp) /\ sat_op carry_add_be 255 inp <> OutOfFuel.
Proof.
  apply sat_panic; intros.
  - destruct a; cbn; split; congruence.
  - destruct a; discriminate.
  - destruct a as [|x a]; [discriminate|]. assert (Q0 : carry_add (x :: a) b = (r, c)) by (unfold carry_add_be in H; congruence). pose proof (proj1 (carry_len (x :: a) b H0)) as Q. rewrite Q0 in Q. exact Q.
Qed.
Lemma sub_panic inp : (sat_op carry_sub_be 0 inp = Panic <-> Forall (fun i => i = []) inp /\ 2 <= lenN inp) /\ sat_op carry_sub_be 0 inp <> OutOfFuel.
Proof.
  apply sat_panic; intros.
  - destruct a; cbn; split; congruence.
  - destruct a; discriminate.
  - destruct a as [|x a]; [discriminate|]. assert (Q0 : carry_sub (x :: a) b = (r, c)) by (unfold carry_sub_be in H; congruence). pose proof (proj2 (carry_len (x :: a) b H0)) as Q. rewrite Q0 in Q. exact Q.
Qed.

(** ** Slices *)
Lemma slice_loop_neg fuel b i stop step : (i < 0)%Z -> slice_loop fuel b i stop step = [].
Proof. intros H. destruct fuel; [reflexivity|]. cbn [slice_loop]. destruct (_ || _); [reflexivity|]. now destruct (Z.ltb_spec i 0); [|lia]. Qed.
Lemma wrap64_small z : (- 2 ^ 63 <= z < 2 ^ 63)%Z -> wrap64 z = z.
Proof. intros H. unfold wrap64. rewrite Z.mod_small; lia. Qed.
Lemma wrap64_big z : (2 ^ 63 <= z < 2 ^ 64)%Z -> (wrap64 z < 0)%Z.
Proof. intros H. unfold wrap64. replace (z + 2 ^ 63)%Z with (z - 2 ^ 63 + 1 * 2 ^ 64)%Z by lia. rewrite Z.mod_add by lia. rewrite Z.mod_small; lia. Qed.
Definition at_step (b : bytes) (i stop step : Z) (k : nat) : option N :=
  let j := (i + Z.of_nat k * step)%Z in
  if ((0 <? step) && (j <? stop) || (step <? 0) && (stop <? j))%Z then nth_error b (Z.to_nat j) else None.
Lemma nth_none {A} (b : list A) i : (List.length b <= i)%nat -> nth_error b i = None.
Proof. apply nth_error_None. Qed.
Lemma slice_up b stop step : (0 < step < 2 ^ 63)%Z -> (Z.of_nat (List.length b) < 2 ^ 63)%Z -> (stop <= Z.of_nat (List.length b))%Z ->
  forall fuel i, (0 <= i)%Z -> (Z.of_nat (List.length b) <= i + Z.of_nat fuel)%Z -> forall k, nth_error (slice_loop fuel b i stop step) k = at_step b i stop step k.
Proof.
  intros S L ST. assert (OUT : forall i k, (stop <= i)%Z -> at_step b i stop step k = None).
  { intros i k H. unfold at_step. destruct (Z.ltb_spec step 0); [lia|]. rewrite andb_false_l, orb_false_r. destruct (Z.ltb_spec (i + Z.of_nat k * step) stop); [nia|]. now rewrite andb_false_r. }
  induction fuel as [|fuel IH]; intros i I F k.
  - rewrite OUT by lia. now destruct k.
  - cbn [slice_loop]. rewrite Z.geb_leb. destruct (Z.leb_spec 0 step); [|lia]. destruct (Z.eqb_spec step 0); [lia|]. rewrite orb_false_r.
    destruct (Z.ltb_spec i stop) as [G|G]; cbn [negb]; [|rewrite OUT by lia; now destruct k].
    destruct (Z.ltb_spec i 0); [lia|]. destruct (nth_error b (Z.to_nat i)) as [x|] eqn:X; [|apply nth_error_None in X; lia].
    destruct k as [|k]; cbn [nth_error].
    + unfold at_step. rewrite Z.mul_0_l, Z.add_0_r. destruct (Z.ltb_spec 0 step); [|lia]. destruct (Z.ltb_spec i stop); [|lia]. cbn. now symmetry.
    + assert (A : at_step b i stop step (Datatypes.S k) = at_step b (i + step) stop step k).
      { unfold at_step. replace (i + Z.of_nat (Datatypes.S k) * step)%Z with (i + step + Z.of_nat k * step)%Z by lia. reflexivity. }
      rewrite A. destruct (Z.lt_ge_cases (i + step) (2 ^ 63)) as [W|W].
      * rewrite wrap64_small by lia. apply IH; lia.
      * rewrite slice_loop_neg by (apply wrap64_big; lia). rewrite OUT by lia. now destruct k.
Qed.
Lemma slice_down b stop step : (- 2 ^ 63 <= step < 0)%Z -> (Z.of_nat (List.length b) < 2 ^ 63)%Z -> (-1 <= stop)%Z ->
  forall fuel i, (-1 <= i < Z.of_nat (List.length b))%Z -> (i < Z.of_nat fuel)%Z -> forall k, nth_error (slice_loop fuel b i stop step) k = at_step b i stop step k.
Proof.
  intros S L ST. assert (OUT : forall i k, (i <= stop)%Z -> at_step b i stop step k = None).
  { intros i k H. unfold at_step. destruct (Z.ltb_spec 0 step); [lia|]. destruct (Z.ltb_spec stop (i + Z.of_nat k * step)); [nia|]. now rewrite andb_false_r. }
  induction fuel as [|fuel IH]; intros i I F k.
  - rewrite OUT by lia. now destruct k.
  - cbn [slice_loop]. rewrite Z.geb_leb. destruct (Z.leb_spec 0 step); [lia|]. destruct (Z.eqb_spec step 0); [lia|]. rewrite orb_false_r, Z.gtb_ltb.
    destruct (Z.ltb_spec stop i) as [G|G]; cbn [negb]; [|rewrite OUT by lia; now destruct k].
    destruct (Z.ltb_spec i 0); [lia|]. destruct (nth_error b (Z.to_nat i)) as [x|] eqn:X; [|apply nth_error_None in X; lia].
    destruct k as [|k]; cbn [nth_error].
    + unfold at_step. rewrite Z.mul_0_l, Z.add_0_r. destruct (Z.ltb_spec 0 step); [lia|]. destruct (Z.ltb_spec step 0); [|lia]. destruct (Z.ltb_spec stop i); [|lia]. cbn. now symmetry.
    + assert (A : at_step b i stop step (Datatypes.S k) = at_step b (i + step) stop step k).
      { unfold at_step. replace (i + Z.of_nat (Datatypes.S k) * step)%Z with (i + step + Z.of_nat k * step)%Z by lia. reflexivity. }
      rewrite A, wrap64_small by lia. destruct (Z.lt_ge_cases (i + step) (-1)) as [W|W].
      * rewrite slice_loop_neg by lia. rewrite OUT by lia. now destruct k.
      * apply IH; lia.
Qed.
Lemma index_arg_parse o z : index_arg o z -> exists p, parse_signed o = Some p /\
  match p, z with
  | None, None => True
  | Some (false, n), Some v => v = Z.of_N n /\ (v < 2 ^ 63)%Z
  | Some (true, n), Some v => v = (- Z.of_N n)%Z /\ (v <> 0)%Z /\ (- 2 ^ 63 < v)%Z
  | _, _ => False
  end.
Proof.
  unfold index_arg, parse_signed. destruct o as [[|c t]|]; [intros ->; now exists None| |intros ->; now exists None].
  intros (v & -> & SN & A & NZ). destruct SN as [(n & H & ->)|(r & n & E & H & ->)].
  - assert (P : parse_usize (c :: t) = Some n) by (apply usize_iff; split; [assumption|lia]).
    assert (C : c <> 45).
    { intros ->. destruct H as [[_ (ds & F & _)]|(r & E & _)]; [|discriminate]. inversion F as [|? d ? ? D]; subst. apply digit_of_iff in D; [|lia]. discriminate. }
    assert (forall (X Y : option (option (bool * N))), match c with 45 => X | _ => Y end = Y) as EQ.
    { intros X Y. destruct c as [|p]; [reflexivity|]. do 6 (destruct p as [p|p|]; try reflexivity). now destruct C. }
    exists (Some (false, n)). split; [|split; lia]. specialize (EQ (match parse_usize t with Some v => Some (Some (true, v)) | None => None end) (match parse_usize (c :: t) with Some v => Some (Some (false, v)) | None => None end)).
    rewrite P in *. exact EQ.
  - injection E as -> ->. assert (P : parse_usize r = Some n) by (apply usize_iff; split; [assumption|lia]). rewrite P. exists (Some (true, n)). split; [reflexivity|].
    split; [reflexivity|]. split; [now apply NZ|lia].
Qed.
Lemma step_arg_parse o z : step_arg o z -> match o with None => Some 1%Z | Some t => parse_isize t end = Some z /\ (- 2 ^ 63 <= z < 2 ^ 63)%Z.
Proof.
  unfold step_arg. destruct o as [t|]; [|intros ->; split; [reflexivity|lia]]. intros [(n & H & L & ->)|(r & n & -> & [NE (ds & F & V)] & L & ->)].
  - split; [|lia]. unfold parse_isize. assert (P : parse_radix (2 ^ 63 - 1) 10 t = Some n) by (apply parse_radix_iff; [lia..|]; split; [assumption|lia]).
    destruct t as [|c t]; [now rewrite P|]. assert (C : c <> 45).
    { intros ->. destruct H as [[_ (ds & F & _)]|(r & E & _)]; [|discriminate]. inversion F as [|? d ? ? D]; subst. apply digit_of_iff in D; [|lia]. discriminate. }
    assert (forall (X Y : option Z), match c with 45 => X | _ => Y end = Y) as EQ.
    { intros X Y. destruct c as [|p]; [reflexivity|]. do 6 (destruct p as [p|p|]; try reflexivity). now destruct C. }
    rewrite P. apply EQ.
  - split; [|lia]. unfold parse_isize. destruct r as [|c r]; [contradiction|].
    assert (parse_digits (2 ^ 63) 10 0 (c :: r) = Some n) as ->; [|reflexivity]. apply parse_digits_iff; [lia..|]. exists ds. auto.
Qed.
Lemma bound_py len step p z d sb eb : (0 <= len < 2 ^ 63)%Z ->
  sb = (if step >=? 0 then 0 else len - 1)%Z -> eb = (if step >=? 0 then len else -1)%Z ->
  match p, z with
  | None, None => True
  | Some (false, n), Some v => v = Z.of_N n /\ (v < 2 ^ 63)%Z
  | Some (true, n), Some v => v = (- Z.of_N n)%Z /\ (v <> 0)%Z /\ (- 2 ^ 63 < v)%Z
  | _, _ => False
  end -> (step <> 0)%Z -> to_bound len sb eb p d = py_bound len step z d.
Proof.
  intros L -> -> M S. unfold to_bound, py_bound, clampz. rewrite Z.geb_leb.
  destruct p as [[[|] n]|], z as [v|]; try contradiction; [destruct M as (-> & NZ & B)|destruct M as [-> B]|reflexivity].
  - rewrite (wrap64_small (Z.of_N n)), wrap64_small by lia. destruct (Z.ltb_spec (- Z.of_N n) 0); [|lia].
    destruct (Z.leb_spec 0 step), (Z.ltb_spec 0 step); try lia.
  - rewrite wrap64_small by lia. destruct (Z.ltb_spec (Z.of_N n) 0); [lia|].
    destruct (Z.leb_spec 0 step), (Z.ltb_spec 0 step); try lia.
Qed.
Lemma py_bound_range len step z d : (0 <= len)%Z -> (step <> 0)%Z -> (if 0 <? step then 0 <= d <= len else -1 <= d <= len - 1)%Z ->
  (if 0 <? step then 0 <= py_bound len step z d <= len else -1 <= py_bound len step z d <= len - 1)%Z.
Proof. intros L S D. unfold py_bound. destruct z as [v|]; [|exact D]. destruct (Z.ltb_spec 0 step); lia. Qed.
Lemma slice_spec b args start stop step : lenN b < 2 ^ 63 ->
  index_arg (nth_error args 0) start -> index_arg (nth_error args 1) stop -> step_arg (nth_error args 2) step ->
  exists r, slice b args = Some r /\ py_slice b start stop step r.
Proof.
  intros L A1 A2 A3. apply index_arg_parse in A1 as (p1 & P1 & M1). apply index_arg_parse in A2 as (p2 & P2 & M2). apply step_arg_parse in A3 as [P3 R3].
  unfold slice. rewrite P1, P2, P3. eexists. split; [reflexivity|].
  assert (LB : (Z.of_N (lenN b) < 2 ^ 63)%Z) by lia. assert (LN : Z.of_N (lenN b) = Z.of_nat (List.length b)) by (unfold lenN; lia).
  unfold py_slice. intros k. destruct (Z.eq_dec step 0) as [->|NZ].
  - cbn [slice_loop]. rewrite orb_true_r. cbn. now destruct k.
  - set (len := Z.of_N (lenN b)) in *. set (sb := (if (step >=? 0)%Z then 0%Z else (len - 1)%Z)). set (eb := (if (step >=? 0)%Z then len else (-1)%Z)).
    rewrite (bound_py len step p1 start sb sb eb), (bound_py len step p2 stop eb sb eb) by (auto; lia).
    assert (sb = if (0 <? step)%Z then 0%Z else (len - 1)%Z) as -> by (unfold sb; rewrite Z.geb_leb; destruct (Z.leb_spec 0 step), (Z.ltb_spec 0 step); lia).
    assert (eb = if (0 <? step)%Z then len else (-1)%Z) as -> by (unfold eb; rewrite Z.geb_leb; destruct (Z.leb_spec 0 step), (Z.ltb_spec 0 step); lia).
    pose proof (py_bound_range len step start (if (0 <? step)%Z then 0%Z else (len - 1)%Z)) as RL. pose proof (py_bound_range len step stop (if (0 <? step)%Z then len else (-1)%Z)) as RH.
    set (lo := py_bound len step start _) in *. set (hi := py_bound len step stop _) in *. clearbody lo hi.
    destruct (Z.ltb_spec 0 step) as [G|G].
    + rewrite slice_up by lia. unfold at_step. destruct (Z.ltb_spec 0 step); [|lia]. reflexivity.
    + rewrite slice_down by lia. unfold at_step. destruct (Z.ltb_spec 0 step); [lia|]. reflexivity.
Qed.
Lemma nth_error_ext {A} (a : list A) : forall b, (forall k, nth_error a k = nth_error b k) -> a = b.
Proof.
  induction a as [|x a IH]; intros [|y b] H; [reflexivity|specialize (H 0%nat); discriminate..|].
  pose proof (H 0%nat) as H0. injection H0 as ->. f_equal. apply IH. intros k. apply (H (S k)).
Qed.
Lemma py_slice_fun b start stop step r1 r2 : py_slice b start stop step r1 -> py_slice b start stop step r2 -> r1 = r2.
Proof. intros H1 H2. apply nth_error_ext. intros k. rewrite (H1 k), (H2 k). reflexivity. Qed.
