(** Bytes, sizes and big-endian integers.

    A byte is an [N] below 256, a byte string is a [list N].  This file holds no
    code of the repository except where a comment cites it; it is the shared
    vocabulary of the model. *)
From Coq Require Export List NArith ZArith Lia Bool.
From Coq Require Export ZifyBool ZifyNat ZifyN.
Export ListNotations.
Open Scope N_scope.
Ltac Zify.zify_post_hook ::= Z.div_mod_to_equations.
Global Arguments N.add : simpl never.
Global Arguments N.sub : simpl never.
Global Arguments N.mul : simpl never.
Global Arguments N.div : simpl never.
Global Arguments N.modulo : simpl never.
Global Arguments N.pow : simpl never.
Global Arguments N.eqb : simpl never.
Global Arguments N.leb : simpl never.
Global Arguments N.ltb : simpl never.
Global Arguments N.to_nat : simpl never.
Global Arguments N.of_nat : simpl never.

Notation bytes := (list N) (only parsing).

(** Outcome of a Rust function: a value, an [Err], a panic (including slicing
    out of bounds), or a model recursion that ran out of fuel (excluded by every
    theorem). *)
Inductive outcome (E A : Type) : Type :=
| Ok (a : A)
| Err (e : E)
| Panic
| OutOfFuel.
Arguments Ok {E A} a.
Arguments Err {E A} e.
Arguments Panic {E A}.
Arguments OutOfFuel {E A}.

Definition obind {E A B} (x : outcome E A) (f : A -> outcome E B) : outcome E B :=
  match x with Ok a => f a | Err e => Err e | Panic => Panic | OutOfFuel => OutOfFuel end.

Definition is_ok {E A} (x : outcome E A) : bool :=
  match x with Ok _ => true | _ => false end.

Definition byte_ok (b : N) : Prop := b < 256.
Definition bytes_ok (l : bytes) : Prop := Forall byte_ok l.

Definition lenN {A} (l : list A) : N := N.of_nat (length l).
Definition takeN {A} (n : N) (l : list A) : list A := firstn (N.to_nat n) l.
Definition dropN {A} (n : N) (l : list A) : list A := skipn (N.to_nat n) l.
(** [l[a..b]] when [a <= b <= len]. *)
Definition sliceN {A} (a b : N) (l : list A) : list A := takeN (b - a) (dropN a l).

(** Big-endian integers on [k] bytes (std [to_be_bytes]/[from_be_bytes];
    [crates/byte-fmt/src/endian_types.rs] U16/U32/U64). *)
Fixpoint be_encode (k : nat) (n : N) : bytes :=
  match k with
  | O => []
  | S k' => be_encode k' (n / 256) ++ [n mod 256]
  end.

Definition be_decode (l : bytes) : N := fold_left (fun acc b => acc * 256 + b) l 0.

(** Lexicographic comparison of byte strings (the order of Rust slices and of
    LMDB keys). *)
Fixpoint lex (a b : bytes) : comparison :=
  match a, b with
  | [], [] => Eq
  | [], _ :: _ => Lt
  | _ :: _, [] => Gt
  | x :: a', y :: b' => match N.compare x y with Eq => lex a' b' | c => c end
  end.

Fixpoint beqb (a b : bytes) : bool :=
  match a, b with
  | [], [] => true
  | x :: a', y :: b' => (x =? y) && beqb a' b'
  | _, _ => false
  end.

(** [slice::starts_with]. *)
Fixpoint starts_with (l p : bytes) {struct p} : bool :=
  match p, l with
  | [], _ => true
  | x :: p', y :: l' => (x =? y) && starts_with l' p'
  | _ :: _, [] => false
  end.

(** ** Lemmas *)

Lemma lenN_nil {A} : lenN (@nil A) = 0. Proof. reflexivity. Qed.
Lemma lenN_cons {A} (x : A) l : lenN (x :: l) = 1 + lenN l.
Proof. unfold lenN; cbn [length]; lia. Qed.
Lemma lenN_app {A} (a b : list A) : lenN (a ++ b) = lenN a + lenN b.
Proof. unfold lenN; rewrite app_length; lia. Qed.
Lemma lenN_0_inv {A} (l : list A) : lenN l = 0 -> l = [].
Proof. destruct l; [reflexivity|unfold lenN; cbn [length]; lia]. Qed.
Lemma lenN_repeat {A} (x : A) n : lenN (repeat x n) = N.of_nat n.
Proof. unfold lenN; rewrite repeat_length; reflexivity. Qed.
Lemma lenN_map {A B} (f : A -> B) l : lenN (map f l) = lenN l.
Proof. unfold lenN; rewrite map_length; reflexivity. Qed.

Lemma takeN_app_exact {A} n (a b : list A) : lenN a = n -> takeN n (a ++ b) = a.
Proof.
  intros H; unfold takeN; subst n; unfold lenN; rewrite Nat2N.id.
  rewrite firstn_app, Nat.sub_diag, firstn_all; cbn [firstn]; now rewrite app_nil_r.
Qed.
Lemma dropN_app_exact {A} n (a b : list A) : lenN a = n -> dropN n (a ++ b) = b.
Proof.
  intros H; unfold dropN; subst n; unfold lenN; rewrite Nat2N.id.
  rewrite skipn_app, Nat.sub_diag, skipn_all; reflexivity.
Qed.
Lemma takeN_all {A} n (a : list A) : lenN a <= n -> takeN n a = a.
Proof. intros H; unfold takeN; apply firstn_all2; unfold lenN in H; lia. Qed.
Lemma dropN_all {A} n (a : list A) : lenN a <= n -> dropN n a = [].
Proof. intros H; unfold dropN; apply skipn_all2; unfold lenN in H; lia. Qed.
Lemma takeN_0 {A} (a : list A) : takeN 0 a = [].
Proof. reflexivity. Qed.
Lemma dropN_0 {A} (a : list A) : dropN 0 a = a.
Proof. reflexivity. Qed.
Lemma takeN_dropN {A} n (l : list A) : takeN n l ++ dropN n l = l.
Proof. unfold takeN, dropN; apply firstn_skipn. Qed.
Lemma lenN_takeN {A} n (l : list A) : lenN (takeN n l) = N.min n (lenN l).
Proof. unfold lenN, takeN; rewrite firstn_length; lia. Qed.
Lemma lenN_dropN {A} n (l : list A) : lenN (dropN n l) = lenN l - n.
Proof. unfold lenN, dropN; rewrite skipn_length; lia. Qed.
Lemma takeN_app_le {A} n (a b : list A) : n <= lenN a -> takeN n (a ++ b) = takeN n a.
Proof.
  intros H; unfold takeN, lenN in *; rewrite firstn_app.
  replace (N.to_nat n - length a)%nat with 0%nat by lia; cbn [firstn]; apply app_nil_r.
Qed.
Lemma dropN_app_le {A} n (a b : list A) : n <= lenN a -> dropN n (a ++ b) = dropN n a ++ b.
Proof.
  intros H; unfold dropN, lenN in *; rewrite skipn_app.
  replace (N.to_nat n - length a)%nat with 0%nat by lia; reflexivity.
Qed.
Lemma takeN_app_ge {A} n (a b : list A) : lenN a <= n -> takeN n (a ++ b) = a ++ takeN (n - lenN a) b.
Proof.
  intros H; unfold takeN, lenN in *; rewrite firstn_app.
  rewrite firstn_all2 by lia. do 2 f_equal; lia.
Qed.
Lemma dropN_app_ge {A} n (a b : list A) : lenN a <= n -> dropN n (a ++ b) = dropN (n - lenN a) b.
Proof.
  intros H; unfold dropN, lenN in *; rewrite skipn_app.
  rewrite skipn_all2 by lia. cbn [app]. f_equal; lia.
Qed.
Lemma dropN_dropN {A} n m (l : list A) : dropN n (dropN m l) = dropN (m + n) l.
Proof.
  unfold dropN. rewrite N2Nat.inj_add.
  generalize (N.to_nat n) as n', (N.to_nat m) as m'. clear.
  intros n' m'; revert l; induction m' as [|m' IH]; intros l; [reflexivity|].
  destruct l as [|x l]; cbn [skipn Nat.add]; [now rewrite !skipn_nil|apply IH].
Qed.
Lemma takeN_takeN {A} n m (l : list A) : takeN n (takeN m l) = takeN (N.min n m) l.
Proof. unfold takeN; rewrite firstn_firstn; f_equal; lia. Qed.
Lemma dropN_takeN {A} n m (l : list A) : dropN n (takeN m l) = takeN (m - n) (dropN n l).
Proof. unfold takeN, dropN; rewrite skipn_firstn_comm; f_equal; lia. Qed.
Lemma takeN_nil {A} n : takeN n (@nil A) = [].
Proof. unfold takeN; apply firstn_nil. Qed.
Lemma dropN_nil {A} n : dropN n (@nil A) = [].
Proof. unfold dropN; apply skipn_nil. Qed.
Lemma takeN_cons {A} n (x : A) l : n <> 0 -> takeN n (x :: l) = x :: takeN (n - 1) l.
Proof.
  intros H; unfold takeN. replace (N.to_nat n) with (S (N.to_nat (n - 1))) by lia. reflexivity.
Qed.
Lemma dropN_cons {A} n (x : A) l : n <> 0 -> dropN n (x :: l) = dropN (n - 1) l.
Proof.
  intros H; unfold dropN. replace (N.to_nat n) with (S (N.to_nat (n - 1))) by lia. reflexivity.
Qed.
Lemma lenN_sliceN {A} a b (l : list A) : a <= b -> b <= lenN l -> lenN (sliceN a b l) = b - a.
Proof. intros H1 H2; unfold sliceN; rewrite lenN_takeN, lenN_dropN; lia. Qed.
Lemma takeN_split {A} n m (l : list A) : takeN (n + m) l = takeN n l ++ takeN m (dropN n l).
Proof.
  rewrite <- (takeN_dropN n l) at 1.
  destruct (N.le_gt_cases n (lenN l)) as [H|H].
  - rewrite takeN_app_ge; rewrite lenN_takeN; [|lia]. repeat f_equal; lia.
  - rewrite (dropN_all n l) by lia. rewrite app_nil_r, takeN_nil, app_nil_r.
    rewrite takeN_takeN. f_equal; lia.
Qed.

Lemma bytes_ok_app a b : bytes_ok (a ++ b) <-> bytes_ok a /\ bytes_ok b.
Proof. apply Forall_app. Qed.
Lemma bytes_ok_takeN n l : bytes_ok l -> bytes_ok (takeN n l).
Proof.
  intros H; rewrite <- (takeN_dropN n l) in H; now apply bytes_ok_app in H.
Qed.
Lemma bytes_ok_dropN n l : bytes_ok l -> bytes_ok (dropN n l).
Proof.
  intros H; rewrite <- (takeN_dropN n l) in H; now apply bytes_ok_app in H.
Qed.
Lemma bytes_ok_repeat b n : b < 256 -> bytes_ok (repeat b n).
Proof. intros H; apply Forall_forall; intros x Hx; apply repeat_spec in Hx; subst; exact H. Qed.

Lemma be_encode_length k n : length (be_encode k n) = k.
Proof. revert n; induction k as [|k IH]; intros n; cbn [be_encode]; [reflexivity|]. rewrite app_length, IH; cbn [length]; lia. Qed.
Lemma lenN_be_encode k n : lenN (be_encode k n) = N.of_nat k.
Proof. unfold lenN; now rewrite be_encode_length. Qed.
Lemma be_encode_ok k n : bytes_ok (be_encode k n).
Proof.
  revert n; induction k as [|k IH]; intros n; cbn [be_encode]; [constructor|].
  apply bytes_ok_app; split; [apply IH|]. constructor; [|constructor].
  unfold byte_ok; apply N.mod_upper_bound; lia.
Qed.
Lemma be_decode_app a b : be_decode (a ++ [b]) = be_decode a * 256 + b.
Proof. unfold be_decode; rewrite fold_left_app; reflexivity. Qed.
Lemma pow256_S k : 256 ^ N.of_nat (S k) = 256 * 256 ^ N.of_nat k.
Proof. rewrite Nat2N.inj_succ, N.pow_succ_r by lia; reflexivity. Qed.
Lemma be_decode_encode k n : n < 256 ^ N.of_nat k -> be_decode (be_encode k n) = n.
Proof.
  revert n; induction k as [|k IH]; intros n Hn; cbn [be_encode].
  - change (256 ^ N.of_nat 0) with 1 in Hn. unfold be_decode; cbn [fold_left]; lia.
  - rewrite pow256_S in Hn. rewrite be_decode_app, IH.
    + rewrite N.mul_comm. symmetry. apply N.div_mod; lia.
    + apply N.div_lt_upper_bound; lia.
Qed.
Lemma be_encode_decode l : bytes_ok l -> be_encode (length l) (be_decode l) = l.
Proof.
  induction l as [|x l IH] using rev_ind; intros H; [reflexivity|].
  apply bytes_ok_app in H as [Hl Hx]. inversion Hx as [|? ? Hx' _]; subst.
  unfold byte_ok in Hx'.
  rewrite app_length; cbn [length]. rewrite Nat.add_1_r; cbn [be_encode].
  rewrite be_decode_app.
  replace ((be_decode l * 256 + x) / 256) with (be_decode l) by (apply N.div_unique with x; lia).
  replace ((be_decode l * 256 + x) mod 256) with x by (apply N.mod_unique with (be_decode l); lia).
  now rewrite IH.
Qed.
Lemma be_decode_bound l : bytes_ok l -> be_decode l < 256 ^ lenN l.
Proof.
  induction l as [|x l IH] using rev_ind; intros H; [reflexivity|].
  apply bytes_ok_app in H as [Hl Hx]. inversion Hx as [|? ? Hx' _]; subst.
  unfold byte_ok in Hx'. specialize (IH Hl).
  rewrite be_decode_app. unfold lenN in *. rewrite app_length; cbn [length].
  rewrite Nat.add_1_r, pow256_S. lia.
Qed.

Lemma beqb_eq a b : beqb a b = true <-> a = b.
Proof.
  revert b; induction a as [|x a IH]; intros [|y b]; cbn [beqb]; try (split; congruence).
  rewrite andb_true_iff, N.eqb_eq, IH. split; [intros [-> ->]; reflexivity|intros H; inversion H; auto].
Qed.
Lemma beqb_refl a : beqb a a = true. Proof. now apply beqb_eq. Qed.
Lemma beqb_neq a b : beqb a b = false <-> a <> b.
Proof. rewrite <- beqb_eq. destruct (beqb a b); split; congruence. Qed.

Lemma starts_with_iff l p : starts_with l p = true <-> exists r, l = p ++ r.
Proof.
  revert l; induction p as [|x p IH]; intros l; cbn [starts_with].
  - split; [exists l; reflexivity|reflexivity].
  - destruct l as [|y l].
    + split; [discriminate|intros [r Hr]; discriminate].
    + rewrite andb_true_iff, N.eqb_eq, IH. split.
      * intros [-> [r ->]]; exists r; reflexivity.
      * intros [r Hr]; cbn [app] in Hr; inversion Hr; subst; split; [reflexivity|exists r; reflexivity].
Qed.

Lemma lex_eq a b : lex a b = Eq <-> a = b.
Proof.
  revert b; induction a as [|x a IH]; intros [|y b]; cbn [lex]; try (split; congruence).
  destruct (N.compare_spec x y) as [H|H|H].
  - subst; rewrite IH; split; congruence.
  - split; [discriminate|intros E; inversion E; lia].
  - split; [discriminate|intros E; inversion E; lia].
Qed.
Lemma lex_refl a : lex a a = Eq. Proof. now apply lex_eq. Qed.
Lemma lex_antisym a b : lex b a = CompOpp (lex a b).
Proof.
  revert b; induction a as [|x a IH]; intros [|y b]; cbn [lex]; try reflexivity.
  rewrite (N.compare_antisym x y). destruct (N.compare_spec x y); cbn [CompOpp]; auto.
Qed.
Lemma lex_trans_lt a b c : lex a b = Lt -> lex b c = Lt -> lex a c = Lt.
Proof.
  revert b c; induction a as [|x a IH]; intros [|y b] [|z c]; cbn [lex]; try discriminate; try reflexivity.
  destruct (N.compare_spec x y) as [H|H|H], (N.compare_spec y z) as [H'|H'|H']; try discriminate;
    intros H1 H2; subst.
  - rewrite N.compare_refl. eapply IH; eauto.
  - replace (y ?= z) with Lt by (symmetry; now apply N.compare_lt_iff). reflexivity.
  - replace (x ?= z) with Lt by (symmetry; now apply N.compare_lt_iff). reflexivity.
  - replace (x ?= z) with Lt by (symmetry; apply N.compare_lt_iff; lia). reflexivity.
Qed.
Lemma lex_app_same p a b : lex (p ++ a) (p ++ b) = lex a b.
Proof. induction p as [|x p IH]; cbn [app lex]; [reflexivity|]. now rewrite N.compare_refl. Qed.
Lemma lex_app_len a1 a2 b1 b2 : length a1 = length b1 ->
  lex (a1 ++ a2) (b1 ++ b2) = match lex a1 b1 with Eq => lex a2 b2 | c => c end.
Proof.
  revert b1; induction a1 as [|x a1 IH]; intros [|y b1]; cbn [length app lex]; try discriminate; auto.
  intros H; injection H as H. destruct (x ?= y); auto.
Qed.

(** Equal-length lexicographic order is numeric order of the big-endian value. *)
Lemma be_decode_app2 a b : be_decode (a ++ b) = be_decode a * 256 ^ lenN b + be_decode b.
Proof.
  induction b as [|x b IH] using rev_ind.
  - rewrite app_nil_r. change (256 ^ lenN []) with 1. unfold be_decode at 3; cbn [fold_left]. lia.
  - rewrite app_assoc, !be_decode_app, IH. unfold lenN. rewrite app_length; cbn [length].
    rewrite Nat.add_1_r, pow256_S. lia.
Qed.
Lemma be_decode_cons x b : be_decode (x :: b) = x * 256 ^ lenN b + be_decode b.
Proof. change (x :: b) with ([x] ++ b). rewrite be_decode_app2. f_equal. Qed.
Lemma lex_be_decode a b : length a = length b -> bytes_ok a -> bytes_ok b ->
  lex a b = (be_decode a ?= be_decode b).
Proof.
  revert b; induction a as [|x a IH]; intros [|y b] Hl Ha Hb; cbn [length] in Hl; try discriminate.
  - reflexivity.
  - injection Hl as Hl. inversion Ha as [|? ? Hx Ha']; inversion Hb as [|? ? Hy Hb']; subst.
    cbn [lex]. rewrite !be_decode_cons. rewrite (IH b Hl Ha' Hb').
    pose proof (be_decode_bound a Ha') as B1. pose proof (be_decode_bound b Hb') as B2.
    unfold lenN in *. rewrite Hl in *. set (P := 256 ^ N.of_nat (length b)) in *.
    destruct (N.compare_spec x y) as [H|H|H].
    + subst. symmetry. destruct (N.compare_spec (be_decode a) (be_decode b)) as [H|H|H];
        [apply N.compare_eq_iff|apply N.compare_lt_iff|apply N.compare_gt_iff]; lia.
    + symmetry; apply N.compare_lt_iff. nia.
    + symmetry; apply N.compare_gt_iff. nia.
Qed.
Lemma be_encode_inj k n m : n < 256 ^ N.of_nat k -> m < 256 ^ N.of_nat k ->
  be_encode k n = be_encode k m -> n = m.
Proof. intros Hn Hm H. rewrite <- (be_decode_encode k n Hn), H. now apply be_decode_encode. Qed.
Lemma be_decode_inj a b : length a = length b -> bytes_ok a -> bytes_ok b ->
  be_decode a = be_decode b -> a = b.
Proof. intros Hl Ha Hb H. rewrite <- (be_encode_decode a Ha), <- (be_encode_decode b Hb), Hl, H. reflexivity. Qed.

(** Splitting concatenations at a known length. *)
Lemma app_eq_len {A} (a b c d : list A) : length a = length c -> a ++ b = c ++ d -> a = c /\ b = d.
Proof.
  revert c; induction a as [|x a IH]; intros [|y c] Hl H; cbn [length] in Hl; try discriminate.
  - auto.
  - cbn [app] in H; inversion H; subst. injection Hl as Hl. destruct (IH c Hl H2); subst; auto.
Qed.
Lemma app_eq_lenN {A} (a b c d : list A) : lenN a = lenN c -> a ++ b = c ++ d -> a = c /\ b = d.
Proof. intros H; apply app_eq_len. unfold lenN in H; lia. Qed.
