(** Proofs about encrypted keys. *)
From Verif Require Import Bytes ModelPkt ModelAbe ModelFmt ModelFn SpecFmt ProofFmt ModelKey SpecKey.

(** ** Splitting text *)
Lemma split_ne c t : split_on c t <> [].
Proof. destruct t as [|x r]; cbn [split_on]; [discriminate|]. destruct (x =? c); [discriminate|]. destruct (split_on c r); discriminate. Qed.
Lemma split_cons c a r : without c a -> split_on c (a ++ c :: r) = a :: split_on c r.
Proof.
  induction a as [|x a IH]; intros W; cbn [app split_on].
  - now rewrite N.eqb_refl.
  - destruct (N.eqb_spec x c) as [->|N]; [exfalso; apply W; now left|]. rewrite IH; [reflexivity|]. intros H. apply W. now right.
Qed.
Lemma split_one c a : without c a -> split_on c a = [a].
Proof.
  induction a as [|x a IH]; intros W; cbn [split_on]; [reflexivity|]. destruct (N.eqb_spec x c) as [->|N]; [exfalso; apply W; now left|].
  rewrite IH; [reflexivity|]. intros H. apply W. now right.
Qed.
Lemma join_split c t : join c (split_on c t) = t.
Proof.
  induction t as [|x t IH]; [reflexivity|]. cbn [split_on]. pose proof (split_ne c t) as NE. destruct (N.eqb_spec x c) as [->|N].
  - destruct (split_on c t) as [|h l]; [congruence|]. cbn [join app] in *. now rewrite IH.
  - destruct (split_on c t) as [|h l]; [congruence|]. destruct l as [|g l]; cbn [join app] in *; now rewrite IH.
Qed.
Lemma split_without c t : Forall (without c) (split_on c t).
Proof.
  induction t as [|x t IH]; cbn [split_on]; [constructor; [intros []|constructor]|]. destruct (N.eqb_spec x c) as [->|N].
  - constructor; [intros []|exact IH].
  - destruct IH as [|h l H IH].
    + constructor; [|constructor]. intros [E|[]]. congruence.
    + constructor; [|exact IH]. intros [E|E]; [congruence|contradiction].
Qed.
Lemma split_join c ts : ts <> [] -> Forall (without c) ts -> split_on c (join c ts) = ts.
Proof.
  intros NE F. induction F as [|t ts H F IH]; [congruence|]. destruct ts as [|u ts]; cbn [join]; [now apply split_one|]. rewrite split_cons by exact H. f_equal. now apply IH.
Qed.
Lemma split_once_iff c t a b : split_once c t = Some (a, b) <-> without c a /\ t = a ++ c :: b.
Proof.
  revert a b. induction t as [|x t IH]; intros a b; cbn [split_once].
  - split; [discriminate|]. intros [_ E]. destruct a; discriminate.
  - destruct (N.eqb_spec x c) as [->|N].
    + split.
      * intros E. injection E as <- <-. split; [intros []|reflexivity].
      * intros [W E]. destruct a as [|y a]; [cbn in E; congruence|]. cbn in E. injection E as <- _. exfalso. apply W. now left.
    + destruct (split_once c t) as [[a' b']|] eqn:S.
      * split.
        -- intros E. injection E as <- <-. destruct (proj1 (IH a' b') eq_refl) as [W ->]. split; [|reflexivity]. intros [H|H]; [congruence|contradiction].
        -- intros [W E]. destruct a as [|y a]; [cbn in E; congruence|]. cbn in E. injection E as <- E. assert (W' : without c a) by (intros H; apply W; now right).
           pose proof (proj2 (IH a b) (conj W' E)). congruence.
      * split; [discriminate|]. intros [W E]. destruct a as [|y a]; [cbn in E; congruence|]. cbn in E. injection E as <- E. assert (W' : without c a) by (intros H; apply W; now right).
        pose proof (proj2 (IH a b) (conj W' E)). congruence.
Qed.
Lemma split_once_none c t : split_once c t = None <-> without c t.
Proof.
  destruct (split_once c t) as [[a b]|] eqn:S.
  - apply split_once_iff in S as [_ ->]. split; [discriminate|]. intros W. exfalso. apply W. apply in_app_iff. right. now left.
  - split; [|reflexivity]. intros _ H. apply in_split in H as (a & b & E). destruct (in_dec N.eq_dec c a) as [I|I].
    + clear -S I E. revert a b E I S. induction t as [|x t IH]; intros a b E I S; [destruct a; discriminate|]. cbn [split_once] in S. destruct (N.eqb_spec x c) as [->|N]; [discriminate|].
      destruct (split_once c t) as [[? ?]|] eqn:S'; [discriminate|]. destruct a as [|y a]; [destruct I|]. cbn in E. injection E as <- E. destruct I as [I|I]; [congruence|]. exact (IH a b E I eq_refl).
    + pose proof (proj2 (split_once_iff c t a b) (conj I E)). congruence.
Qed.
Lemma rsplit_last c a b : without c b -> rsplit_once c (a ++ c :: b) = Some (a, b).
Proof.
  intros W. assert (NB : rsplit_once c b = None).
  { clear a. induction b as [|x b IH]; [reflexivity|]. cbn [rsplit_once]. rewrite IH by (intros H; apply W; now right). destruct (N.eqb_spec x c) as [->|]; [exfalso; apply W; now left|reflexivity]. }
  induction a as [|x a IH]; cbn [app rsplit_once].
  - now rewrite NB, N.eqb_refl.
  - now rewrite IH.
Qed.
Lemma strip_prefix_iff p t r : strip_prefix p t = Some r <-> t = p ++ r.
Proof.
  revert t. induction p as [|x p IH]; intros t; cbn [strip_prefix app]; [split; congruence|]. destruct t as [|y t]; [split; discriminate|].
  destruct (N.eqb_spec x y) as [->|N]; [rewrite IH; split; congruence|split; congruence].
Qed.

(** ** Characters *)
Lemma std_chars d : d < 64 -> let c := b64_char false d in 65 <= c <= 90 \/ 97 <= c <= 122 \/ 48 <= c <= 57 \/ c = 43 \/ c = 47.
Proof.
  intros D. cbv zeta. unfold b64_char. destruct (N.ltb_spec d 26); [lia|]. destruct (N.ltb_spec d 52); [lia|]. destruct (N.ltb_spec d 62); [lia|].
  destruct (N.eqb_spec d 62); cbn; lia.
Qed.
Lemma b64_std_without c b : bytes_ok b -> c = 36 \/ c = 10 -> without c (b64_std b).
Proof.
  intros B C H. unfold b64_std in H. apply in_map_iff in H as (d & E & I). pose proof (b64_digits_ok b B) as F. rewrite Forall_forall in F. pose proof (std_chars d (F d I)) as K. cbv zeta in K. rewrite E in K. lia.
Qed.
Lemma std_decode b : bytes_ok b -> b64_decode_raw false (b64_std b) = Some b.
Proof. intros B. apply decode_raw_iff. now split. Qed.
Lemma std_text b : bytes_ok b -> b64_text false (b64_std b) b.
Proof. intros B. now apply b64_text_iff. Qed.
Lemma digits_without c n : c < 48 \/ 57 < c -> without c (to_string n).
Proof. intros C H. apply to_string_digits in H. lia. Qed.

(** ** Exclusive or *)
Lemma xor_len a b : lenN a = lenN b -> lenN (xor_bytes a b) = lenN a.
Proof. intros L. unfold xor_bytes, lenN in *. rewrite map_length, combine_length. lia. Qed.
Lemma xor_ok a b : bytes_ok a -> bytes_ok b -> bytes_ok (xor_bytes a b).
Proof.
  unfold xor_bytes. intros A. revert b. induction A as [|x a X A IH]; intros b B; [constructor|]. destruct B as [|y b Y B]; cbn [combine map]; constructor; [|now apply IH].
  unfold byte_ok in *. change 256 with (2 ^ 8) in *. destruct (N.eq_dec (N.lxor x y) 0) as [->|NZ]; [reflexivity|].
  apply N.log2_lt_pow2; [lia|]. pose proof (N.log2_lxor x y).
  assert (LX : N.log2 x < 8) by (destruct (N.eq_dec x 0) as [->|]; [reflexivity|apply N.log2_lt_pow2; [lia|exact X]]).
  assert (LY : N.log2 y < 8) by (destruct (N.eq_dec y 0) as [->|]; [reflexivity|apply N.log2_lt_pow2; [lia|exact Y]]). lia.
Qed.
Lemma xor_spec a b : lenN a = lenN b -> is_xor a b (xor_bytes a b).
Proof.
  intros L. split; [now rewrite xor_len|]. split; [now rewrite xor_len|]. unfold xor_bytes. revert b L. induction a as [|x a IH]; intros b L i n.
  - destruct b; [|rewrite lenN_cons in L; change (lenN (@nil N)) with 0 in L; lia]. cbn [combine map]. destruct i; reflexivity.
  - destruct b as [|y b]; [rewrite lenN_cons in L; change (lenN (@nil N)) with 0 in L; lia|]. rewrite !lenN_cons in L. cbn [combine map]. destruct i as [|i]; cbn [nth]; [apply N.lxor_spec|]. apply IH. lia.
Qed.
Lemma xor_cancel a b : lenN a = lenN b -> xor_bytes a (xor_bytes a b) = b.
Proof.
  unfold xor_bytes. revert b. induction a as [|x a IH]; intros b L; (destruct b as [|y b]; [try reflexivity; rewrite lenN_cons in L; change (lenN (@nil N)) with 0 in L; lia|]).
  - rewrite lenN_cons in L. change (lenN (@nil N)) with 0 in L. lia.
  - rewrite !lenN_cons in L. cbn [combine map]. rewrite IH by lia. f_equal. now rewrite <- N.lxor_assoc, N.lxor_nilpotent, N.lxor_0_l.
Qed.

(** ** The options *)
Definition named (os : list bytes) : list (bytes * bytes) := flat_map (fun st => match split_once 61 st with Some x => [x] | None => [] end) os.
Lemma numeral_no_eq t n : numeral 10 t n -> without 61 t.
Proof.
  assert (A : forall t n, number 10 t n -> without 61 t).
  { intros u m (_ & ds & F & _) H. clear m. induction F as [|x d u ds [D E] F IH]; [destruct H|]. destruct H as [->|H]; [|now apply IH].
    assert (C : d = 0 \/ d = 1 \/ d = 2 \/ d = 3 \/ d = 4 \/ d = 5 \/ d = 6 \/ d = 7 \/ d = 8 \/ d = 9) by lia.
    decompose [or] C; subst; destruct E as [E|E]; vm_compute in E; discriminate. }
  intros [H|(r & -> & H)]; [now apply (A t n)|]. intros [E|I]; [discriminate|]. exact (A r n H I).
Qed.
Lemma say_named os v : options_say os v <-> exists ps, (exists r, named os = ps ++ r) /\ Forall2 (fun p q => fst p = fst q /\ numeral 10 (snd p) (snd q)) ps v.
Proof.
  split.
  - induction 1 as [l|t l v W H IH|kind num n l v W NU H IH].
    + exists []. split; [now exists (named l)|constructor].
    + destruct IH as (ps & [r E] & F). exists ps. split; [|exact F]. exists r. unfold named in *. cbn [flat_map]. rewrite (proj2 (split_once_none 61 t) W). exact E.
    + destruct IH as (ps & [r E] & F). exists ((kind, num) :: ps). split; [|constructor; [split; [reflexivity|exact NU]|exact F]]. exists r. unfold named in *. cbn [flat_map].
      rewrite (proj2 (split_once_iff 61 _ kind num) (conj W eq_refl)). cbn [app]. now rewrite E.
  - revert v. induction os as [|t os IH]; intros v (ps & [r E] & F).
    + destruct ps; [|discriminate]. inversion F; subst. constructor.
    + unfold named in E. cbn [flat_map] in E. destruct (split_once 61 t) as [[a b]|] eqn:S.
      * apply split_once_iff in S as [W ->]. destruct ps as [|p ps]; [inversion F; subst; constructor|]. cbn [app] in E. injection E as <- E. inversion F as [|? [k n] ? ? [K NU] F']; subst. cbn [fst snd] in *. subst k.
        apply Say_next; [exact W|exact NU|]. apply IH. exists ps. split; [now exists r|exact F'].
      * apply split_once_none in S. apply Say_skip; [exact S|]. apply IH. exists ps. split; [now exists r|exact F].
Qed.
Definition opt_of (p : bytes * bytes * bytes) : list N :=
  let '((kind, val), expect) := p in if beqb kind expect then match parse_uint 4 val with Some v => [v] | None => [] end else [].
Lemma opt_len p : (List.length (opt_of p) <= 1)%nat.
Proof. destruct p as [[k v] e]. cbn [opt_of]. destruct (beqb k e); [|cbn; lia]. destruct (parse_uint 4 v); cbn; lia. Qed.
Lemma opt_one k v e n : opt_of ((k, v), e) = [n] <-> k = e /\ numeral 10 v n /\ n < 2 ^ 32.
Proof.
  cbn [opt_of]. assert (PU : forall m, parse_uint 4 v = Some m <-> numeral 10 v m /\ m < 2 ^ 32).
  { intros m. unfold parse_uint. rewrite parse_radix_iff by lia. change (umax_of 4) with (2 ^ 32 - 1). intuition lia. }
  destruct (beqb k e) eqn:B.
  - apply beqb_eq in B as ->. destruct (parse_uint 4 v) as [m|].
    + split; [intros H; injection H as <-; split; [reflexivity|now apply PU]|]. intros (_ & H). apply PU in H. congruence.
    + split; [discriminate|]. intros (_ & H). apply PU in H. discriminate.
  - split; [discriminate|]. intros (-> & _). rewrite beqb_refl in B. discriminate.
Qed.
Lemma read_options_iff os co : os <> [] -> Forall (without 44) os ->
  (read_options (join 44 os) = Some co <-> options_say os [(str "m", mem co); (str "t", times co); (str "p", parallelism co)] /\ costs_ok co).
Proof.
  intros NE W. unfold read_options. rewrite split_join by assumption. fold (named os). change (fun '((kind, val), expect) => if beqb kind expect then match parse_uint 4 val with Some v => [v] | None => [] end else []) with opt_of.
  rewrite say_named. destruct co as [m t p]. cbn [mem times parallelism]. unfold costs_ok. cbn [mem times parallelism].
  assert (FW : forall ps, Forall2 (fun p q => fst p = fst q /\ numeral 10 (snd p) (snd q)) ps [(str "m", m); (str "t", t); (str "p", p)] ->
    exists a b d, ps = [(str "m", a); (str "t", b); (str "p", d)] /\ numeral 10 a m /\ numeral 10 b t /\ numeral 10 d p).
  { intros ps F. inversion F as [|[k1 v1] ? ? ? [K1 V1] F1]; subst. inversion F1 as [|[k2 v2] ? ? ? [K2 V2] F2]; subst. inversion F2 as [|[k3 v3] ? ? ? [K3 V3] F3]; subst. inversion F3; subst. cbn [fst snd] in *. subst. exists v1, v2, v3. auto. }
  split.
  - destruct (named os) as [|[k1 v1] [|[k2 v2] [|[k3 v3] r]]]; cbn [combine flat_map].
    + discriminate.
    + rewrite app_nil_r. pose proof (opt_len (k1, v1, str "m")). destruct (opt_of (k1, v1, str "m")) as [|? [|? ?]]; cbn in *; try lia; discriminate.
    + pose proof (opt_len (k1, v1, str "m")). pose proof (opt_len (k2, v2, str "t")). destruct (opt_of (k1, v1, str "m")) as [|? [|? ?]], (opt_of (k2, v2, str "t")) as [|? [|? ?]]; cbn in *; try lia; discriminate.
    + replace (combine r []) with (@nil (bytes * bytes * bytes)) by (destruct r; reflexivity). cbn [flat_map]. rewrite app_nil_r.
      pose proof (opt_len (k1, v1, str "m")). pose proof (opt_len (k2, v2, str "t")). pose proof (opt_len (k3, v3, str "p")).
      destruct (opt_of (k1, v1, str "m")) as [|a [|? ?]] eqn:E1, (opt_of (k2, v2, str "t")) as [|b [|? ?]] eqn:E2, (opt_of (k3, v3, str "p")) as [|d [|? ?]] eqn:E3; cbn [List.length] in *; try lia; cbn [app]; try discriminate.
      intros E. assert (a = m /\ b = t /\ d = p) as (-> & -> & ->) by (split; [|split]; congruence). apply opt_one in E1 as (-> & N1 & L1), E2 as (-> & N2 & L2), E3 as (-> & N3 & L3).
      split; [|auto]. exists [(str "m", v1); (str "t", v2); (str "p", v3)]. split; [now exists r|]. repeat (apply Forall2_cons; [split; [reflexivity|assumption]|]). apply Forall2_nil.
  - intros ((ps & [r E] & F) & L1 & L2 & L3). destruct (FW ps F) as (a & b & d & -> & N1 & N2 & N3). rewrite E. cbn [app combine flat_map].
    replace (combine r []) with (@nil (bytes * bytes * bytes)) by (destruct r; reflexivity). cbn [flat_map].
    rewrite (proj2 (opt_one (str "m") a (str "m") m)), (proj2 (opt_one (str "t") b (str "t") t)), (proj2 (opt_one (str "p") d (str "p") p)) by auto. reflexivity.
Qed.

(** ** Texts *)
Lemma text_without36 t b : bytes_ok b -> b64_text false t b -> without 36 t.
Proof. intros B T. apply b64_text_iff in T; [|exact B]. subst t. apply b64_std_without; [exact B|now left]. Qed.
Lemma join_without c d ts : c <> d -> Forall (without c) ts -> without c (join d ts).
Proof.
  intros N F. induction F as [|t ts H F IH]; [intros []|]. destruct ts as [|u ts]; cbn [join]; [exact H|]. intros I. apply in_app_iff in I as [I|[I|I]]; [contradiction|congruence|contradiction].
Qed.
Lemma without_join c d ts : without c (join d ts) -> Forall (without c) ts.
Proof.
  induction ts as [|t ts IH]; intros W; constructor.
  - intros I. apply W. destruct ts; cbn [join]; [exact I|apply in_app_iff; now left].
  - destruct ts as [|u ts]; [constructor|]. apply IH. intros I. apply W. cbn [join]. apply in_app_iff. right. right. exact I.
Qed.
Lemma decode_iff t co salt x : decode_string t = Some (mkDecoded co salt x) <-> accepted_text co salt x t.
Proof.
  unfold decode_string, accepted_text. split.
  - destruct (strip_prefix key_prefix t) as [items|] eqn:SP; [|discriminate]. apply strip_prefix_iff in SP as ->.
    pose proof (join_split 36 items) as J. pose proof (split_without 36 items) as W. destruct (split_on 36 items) as [|o [|s [|h l]]]; try discriminate.
    destruct (b64_decode_raw false s) as [salt'|] eqn:DS; [|discriminate]. destruct (b64_decode_raw false h) as [x'|] eqn:DH; [|discriminate].
    destruct (N.eqb_spec (lenN x') 32) as [LX|]; [|discriminate]. destruct (read_options o) as [co'|] eqn:RO; [|discriminate]. intros E.
    assert (co' = co /\ salt' = salt /\ x' = x) as (-> & -> & ->) by (split; [|split]; congruence). clear E.
    apply decode_raw_iff in DS as [BS ES], DH as [BH EH]. inversion W as [|? ? W1 _]; subst.
    pose proof (join_split 44 o) as JO. rewrite <- JO in RO, W1. apply read_options_iff in RO as [OS CO]; [|apply split_ne|apply split_without].
    exists (split_on 44 o), (b64_std salt), (b64_std x), (match l with [] => [] | _ => 36 :: join 36 l end).
    split; [rewrite JO; unfold key_prefix; f_equal; cbn [join]; destruct l; rewrite ?app_nil_r; reflexivity|].
    split; [apply split_ne|]. split; [apply split_without|]. split; [now apply (without_join 36 44)|]. split; [exact OS|]. split; [exact CO|].
    split; [now apply std_text|]. split; [exact BS|]. split; [now apply std_text|]. split; [exact BH|]. split; [exact LX|]. destruct l as [|u l]; [now left|right]. now exists (join 36 (u :: l)).
  - intros (os & s & h & rest & -> & NE & W44 & W36 & OS & CO & TS & BS & TH & BH & LX & R).
    change (str "$argon2d$v=19$") with key_prefix. rewrite (proj2 (strip_prefix_iff key_prefix _ _) eq_refl).
    pose proof (text_without36 s salt BS TS) as WS. pose proof (text_without36 h x BH TH) as WH.
    change (str "$") with [36]. cbn [app]. rewrite split_cons by (apply join_without; [discriminate|exact W36]). rewrite split_cons by exact WS.
    assert (exists l, split_on 36 (h ++ rest) = h :: l) as [l ->].
    { destruct R as [->|[r ->]]; [rewrite app_nil_r; exists []; now apply split_one|]. change (str "$" ++ r) with (36 :: r). exists (split_on 36 r). now apply split_cons. }
    apply b64_text_iff in TS as ->; [|exact BS]. apply b64_text_iff in TH as ->; [|exact BH]. fold (b64_std salt). fold (b64_std x). rewrite !std_decode by assumption. rewrite LX. cbn [N.eqb Pos.eqb].
    now rewrite (proj2 (read_options_iff os co NE W44) (conj OS CO)).
Qed.
Definition conf_text (co : Costs) (salt : bytes) : bytes :=
  key_prefix ++ str "m=" ++ to_string (mem co) ++ str ",t=" ++ to_string (times co) ++ str ",p=" ++ to_string (parallelism co) ++ str "$" ++ b64_std salt.
Lemma encoded_conf co salt d : encoded co salt d = conf_text co salt ++ 36 :: b64_std d.
Proof. unfold encoded, conf_text. change (str "$" ++ b64_std d) with (36 :: b64_std d). now rewrite <- !app_assoc. Qed.
Lemma encoded_accepted co salt x : costs_ok co -> bytes_ok salt -> bytes_ok x -> lenN x = 32 -> accepted_text co salt x (encoded co salt x).
Proof.
  intros CO BS BX LX. exists [109 :: 61 :: to_string (mem co); 116 :: 61 :: to_string (times co); 112 :: 61 :: to_string (parallelism co)], (b64_std salt), (b64_std x), [].
  split; [unfold encoded, key_prefix; cbn [join]; rewrite app_nil_r, <- ?app_assoc; cbn [app]; rewrite <- ?app_assoc; reflexivity|].
  assert (W : forall c k n, (c < 48 \/ 57 < c) -> c <> k -> c <> 61 -> without c (k :: 61 :: to_string n)).
  { intros c k n D N1 N2 [E|[E|E]]; [congruence|congruence|]. now apply (digits_without c n). }
  split; [discriminate|]. split; [repeat constructor; apply W; lia|]. split; [repeat constructor; apply W; lia|].
  split.
  { change (options_say [str "m" ++ 61 :: to_string (mem co); str "t" ++ 61 :: to_string (times co); str "p" ++ 61 :: to_string (parallelism co)] [(str "m", mem co); (str "t", times co); (str "p", parallelism co)]).
    repeat (apply Say_next; [intros [E|[]]; discriminate|left; apply to_string_canonical|]). constructor. }
  split; [exact CO|]. split; [now apply std_text|]. split; [exact BS|]. split; [now apply std_text|]. split; [exact BX|]. split; [exact LX|now left].
Qed.
Lemma encoded_text co salt x : bytes_ok salt -> bytes_ok x -> enckey_text co salt x (encoded co salt x).
Proof.
  intros BS BX. exists (to_string (mem co)), (to_string (times co)), (to_string (parallelism co)), (b64_std salt), (b64_std x).
  split; [apply to_string_canonical|]. split; [apply to_string_canonical|]. split; [apply to_string_canonical|]. split; [now apply std_text|]. split; [now apply std_text|]. reflexivity.
Qed.

Section Keys.
Variable c : crypto.
Variable kl : keylib c.
Hypothesis CO : crypto_ok c.
Hypothesis KO : keylib_ok c kl.
Notation "'pk'" := (pubkey_of c).

Lemma pk_ok k : lenN (pk k) = 32 /\ bytes_ok (pk k).
Proof. destruct CO as (_ & H & _), KO as (B & _). auto. Qed.
Lemma try_encrypt_iff k pw co t : try_encrypt c kl k pw co = Some t <-> exists d, argon2d kl pw (pk k) co = Some d /\ t = encoded co (pk k) (xor_bytes d (key_bytes kl k)).
Proof.
  unfold try_encrypt. destruct (argon2d kl pw (pk k) co) as [d|] eqn:A; [|split; [discriminate|intros (d & H & _); discriminate]].
  destruct KO as (_ & AO & KB). destruct (AO _ _ _ _ A) as [LD BD]. destruct (KB k) as (LK & BK & _).
  rewrite encoded_conf, rsplit_last by (apply b64_std_without; [exact BD|now left]). rewrite std_decode by exact BD.
  change (str "$" ++ b64_std (xor_bytes d (key_bytes kl k))) with (36 :: b64_std (xor_bytes d (key_bytes kl k))). rewrite <- encoded_conf. split.
  - intros E. exists d. split; [reflexivity|congruence].
  - intros (d' & E & ->). congruence.
Qed.
Lemma decode_encoded k co d : costs_ok co -> lenN d = 32 -> bytes_ok d ->
  decode_string (encoded co (pk k) (xor_bytes d (key_bytes kl k))) = Some (mkDecoded co (pk k) (xor_bytes d (key_bytes kl k))).
Proof.
  intros C LD BD. destruct (pk_ok k) as [_ BP]. destruct KO as (_ & _ & KB). destruct (KB k) as (LK & BK & _).
  apply decode_iff, encoded_accepted; [exact C|exact BP|now apply xor_ok|]. rewrite xor_len; congruence.
Qed.
Lemma decrypt_iff t pw k : decrypt c kl t pw = Ok k <->
  exists co x d, decode_string t = Some (mkDecoded co (pk k) x) /\ argon2d kl pw (pk k) co = Some d /\ key_from kl (xor_bytes d x) = Some k.
Proof.
  unfold decrypt. destruct (decode_string t) as [[co salt x]|] eqn:D; cbn [d_salt d_costs d_hash].
  2:{ split; [discriminate|]. intros (co & x & d & E & _). discriminate. }
  destruct (argon2d kl pw salt co) as [d|] eqn:A.
  2:{ split; [discriminate|]. intros (co' & x' & d & E & A' & _). assert (co' = co /\ salt = pk k) as [-> ->] by (split; congruence). congruence. }
  destruct KO as (_ & AO & _). destruct (AO _ _ _ _ A) as [LD BD]. rewrite LD. change (negb (32 =? 32)) with false. cbv iota.
  destruct (key_from kl (xor_bytes d x)) as [k'|] eqn:F.
  - destruct (beqb (pk k') salt) eqn:B; cbn [negb].
    + apply beqb_eq in B. split.
      * intros E. injection E as <-. exists co, x, d. subst salt. auto.
      * intros (co' & x' & d' & E & A' & F'). f_equal. assert (co' = co /\ x' = x /\ salt = pk k) as (-> & -> & ->) by (split; [|split]; congruence). congruence.
    + split; [discriminate|]. intros (co' & x' & d' & E & A' & F'). assert (co' = co /\ x' = x /\ salt = pk k) as (-> & -> & ->) by (split; [|split]; congruence).
      assert (k' = k) as -> by congruence. rewrite beqb_refl in B. discriminate.
  - split; [discriminate|]. intros (co' & x' & d' & E & A' & F'). assert (co' = co /\ x' = x /\ salt = pk k) as (-> & -> & ->) by (split; [|split]; congruence). congruence.
Qed.
Lemma encoded_len co salt x : lenN salt = 32 -> lenN x = 32 ->
  lenN (encoded co salt x) = 110 + lenN (to_string (mem co)) + lenN (to_string (times co)) + lenN (to_string (parallelism co)).
Proof.
  intros LS LX. assert (S : forall b, lenN b = 32 -> lenN (b64_std b) = 43).
  { intros b LB. unfold b64_std. assert (lenN (map (b64_char false) (b64_digits b)) = lenN (b64_digits b)) as -> by (unfold lenN; now rewrite map_length). pose proof (b64_digits_len b). lia. }
  unfold encoded. rewrite !lenN_app, (S salt LS), (S x LX). change (lenN key_prefix) with 14. change (lenN (str "m=")) with 2. change (lenN (str ",t=")) with 3. change (lenN (str ",p=")) with 3. change (lenN (str "$")) with 1. lia.
Qed.
End Keys.
