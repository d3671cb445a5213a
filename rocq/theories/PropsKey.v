(** Properties of encrypted keys: C74. *)
From Verif Require Import Bytes ModelPkt ModelAbe ModelFmt ModelFn SpecFmt ProofFmt ModelKey SpecKey ProofKey.

(** ** Examples: two keys, and a digest that depends on the password, the salt and the costs *)
Definition kc_pub (b : bool) : bytes := repeat (if b then 7 else 9) 32.
Definition kc_sign (b : bool) (h : bytes) : bytes := kc_pub b ++ takeN 32 (h ++ repeat 0 32).
Definition kc : crypto := {|
  hash := fun b => be_encode 16 (lenN b) ++ be_encode 16 (fold_right N.add 0 b); skey := bool; pubkey_of := kc_pub;
  sign_hash := kc_sign; validate_signature := fun pk sg h => beqb sg (pk ++ takeN 32 (h ++ repeat 0 32)) |}.
Definition kc_secret (b : bool) : bytes := repeat (if b then 77 else 99) 32.
Definition kc_lib : keylib kc := mkKeylib kc
  (fun pw salt co => if mem co <? 8 * parallelism co then None
                     else Some (be_encode 32 (fold_right (fun x a => 31 * a + x + 1) (mem co + times co) (pw ++ salt))))
  kc_secret (fun b => if beqb b (kc_secret true) then Some true else if beqb b (kc_secret false) then Some false else None).
Lemma takeN_pad h : lenN (takeN 32 (h ++ repeat 0 32)) = 32.
Proof. unfold takeN, lenN. rewrite firstn_length, app_length, repeat_length. lia. Qed.
Lemma kc_ok : crypto_ok kc.
Proof.
  split; [|split; [|split]].
  - intros b. cbn [hash kc]. now rewrite lenN_app, !lenN_be_encode.
  - intros k. destruct k; reflexivity.
  - intros k h. cbn [sign_hash kc]. unfold kc_sign. rewrite lenN_app, takeN_pad. destruct k; reflexivity.
  - intros k h. cbn [validate_signature sign_hash pubkey_of kc]. apply beqb_refl.
Qed.
Lemma kc_lib_ok : keylib_ok kc kc_lib.
Proof.
  split; [|split].
  - intros k. apply bytes_ok_repeat. destruct k; reflexivity.
  - intros pw s co d. cbn [argon2d kc_lib]. destruct (mem co <? 8 * parallelism co); [discriminate|]. set (v := fold_right _ _ _). intros E. assert (d = be_encode 32 v) as -> by congruence. split; [apply lenN_be_encode|apply be_encode_ok].
  - intros k. split; [destruct k; reflexivity|]. split; [apply bytes_ok_repeat; destruct k; reflexivity|]. destruct k; vm_compute; reflexivity.
Qed.
Definition kc_text : bytes := match lk_key_encrypt kc kc_lib true (str "secret") with Ok t => t | _ => [] end.

(** C74: keys as text.  The text has the costs, the public key, and the secret exclusive-or the digest; making
    it aborts only if argon2 refuses. *)
Theorem C74_text : forall c kl k pw cost, crypto_ok c -> keylib_ok c kl ->
  let co := match cost with Some co => co | None => mkCosts 131072 4 4 end in
  (forall d, argon2d kl pw (pubkey_of c k) co = Some d ->
    exists t x, encrypt c kl k pw cost = Ok t /\ is_xor d (key_bytes kl k) x /\ enckey_text co (pubkey_of c k) x t) /\
  (argon2d kl pw (pubkey_of c k) co = None -> encrypt c kl k pw cost = Panic).
Proof.
  intros c kl k pw cost CO KO co. unfold encrypt. fold DEFAULT_COST in co. fold co. split.
  - intros d A. pose proof (proj2 (try_encrypt_iff c kl KO k pw co _) (ex_intro _ d (conj A eq_refl))) as E. rewrite E.
    destruct (pk_ok c kl CO KO k) as [LP BP]. destruct KO as (_ & AO & KB). destruct (AO _ _ _ _ A) as [LD BD]. destruct (KB k) as (LK & BK & _).
    eexists. exists (xor_bytes d (key_bytes kl k)). split; [reflexivity|]. split; [apply xor_spec; congruence|]. apply encoded_text; [exact BP|now apply xor_ok].
  - intros A. destruct (try_encrypt c kl k pw co) as [t|] eqn:E; [|reflexivity]. apply (try_encrypt_iff c kl KO) in E as (d & E & _). congruence.
Qed.
Example C74_text_ex : crypto_ok kc /\ keylib_ok kc kc_lib /\ kc_text = str "$argon2d$v=19$m=131072,t=4,p=4$BwcHBwcHBwcHBwcHBwcHBwcHBwcHBwcHBwcHBwcHBwc$TU1NTU1NawMpJs2rptcMx/XsQuP9FPEbDRl/sDO7WLk" /\
  encrypt kc kc_lib true (str "secret") (Some (mkCosts 7 1 1)) = Panic.
Proof. split; [exact kc_ok|]. split; [exact kc_lib_ok|]. split; vm_compute; reflexivity. Qed.

(** With the same password the key comes back, and the public key without one. *)
Theorem C74_round_trip : forall c kl k pw t, crypto_ok c -> keylib_ok c kl ->
  (lk_key_encrypt c kl k pw = Ok t \/ exists co, costs_ok co /\ encrypt c kl k pw (Some co) = Ok t) ->
  lk_key_decrypt c kl t pw = Ok k /\ lk_key_pubkey t = Ok (pubkey_of c k).
Proof.
  intros c kl k pw t CO KO H. assert (exists co, costs_ok co /\ try_encrypt c kl k pw co = Some t) as (co & C & E).
  { assert (X : forall cost, encrypt c kl k pw cost = Ok t -> try_encrypt c kl k pw (match cost with Some co => co | None => DEFAULT_COST end) = Some t).
    { intros cost. unfold encrypt. destruct (try_encrypt c kl k pw _); [congruence|discriminate]. }
    destruct H as [H|(co & C & H)]; [|exists co; split; [exact C|exact (X (Some co) H)]]. unfold lk_key_encrypt in H. apply X in H. destruct pw; eexists; (split; [|exact H]); vm_compute; auto. }
  apply (try_encrypt_iff c kl KO) in E as (d & A & ->). pose proof KO as (_ & AO & KB). destruct (AO _ _ _ _ A) as [LD BD]. destruct (KB k) as (LK & BK & FK).
  pose proof (decode_encoded c kl CO KO k co d C LD BD) as DE. split.
  - apply (decrypt_iff c kl KO). exists co, (xor_bytes d (key_bytes kl k)), d. split; [exact DE|]. split; [exact A|]. rewrite xor_cancel by congruence. exact FK.
  - unfold lk_key_pubkey, pubkey. rewrite DE. cbn [d_salt]. destruct (pk_ok c kl CO KO k) as [-> _]. reflexivity.
Qed.
Example C74_round_trip_ex : lk_key_encrypt kc kc_lib true (str "secret") = Ok kc_text /\ lk_key_decrypt kc kc_lib kc_text (str "secret") = Ok true /\
  lk_key_decrypt kc kc_lib kc_text (str "sevret") = Err WrongPassword /\ lk_key_pubkey kc_text = Ok (kc_pub true).
Proof. split; [|split; [|split]]; vm_compute; reflexivity. Qed.

(** Whatever the text, a key that comes out has the public key that the text shows. *)
Theorem C74_shown_key : forall c kl t pw k, crypto_ok c -> keylib_ok c kl ->
  lk_key_decrypt c kl t pw = Ok k -> lk_key_pubkey t = Ok (pubkey_of c k).
Proof.
  intros c kl t pw k CO KO H. apply (decrypt_iff c kl KO) in H as (co & x & d & D & _). unfold lk_key_pubkey, pubkey. rewrite D. cbn [d_salt]. destruct (pk_ok c kl CO KO k) as [-> _]. reflexivity.
Qed.
(** Another password gives an error or the same key, never another one. *)
Theorem C74_other_password : forall c kl k pw t pw', crypto_ok c -> keylib_ok c kl -> (forall a b, pubkey_of c a = pubkey_of c b -> a = b) ->
  lk_key_encrypt c kl k pw = Ok t ->
  lk_key_decrypt c kl t pw' = Ok k \/ exists e, lk_key_decrypt c kl t pw' = Err e.
Proof.
  intros c kl k pw t pw' CO KO INJ E. destruct (C74_round_trip c kl k pw t CO KO (or_introl E)) as [_ P].
  assert (lk_key_decrypt c kl t pw' <> Panic /\ lk_key_decrypt c kl t pw' <> OutOfFuel) as [N1 N2].
  { unfold lk_key_decrypt, decrypt. destruct (decode_string t) as [dd|]; [|split; discriminate]. destruct (argon2d kl pw' (d_salt dd) (d_costs dd)) as [g|]; [|split; discriminate].
    destruct (negb (lenN g =? 32)); [split; discriminate|]. destruct (key_from kl (xor_bytes g (d_hash dd))); [|split; discriminate]. destruct (negb _); split; discriminate. }
  destruct (lk_key_decrypt c kl t pw') as [k'|e| |] eqn:D; [left|right; now exists e|congruence|congruence].
  pose proof (C74_shown_key c kl t pw' k' CO KO D) as P'. f_equal. apply INJ. congruence.
Qed.
Example C74_other_ex : (forall a b, pubkey_of kc a = pubkey_of kc b -> a = b) /\ lk_key_encrypt kc kc_lib true (str "secret") = Ok kc_text /\
  lk_key_decrypt kc kc_lib kc_text (str "") = Err WrongPassword.
Proof. split; [intros [] []; (reflexivity || discriminate)|]. split; vm_compute; reflexivity. Qed.

(** Exactly which texts are accepted; no text aborts. *)
Lemma xor_unique a b x y : is_xor a b x -> is_xor a b y -> x = y.
Proof.
  intros (L1 & _ & X) (L2 & _ & Y). apply (nth_ext x y 0 0); [unfold lenN in *; lia|]. intros i _. apply N.bits_inj. intros n. now rewrite X, Y.
Qed.
Theorem C74_accepts : forall c kl t, crypto_ok c -> keylib_ok c kl ->
  (forall p, lk_key_pubkey t = Ok p <-> lenN p = 32 /\ exists co x, accepted_text co p x t) /\
  (forall pw k, lk_key_decrypt c kl t pw = Ok k <->
     exists co x d s, accepted_text co (pubkey_of c k) x t /\ argon2d kl pw (pubkey_of c k) co = Some d /\ is_xor d x s /\ key_from kl s = Some k) /\
  (lk_key_pubkey t = Err BadData \/ exists p, lk_key_pubkey t = Ok p) /\
  (forall pw, (exists e, lk_key_decrypt c kl t pw = Err e) \/ exists k, lk_key_decrypt c kl t pw = Ok k).
Proof.
  intros c kl t CO KO. split; [|split; [|split]].
  - intros p. unfold lk_key_pubkey, pubkey. destruct (decode_string t) as [[co salt x]|] eqn:D; cbn [d_salt].
    + destruct (N.eqb_spec (lenN salt) 32) as [L|L]; cbn [negb].
      * split; [intros E; injection E as <-; split; [exact L|]; exists co, x; now apply decode_iff|]. intros (LP & co' & x' & A). apply decode_iff in A. congruence.
      * split; [discriminate|]. intros (LP & co' & x' & A). apply decode_iff in A. congruence.
    + split; [discriminate|]. intros (_ & co & x & A). apply decode_iff in A. congruence.
  - intros pw k. unfold lk_key_decrypt. rewrite (decrypt_iff c kl KO). split.
    + intros (co & x & d & D & A & F). exists co, x, d, (xor_bytes d x). split; [now apply decode_iff|]. split; [exact A|]. split; [|exact F]. apply xor_spec.
      apply decode_iff in D as (? & ? & ? & ? & _ & _ & _ & _ & _ & _ & _ & _ & _ & _ & LX & _). destruct KO as (_ & AO & _). destruct (AO _ _ _ _ A). congruence.
    + intros (co & x & d & s & D & A & X & F). exists co, x, d. split; [now apply decode_iff|]. split; [exact A|]. rewrite <- F. f_equal. apply (xor_unique d x); [|exact X]. apply xor_spec.
      destruct X as (L1 & L2 & _). congruence.
  - unfold lk_key_pubkey, pubkey. destruct (decode_string t) as [dd|]; [|now left]. destruct (negb _); [now left|right; eauto].
  - intros pw. unfold lk_key_decrypt, decrypt. destruct (decode_string t) as [dd|]; [|left; eauto]. destruct (argon2d kl pw (d_salt dd) (d_costs dd)) as [g|]; [|left; eauto].
    destruct (negb (lenN g =? 32)); [left; eauto|]. destruct (key_from kl (xor_bytes g (d_hash dd))); [|left; eauto]. destruct (negb _); [left|right]; eauto.
Qed.
Example C74_accepts_ex : lk_key_pubkey (str "$argon2d$v=19$x,m=+8,t=01,,p=1,q=2$BwcHBwcHBwcHBwcHBwcHBwcHBwcHBwcHBwcHBwcHBwc$TU1NTU1NawMpJs2rptcMx/XsQuP9FPEbDRl/sDO7WLk$x$y") = Ok (kc_pub true) /\
  lk_key_pubkey (str "$argon2d$v=19$m=8,p=1,t=1$BwcHBwcHBwcHBwcHBwcHBwcHBwcHBwcHBwcHBwcHBwc$TU1NTU1NawMpJs2rptcMx/XsQuP9FPEbDRl/sDO7WLk") = Err BadData.
Proof. split; vm_compute; reflexivity. Qed.

(** A text stored as the first line of some data is read back. *)
Lemma ascii_utf8 t : Forall (fun x => x < 128) t -> is_utf8 t = true.
Proof. induction 1 as [|x t H F IH]; [reflexivity|]. cbn [is_utf8]. now rewrite (proj2 (N.ltb_lt x 128) H). Qed.
Lemma ascii_std b : bytes_ok b -> Forall (fun x => x < 128) (b64_std b).
Proof.
  intros B. unfold b64_std. apply Forall_forall. intros x H. apply in_map_iff in H as (d & <- & I). pose proof (b64_digits_ok b B) as F. rewrite Forall_forall in F. pose proof (std_chars d (F d I)) as K. cbv zeta in K. lia.
Qed.
Lemma ascii_dec n : Forall (fun x => x < 128) (to_string n).
Proof. apply Forall_forall. intros x H. apply to_string_digits in H. lia. Qed.
Theorem C74_stored : forall c kl k pw t rest, crypto_ok c -> keylib_ok c kl ->
  lk_key_encrypt c kl k pw = Ok t -> rest = [] \/ (exists r, rest = 10 :: r) ->
  read_enckey (t ++ rest) = Ok (pubkey_of c k, t).
Proof.
  intros c kl k pw t rest CO KO E R. destruct (C74_round_trip c kl k pw t CO KO (or_introl E)) as [_ P].
  assert (exists co d, (co = DEFAULT_COST \/ co = INSECURE_COST) /\ argon2d kl pw (pubkey_of c k) co = Some d /\ t = encoded co (pubkey_of c k) (xor_bytes d (key_bytes kl k))) as (co & d & C & A & ->).
  { unfold lk_key_encrypt, encrypt in E. destruct pw as [|x pw].
    - destruct (try_encrypt c kl k [] INSECURE_COST) as [u|] eqn:T; [|discriminate]. injection E as <-. apply (try_encrypt_iff c kl KO) in T as (d & A & ->). exists INSECURE_COST, d. auto.
    - destruct (try_encrypt c kl k (x :: pw) DEFAULT_COST) as [u|] eqn:T; [|discriminate]. injection E as <-. apply (try_encrypt_iff c kl KO) in T as (d & A & ->). exists DEFAULT_COST, d. auto. }
  destruct (pk_ok c kl CO KO k) as [LP BP]. destruct KO as (_ & AO & KB). destruct (AO _ _ _ _ A) as [LD BD]. destruct (KB k) as (LK & BK & _).
  set (x := xor_bytes d (key_bytes kl k)) in *. assert (LX : lenN x = 32) by (unfold x; rewrite xor_len; congruence). assert (BX : bytes_ok x) by now apply xor_ok.
  set (t := encoded co (pubkey_of c k) x) in *. assert (LT : lenN t <= 130).
  { unfold t. rewrite (encoded_len co _ x LP LX). destruct C as [-> | ->]; vm_compute; discriminate. }
  assert (AT : Forall (fun y => y < 128) t).
  { unfold t, encoded. rewrite !Forall_app. assert (S : forall u, forallb (fun y => y <? 128) u = true -> Forall (fun y => y < 128) u).
    { intros u H. apply Forall_forall. intros y Y. rewrite forallb_forall in H. now apply N.ltb_lt, H. }
    repeat (split; [first [apply ascii_dec|apply ascii_std; assumption|apply S; reflexivity]|]). now apply ascii_std. }
  assert (WT : without 10 t).
  { unfold t, encoded. intros I. rewrite !in_app_iff in I.
    assert (S : forall u, existsb (fun y => y =? 10) u = false -> ~ In 10 u).
    { intros u H J. assert (existsb (fun y => y =? 10) u = true) by (apply existsb_exists; exists 10; split; [exact J|reflexivity]). congruence. }
    pose proof (b64_std_without 10 _ BP (or_intror eq_refl)) as W1. pose proof (b64_std_without 10 x BX (or_intror eq_refl)) as W2.
    pose proof (fun n => digits_without 10 n ltac:(lia)) as W3.
    repeat (destruct I as [I|I]; [first [exact (W1 I)|exact (W3 _ I)|refine (S _ _ I); reflexivity]|]). exact (W2 I). }
  assert (exists l, split_on 10 (takeN (N.min (lenN (t ++ rest)) 130) (t ++ rest)) = t :: l) as [l SP].
  { assert (exists r', takeN (N.min (lenN (t ++ rest)) 130) (t ++ rest) = t ++ r' /\ (r' = [] \/ exists q, r' = 10 :: q)) as (r' & -> & R').
    { set (n := N.min _ _). assert (lenN t <= n) by (unfold n; rewrite lenN_app; lia). unfold takeN. rewrite firstn_app. exists (firstn (N.to_nat n - List.length t) rest). split.
      - f_equal. apply firstn_all2. unfold lenN in *. lia.
      - destruct (N.to_nat n - List.length t)%nat; [now left|]. destruct R as [-> |[q ->]]; [now left|right]. cbn [firstn]. eauto. }
    destruct R' as [-> |[q ->]]; [rewrite app_nil_r; exists []; now apply split_one|exists (split_on 10 q); now apply split_cons]. }
  unfold read_enckey. rewrite SP. cbv iota. rewrite (ascii_utf8 t AT). cbn [negb]. unfold lk_key_pubkey in P. rewrite P. reflexivity.
Qed.
Example C74_stored_ex : read_enckey (kc_text ++ str "
more") = Ok (kc_pub true, kc_text).
Proof. vm_compute. reflexivity. Qed.

(** F89: one key has many texts: anything may follow another [$]. *)
Theorem F89_text_not_unique : forall c kl t pw k junk, crypto_ok c -> keylib_ok c kl ->
  lk_key_decrypt c kl t pw = Ok k -> lk_key_decrypt c kl (t ++ str "$" ++ junk) pw = Ok k.
Proof.
  intros c kl t pw k junk CO KO H. apply (decrypt_iff c kl KO) in H as (co & x & d & D & A & F). apply (decrypt_iff c kl KO). exists co, x, d. split; [|auto].
  apply decode_iff in D as (os & s & h & rest & -> & NE & W44 & W36 & OS & C & TS & BS & TH & BH & LX & R). apply decode_iff. exists os, s, h, (rest ++ str "$" ++ junk).
  split; [now rewrite <- !app_assoc|]. split; [exact NE|]. split; [exact W44|]. split; [exact W36|]. split; [exact OS|]. split; [exact C|]. split; [exact TS|]. split; [exact BS|]. split; [exact TH|]. split; [exact BH|]. split; [exact LX|].
  right. destruct R as [-> |[r ->]]; [now exists junk|]. exists (r ++ str "$" ++ junk). now rewrite <- app_assoc.
Qed.
(** F90: a text made with larger costs is longer than the 130 bytes that are read from a claim: it decrypts, but
    as the data of a claim it is not found. *)
Theorem F90_long_text : exists co t, costs_ok co /\ encrypt kc kc_lib true (str "secret") (Some co) = Ok t /\
  lk_key_decrypt kc kc_lib t (str "secret") = Ok true /\ lk_key_pubkey t = Ok (kc_pub true) /\ 130 < lenN t /\ exists e, read_enckey t = Err e.
Proof.
  exists (mkCosts 4294967295 4294967295 400000000). eexists. split; [vm_compute; auto|]. split; [vm_compute; reflexivity|]. split; [vm_compute; reflexivity|]. split; [vm_compute; reflexivity|]. split; [vm_compute; reflexivity|].
  eexists. vm_compute. reflexivity.
Qed.
Print Assumptions C74_text.
Print Assumptions C74_round_trip.
Print Assumptions C74_shown_key.
Print Assumptions C74_other_password.
Print Assumptions C74_accepts.
Print Assumptions C74_stored.
Print Assumptions F89_text_not_unique.
Print Assumptions F90_long_text.
