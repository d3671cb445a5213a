(** C75: keys that are found by name. *)
From Coq Require Import List NArith Bool Lia String.
From Verif Require Import PropsStore ProofTree ProofPred ProofPred2 SpecPred ProofQuery2 ProofQuery3 PropsQuery.
From Verif Require Import Bytes ModelAbe SpecSpace ModelPkt SpecPkt PropsPkt SpecTree ModelStore SpecStore SpecQuery ModelEval ModelQuery ModelLns SpecLns ProofLns2 ProofPkt2 ModelKey SpecKey PropsKey ModelLkKey SpecLkKey ProofLkKey ProofLkKey2.
Import ListNotations. Open Scope N_scope.

Definition or_me (nm : option bytes) : bytes := match nm with Some v => v | None => str "me:local" end.
(** What is asked for: the text [nm] is the local name [cs]. *)
Definition asks_for (efuel : nat) (s : scope) (nm : option bytes) (cs : list bytes) (n : Name) : Prop :=
  name_of_text efuel s (or_me nm) = Ok n /\ name_from cs = Ok n /\ is_local cs.

(** A name that has an entry: the key comes from the data of the first point at the space of the name, and nothing is
    saved, whatever [create] is. *)
Theorem C75_found : forall c kl nh public_claim fl d l efuel s nm cs n create k0 t e nh' g dm c0 ls rs k pw enc rest,
  crypto_ok c -> keylib_ok c kl -> honest_store (hash c) d l -> asks_for efuel s nm cs n -> sane (t_find t) ->
  comes_first (hash c) l (claims_of cs) (t_find t) e -> packet_at (hash c) e nh' (PLink g dm c0 ls rs (enc ++ rest)) -> claim_point cs (PLink g dm c0 ls rs (enc ++ rest)) ->
  lk_key_encrypt c kl k pw = Ok enc -> rest = [] \/ (exists r, rest = 10 :: r) ->
  exists n0, forall fuel, (n0 <= fuel)%nat ->
  lk_key c kl nh fuel public_claim fl efuel s d (Some pw) nm create k0 t = (d, Ok k) /\
  ((forall a b, pubkey_of c a = pubkey_of c b -> a = b) -> forall pw', exists r,
    lk_key c kl nh fuel public_claim fl efuel s d pw' nm create k0 t = (d, r) /\ (r = Ok k \/ exists x, r = Err x)).
Proof.
  intros c kl nh pc fl d l efuel s nm cs n create k0 t e nh' g dm c0 ls rs k pw enc rest CO KO HS (NT & NF & LO) [S1 S2] CF PA CP EN RE. apply name_from_iff in NF as [NO NM].
  destruct (enckey_local c (proj1 CO) nh d l HS pc cs n (t_find t) NO NM LO S1 ltac:(lia)) as (n0 & F). exists n0. intros fuel FU. destruct (F fuel FU) as (_ & F2 & _).
  pose proof (F2 e nh' _ _ CF PA CP (C74_stored c kl k pw enc rest CO KO EN RE)) as LE. unfold or_me in NT. unfold lk_key. rewrite NT. cbn [wrap]. rewrite LE. split.
  - unfold unchanged. destruct (C74_round_trip c kl k pw enc CO KO (or_introl EN)) as [DE _]. unfold lk_key_decrypt in DE. rewrite DE. reflexivity.
  - intros IJ pw'. eexists. split; [reflexivity|]. destruct (C74_other_password c kl k pw enc (match pw' with Some v => v | None => [] end) CO KO IJ EN) as [DE|[x DE]]; unfold lk_key_decrypt in DE; rewrite DE; [now left|right; cbn; eauto].
Qed.

(** A claim without data: the key comes from the data of the stored packet that its first link with a tag that ends in
    [enckey] names. *)
Theorem C75_linked : forall c kl nh public_claim fl d l efuel s nm cs n create k0 t e nh' g dm c0 ls1 hd ptr ls2 rs k pw enc rest e2 nh2 q,
  crypto_ok c -> keylib_ok c kl -> honest_store (hash c) d l -> asks_for efuel s nm cs n -> sane (t_find t) ->
  let p := PLink g dm c0 (ls1 ++ (hd ++ str "enckey", ptr) :: ls2) rs [] in
  comes_first (hash c) l (claims_of cs) (t_find t) e -> packet_at (hash c) e nh' p -> claim_point cs p ->
  Forall (fun x => forall a, fst x <> a ++ str "enckey") ls1 ->
  In e2 l -> packet_at (hash c) e2 nh2 q -> ptr = hash c (content q) -> point_data q = enc ++ rest ->
  lk_key_encrypt c kl k pw = Ok enc -> rest = [] \/ (exists r, rest = 10 :: r) ->
  exists n0, forall fuel, (n0 <= fuel)%nat ->
  lk_key c kl nh fuel public_claim fl efuel s d (Some pw) nm create k0 t = (d, Ok k).
Proof.
  intros c kl nh pc fl d l efuel s nm cs n create k0 t e nh' g dm c0 ls1 hd ptr ls2 rs k pw enc rest e2 nh2 q CO KO HS (NT & NF & LO) [S1 S2] p CF PA CP F1 I2 PA2 PTR DQ EN RE.
  pose proof (proj1 CO) as HL. apply name_from_iff in NF as [NO NM].
  destruct (lookup_local c HL nh d l HS pc 0 cs n (t_find t) NO NM LO S1 ltac:(lia)) as (n0 & _ & F). exists n0. intros fuel FU.
  assert (LC : lookup_claim c nh fuel pc d n (t_find t) = Ok (Some (mkClaim (np_of (hash c) nh' p) n))).
  { destruct (F fuel FU) as [[NA _]|(e1 & h1 & p1 & CF1 & PA1 & D1)]; [destruct CF as (I1 & P1 & _); destruct (NA e I1 P1)|].
    pose proof (first_unique (hash c) HL d l HS (claims_of cs) (t_find t) e e1 CF CF1) as <-. destruct (packet_at_inj (hash c) _ _ _ _ _ PA PA1) as [<- <-].
    destruct D1 as [[_ E1]|[NC _]]; [exact E1|contradiction]. }
  assert (FT : forall ls, Forall (fun x : bytes * bytes => forall a, fst x <> a ++ str "enckey") ls -> first_tailmask (ls ++ (hd ++ str "enckey", ptr) :: ls2) ENCKEY_TAG = Some (hd ++ str "enckey", ptr)).
  { clear. intros ls F1. unfold first_tailmask, ENCKEY_TAG. change (16 <? lenN (str "enckey")) with false.
    assert (EW : forall b x, ends_with b x = true -> exists a, b = a ++ x).
    { intros b x E. unfold ends_with in E. apply beqb_eq in E. exists (firstn (List.length b - List.length x) b). rewrite <- E at 2. symmetry. apply firstn_skipn. }
    induction F1 as [|[tg pt] ls N1 F1 IH]; cbn [app find fst].
    - assert (ends_with (hd ++ str "enckey") (str "enckey") = true) as ->; [|reflexivity].
      unfold ends_with. rewrite app_length. replace (List.length hd + List.length (str "enckey") - List.length (str "enckey"))%nat with (List.length hd) by lia.
      rewrite skipn_app, skipn_all, Nat.sub_diag. apply beqb_refl.
    - cbn [fst] in N1. destruct (ends_with tg (str "enckey")) eqn:E; [apply EW in E as [a ->]; now destruct (N1 a)|]. exact IH. }
  assert (RD : read d ptr = Some (fst e2, np_bytes (snd e2))).
  { destruct HS as [[R _] _]. apply (ProofStore.read_iff d l ptr _ _ R). exists (snd e2). split; [now destruct e2|]. split; [|reflexivity].
    destruct PA2 as (_ & CA & _). rewrite PTR. apply CA. }
  assert (LE : lookup_enckey c nh fuel pc d n (t_find t) = Ok (Some (pubkey_of c k, enc))).
  { unfold lookup_enckey. rewrite LC. cbn [obind cl_pkt]. change (ModelTree.get_data (pf (np_of (hash c) nh' p))) with (@nil N).
    change (read_enckey []) with (@Err KeyError (bytes * bytes) BadData).
    change (pkt_links (np_of (hash c) nh' p)) with (ls1 ++ (hd ++ str "enckey", ptr) :: ls2). rewrite (FT ls1 F1). cbn [snd]. rewrite RD.
    rewrite (packet_view (hash c) HL e2 nh2 q PA2). cbn [or_panic obind].
    assert (D : ModelTree.get_data (pf (np_of (hash c) nh2 q)) = point_data q) by (destruct q; reflexivity). rewrite D, DQ, (C74_stored c kl k pw enc rest CO KO EN RE). reflexivity. }
  unfold or_me in NT. unfold lk_key. rewrite NT. cbn [wrap]. rewrite LE. unfold unchanged.
  destruct (C74_round_trip c kl k pw enc CO KO (or_introl EN)) as [DE _]. unfold lk_key_decrypt in DE. rewrite DE. reflexivity.
Qed.

(** With [create] a new key is stored: a claim of the name with the encrypted key, and a lookup entry of the public key. *)
Theorem C75_created : forall c kl nh public_claim d l efuel s nm cs n k pw enc t,
  crypto_ok c -> keylib_ok c kl -> (forall x, bytes_ok (hash c x)) -> lenN nh = 32 -> bytes_ok nh ->
  honest_store (hash c) d l -> asks_for efuel s nm cs n -> Forall bytes_ok cs -> (List.length cs <= 2)%nat ->
  lk_key_encrypt c kl k pw = Ok enc ->
  sane (t_find t) -> sane (t_check t) -> sane (t_now t) -> sane (t_old t) -> sane (t_entry t) -> sane (t_save t) ->
  Forall (fun e => fst e < 2 ^ 63) l -> ~ In (t_save t) (map fst l) -> lenN l + 2 < 2 ^ 32 ->
  never_at (hash c) l (claims_of cs) -> never_at (hash c) l (entries_of (pubkey_of c k)) ->
  no_collision (hash c) l [key_claim cs (pubkey_of c k) enc; key_entry (hash c) (t_now t) cs (pubkey_of c k) enc] ->
  exists n0 d' e1 e2,
    (forall fuel, (n0 <= fuel)%nat -> lk_key c kl nh fuel public_claim no_faults efuel s d (Some pw) nm true k t = (d', Ok k)) /\
    honest_store (hash c) d' (l ++ [e1; e2]) /\ t_save t <= fst e1 /\ fst e2 = fst e1 + 1 /\
    packet_at (hash c) e1 nh (key_claim cs (pubkey_of c k) enc) /\ packet_at (hash c) e2 nh (key_entry (hash c) (t_now t) cs (pubkey_of c k) enc).
Proof.
  intros c kl nh pc d l efuel s nm cs n k pw enc t CO KO HB NL NB HS (NT & NF & LO) CB C2 EN S1 S2 S3 S4 S5 S6 LS TS LL NC NE COL. apply name_from_iff in NF as [NO NM].
  destruct (created c kl CO KO HB nh NL NB pc d l HS cs n NO NM LO CB k pw enc EN efuel s nm t NT C2 S1 S2 S3 S4 S5 S6 LS TS LL NC NE COL) as (n0 & d' & a & F & [A1 A2] & HS').
  exists n0, d', (a, net_of c nh (key_claim cs (pubkey_of c k) enc)), (a + 1, net_of c nh (key_entry (hash c) (t_now t) cs (pubkey_of c k) enc)).
  split; [exact F|]. split; [exact HS'|]. split; [exact A1|]. split; [reflexivity|]. split.
  - apply net_at; try assumption; [now apply (claim_made c kl CO KO HB nh NL pc d cs n NO NM LO k pw enc EN)|now apply (claim_bytes c kl CO KO cs NO CB k pw enc EN)|lia].
  - apply net_at; try assumption; [apply (entry_made c kl CO KO HB nh NL pc d cs n k enc); unfold sane in *; lia|apply (entry_bytes c kl CO KO HB nh NL pc d cs n k enc)|lia].
Qed.

(** The key is found again, in every later store where the claim is still the only point at the space of the name. *)
Theorem C75_round_trip : forall c kl nh public_claim d l efuel s nm cs n k pw enc e1 nh1,
  crypto_ok c -> keylib_ok c kl -> honest_store (hash c) d l -> asks_for efuel s nm cs n ->
  lk_key_encrypt c kl k pw = Ok enc ->
  In e1 l -> packet_at (hash c) e1 nh1 (key_claim cs (pubkey_of c k) enc) ->
  forall t fl create k0, sane (t_find t) -> (forall e, In e l -> private_at (hash c) (claims_of cs) (t_find t) e -> e = e1) ->
  exists n0, forall fuel, (n0 <= fuel)%nat ->
  lk_key c kl nh fuel public_claim fl efuel s d (Some pw) nm create k0 t = (d, Ok k).
Proof.
  intros c kl nh pc d l efuel s nm cs n k pw enc e1 nh1 CO KO HS AF EN IN PA t fl create k0 SF ON. pose proof AF as (_ & NF & LO). apply name_from_iff in NF as [NO NM]. destruct (claim_comps_ok cs NO) as [SC L8]. change (claims_c :: rev cs) with (claims_of cs) in SC, L8.
  assert (CF : comes_first (hash c) l (claims_of cs) (t_find t) e1).
  { split; [exact IN|]. split; [apply (at_private (hash c) e1 nh1 _ _ _ _ PA SC); unfold sane in SF; lia|]. intros e' I P. left. now apply ON. }
  assert (CP : claim_point cs (key_claim cs (pubkey_of c k) enc)).
  { unfold key_claim. do 6 eexists. split; [reflexivity|]. split; [exact NO|]. split; [reflexivity|]. split; [discriminate|]. split; [reflexivity|contradiction]. }
  unfold key_claim in PA, CP. rewrite <- (app_nil_r enc) in PA, CP.
  destruct (C75_found c kl nh pc fl d l efuel s nm cs n create k0 t e1 nh1 _ _ _ _ _ k pw enc [] CO KO HS AF SF CF PA CP EN (or_introl eq_refl)) as (n0 & F). exists n0. intros fuel FU. apply F, FU.
Qed.

(** Nothing is saved if not asked to create, ... *)
Theorem C75_read_only : forall c kl nh fuel public_claim fl efuel s d pw nm k t, fst (lk_key c kl nh fuel public_claim fl efuel s d pw nm false k t) = d.
Proof.
  intros. unfold lk_key. destruct (wrap _ _); try reflexivity. destruct (lookup_enckey _ _ _ _ _ _ _) as [[[? ?]|]| | |]; reflexivity.
Qed.
(** ... nor if anything is at the space of the name already, ... *)
Theorem C75_no_overwrite : forall c kl nh public_claim fl d l efuel s pw nm cs n create k t e,
  (forall x, lenN (hash c x) = 32) -> honest_store (hash c) d l -> asks_for efuel s nm cs n -> sane (t_find t) -> sane (t_check t) ->
  comes_first (hash c) l (claims_of cs) (t_find t) e -> comes_first (hash c) l (claims_of cs) (t_check t) e ->
  exists n0, forall fuel, (n0 <= fuel)%nat -> fst (lk_key c kl nh fuel public_claim fl efuel s d pw nm create k t) = d.
Proof.
  intros c kl nh pc fl d l efuel s pw nm cs n create k t e HL HS (NT & NF & LO) [S1 S2] [S3 S4] C1 C2. apply name_from_iff in NF as [NO NM]. assert (T : n_type n = Local) by now apply NM.
  destruct (lookup_local c HL nh d l HS pc 0 cs n (t_find t) NO NM LO S1 ltac:(lia)) as (n1 & _ & F1). destruct (lookup_local c HL nh d l HS pc 0 cs n (t_check t) NO NM LO S3 ltac:(lia)) as (n2 & _ & F2).
  exists (n1 + n2)%nat. intros fuel FU. unfold lk_key. unfold or_me in NT. rewrite NT. cbn [wrap].
  destruct (lookup_enckey c nh fuel pc d n (t_find t)) as [[[x y]|]|x| |] eqn:LE; try reflexivity. destruct create; [|reflexivity]. destruct (wrap _ _) as [ek| | |]; try reflexivity.
  unfold setup_special_keyclaim. rewrite T.
  destruct (F1 fuel ltac:(lia)) as [[NA _]|(e1 & h1 & p1 & CF1 & PA1 & D1)]; [destruct C1 as (I1 & P1 & _); destruct (NA e I1 P1)|]. pose proof (first_unique (hash c) HL d l HS (claims_of cs) (t_find t) e e1 C1 CF1) as <-.
  destruct D1 as [[CP1 E1]|[_ [x E1]]]; [|unfold lookup_enckey in LE; rewrite E1 in LE; discriminate].
  destruct (F2 fuel ltac:(lia)) as [[NA _]|(e2 & h2 & p2 & CF2 & PA2 & D2)]; [destruct C2 as (I2 & P2 & _); destruct (NA e I2 P2)|]. pose proof (first_unique (hash c) HL d l HS (claims_of cs) (t_check t) e e2 C2 CF2) as <-.
  destruct (packet_at_inj (hash c) _ _ _ _ _ PA1 PA2) as [<- <-]. destruct D2 as [[_ E2]|[NC _]]; [|contradiction]. rewrite E2. reflexivity.
Qed.
(** ... and a name without an entry gives an error unless a key is made, which needs a name of at most two components. *)
Theorem C75_no_entry : forall c kl nh public_claim fl d l efuel s pw nm cs n create k t,
  crypto_ok c -> keylib_ok c kl -> honest_store (hash c) d l -> asks_for efuel s nm cs n -> sane (t_find t) -> sane (t_check t) ->
  never_at (hash c) l (claims_of cs) -> create = false \/ (2 < List.length cs)%nat /\ (exists enc, lk_key_encrypt c kl k (match pw with Some v => v | None => [] end) = Ok enc) ->
  exists n0, forall fuel, (n0 <= fuel)%nat -> lk_key c kl nh fuel public_claim fl efuel s d pw nm create k t = (d, Err (if create then KTooLong else KNoEntry)).
Proof.
  intros c kl nh pc fl d l efuel s pw nm cs n create k t CO KO HS (NT & NF & LO) [S1 S2] [S3 S4] NA BAD. apply name_from_iff in NF as [NO NM]. assert (T : n_type n = Local) by now apply NM. pose proof (proj1 CO) as HL.
  destruct (enckey_local c HL nh d l HS pc cs n (t_find t) NO NM LO S1 ltac:(lia)) as (n1 & F1). destruct (enckey_local c HL nh d l HS pc cs n (t_check t) NO NM LO S3 ltac:(lia)) as (n2 & F2).
  exists (n1 + n2)%nat. intros fuel FU. unfold lk_key. unfold or_me in NT. rewrite NT. cbn [wrap]. destruct (F1 fuel ltac:(lia)) as (A1 & _). destruct (A1 (NA _)) as [-> _].
  destruct create; [|reflexivity]. destruct BAD as [BAD|[BAD [enc EN]]]; [discriminate|].
  set (w := match pw with Some v => v | None => [] end) in *. rewrite EN. cbn [wrap].
  unfold setup_special_keyclaim. rewrite T. destruct (F2 fuel ltac:(lia)) as (A2 & _). destruct (A2 (NA _)) as [_ ->].
    unfold new_claim. rewrite (enc_pubkey c kl k w enc CO KO EN). cbn [wrap obind]. destruct (enc_small c kl k w enc CO KO EN) as [LE _].
    destruct (made c HL nh d pc cs n (repeat 0 9 ++ PUBKEY_TAG) (pubkey_of c k) enc NO NM) as [_ M]; [split; [reflexivity|apply (ProofKey.pk_ok c kl CO KO k)]|now left|lia|]. rewrite M. cbn [wrap obind cl_name]. rewrite (proj1 NM).
    assert (FC : Forall component_ok (rev cs)) by (apply Forall_rev, NO). rewrite to_array_wire by (try exact FC; rewrite rev_length; destruct NO as (_ & ? & _); lia). cbn [wrap obind].
    destruct (N.ltb_spec 2 (lenN (rev cs))) as [H|H]; [|unfold lenN in H; rewrite rev_length in H; lia]. reflexivity.
Qed.

(** ** An instance *)
Definition ex_times (n : N) : readings := mkReadings n (n + 1) (n + 2) (n + 3) (n + 4) (n + 5).
Definition ex_enc (k : bool) (pw : bytes) : bytes := match lk_key_encrypt kc kc_lib k pw with Ok t => t | _ => [] end.
Definition ex_me : list bytes := [str "me"; str "local"].
Definition ex_me_name : Name := mkName (wire_space (rev ex_me)) Local.
Definition ex_key (fuel : nat) (d : db) (pw : bytes) (create : bool) (k : bool) (n : N) :=
  lk_key kc kc_lib ex_nh fuel (fun _ _ => Ok None) no_faults 40 snone d (Some pw) None create k (ex_times n).
Lemma ex_asks : asks_for 40 snone None ex_me ex_me_name.
Proof. split; [vm_compute; reflexivity|]. split; reflexivity. Qed.
Lemma ex_honest : honest_store (hash kc) empty_db [].
Proof. split; [split; [exact empty_represents|split; [reflexivity|constructor]]|constructor]. Qed.
Lemma ex_sane n : 2 <= n -> n < 1000 -> sane (t_find (ex_times n)) /\ sane (t_check (ex_times n)) /\ sane (t_now (ex_times n)) /\ sane (t_old (ex_times n)) /\ sane (t_entry (ex_times n)) /\ sane (t_save (ex_times n)).
Proof. intros A B. unfold sane, ex_times. cbn [t_find t_check t_now t_old t_entry t_save]. repeat split; lia. Qed.
Lemma ex_hash_bytes x : bytes_ok (hash kc x).
Proof. cbn [hash kc]. apply bytes_ok_app. split; apply be_encode_ok. Qed.
Lemma two_points hash a b : beqb (hash (content a)) (hash (content b)) = false -> no_collision hash [] [a; b].
Proof.
  intros H p q [(? & ? & [] & _)|IP] [(? & ? & [] & _)|IQ] E. destruct IP as [<-|[<-|[]]], IQ as [<-|[<-|[]]]; [reflexivity| | |reflexivity]; [|symmetry in E]; rewrite E, beqb_refl in H; discriminate.
Qed.
(** The key of [me:local] is made in an empty store and found again; the second key is not used. *)
Example C75_ex : exists n0 d' e1 e2, honest_store (hash kc) d' [e1; e2] /\
  (forall fuel, (n0 <= fuel)%nat -> ex_key fuel empty_db (str "secret") true true 100 = (d', Ok true)) /\
  exists n1, forall fuel, (n1 <= fuel)%nat -> ex_key fuel d' (str "secret") true false 200 = (d', Ok true).
Proof.
  assert (EN : lk_key_encrypt kc kc_lib true (str "secret") = Ok (ex_enc true (str "secret"))) by (vm_compute; reflexivity).
  destruct (ex_sane 100 ltac:(lia) ltac:(lia)) as (S1 & S2 & S3 & S4 & S5 & S6). destruct (ex_sane 200 ltac:(lia) ltac:(lia)) as (T1 & _).
  destruct (C75_created kc kc_lib ex_nh (fun _ _ => Ok None) empty_db [] 40 snone None ex_me ex_me_name true (str "secret") (ex_enc true (str "secret")) (ex_times 100) kc_ok kc_lib_ok ex_hash_bytes) as (n0 & d' & e1 & e2 & F & HS & _ & _ & P1 & P2).
  1: reflexivity. 1: apply bb; reflexivity. 1: exact ex_honest. 1: exact ex_asks. 1: repeat (constructor; [apply bb; reflexivity|]); constructor. 1: cbn; lia. 1: exact EN. 1-6: assumption. 1: constructor. 1: intros []. 1: reflexivity. 1-2: intros now e [].
  { apply two_points. vm_compute. reflexivity. }
  exists n0, d', e1, e2. split; [exact HS|]. split; [exact F|].
  apply (C75_round_trip kc kc_lib ex_nh (fun _ _ => Ok None) d' [e1; e2] 40 snone None ex_me ex_me_name true (str "secret") _ e1 ex_nh kc_ok kc_lib_ok HS ex_asks EN (or_introl eq_refl) P1 (ex_times 200) no_faults true false T1).
  intros e [<-|[<-|[]]] (ix & (h & p & PA & IX) & _ & _ & IS & _); [reflexivity|]. exfalso. destruct (packet_at_inj (hash kc) _ _ _ _ _ P2 PA) as [<- <-]. destruct IX as (c0 & HS0 & ->). cbn [i_space] in IS. subst c0.
  assert (HS1 : has_space (wire_rooted (entries_of (kc_pub true))) (entries_of (kc_pub true))) by (apply wire_has_space; now apply space_okb).
  pose proof (has_space_inj _ _ _ HS0 HS1) as Q. discriminate Q.
Qed.
(** The other cases, computed. *)
Example C75_cases_ex : let d := fst (ex_key 60 empty_db (str "secret") true true 100) in
  List.length (log_t d) = 2%nat /\ snd (ex_key 60 d (str "secret") false false 200) = Ok true /\ snd (ex_key 60 d (str "other") true false 200) = Err (KKey WrongPassword) /\
  snd (ex_key 60 empty_db (str "secret") false true 100) = Err KNoEntry /\
  snd (lk_key kc kc_lib ex_nh 60 (fun _ _ => Ok None) no_faults 40 snone d (Some (str "secret")) (Some (str "a:b:local")) true true (ex_times 200)) = Err KTooLong /\
  snd (lk_key kc kc_lib ex_nh 60 (fun _ _ => Ok None) no_faults 40 snone d (Some (str "secret")) (Some (str "a:com")) true true (ex_times 200)) = Err KNotLocal.
Proof. vm_compute. repeat split; reflexivity. Qed.

(** A claim whose key is in a datapoint of its own, behind a link with another tag. *)
Definition ex_linked : db :=
  match try_datapoint kc (ex_enc true (str "secret")) ex_nh with
  | Ok dp =>
      match try_linkpoint kc PRIVATE LNS (wire_rooted (claims_of ex_me))
              [(repeat 255 8 ++ 0 :: str "pubkey@", kc_pub true); (repeat 0 10 ++ str "enckey", np_hash dp)] [] 50 ex_nh with
      | Ok np => fst (fst (save no_faults 60 empty_db [(np, Pending); (dp, Pending)])) | _ => empty_db end
  | _ => empty_db end.
Example C75_linked_ex : List.length (log_t ex_linked) = 2%nat /\ snd (ex_key 60 ex_linked (str "secret") false false 100) = Ok true.
Proof. vm_compute. split; reflexivity. Qed.

(** The command that overwrites the key of a name can succeed without effect: both claims are made at the same time
    (zero), so the larger hash comes first, not the newer claim. *)
Theorem C75_overwrite_refuted : let d := fst (ex_key 60 empty_db (str "secret") true true 100) in
  let '(d', o) := setup_special_keyclaim kc ex_nh 60 (fun _ _ => Ok None) no_faults d ex_me_name (ex_enc false (str "two")) true (ex_times 200) in
  o = Ok (kc_pub false) /\ List.length (log_t d') = 5%nat /\ snd (ex_key 60 d' (str "two") false false 300) = Err (KKey WrongPassword) /\ snd (ex_key 60 d' (str "secret") false false 300) = Ok true.
Proof. vm_compute. repeat split; reflexivity. Qed.

(** F91: a point at the space of the name that is no claim, such as one without links, takes the name: no key is found
    and none can be made. *)
Theorem F91_name_taken : forall c kl nh public_claim fl d l efuel s pw nm cs n create k t e nh' p,
  (forall x, lenN (hash c x) = 32) -> honest_store (hash c) d l -> asks_for efuel s nm cs n -> sane (t_find t) ->
  comes_first (hash c) l (claims_of cs) (t_find t) e -> packet_at (hash c) e nh' p -> ~ claim_point cs p ->
  exists n0, forall fuel, (n0 <= fuel)%nat -> exists x, lk_key c kl nh fuel public_claim fl efuel s d pw nm create k t = (d, Err x).
Proof.
  intros c kl nh pc fl d l efuel s pw nm cs n create k t e nh' p HL HS (NT & NF & LO) [S1 S2] CF PA NC. apply name_from_iff in NF as [NO NM].
  destruct (enckey_local c HL nh d l HS pc cs n (t_find t) NO NM LO S1 ltac:(lia)) as (n1 & F1). exists n1. intros fuel FU. destruct (F1 fuel FU) as (_ & _ & A). destruct (A e nh' p CF PA NC) as [x E].
  exists x. unfold lk_key. unfold or_me in NT. rewrite NT. cbn [wrap]. rewrite E. reflexivity.
Qed.
Definition ex_taken : db := match try_linkpoint kc PRIVATE LNS (wire_rooted (claims_of ex_me)) [] [] 50 ex_nh with
  | Ok np => fst (fst (save no_faults 60 empty_db [(np, Pending)])) | _ => empty_db end.
Example F91_ex : List.length (log_t ex_taken) = 1%nat /\ snd (ex_key 60 ex_taken (str "secret") true true 100) = Err (KName EClaim).
Proof. vm_compute. split; reflexivity. Qed.
Print Assumptions C75_found.
Print Assumptions C75_linked.
Print Assumptions C75_created.
Print Assumptions C75_round_trip.
Print Assumptions C75_read_only.
Print Assumptions C75_no_overwrite.
Print Assumptions C75_no_entry.
Print Assumptions C75_overwrite_refuted.
Print Assumptions F91_name_taken.
