(** C105: the key command. *)
From Verif Require Import Bytes ModelKeygen SpecKeygen.

Section C105.
  Variables Key Enc Pub : Type.
  Variable encrypt : Key -> bytes -> Cost -> Enc.
  Variable decrypt : Enc -> bytes -> option Key.
  Variable pubkey : Enc -> option Pub.
  Variable public : Key -> Pub.
  Variable generated : Key.
  Variable typed : Prompt -> option bytes.
  Variables runtime_opens name_evals : bool.
  Variable lookup : option (option Enc).
  Variable can_set : bool -> bool.
  Notation keygen := (keygen Key Enc Pub encrypt decrypt pubkey generated typed runtime_opens name_evals lookup can_set).
  Notation pass := (pass typed).
  Notation printed := (printed Enc Pub pubkey).
  Notation saved := (saved Enc Pub).
  Notation begins := (begins Enc lookup).

  Lemma password_pass g pr p : password typed g pr = Ok p <-> pass g pr p.
  Proof.
    unfold password, SpecKeygen.pass, of_opt. destruct g as [[v|]|]; [|split; [discriminate|]; intros [H|(H & _)]; discriminate|destruct (typed pr) as [v|]].
    - split; [intros [= ->]; now left|intros [[= ->]|(H & _)]; [reflexivity|discriminate]].
    - split; [intros [= ->]; right; auto|intros [H|(_ & [= ->])]; [discriminate|reflexivity]].
    - split; [discriminate|]. intros [H|(_ & H)]; discriminate.
  Qed.
  Lemma cost_costs n : costs n (cost n).
  Proof. unfold costs, cost. destruct n as [|[p|p|]]; auto; right; right; split; try reflexivity; lia. Qed.
  Lemma costs_cost n c : costs n c -> c = cost n.
  Proof. intros [(-> & ->)|[(-> & ->)|(L & ->)]]; try reflexivity. destruct n as [|[p|p|]]; try lia; reflexivity. Qed.
  Lemma print_printed o e p : pubkey e = Some p -> printed o (print Enc Pub o e p) e /\ saved (print Enc Pub o e p) None.
  Proof.
    intros P. unfold print. split.
    - exists p. split; [exact P|]. destruct (o_no_enckey o), (o_no_pubkey o); cbn; intuition (try discriminate; try congruence).
    - intros x. split; [|discriminate]. destruct (o_no_enckey o), (o_no_pubkey o); cbn; intuition discriminate.
  Qed.
  Lemma saved_printed o e p : pubkey e = Some p -> printed o (Saved e :: print Enc Pub o e p) e /\ saved (Saved e :: print Enc Pub o e p) (Some e).
  Proof.
    intros P. destruct (print_printed o e p P) as ((q & Q & A & B & C & D) & S). split.
    - exists q. split; [exact Q|]. cbn [In]. intuition (try discriminate; auto).
    - intros x. cbn [In]. specialize (S x). split; [intros [[= ->]|H]; [reflexivity|apply S in H; discriminate]|intros [= ->]; now left].
  Qed.
  Lemma check_ok o e g : check Key Enc decrypt typed o e g = Ok tt <-> (o_no_check o = false -> exists p k, pass g Decrypting p /\ decrypt e p = Some k).
  Proof.
    unfold check. destruct (o_no_check o); [split; [discriminate|reflexivity]|]. split.
    - intros H _. destruct (password typed g Decrypting) as [p| | |] eqn:P; try discriminate. cbn [obind] in H.
      destruct (decrypt e p) as [k|] eqn:D; [|discriminate]. exists p, k. split; [now apply password_pass|exact D].
    - intros H. destruct (H eq_refl) as (p & k & P & D). apply password_pass in P. rewrite P. cbn [obind]. rewrite D. reflexivity.
  Qed.
  Lemma save_ok o e b acts : save Enc Pub pubkey can_set o e b = Ok acts ->
    printed o acts e /\ saved acts (if o_no_lk o then None else Some e).
  Proof.
    unfold save, setup. destruct (o_no_lk o).
    - destruct (pubkey e) as [p|] eqn:P; [|discriminate]. cbn. intros [= <-]. now apply print_printed.
    - destruct (can_set b); [|discriminate]. destruct (pubkey e) as [p|] eqn:P; [|discriminate]. cbn. intros [= <-]. now apply saved_printed.
  Qed.
  Lemma generate_ok o g e : generate Key Enc encrypt generated typed o g = Ok e -> exists p c, pass g Generating p /\ costs (o_decrypt_cost o) c /\ e = encrypt generated p c.
  Proof.
    unfold generate. destruct (password typed g Generating) as [p| | |] eqn:P; try discriminate. cbn. intros [= <-].
    exists p, (cost (o_decrypt_cost o)). split; [now apply password_pass|]. split; [apply cost_costs|reflexivity].
  Qed.
  Definition asked (o : Opts Enc) : bool := o_new_pass o || match o_new_pass_str o with Some _ => true | None => false end.
  Lemma asked_new o : asked o = true <-> new_pass Enc o.
  Proof.
    unfold asked, new_pass. destruct (o_new_pass o), (o_new_pass_str o); cbn; intuition (try discriminate; try congruence).
  Qed.
  Lemma not_asked o enckey : ~ new_pass Enc o -> renew Key Enc encrypt decrypt typed o enckey = Ok (enckey, o_password o).
  Proof. intros N. unfold renew. fold (asked o). destruct (asked o) eqn:A; [apply asked_new in A; contradiction|reflexivity]. Qed.
  Lemma renew_ok o enckey e g : new_pass Enc o -> renew Key Enc encrypt decrypt typed o enckey = Ok (e, g) ->
    exists e0 old k new c, enckey = Some e0 /\ pass (o_password o) OldPass old /\ decrypt e0 old = Some k /\ pass (o_new_pass_str o) NewPass new /\
      costs (o_decrypt_cost o) c /\ e = Some (encrypt k new c) /\ g = Some (Some new).
  Proof.
    intros N. unfold renew. fold (asked o). apply asked_new in N. rewrite N. destruct enckey as [e0|]; [|discriminate]. cbn [of_opt obind].
    destruct (password typed (o_password o) OldPass) as [old| | |] eqn:P; try discriminate. cbn [obind].
    destruct (decrypt e0 old) as [k|] eqn:D; [|discriminate]. cbn [of_opt obind].
    destruct (password typed (o_new_pass_str o) NewPass) as [new| | |] eqn:Q; try discriminate. cbn [obind]. intros [= <- <-].
    exists e0, old, k, new, (cost (o_decrypt_cost o)). split; [reflexivity|]. split; [now apply password_pass|]. split; [exact D|]. split; [now apply password_pass|]. split; [apply cost_costs|auto].
  Qed.
  Lemma found_begins o e : found Enc lookup o = Ok e <-> begins o e.
  Proof.
    unfold found, SpecKeygen.begins. destruct (o_enckey o) as [k|]; [split; [now intros [= <-]|intros ->; reflexivity]|].
    destruct (o_no_lk o); [split; [intros [= <-]; now left|intros [(_ & ->)|(H & _)]; [reflexivity|discriminate]]|].
    destruct lookup as [[x|]|]; [destruct (o_error_some o) eqn:S|destruct (o_error_none o) eqn:S|]; split; intros H; try discriminate.
    all: try (injection H as <-; right; auto; fail).
    all: destruct H as [(H & _)|(_ & [= <-] & H)]; try discriminate; reflexivity.
  Qed.
  Lemma keygen_parts o acts : keygen o = Ok acts -> exists e e' g, begins o e /\ renew Key Enc encrypt decrypt typed o e = Ok (e', g) /\
    let input := match o_enckey o with Some _ => true | None => false end in
    (if o_overwrite o then
        obind (if input then match e' with None => Panic | Some e => obind (check Key Enc decrypt typed o e g) (fun _ => Ok e) end else generate Key Enc encrypt generated typed o g)
              (fun e => save Enc Pub pubkey can_set o e true)
      else if input && negb (o_no_lk o) then Err tt
      else match e' with
           | Some e => obind (check Key Enc decrypt typed o e g) (fun _ => obind (of_opt (pubkey e)) (fun p => Ok (print Enc Pub o e p)))
           | None => obind (generate Key Enc encrypt generated typed o g) (fun e => save Enc Pub pubkey can_set o e false)
           end) = Ok acts.
  Proof.
    unfold ModelKeygen.keygen. destruct (negb (o_no_lk o) && negb runtime_opens); [discriminate|]. destruct (negb name_evals); [discriminate|].
    destruct (found Enc lookup o) as [e| | |] eqn:F; try discriminate. cbn [obind].
    destruct (renew Key Enc encrypt decrypt typed o e) as [[e' g]| | |] eqn:R; try discriminate. cbn [obind]. intros H.
    exists e, e', g. split; [now apply found_begins|]. split; [exact R|exact H].
  Qed.

  (** A key there is: printed, not saved, and only if its password is known *)
  Theorem C105_show o acts e : keygen o = Ok acts -> ~ new_pass Enc o -> o_overwrite o = false -> begins o (Some e) ->
    printed o acts e /\ saved acts None /\ (o_no_check o = false -> exists p k, pass (o_password o) Decrypting p /\ decrypt e p = Some k).
  Proof.
    intros H N W B. destruct (keygen_parts o acts H) as (e0 & e' & g & B0 & R & K). cbn zeta in K.
    apply found_begins in B, B0. rewrite B in B0. injection B0 as <-. rewrite (not_asked o _ N) in R. injection R as <- <-. rewrite W in K.
    destruct (match o_enckey o with Some _ => true | None => false end && negb (o_no_lk o)); [discriminate|].
    destruct (check Key Enc decrypt typed o e (o_password o)) as [[]| | |] eqn:C; try discriminate. cbn [obind] in K.
    destruct (pubkey e) as [p|] eqn:P; [|discriminate]. cbn in K. injection K as <-. destruct (print_printed o e p P) as (A & S). split; [exact A|]. split; [exact S|]. now apply check_ok.
  Qed.
  (** No key there is: a new one under the password given, saved unless asked not to use a database *)
  Theorem C105_generate o acts : keygen o = Ok acts -> begins o None ->
    exists p c, pass (o_password o) Generating p /\ costs (o_decrypt_cost o) c /\ ~ new_pass Enc o /\
      printed o acts (encrypt generated p c) /\ saved acts (if o_no_lk o then None else Some (encrypt generated p c)).
  Proof.
    intros H B. destruct (keygen_parts o acts H) as (e0 & e' & g & B0 & R & K). cbn zeta in K.
    apply found_begins in B0. pose proof B as B1. apply found_begins in B1. rewrite B1 in B0. injection B0 as <-.
    assert (N : ~ new_pass Enc o) by (intros N; destruct (renew_ok o None e' g N R) as (? & ? & ? & ? & ? & E & _); discriminate).
    rewrite (not_asked o _ N) in R. injection R as <- <-. assert (I : o_enckey o = None) by (unfold SpecKeygen.begins in B; destruct (o_enckey o); [discriminate|reflexivity]).
    rewrite I in K. cbn [andb] in K.
    assert (G : exists e b, generate Key Enc encrypt generated typed o (o_password o) = Ok e /\ save Enc Pub pubkey can_set o e b = Ok acts).
    { destruct (o_overwrite o); (destruct (generate Key Enc encrypt generated typed o (o_password o)) as [e| | |]; try discriminate); cbn [obind] in K; eauto. }
    destruct G as (e & b & G & S). destruct (generate_ok o _ e G) as (p & c & P & C & ->). destruct (save_ok o _ b acts S) as (X & Y). exists p, c. auto 6.
  Qed.
  (** Overwriting with a key given: saved and printed, if its password is known; with none given: a new one *)
  Theorem C105_overwrite o acts : keygen o = Ok acts -> ~ new_pass Enc o -> o_overwrite o = true ->
    exists e, printed o acts e /\ saved acts (if o_no_lk o then None else Some e) /\
      match o_enckey o with
      | Some k => e = k /\ (o_no_check o = false -> exists p k', pass (o_password o) Decrypting p /\ decrypt e p = Some k')
      | None => exists p c, pass (o_password o) Generating p /\ costs (o_decrypt_cost o) c /\ e = encrypt generated p c
      end.
  Proof.
    intros H N W. destruct (keygen_parts o acts H) as (e0 & e' & g & B0 & R & K). cbn zeta in K. rewrite (not_asked o _ N) in R. injection R as <- <-. rewrite W in K.
    unfold SpecKeygen.begins in B0. destruct (o_enckey o) as [k|] eqn:I.
    - subst e0. destruct (check Key Enc decrypt typed o k (o_password o)) as [[]| | |] eqn:C; try discriminate. cbn [obind] in K.
      destruct (save_ok o k true acts K) as (X & Y). exists k. split; [exact X|]. split; [exact Y|]. split; [reflexivity|]. now apply check_ok.
    - destruct (generate Key Enc encrypt generated typed o (o_password o)) as [e| | |] eqn:G; try discriminate. cbn [obind] in K.
      destruct (save_ok o e true acts K) as (X & Y). exists e. split; [exact X|]. split; [exact Y|]. now apply (generate_ok o).
  Qed.
  (** A new password: the same key under it, saved if asked to overwrite -- when the key was given *)
  Theorem C105_new_pass_partial o acts : keygen o = Ok acts -> new_pass Enc o -> o_overwrite o = false \/ o_enckey o <> None ->
    exists e0 old k new c, begins o (Some e0) /\ pass (o_password o) OldPass old /\ decrypt e0 old = Some k /\ pass (o_new_pass_str o) NewPass new /\
      costs (o_decrypt_cost o) c /\ printed o acts (encrypt k new c) /\ saved acts (if o_overwrite o && negb (o_no_lk o) then Some (encrypt k new c) else None).
  Proof.
    intros H N W. destruct (keygen_parts o acts H) as (e1 & e' & g & B0 & R & K). cbn zeta in K.
    destruct (renew_ok o e1 e' g N R) as (e0 & old & k & new & c & -> & P & D & Q & C & -> & ->). exists e0, old, k, new, c.
    split; [exact B0|]. split; [exact P|]. split; [exact D|]. split; [exact Q|]. split; [exact C|].
    destruct (o_overwrite o) eqn:O.
    - destruct (o_enckey o) as [x|]; [|now destruct W as [W|W]]. destruct (check Key Enc decrypt typed o _ _) as [[]| | |]; try discriminate. cbn [obind] in K.
      destruct (save_ok o _ true acts K) as (X & Y). split; [exact X|]. cbn [andb]. destruct (o_no_lk o); exact Y.
    - destruct (match o_enckey o with Some _ => true | None => false end && negb (o_no_lk o)); [discriminate|].
      destruct (check Key Enc decrypt typed o _ _) as [[]| | |]; try discriminate. cbn [obind] in K.
      destruct (pubkey (encrypt k new c)) as [p|] eqn:PK; [|discriminate]. cbn in K. injection K as <-. now apply print_printed.
  Qed.
  (** Of the key of the name, asked to overwrite: the key is replaced by a new one under the new password *)
  Theorem C105_new_pass_refuted o acts : keygen o = Ok acts -> new_pass Enc o -> o_overwrite o = true -> o_enckey o = None ->
    exists new c, pass (o_new_pass_str o) NewPass new /\ costs (o_decrypt_cost o) c /\
      printed o acts (encrypt generated new c) /\ saved acts (Some (encrypt generated new c)).
  Proof.
    intros H N W I. destruct (keygen_parts o acts H) as (e1 & e' & g & B0 & R & K). cbn zeta in K.
    destruct (renew_ok o e1 e' g N R) as (e0 & old & k & new & c & -> & P & D & Q & C & -> & ->). rewrite W, I in K.
    destruct (generate Key Enc encrypt generated typed o (Some (Some new))) as [e| | |] eqn:G; try discriminate. cbn [obind] in K.
    destruct (generate_ok o _ e G) as (p & c' & [[= <-]|(X & _)] & C' & ->); [|discriminate].
    destruct (save_ok o _ true acts K) as (X & Y). exists new, c'. split; [exact Q|]. split; [exact C'|]. split; [exact X|].
    unfold SpecKeygen.begins in B0. rewrite I in B0. destruct B0 as [(_ & E)|(E & _)]; [discriminate|]. now rewrite E in Y.
  Qed.
  (** Asked for an error if there is a key or if there is none *)
  Theorem C105_errors o acts : o_enckey o = None -> o_no_lk o = false -> (forall e, lookup = Some (Some e) -> o_error_some o = true) ->
    (lookup = Some None -> o_error_none o = true) -> keygen o <> Ok acts.
  Proof.
    intros I L A B H. destruct (keygen_parts o acts H) as (e & e' & g & B0 & _). unfold SpecKeygen.begins in B0. rewrite I in B0.
    destruct B0 as [(X & _)|(_ & E & X)]; [congruence|]. destruct e as [e|]; [rewrite (A e E) in X|rewrite (B E) in X]; discriminate.
  Qed.
  (** It succeeds when it can *)
  Theorem C105_runs o p : ident_ok Key Enc Pub encrypt decrypt pubkey public -> runtime_opens = true -> name_evals = true -> ~ new_pass Enc o -> o_overwrite o = false ->
    o_enckey o = None -> o_no_lk o = false -> can_set false = true -> o_password o = Some (Some p) ->
    (forall e, lookup = Some (Some e) -> o_error_some o = false -> (exists k c, e = encrypt k p c) -> exists acts, keygen o = Ok acts) /\
    (lookup = Some None -> o_error_none o = false -> exists acts, keygen o = Ok acts).
  Proof.
    intros (DE & PE) RO NE N W I L CS P. unfold ModelKeygen.keygen, found. rewrite RO, NE, I, L. cbn [negb andb]. split.
    - intros e -> -> (k & c & ->). cbn [obind]. rewrite (not_asked o _ N). cbn [obind]. rewrite W. unfold check. rewrite P. cbn [password of_opt obind].
      rewrite DE, PE. cbn. destruct (o_no_check o); eexists; reflexivity.
    - intros -> ->. cbn [obind]. rewrite (not_asked o _ N). cbn [obind]. rewrite W. unfold generate. rewrite P. cbn [password of_opt obind].
      unfold save, setup. rewrite L, CS, PE. cbn. eexists. reflexivity.
  Qed.
End C105.

(** ** Examples: keys are numbers *)
Definition ex_dec (e : N * bytes * Cost) (p : bytes) : option N := let '(k, q, _) := e in if list_eq_dec N.eq_dec q p then Some k else None.
Definition ex_keygen (lookup : option (N * bytes * Cost)) :=
  keygen N (N * bytes * Cost) N (fun k p c => (k, p, c)) ex_dec (fun '(k, _, _) => Some (k + 100)) 77 (fun _ => None) true true (Some lookup) (fun _ => true).
Definition ex_opts (overwrite : bool) (pw : bytes) (new : Given) : Opts (N * bytes * Cost) :=
  mkOpts overwrite false false false false None (Some (Some pw)) false false 1 false new.
Example C105_ex :
  ident_ok N (N * bytes * Cost) N (fun k p c => (k, p, c)) ex_dec (fun '(k, _, _) => Some (k + 100)) (fun k => k + 100) /\
  ex_keygen None (ex_opts false [1] None) = Ok [Saved (77, [1], Default); PrintEnc (77, [1], Default); PrintPub 177] /\
  ex_keygen (Some (5, [1], Default)) (ex_opts false [1] None) = Ok [PrintEnc (5, [1], Default); PrintPub 105] /\
  ex_keygen (Some (5, [1], Default)) (ex_opts false [2] None) = Err tt /\
  ex_keygen (Some (5, [1], Default)) (ex_opts false [1] (Some (Some [9]))) = Ok [PrintEnc (5, [9], Default); PrintPub 105] /\
  ex_keygen (Some (5, [1], Default)) (ex_opts true [1] (Some (Some [9]))) = Ok [Saved (77, [9], Default); PrintEnc (77, [9], Default); PrintPub 177].
Proof.
  split; [|repeat split; vm_compute; reflexivity]. split; [|reflexivity]. intros k p c. unfold ex_dec. now destruct (list_eq_dec N.eq_dec p p).
Qed.
Print Assumptions C105_show.
Print Assumptions C105_generate.
Print Assumptions C105_overwrite.
Print Assumptions C105_new_pass_partial.
Print Assumptions C105_new_pass_refuted.
Print Assumptions C105_errors.
Print Assumptions C105_runs.
Print Assumptions C105_ex.
