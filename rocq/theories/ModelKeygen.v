(** The key command: crates/common/src/cli/keys.rs.  Keys, encrypted keys and what is in the database are parameters; their
    own models are those of C74 and ModelLkKey.v. *)
From Verif Require Import Bytes.

(** keys.rs:80-105: a password as given, after evaluation: [None] if there is none, [Some None] if it does not evaluate *)
Definition Given : Type := option (option bytes).
(** The prompts of keys.rs:203-254 *)
Inductive Prompt := OldPass | NewPass | Decrypting | Generating.
(** keys.rs:108-146 [KeyGenOpts] with the options of 16-35 [KeyOpts] *)
Record Opts (Enc : Type) := mkOpts { o_overwrite : bool; o_no_check : bool; o_error_some : bool; o_error_none : bool; o_no_lk : bool;
  o_enckey : option Enc; o_password : Given; o_no_enckey : bool; o_no_pubkey : bool; o_decrypt_cost : N; o_new_pass : bool; o_new_pass_str : Given }.
Arguments o_overwrite {Enc} o. Arguments o_no_check {Enc} o. Arguments o_error_some {Enc} o. Arguments o_error_none {Enc} o. Arguments o_no_lk {Enc} o.
Arguments o_enckey {Enc} o. Arguments o_password {Enc} o. Arguments o_no_enckey {Enc} o. Arguments o_no_pubkey {Enc} o. Arguments o_decrypt_cost {Enc} o.
Arguments o_new_pass {Enc} o. Arguments o_new_pass_str {Enc} o. Arguments mkOpts {Enc} _ _ _ _ _ _ _ _ _ _ _ _.
(** crates/argon2-identity/src/lib.rs: INSECURE_COST, DEFAULT_COST, EXPENSIVE_COST *)
Inductive Cost := Insecure | Default | Expensive.
(** What the command does that can be seen: the key claim saved under the name, and lines printed *)
Inductive Act (Enc Pub : Type) := Saved (e : Enc) | PrintEnc (e : Enc) | PrintPub (p : Pub).
Arguments Saved {Enc Pub} e. Arguments PrintEnc {Enc Pub} e. Arguments PrintPub {Enc Pub} p.

Section Keygen.
  Variables Key Enc Pub : Type.
  (** crates/argon2-identity/src/lib.rs:93-190: [encrypt], [decrypt] and [pubkey], [None] for an error *)
  Variable encrypt : Key -> bytes -> Cost -> Enc.
  Variable decrypt : Enc -> bytes -> option Key.
  Variable pubkey : Enc -> option Pub.
  (** [SigningKey::generate]: the key it makes *)
  Variable generated : Key.
  (** What is typed at a prompt, after evaluation; [None] if that fails *)
  Variable typed : Prompt -> option bytes.
  (** Whether the runtime opens and the name evaluates; protocols/lns [lookup_enckey] of the name, [None] for an error *)
  Variables runtime_opens name_evals : bool.
  Variable lookup : option (option Enc).
  (** [setup_special_keyclaim], protocols/lns/mod.rs:196-229: whether the claim is saved, given the flag overwrite *)
  Variable can_set : bool -> bool.

  (** [anyhow::Result<()>], with what is seen of a run that succeeds *)
  Definition Out : Type := outcome unit (list (Act Enc Pub)).
  (** [?] on an error or a missing value *)
  Definition of_opt {A} (x : option A) : outcome unit A := match x with Some a => Ok a | None => Err tt end.
  (** keys.rs:80-105 [password_bytes_prompt] with [prompt] true *)
  Definition password (g : Given) (p : Prompt) : outcome unit bytes :=
    match g with Some v => of_opt v | None => of_opt (typed p) end.
  (** keys.rs:166-170 *)
  Definition cost (n : N) : Cost := match n with 0 => Insecure | 1 => Default | _ => Expensive end.
  (** keys.rs:177-184 *)
  Definition print (o : Opts Enc) (e : Enc) (p : Pub) : list (Act Enc Pub) :=
    (if o_no_enckey o then [] else [PrintEnc e]) ++ (if o_no_pubkey o then [] else [PrintPub p]).
  (** The claim is saved, and the key in it given *)
  Definition setup (e : Enc) (overwrite : bool) : outcome unit Pub :=
    if can_set overwrite then of_opt (pubkey e) else Err tt.
  (** keys.rs:190-199: the encrypted key to begin with *)
  Definition found (o : Opts Enc) : outcome unit (option Enc) :=
    match o_enckey o with
    | Some k => Ok (Some k)
    | None => if o_no_lk o then Ok None
              else match lookup with
                   | None => Err tt
                   | Some None => if o_error_none o then Err tt else Ok None
                   | Some (Some e) => if o_error_some o then Err tt else Ok (Some e)
                   end
    end.
  (** keys.rs:201-210: with a new password; the password after it is the new one, written as text and read again *)
  Definition renew (o : Opts Enc) (enckey : option Enc) : outcome unit (option Enc * Given) :=
    if o_new_pass o || match o_new_pass_str o with Some _ => true | None => false end then
      obind (of_opt enckey) (fun keystr =>
      obind (password (o_password o) OldPass) (fun old =>
      obind (of_opt (decrypt keystr old)) (fun skey =>
      obind (password (o_new_pass_str o) NewPass) (fun new =>
      Ok (Some (encrypt skey new (cost (o_decrypt_cost o))), Some (Some new))))))
    else Ok (enckey, o_password o).
  (** keys.rs:216-220, 244-247 *)
  Definition check (o : Opts Enc) (e : Enc) (g : Given) : outcome unit unit :=
    if o_no_check o then Ok tt
    else obind (password g Decrypting) (fun p => obind (of_opt (decrypt e p)) (fun _ => Ok tt)).
  (** keys.rs:172-176 *)
  Definition generate (o : Opts Enc) (g : Given) : outcome unit Enc :=
    obind (password g Generating) (fun p => Ok (encrypt generated p (cost (o_decrypt_cost o)))).
  (** keys.rs:230-234, 253-258: save and give the public key *)
  Definition save (o : Opts Enc) (e : Enc) (overwrite : bool) : Out :=
    if o_no_lk o then obind (of_opt (pubkey e)) (fun p => Ok (print o e p))
    else obind (setup e overwrite) (fun p => Ok (Saved e :: print o e p)).
  (** keys.rs:148-262 [keygen] *)
  Definition keygen (o : Opts Enc) : Out :=
    if negb (o_no_lk o) && negb runtime_opens then Err tt
    else if negb name_evals then Err tt
    else
      let input := match o_enckey o with Some _ => true | None => false end in
      obind (found o) (fun enckey =>
      obind (renew o enckey) (fun '(enckey, g) =>
      if o_overwrite o then
        obind (if input then match enckey with None => Panic | Some e => obind (check o e g) (fun _ => Ok e) end else generate o g)
              (fun e => save o e true)
      else if input && negb (o_no_lk o) then Err tt
      else match enckey with
           | Some e => obind (check o e g) (fun _ => obind (of_opt (pubkey e)) (fun p => Ok (print o e p)))
           | None => obind (generate o g) (fun e => save o e false)
           end)).
End Keygen.
