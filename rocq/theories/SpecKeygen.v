(** Specification of the key command.  Nothing here refers to how it goes about it. *)
From Verif Require Import Bytes ModelKeygen.

Section Spec.
  Variables Key Enc Pub : Type.
  Variable encrypt : Key -> bytes -> Cost -> Enc.
  Variable decrypt : Enc -> bytes -> option Key.
  Variable pubkey : Enc -> option Pub.
  Variable public : Key -> Pub.
  (** Encrypted keys open with their password to the key, and show the public key of it (C74) *)
  Definition ident_ok : Prop :=
    (forall k p c, decrypt (encrypt k p c) p = Some k) /\ (forall k p c, pubkey (encrypt k p c) = Some (public k)).
  (** What is printed of an encrypted key *)
  Definition printed (o : Opts Enc) (acts : list (Act Enc Pub)) (e : Enc) : Prop :=
    exists p, pubkey e = Some p /\
    (In (PrintEnc e) acts <-> o_no_enckey o = false) /\ (In (PrintPub p) acts <-> o_no_pubkey o = false) /\
    (forall x, In (PrintEnc x) acts -> x = e) /\ (forall x, In (PrintPub x) acts -> x = p).
  Definition saved (acts : list (Act Enc Pub)) (e : option Enc) : Prop :=
    forall x, In (Saved x) acts <-> e = Some x.
  (** A new password was asked for *)
  Definition new_pass (o : Opts Enc) : Prop := o_new_pass o = true \/ o_new_pass_str o <> None.
  (** A password: as given, or else as typed *)
  Definition pass (typed : Prompt -> option bytes) (g : Given) (pr : Prompt) (p : bytes) : Prop :=
    g = Some (Some p) \/ g = None /\ typed pr = Some p.
  Definition costs (n : N) (c : Cost) : Prop := n = 0 /\ c = Insecure \/ n = 1 /\ c = Default \/ 1 < n /\ c = Expensive.
  Variable lookup : option (option Enc).
  (** The encrypted key the command begins with: the one given, or the one of the name *)
  Definition begins (o : Opts Enc) (e : option Enc) : Prop :=
    match o_enckey o with
    | Some k => e = Some k
    | None => o_no_lk o = true /\ e = None \/ o_no_lk o = false /\ lookup = Some e /\ (if e then o_error_some o = false else o_error_none o = false)
    end.
End Spec.
