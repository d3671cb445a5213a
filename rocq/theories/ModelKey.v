(** Model of encrypted keys.
    Source: crates/argon2-identity/src/lib.rs, the module [key] of crates/linkspace/src/lib.rs and
    [read_enckey] of crates/common/src/protocols/lns/claim.rs. *)
From Verif Require Import Bytes ModelPkt ModelAbe ModelFmt ModelFn.

(** lib.rs:11-32 *)
Record Costs := mkCosts { mem : N; times : N; parallelism : N }.
Definition DEFAULT_COST : Costs := mkCosts 131072 4 4.
Definition INSECURE_COST : Costs := mkCosts 8 1 1.
(** :85-91 *)
Inductive KeyError := BadData | WrongPassword.

(** What the libraries provide: argon2d version 19 with a digest of 32 bytes ([None] when it refuses the
    parameters), and the bytes of a signing key (k256). *)
Record keylib (c : crypto) := mkKeylib {
  argon2d : bytes -> bytes -> Costs -> option bytes;
  key_bytes : skey c -> bytes;
  key_from : bytes -> option (skey c) }.
Arguments argon2d {c}. Arguments key_bytes {c}. Arguments key_from {c}.

(** ** Text: [split], [split_once], [rsplit_once] and [strip_prefix] of core::str *)
Fixpoint split_on (c : N) (t : bytes) : list bytes :=
  match t with
  | [] => [[]]
  | x :: r => if x =? c then [] :: split_on c r
              else match split_on c r with h :: l => (x :: h) :: l | [] => [[x]] end
  end.
Fixpoint split_once (c : N) (t : bytes) : option (bytes * bytes) :=
  match t with
  | [] => None
  | x :: r => if x =? c then Some ([], r) else match split_once c r with Some (a, b) => Some (x :: a, b) | None => None end
  end.
Fixpoint rsplit_once (c : N) (t : bytes) : option (bytes * bytes) :=
  match t with
  | [] => None
  | x :: r => match rsplit_once c r with
              | Some (a, b) => Some (x :: a, b)
              | None => if x =? c then Some ([], r) else None
              end
  end.
Fixpoint strip_prefix (p t : bytes) : option bytes :=
  match p, t with
  | [], _ => Some t
  | x :: p', y :: t' => if x =? y then strip_prefix p' t' else None
  | _, [] => None
  end.
(** base64 BASE64_STANDARD_NO_PAD *)
Definition b64_std (b : bytes) : bytes := map (b64_char false) (b64_digits b).

(** :48, and what argon2::hash_encoded puts before the options *)
Definition key_prefix : bytes := str "$argon2d$v=19$".
(** :58-66: the options; at most three are left after the [zip] *)
Definition read_options (options : bytes) : option Costs :=
  let pairs := flat_map (fun st => match split_once 61 st with Some x => [x] | None => [] end) (split_on 44 options) in
  let vals := flat_map (fun '((kind, val), expect) =>
                if beqb kind expect then match parse_uint 4 val with Some v => [v] | None => [] end else [])
              (combine pairs [str "m"; str "t"; str "p"]) in
  match vals with [m; t; p] => Some (mkCosts m t p) | _ => None end.
(** :40-78 [decode_string] *)
Record Decoded := mkDecoded { d_costs : Costs; d_salt : bytes; d_hash : bytes }.
Definition decode_string (t : bytes) : option Decoded :=
  match strip_prefix key_prefix t with
  | None => None
  | Some items =>
      match split_on 36 items with
      | options :: s :: h :: _ =>
          match b64_decode_raw false s, b64_decode_raw false h with
          | Some salt, Some x =>
              if lenN x =? 32 then match read_options options with Some co => Some (mkDecoded co salt x) | None => None end else None
          | _, _ => None
          end
      | _ => None
      end
  end.
(** The text of argon2::hash_encoded. *)
Definition encoded (co : Costs) (salt digest : bytes) : bytes :=
  key_prefix ++ str "m=" ++ to_string (mem co) ++ str ",t=" ++ to_string (times co) ++ str ",p=" ++ to_string (parallelism co) ++
  str "$" ++ b64_std salt ++ str "$" ++ b64_std digest.
(** [zip] and [map] of :113-117, and :146 *)
Definition xor_bytes (a b : bytes) : bytes := map (fun '(x, y) => N.lxor x y) (combine a b).

Section Keys.
Variable c : crypto.
Variable kl : keylib c.
(** :93-126 [encrypt], [_encrypt].  The check of debug builds that the text decrypts again is left out. *)
Definition try_encrypt (k : skey c) (password : bytes) (co : Costs) : option bytes :=
  match argon2d kl password (pubkey_of c k) co with
  | None => None
  | Some d =>
      match rsplit_once 36 (encoded co (pubkey_of c k) d) with
      | None => None
      | Some (conf, digest) =>
          match b64_decode_raw false digest with
          | None => None
          | Some digest => Some (conf ++ str "$" ++ b64_std (xor_bytes digest (key_bytes kl k)))
          end
      end
  end.
Definition encrypt (k : skey c) (password : bytes) (cost : option Costs) : outcome KeyError bytes :=
  match try_encrypt k password (match cost with Some co => co | None => DEFAULT_COST end) with Some t => Ok t | None => Panic end.
(** :127-139 [pubkey]; the length of the hash is that of its type *)
Definition pubkey (t : bytes) : outcome KeyError bytes :=
  match decode_string t with
  | None => Err BadData
  | Some d => if negb (lenN (d_salt d) =? 32) then Err BadData else Ok (d_salt d)
  end.
(** :141-170 [decrypt] *)
Definition decrypt (t password : bytes) : outcome KeyError (skey c) :=
  match decode_string t with
  | None => Err BadData
  | Some d =>
      match argon2d kl password (d_salt d) (d_costs d) with
      | None => Err BadData
      | Some digest =>
          if negb (lenN digest =? 32) then Err BadData
          else match key_from kl (xor_bytes digest (d_hash d)) with
               | None => Err WrongPassword
               | Some k => if negb (beqb (pubkey_of c k) (d_salt d)) then Err WrongPassword else Ok k
               end
      end
  end.
(** crates/linkspace/src/lib.rs:692-710 *)
Definition lk_key_encrypt (k : skey c) (password : bytes) : outcome KeyError bytes :=
  encrypt k password (match password with [] => Some INSECURE_COST | _ => None end).
Definition lk_key_decrypt (t password : bytes) : outcome KeyError (skey c) := decrypt t password.
Definition lk_key_pubkey (t : bytes) : outcome KeyError bytes := pubkey t.
(** claim.rs:80-88 [read_enckey]; [split] gives at least one item *)
Definition read_enckey (data : bytes) : outcome KeyError (bytes * bytes) :=
  match split_on 10 (takeN (N.min (lenN data) 130) data) with
  | [] => Err BadData
  | line :: _ => if negb (is_utf8 line) then Err BadData else obind (pubkey line) (fun pk => Ok (pk, line))
  end.
End Keys.
