(** Abbreviated hashes: crates/core/src/partial_hash.rs [PartialHash].  A text is its bytes; hashes are 32 bytes. *)
From Verif Require Import Bytes ModelFmt ModelFn.

(** consts.rs:8 *)
Definition B64_HASH_LENGTH : N := 43.
(** partial_hash.rs:73-87 [try_from_strlike]: only whole groups of four characters are decoded; [from_byte_string] fails on
    bytes that are no text *)
Definition try_from_strlike (b64 : bytes) : outcome unit bytes :=
  if (lenN b64 <? 4) || (B64_HASH_LENGTH <? lenN b64) then Err tt
  else match base64_decode (takeN (lenN b64 - lenN b64 mod 4) b64) with
       | None => Err tt
       | Some _ => if is_utf8 (b64 ++ repeat 65 (N.to_nat (B64_HASH_LENGTH - lenN b64))) then Ok b64 else Panic
       end.
(** :50-53 *)
Definition str_matches (p : bytes) (hash : bytes) : bool := starts_with (base64 hash) p.
(** :54-59: the slice is within the text, as an abbreviation is no longer than a hash *)
Definition str_greater_then (p : bytes) (hash : bytes) : bool :=
  match lex p (takeN (lenN p) (base64 hash)) with Gt => true | _ => false end.
(** :64-74 [aprox_btree_idx] *)
Definition aprox_btree_idx (p : bytes) : outcome unit bytes :=
  match base64_decode (p ++ repeat 65 (N.to_nat (B64_HASH_LENGTH - lenN p))) with Some b => Ok b | None => Panic end.
(** :37-46 *)
Definition complete_try_into (p : bytes) : option bytes :=
  if lenN p =? B64_HASH_LENGTH then base64_decode p else None.
