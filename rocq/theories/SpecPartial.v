(** Specification of abbreviated hashes, in terms of the base64 text of a hash (SpecFmt.v). *)
From Verif Require Import Bytes SpecFmt.

Definition is_hash (h : bytes) : Prop := bytes_ok h /\ lenN h = 32.
(** The text of the hash begins with [p] *)
Definition abbreviates (p h : bytes) : Prop := exists r, b64_text true (p ++ r) h.
(** Every character is one of base64 *)
Definition b64_chars (p : bytes) : Prop := Forall (fun c => exists d, b64_digit true c d) p.
(** The order of the bytes of hashes, which is that of the database *)
Definition not_after (a b : bytes) : Prop := lex a b <> Gt.
