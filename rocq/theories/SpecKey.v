(** What encrypted keys should be. *)
From Verif Require Import Bytes ModelPkt ModelAbe ModelKey SpecFmt.

(** What is assumed of the libraries: sizes, and that the bytes of a key are read as that key. *)
Definition keylib_ok (c : crypto) (kl : keylib c) : Prop :=
  (forall k, bytes_ok (pubkey_of c k)) /\
  (forall pw s co d, argon2d kl pw s co = Some d -> lenN d = 32 /\ bytes_ok d) /\
  (forall k, lenN (key_bytes kl k) = 32 /\ bytes_ok (key_bytes kl k) /\ key_from kl (key_bytes kl k) = Some k).

(** [x] is the bitwise exclusive or of [a] and [b], all of one size. *)
Definition is_xor (a b x : bytes) : Prop :=
  lenN a = lenN x /\ lenN b = lenN x /\ forall i n, N.testbit (nth i x 0) n = xorb (N.testbit (nth i a 0) n) (N.testbit (nth i b 0) n).
Definition costs_ok (co : Costs) : Prop := mem co < 2 ^ 32 /\ times co < 2 ^ 32 /\ parallelism co < 2 ^ 32.

(** The text of a key: costs, public key and encrypted secret. *)
Definition enckey_text (co : Costs) (pk x t : bytes) : Prop :=
  exists m ti p s h, canonical m (mem co) /\ canonical ti (times co) /\ canonical p (parallelism co) /\
    b64_text false s pk /\ b64_text false h x /\
    t = str "$argon2d$v=19$m=" ++ m ++ str ",t=" ++ ti ++ str ",p=" ++ p ++ str "$" ++ s ++ str "$" ++ h.

(** What is accepted as such a text.  [without c t]: the character does not occur. *)
Definition without (c : N) (t : bytes) : Prop := ~ In c t.
Fixpoint join (c : N) (ts : list bytes) : bytes :=
  match ts with [] => [] | [t] => t | t :: r => t ++ c :: join c r end.
(** A list of texts with commas between: those without [=] are skipped, and the next are the three costs. *)
Inductive options_say : list bytes -> list (bytes * N) -> Prop :=
| Say_done l : options_say l []
| Say_skip t l v : without 61 t -> options_say l v -> options_say (t :: l) v
| Say_next kind num n l v : without 61 kind -> numeral 10 num n -> options_say l v ->
    options_say ((kind ++ 61 :: num) :: l) ((kind, n) :: v).
Definition accepted_text (co : Costs) (salt x t : bytes) : Prop :=
  exists os s h rest, t = str "$argon2d$v=19$" ++ join 44 os ++ str "$" ++ s ++ str "$" ++ h ++ rest /\
    os <> [] /\ Forall (without 44) os /\ Forall (without 36) os /\
    options_say os [(str "m", mem co); (str "t", times co); (str "p", parallelism co)] /\ costs_ok co /\
    b64_text false s salt /\ bytes_ok salt /\ b64_text false h x /\ bytes_ok x /\ lenN x = 32 /\ (rest = [] \/ exists r, rest = str "$" ++ r).
