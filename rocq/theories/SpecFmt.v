(** What numerals, base64 text and padded byte strings are, independent of the functions of ModelFmt. *)
From Verif Require Import Bytes ModelAbe.

(** ** Positional notation *)
Definition positional (base : N) (d : list N) : N := fold_left (fun a x => a * base + x) d 0.
(** [c] is the digit [d]. *)
Definition is_digit (radix c d : N) : Prop :=
  d < radix /\ (nth_error (str "0123456789abcdefghijklmnopqrstuvwxyz") (N.to_nat d) = Some c
                \/ nth_error (str "0123456789ABCDEFGHIJKLMNOPQRSTUVWXYZ") (N.to_nat d) = Some c).
(** [t] is one or more digits with value [n]. *)
Definition number (radix : N) (t : bytes) (n : N) : Prop :=
  t <> [] /\ exists ds, Forall2 (is_digit radix) t ds /\ positional radix ds = n.
(** With an optional plus. *)
Definition numeral (radix : N) (t : bytes) (n : N) : Prop :=
  number radix t n \/ exists r, t = 43 :: r /\ number radix r n.
(** The usual way to write it. *)
Definition canonical (t : bytes) (n : N) : Prop := number 10 t n /\ (hd 0 t <> 48 \/ t = [48]).

(** ** base64 *)
Definition alphabet (url : bool) : bytes :=
  str "ABCDEFGHIJKLMNOPQRSTUVWXYZabcdefghijklmnopqrstuvwxyz0123456789" ++ (if url then str "-_" else str "+/").
Definition b64_digit (url : bool) (c d : N) : Prop := nth_error (alphabet url) (N.to_nat d) = Some c.
(** As many digits of 6 bits as needed; read as one number they are the bytes, with zero bits
    after them. *)
Definition b64_text (url : bool) (t b : bytes) : Prop :=
  exists ds, Forall2 (b64_digit url) t ds /\ 6 * lenN t < 8 * lenN b + 6 /\ 8 * lenN b <= 6 * lenN t /\
    positional 64 ds = positional 256 b * 2 ^ (6 * lenN t - 8 * lenN b).
(** With padding to a multiple of four. *)
Definition b64_padded (t b : bytes) : Prop :=
  exists body p, t = body ++ repeat 61 p /\ b64_text false body b /\ (p < 4)%nat /\ exists q, lenN t = 4 * q.

(** ** Padding *)
(** [v] is [b] preceded by [fill] up to the size. *)
Definition left_padded (fill L : N) (b v : bytes) : Prop := exists n, v = repeat fill n ++ b /\ lenN v = L.
Definition right_padded (fill L : N) (b v : bytes) : Prop := exists n, v = b ++ repeat fill n /\ lenN v = L.
(** [v] is [b] without the leading bytes [x]. *)
Definition trimmed (x : N) (b v : bytes) : Prop := (exists n, b = repeat x n ++ v) /\ (v = [] \/ hd 0 v <> x).
