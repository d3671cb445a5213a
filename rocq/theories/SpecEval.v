(** What evaluation and the byte functions should give, in terms of texts, numbers and lists. *)
From Verif Require Import Bytes ModelAbe ModelEval ModelFn SpecAbe SpecFmt.

(** The text [t] evaluates to the single byte string [b] in the scope, whatever the fuel above some
    bound. [lk_eval] then gives [b]. *)
Definition evaluates (s : scope) (t b : bytes) : Prop :=
  exists l n, parse_abe_strict t = Ok l /\
    forall fuel, (n <= fuel)%nat -> exists abl, eval fuel s l = Ok abl /\ as_exact_bytes abl = Some b.
(** The same for an expression. *)
Definition evaluates_abe (s : scope) (l : list ABE) (b : bytes) : Prop :=
  exists n, forall fuel, (n <= fuel)%nat -> exists abl, eval fuel s l = Ok abl /\ as_exact_bytes abl = Some b.

(** Functions and macros of [a] mean the same in [s]: in [a] itself, and with other scopes behind it
    or with other names in front. *)
Definition extends (a s : scope) : Prop :=
  (forall ctx id inp init v, sc_func a ctx id inp init = Ok (Some v) -> sc_func s ctx id inp init = Ok (Some v)) /\
  (forall ctx id l v, sc_macro a ctx id l = Ok (Some v) -> sc_macro s ctx id l = Ok (Some v)).

(** The length argument: decimal, 16 if it is missing. *)
Definition length_arg (empty_ok : bool) (inp : list bytes) (L : N) : Prop :=
  match inp with
  | _ :: t :: _ => (empty_ok = true /\ t = [] /\ L = 16) \/ (numeral 10 t L /\ L < 2 ^ 64)
  | _ => L = 16
  end.
(** The pad byte argument *)
Definition pad_arg (default : N) (inp : list bytes) (p : N) : Prop :=
  match inp with _ :: _ :: t :: _ => t = [p] | _ => p = default end.
Definition padded (left : bool) (p L : N) (b v : bytes) : Prop := if left then left_padded p L b v else right_padded p L b v.
(** The part of [b] kept by a cut to [L] bytes. *)
Definition kept (left : bool) (L : N) (b v : bytes) : Prop :=
  lenN v = N.min L (lenN b) /\ exists x, b = if left then v ++ x else x ++ v.

(** Occurrences of [from] replaced from the left, without overlap. *)
Inductive replaced_bytes (from to : bytes) : bytes -> bytes -> Prop :=
| rb_nil : replaced_bytes from to [] []
| rb_hit b r : replaced_bytes from to b r -> replaced_bytes from to (from ++ b) (to ++ r)
| rb_miss x b r : ~ (exists rest, x :: b = from ++ rest) -> replaced_bytes from to b r -> replaced_bytes from to (x :: b) (x :: r).

(** Python slices: the [k]th element is the one at [start + k * step], as long as that is before [stop]. *)
Definition py_bound (len : Z) (step : Z) (o : option Z) (default : Z) : Z :=
  match o with
  | None => default
  | Some v => let v := if v <? 0 then v + len else v in
              if 0 <? step then Z.max 0 (Z.min len v) else Z.max (-1) (Z.min (len - 1) v)
  end%Z.
Definition py_slice (b : bytes) (start stop : option Z) (step : Z) (r : bytes) : Prop :=
  let len := Z.of_N (lenN b) in
  let lo := py_bound len step start (if 0 <? step then 0 else len - 1)%Z in
  let hi := py_bound len step stop (if 0 <? step then len else -1)%Z in
  forall k : nat,
    let i := (lo + Z.of_nat k * step)%Z in
    nth_error r k = if ((0 <? step) && (i <? hi) || (step <? 0) && (hi <? i))%Z then nth_error b (Z.to_nat i) else None.
(** A number argument of [slice] with an optional sign. *)
Definition signed_numeral (t : bytes) (v : Z) : Prop :=
  (exists n, numeral 10 t n /\ v = Z.of_N n) \/ (exists r n, t = 45 :: r /\ numeral 10 r n /\ v = (- Z.of_N n)%Z).

(** Numbers as big endian bytes *)
Definition sumN (l : list N) : N := fold_right N.add 0 l.

(** Scopes without some functions *)
Definition without (ids : list bytes) (s : scope) : scope := {|
  sc_func := fun ctx id inp init => if existsb (beqb id) ids then Ok None else sc_func s ctx id inp init;
  sc_macro := sc_macro s; sc_enc := sc_enc s |}.
(** Nesting of brackets *)
Fixpoint depth1 (e : ABE) : nat := match e with ALst l => S (fold_right (fun x a => Nat.max (depth1 x) a) O l) | _ => O end.
Definition depth (l : list ABE) : nat := fold_right (fun x a => Nat.max (depth1 x) a) O l.

(** The arguments of [slice]: an index may be empty. Zero with a minus is left out (see F65), and
    so are indices of 64 bit. *)
Definition index_arg (o : option bytes) (z : option Z) : Prop :=
  match o with
  | None | Some [] => z = None
  | Some t => exists v, z = Some v /\ signed_numeral t v /\ (Z.abs v < 2 ^ 63)%Z /\ (hd 0 t = 45 -> v <> 0%Z)
  end.
Definition step_arg (o : option bytes) (z : Z) : Prop :=
  match o with
  | None => z = 1%Z
  | Some t => (exists n, numeral 10 t n /\ n < 2 ^ 63 /\ z = Z.of_N n) \/ (exists r n, t = 45 :: r /\ number 10 r n /\ n <= 2 ^ 63 /\ z = (- Z.of_N n)%Z)
  end.
