(** Specification of encoding and evaluating inside expressions. *)
From Verif Require Import Bytes ModelAbe ModelEval.

(** What [lk_eval] gives for the text, whatever the fuel above some bound. *)
Definition lk_value (s : scope) (t v : bytes) : Prop := exists n, forall fuel, (n <= fuel)%nat -> lk_eval fuel s t false = Ok v.
(** The text is between brackets. *)
Definition bracketed (t w : bytes) : Prop := t = str "[" ++ w ++ str "]".
(** What is left of a text without its brackets *)
Definition without_brackets (t w : bytes) : Prop := bracketed t w \/ ~ (exists x, bracketed t x) /\ w = t.
(** What is left without the brackets and the name of the function, up to the first colon; nothing is left if there is no colon. *)
Definition without_name (t w : bytes) : Prop :=
  (exists f, bracketed t (f ++ str ":" ++ w) /\ ~ In 58 f) \/ (exists f, bracketed t f /\ ~ In 58 f /\ w = []) \/ ~ (exists x, bracketed t x) /\ w = t.
(** A part of the argument of a macro: an expression without a slash outside of its brackets. *)
Definition slash_part (t : bytes) (l : list ABE) : Prop := parse_abe_strict t = Ok l /\ Forall (fun e => e <> ACtr CFSlash) l.
