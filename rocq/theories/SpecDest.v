(** What the text of a destination means (the help of the options: stdout | stderr | null | db |
    buffer | file:PATH, each with -expr for what to write), independent of the functions of
    ModelDest; only its types are used. *)
From Verif Require Import Bytes ModelPkt ModelAbe SpecAbe ModelDest.

(** The names and what they stand for; null is nothing. *)
Definition dest_names : list (bytes * option Sink) :=
  [(str "stdout", Some SStdout); (str "stderr", Some SStderr); (str "null", None); (str "db", Some SDb); (str "buffer", Some SBuffer)].
(** Expressions without a colon between their top level items. *)
Definition one_piece (l : list ABE) : Prop := ~ In (ACtr CColon) l.
(** An empty expression is none. *)
Definition expr_opt (l : list ABE) : option (list ABE) := match l with [] => None | _ => Some l end.
(** The characters of a path that need no escape. *)
Definition path_char (c : N) : Prop := plain c \/ c = 58 \/ c = 47.
