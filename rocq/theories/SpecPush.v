(** The text lk_query_push stands for (linkspace/src/lib.rs:630-635): FIELD:OP:VALUE with each part escaped. *)
From Verif Require Import Bytes ModelAbe SpecAbe.

(** [t] is the statement of the parts [f], [o] and [v]. *)
Definition statement (t f o v : bytes) : Prop := t = as_abtxt f ++ [58] ++ as_abtxt o ++ [58] ++ as_abtxt v.
(** The fields of a packet that no statement can test. *)
Definition untestable : list bytes := [str "signature"; str "rspacename"; str "comp0"; str "comp1"; str "comp2"; str "comp3"; str "comp4"; str "comp5"; str "comp6"; str "comp7"; str "data"].
