(** Specification of reading the latest packet of a place. *)
From Verif Require Import Bytes SpecSpace SpecPkt ModelPkt ModelTree SpecTree ModelStore SpecStore SpecQuery ModelAbe ModelEval SpecCliQuery.

(** The stored packet [e] is a link or key point of the domain, group and public key, at the space [sp]; a link point has the key of zeros. *)
Definition located (hash : bytes -> bytes) (dom grp key : bytes) (sp : list bytes) (e : stored) : Prop :=
  exists ix, index_at hash e ix /\ i_domain ix = dom /\ i_group ix = grp /\ i_pubkey ix = key /\ i_space ix = sp.
(** The later of two packets: by create stamp, then by hash. *)
Definition not_later (hash : bytes -> bytes) (a b : stored) : Prop :=
  exists ia ib, index_at hash a ia /\ index_at hash b ib /\ (i_create ia < i_create ib \/ i_create ia = i_create ib /\ lex (i_hash ia) (i_hash ib) <> Gt).
(** [e] is the latest of the packets [l] at one place. *)
Definition latest (hash : bytes -> bytes) (l : list stored) (dom grp key : bytes) (sp : list bytes) (e : stored) : Prop :=
  In e l /\ located hash dom grp key sp e /\ forall f, In f l -> located hash dom grp key sp f -> not_later hash f e.

(** An argument of a call: nothing, or an expression. *)
Definition argument (s : scope) (t v : bytes) : Prop := t = [] /\ v = [] \/ expr_text s t v.
(** The function [name] of the scope [s] is that of the scope [r]. *)
Definition offers (s r : scope) (name : bytes) : Prop :=
  forall fuel args, sc_func s (ctx_of fuel s) name args true = sc_func r (ctx_of fuel s) name args true.
(** The same for a macro. *)
Definition offers_macro (s r : scope) (name : bytes) : Prop :=
  forall fuel l, sc_macro s (ctx_of fuel s) name l = sc_macro r (ctx_of fuel s) name l.
(** A part of the argument of a macro: an expression without a colon outside of its brackets. *)
Definition macro_part (t : bytes) (l : list ABE) : Prop := parse_abe_strict t = Ok l /\ Forall (fun e => e <> ACtr CColon) l.
