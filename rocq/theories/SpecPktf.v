(** * What printing packets by templates has to do *)
From Coq Require Import List NArith Bool.
From Verif Require Import Bytes ModelPkt ModelCollect SpecPkt SpecCollect ModelPktf.
Import ListNotations.
Local Open Scope N_scope.

(** The packets read before the input ends or fails, and that it ends. *)
Fixpoint fed (vs : list FmtEvent) : list NetPktParts := match vs with FPkt p :: vs => p :: fed vs | _ => [] end.
Fixpoint ends (vs : list FmtEvent) : Prop := match vs with FPkt p :: vs => ends vs | FEnd :: _ => True | _ => False end.
(** Only --private=false leaves out the packets of the private group. *)
Definition printed (private : option bool) (p : NetPktParts) : bool :=
  match private with Some false => shown (Some false) p | _ => true end.

(** Data points, link points and key points are 1, 2 and 3; with fewer templates the last one given is used, without any the default. *)
Definition kind (p : NetPktParts) : option nat :=
  match fields (point_parts p) with FData _ => Some 1%nat | FLink _ => Some 2%nat | FKey _ _ => Some 3%nat | _ => None end.
Definition template_for (fmts : list Template) (default : Template) (k : nat) : Template := last (firstn k fmts) default.
(** The text of a packet *)
Inductive text_for (fmts : list Template) (default : Template) (error : option bytes) (fast : option (NetPktParts -> bytes)) (p : NetPktParts) : bytes -> Prop :=
| text_fast f : fast = Some f -> text_for fmts default error fast p (f p)
| text_made k t : fast = None -> kind p = Some k -> template_for fmts default k p = Some t -> text_for fmts default error fast p t
| text_error k e : fast = None -> kind p = Some k -> template_for fmts default k p = None -> error = Some e -> text_for fmts default error fast p e.

(** The bytes printed: the texts with the delimiter between them, or after each of them. *)
Fixpoint joined (delim : bytes) (ts : list bytes) : bytes :=
  match ts with [] => [] | [t] => t | t :: ts => t ++ delim ++ joined delim ts end.
Definition ended (delim : bytes) (ts : list bytes) : bytes := List.concat (map (fun t => t ++ delim) ts).
Definition bytes_printed (log : list Act) : bytes := List.concat (map (fun a => match a with Print b => b | Forward _ _ => [] end) log).
Definition forwarded (log : list Act) : list (Dest * NetPktParts) :=
  flat_map (fun a => match a with Print _ => [] | Forward d p => [(d, p)] end) log.
(** What is done for the packets with their texts: the text of a packet is printed before the packet is forwarded, and the packet is
    forwarded to every destination before the next text is printed. *)
Inductive done_for (private : option bool) (forward : list Dest) (join : bool) (delim : bytes) : bool -> list NetPktParts -> list bytes -> list Act -> Prop :=
| done_nil (first : bool) : done_for private forward join delim first [] [] []
| done_cons (first : bool) (p : NetPktParts) ps t ts a l :
    (forall x, In x a -> exists b, x = Print b) ->
    bytes_printed a = (if join then (if first then [] else delim) ++ t else t ++ delim) ->
    done_for private forward join delim false ps ts l ->
    done_for private forward join delim first (p :: ps) (t :: ts) (a ++ map (fun x => Forward (fst x) (snd x)) (direct private forward p) ++ l).
