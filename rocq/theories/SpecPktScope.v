(** What the functions that read a packet should give: a table of the fields of a point, and the forms a field can be shown in. *)
From Coq Require Import ZArith.
From Verif Require Import Bytes ModelAbe SpecSpace SpecPkt SpecAbe SpecFmt.

(** Data points and error points have no group, domain and so on: these are zero or empty. *)
Definition pt_group (p : point) : bytes := match p with PLink g _ _ _ _ _ | PKey g _ _ _ _ _ _ _ => g | _ => repeat 0 32 end.
Definition pt_domain (p : point) : bytes := match p with PLink _ d _ _ _ _ | PKey _ d _ _ _ _ _ _ => d | _ => repeat 0 16 end.
Definition pt_create (p : point) : N := match p with PLink _ _ c _ _ _ | PKey _ _ c _ _ _ _ _ => c | _ => 0 end.
Definition pt_links (p : point) : list (bytes * bytes) := match p with PLink _ _ _ l _ _ | PKey _ _ _ l _ _ _ _ => l | _ => [] end.
Definition pt_rspace (p : point) : bytes := match p with PLink _ _ _ _ r _ | PKey _ _ _ _ r _ _ _ => r | _ => [] end.
Definition pt_data (p : point) : bytes := match p with PLink _ _ _ _ _ d | PKey _ _ _ _ _ d _ _ | PData d | PError d => d end.
Definition pt_pubkey (p : point) : bytes := match p with PKey _ _ _ _ _ _ k _ => k | _ => repeat 0 32 end.
Definition pt_signature (p : point) : bytes := match p with PKey _ _ _ _ _ _ _ s => s | _ => repeat 0 64 end.
(** The components of the space of a point. *)
Definition pt_comps (p : point) (cs : list bytes) : Prop :=
  space_ok cs /\ (List.length cs <= 8)%nat /\ (pt_rspace p = [] /\ cs = [] \/ exists d, pt_rspace p = rooted_with d cs).

(** How the text of a field is made *)
Inductive form :=
| AsFlags | AsType | AsNumber | AsCode | AsDomain | AsSpace | AsText.

(** The fields: the name, the form of its text, the bytes. *)
Definition part (i n : nat) (b : bytes) : bytes := firstn n (skipn i b).
Definition fields_of_packet (hash : bytes -> bytes) (nh : bytes) (p : point) (cs : list bytes) : list (bytes * form * bytes) :=
  [(str "netflags", AsFlags, part 3 1 nh);
   (str "hop", AsNumber, part 4 4 nh);
   (str "stamp", AsNumber, part 8 8 nh);
   (str "ubits0", AsNumber, part 16 4 nh);
   (str "ubits1", AsNumber, part 20 4 nh);
   (str "ubits2", AsNumber, part 24 4 nh);
   (str "ubits3", AsNumber, part 28 4 nh);
   (str "hash", AsCode, hash (content p));
   (str "type", AsType, [type_byte p]);
   (str "size", AsNumber, be_encode 2 (lenN (packet hash nh p)));
   (str "pubkey", AsCode, pt_pubkey p);
   (str "signature", AsCode, pt_signature p);
   (str "group", AsCode, pt_group p);
   (str "domain", AsDomain, pt_domain p);
   (str "create", AsNumber, be_encode 8 (pt_create p));
   (str "depth", AsNumber, [hd 0 (pt_rspace p)]);
   (str "links_len", AsNumber, be_encode 2 (lenN (pt_links p)));
   (str "data_size", AsNumber, be_encode 2 (lenN (pt_data p)));
   (str "spacename", AsSpace, wire_space cs);
   (str "rspacename", AsSpace, pt_rspace p);
   (str "comp0", AsText, nth 0 cs []);
   (str "comp1", AsText, nth 1 cs []);
   (str "comp2", AsText, nth 2 cs []);
   (str "comp3", AsText, nth 3 cs []);
   (str "comp4", AsText, nth 4 cs []);
   (str "comp5", AsText, nth 5 cs []);
   (str "comp6", AsText, nth 6 cs []);
   (str "comp7", AsText, nth 7 cs []);
   (str "data", AsText, pt_data p)].

Definition point_names : list (N * bytes) := [(1, str "DataPoint"); (3, str "LinkPoint"); (7, str "KeyPoint"); (128, str "ErrorPoint")].
(** [t] is the text of a field; flags and spaces are not covered here. *)
Definition text_of (f : form) (v t : bytes) : Prop :=
  match f with
  | AsNumber => canonical t (be_decode v)
  | AsCode => b64_text true t v
  | AsText => reads t v
  | AsDomain => exists w, trimmed 0 v w /\ reads t w
  | AsType => exists k, v = [k] /\ In (k, t) point_names
  | AsFlags | AsSpace => True
  end.

(** A link in text: the tag, a colon and the hash. *)
Definition link_text (l : bytes * bytes) (t : bytes) : Prop :=
  exists a b, t = a ++ [58] ++ b /\ reads a (fst l) /\ b64_text true b (snd l).
(** Texts with a delimiter in between *)
Inductive joined (d : bytes) : list bytes -> bytes -> Prop :=
| j_none : joined d [] []
| j_one t : joined d [t] t
| j_more t u ts r : joined d (u :: ts) r -> joined d (t :: u :: ts) (t ++ d ++ r).
(** The first link whose tag ends with [x] *)
Definition first_ending (x : bytes) (ls : list (bytes * bytes)) (l : bytes * bytes) : Prop :=
  exists a b, ls = a ++ l :: b /\ (exists y, fst l = y ++ x) /\ Forall (fun k => ~ exists y, fst k = y ++ x) a.
(** The part of a list between two positions with a step, as in python; without a position it goes to the end. *)
Definition bound_of (len step : Z) (o : option Z) (default : Z) : Z :=
  match o with
  | None => default
  | Some v => let v := if v <? 0 then v + len else v in
              if 0 <? step then Z.max 0 (Z.min len v) else Z.max (-1) (Z.min (len - 1) v)
  end%Z.
Definition list_slice {A} (l : list A) (start stop : option Z) (step : Z) (r : list A) : Prop :=
  let len := Z.of_nat (List.length l) in
  let lo := bound_of len step start (if 0 <? step then 0 else len - 1)%Z in
  let hi := bound_of len step stop (if 0 <? step then len else -1)%Z in
  forall k : nat,
    let i := (lo + Z.of_nat k * step)%Z in
    nth_error r k = if ((0 <? step) && (i <? hi) || (step <? 0) && (hi <? i))%Z then nth_error l (Z.to_nat i) else None.
