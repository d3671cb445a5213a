(** The text of a packet that [[pkt]] gives. *)
From Verif Require Import Bytes ModelAbe SpecSpace SpecPkt SpecAbe SpecFmt SpecPktScope.

(** A line: a name, a tab and a value. *)
Definition line (name value : bytes) : bytes := name ++ [9] ++ value ++ [10].
Record shown_packet := {
  sh_type : bytes; sh_hash : bytes; sh_group : bytes; sh_domain : bytes; sh_space : bytes; sh_pubkey : bytes;
  sh_create : bytes; sh_count : bytes; sh_links : list (bytes * bytes); sh_size : bytes; sh_data : bytes }.
Definition shown_text (x : shown_packet) : bytes :=
  line (str "type") (sh_type x) ++ line (str "hash") (sh_hash x) ++ line (str "group") (sh_group x) ++ line (str "domain") (sh_domain x) ++
  line (str "space") (sh_space x) ++ line (str "pubkey") (sh_pubkey x) ++ line (str "create") (sh_create x) ++ line (str "links") (sh_count x) ++
  flat_map (fun l => [9] ++ fst l ++ [32] ++ snd l ++ [10]) (sh_links x) ++ [10] ++ line (str "data") (sh_size x) ++ sh_data x ++ [10].
(** What the values are; [means] says when a text stands for bytes. *)
Definition shows_packet (means : bytes -> bytes -> Prop) (space : bytes -> Prop) (lossy : bytes -> bytes) (h : bytes) (p : point) (x : shown_packet) : Prop :=
  text_of AsType [type_byte p] (sh_type x) /\ text_of AsCode h (sh_hash x) /\ means (sh_group x) (pt_group p) /\ text_of AsDomain (pt_domain p) (sh_domain x) /\
  space (sh_space x) /\ means (sh_pubkey x) (pt_pubkey p) /\ canonical (sh_create x) (pt_create p) /\ canonical (sh_count x) (lenN (pt_links p)) /\
  Forall2 (fun l t => text_of AsDomain (fst l) (fst t) /\ text_of AsCode (snd l) (snd t)) (pt_links p) (sh_links x) /\
  canonical (sh_size x) (lenN (pt_data p)) /\ sh_data x = lossy (pt_data p).
