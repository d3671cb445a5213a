(** Packets in JavaScript: the fields of ffi/linkspace-js/src/jspkt.rs [Pkt], its [Links] and [Link].  A packet is the bytes
    of its [NetPktArc]; unreadable bytes do not occur (the packet was checked) and are a panic here. *)
From Verif Require Import Bytes ModelSpace ModelPkt ModelTree ModelPred ModelLns ModelJsPoint.

(** jspkt.rs:13-18 [Pkt(NetPktArc)], read as crates/pkt/src/netpkt/netpkt_arc.rs does *)
Definition js_parts (b : bytes) : outcome unit NetPktParts := or_panic (view b).
(** :77-79 *)
Definition js_get_hash (b : bytes) : outcome unit bytes := obind (js_parts b) (fun a => Ok (np_hash a)).
(** :73-75 *)
Definition js_get_type (b : bytes) : outcome unit N := obind (js_parts b) (fun a => Ok (point_type (pkt_header (point_parts a)))).
(** :89-91 *)
Definition js_get_data (b : bytes) : outcome unit bytes := obind (js_parts b) (fun a => Ok (get_data (fields (point_parts a)))).
(** :101-103 *)
Definition js_get_group (b : bytes) : outcome unit (option bytes) := obind (js_parts b) (fun a => Ok (option_map group (get_header a))).
(** :93-95 *)
Definition js_get_domain (b : bytes) : outcome unit (option bytes) := obind (js_parts b) (fun a => Ok (option_map domain (get_header a))).
(** :97-99: the eight bytes of the stamp *)
Definition js_get_create (b : bytes) : outcome unit (option bytes) :=
  obind (js_parts b) (fun a => Ok (option_map (fun h => be_encode 8 (create_stamp h)) (get_header a))).
(** :105-107 *)
Definition js_get_space (b : bytes) : outcome unit (option bytes) :=
  obind (js_parts b) (fun a =>
  match get_header a with None => Ok None | Some _ => obind (or_panic (rs_space (get_rspace a))) (fun s => Ok (Some s)) end).
(** :109-111 *)
Definition js_get_rooted (b : bytes) : outcome unit (option bytes) :=
  obind (js_parts b) (fun a => Ok (option_map (fun _ => get_rspace a) (get_header a))).
(** :148-155: the first [depth] of the eight components; slicing past the eighth panics *)
Definition js_comp_list (b : bytes) : outcome unit (option (list bytes)) :=
  obind (js_parts b) (fun a =>
  match get_header a with
  | None => Ok None
  | Some _ => obind (or_panic (rs_comps_bytes (get_rspace a))) (fun cs =>
      if rs_depth (get_rspace a) <=? 8 then Ok (Some (takeN (rs_depth (get_rspace a)) cs)) else Panic)
  end).
(** :158-164 *)
Definition js_get_pubkey (b : bytes) : outcome unit (option bytes) :=
  obind (js_parts b) (fun a => Ok (match fields (point_parts a) with FKey _ s => Some (s_pubkey s) | _ => None end)).
Definition js_get_signature (b : bytes) : outcome unit (option bytes) :=
  obind (js_parts b) (fun a => Ok (match fields (point_parts a) with FKey _ s => Some (s_signature s) | _ => None end)).
(** :196-198, crates/pkt/src/point_parts.rs:68-75: the links in memory, each its tag and its pointer *)
Definition js_links_bytes (b : bytes) : outcome unit (option bytes) :=
  obind (js_parts b) (fun a => Ok (option_map (fun _ => List.concat (map (fun k => fst k ++ snd k) (pkt_links a))) (get_header a))).
(** :181-195: an array of arrays of tag and pointer, cut from the bytes of the links *)
Definition js_links_array (b : bytes) : outcome unit (list (bytes * bytes)) :=
  obind (js_parts b) (fun a => obind (js_links_bytes b) (fun o => Ok
  match o with
  | None => []
  | Some l => map (fun i => let start := N.of_nat i * 48 in let start_hash := start + 16 in let end_ := start_hash + 32 in
                            (sliceN start start_hash l, sliceN start_hash end_ l)) (seq 0 (List.length (pkt_links a)))
  end)).
(** :175-180, 227-234: [links] is an iterator with the place of the next link *)
Definition js_links_next (b : bytes) (idx : N) : outcome unit (option Link * N) :=
  obind (js_parts b) (fun a => Ok (nth_error (pkt_links a) (N.to_nat idx), idx + 1)).
(** How JavaScript iterates: until the first that is done.  [fuel] bounds the number of calls. *)
Fixpoint js_iterate (fuel : nat) (b : bytes) (idx : N) : outcome unit (list Link) :=
  match fuel with
  | O => OutOfFuel
  | Datatypes.S fuel => obind (js_links_next b idx) (fun '(v, idx) =>
      match v with None => Ok [] | Some k => obind (js_iterate fuel b idx) (fun l => Ok (k :: l)) end)
  end.
(** :289-296: a [Link] seen from JavaScript *)
Definition js_of_link (k : Link) : JsVal := JsObj (JsU (snd k)) (JsU (fst k)).
(** An item of [links_array] seen from JavaScript *)
Definition js_of_pair (k : bytes * bytes) : JsVal := JsIter [JsU (fst k); JsU (snd k)].
