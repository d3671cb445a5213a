(** Model of the printed forms of packets: crates/pkt/src/repr.rs [PktFmt::to_str], [to_html], [EscapeHTML].
    Text is its UTF-8 bytes: the characters that are escaped are single bytes there.  The writer does not fail. *)
From Verif Require Import Bytes ModelSpace ModelPkt ModelTree ModelAbe ModelFmt ModelFn ModelLns.

(** The [Display] of bstr's [BStr]: the bytes with what is not UTF-8 replaced.  Any function. *)
Section Repr.
Variable lossy : bytes -> bytes.
(** crates/pkt/src/consts.rs [PUBLIC], [TEST_GROUP] *)
Variables public test : bytes.

(** byte-fmt/src/lib.rs:117-128 [AB::as_str(true)] *)
Definition ab_as_str (b : bytes) : bytes := as_abtxt (cut_prefix_nulls b).
(** repr.rs:221-235 [EscapeHTML] *)
Definition escape_char (c : N) : bytes :=
  if c =? 38 then str "&amp" else if c =? 60 then str "&lt" else if c =? 62 then str "&gt" else [c].
Definition escape_html (t : bytes) : bytes := flat_map escape_char t.

(** repr.rs:62-84 [fmt_b64].  Bytes 14 and 15 are there: the argument has 32 bytes. *)
Definition fmt_b64 (b : bytes) (class : bytes) : bytes :=
  let shown := if beqb b PRIVATE then str "[#:0]" else if beqb b public then str "[#:pub]"
               else if beqb b test then str "[#:test]" else mini_b64 b in
  str "<span lk-" ++ class ++ str "='" ++ b64_display b ++ str "' class='lk-b64 lk-c" ++ to_string (nth 14 b 0 / 16) ++
  str " lk-d" ++ to_string (nth 15 b 0 / 16) ++ str "'>" ++ shown ++ str "</span>".

(** pkt/src/lib.rs:220-226 [pubkey], [get_pubkey] *)
Definition html_pubkey (p : NetPktParts) : option bytes := match pf p with FKey _ s => Some (s_pubkey s) | _ => None end.
(** pkt/src/lib.rs:232-254 [get_spacename], [get_depth]: [space] of the rooted space *)
Definition get_space (p : NetPktParts) : outcome SpaceError space := rs_space (get_rspace p).
Definition get_depth (p : NetPktParts) : N := rs_depth (get_rspace p).
(** repr.rs:185-189 *)
Fixpoint html_comps (i : N) (cs : list bytes) : bytes :=
  match cs with
  | [] => []
  | c :: r => str "<li lk-space" ++ to_string i ++ str "='" ++ b64_display c ++ str "'>" ++ escape_html (as_abtxt c) ++ str "</li>" ++ html_comps (i + 1) r
  end.
(** repr.rs:196-205 *)
Definition html_link (l : Link) : bytes :=
  str "<li lk-link-tag='" ++ b64_display (fst l) ++ str "'><span lk-tag='" ++ b64_display (fst l) ++ str "'>" ++
  escape_html (ab_as_str (fst l)) ++ str "</span>" ++ fmt_b64 (snd l) (str "ptr") ++ str "</li>" ++ [10].
(** repr.rs:140-218 [to_html], without [include] (as in `html-quick`) *)
Definition to_html (with_data : bool) (p : NetPktParts) : outcome SpaceError bytes :=
  let data := get_data (pf p) in
  let size := to_string (lenN data) in
  let links_len := to_string (lenN (pkt_links p)) in
  let depth := to_string (get_depth p) in
  let top := str "<div lk-point='" ++ b64_display (np_hash p) ++ str "' lk-ptype='" ++ to_string (point_type (pkt_header (point_parts p))) ++
    str "' class='lk-c" ++ to_string (nth 0 (np_hash p) 0 / 16) ++ str "' " ++
    match html_pubkey p with Some k => str "lk-pubkey='" ++ b64_display k ++ str "'" | None => [] end ++ [10] ++
    str "lk-data-size='" ++ size ++ str "' lk-links-len='" ++ links_len ++ str "' lk-depth='" ++ depth ++ str "'>" ++
    fmt_b64 (np_hash p) (str "hash") in
  obind (match get_header p with
         | None => Ok []
         | Some h =>
             obind (get_space p) (fun sp =>
             obind (components sp) (fun cs =>
             Ok (match html_pubkey p with Some k => fmt_b64 k (str "pubkey") | None => [] end ++
                 str "<span lk-domain='" ++ b64_display (domain h) ++ str "'>" ++ escape_html (ab_as_str (domain h)) ++ str "</span>" ++
                 fmt_b64 (group h) (str "group") ++
                 str "<span lk-create='" ++ to_string (create_stamp h) ++ str "'>" ++ to_string (create_stamp h) ++ str "</span>" ++
                 str "<span lk-depth='" ++ depth ++ str "' >" ++ depth ++ str "</span>" ++
                 str "<ol lk-space='" ++ b64_display sp ++ str "' lk-depth='" ++ depth ++ str "'>" ++ [10] ++
                 html_comps 0 cs ++ str "</ol>" ++ [10] ++
                 str "<span lk-links-len='" ++ links_len ++ str "'>" ++ links_len ++ str "</span>" ++
                 str "<ol lk-links='" ++ links_len ++ str "'>" ++ [10] ++
                 flat_map html_link (pkt_links p) ++ str "</ol>")))
         end) (fun mid =>
  Ok (top ++ mid ++ str "<span lk-data-size='" ++ size ++ str "'>" ++ size ++ str "</span>" ++ [10] ++
      (if with_data then str "<pre lk-data='" ++ size ++ str "'>" ++ escape_html (lossy data) ++ str "</pre>" else []) ++ str "</div>")).

(** pkt/src/lib.rs:305-313 *)
Definition type_name (t : N) : bytes :=
  if t =? DATA_POINT then str "DataPoint" else if t =? LINK_POINT then str "LinkPoint" else if t =? KEY_POINT then str "KeyPoint"
  else if t =? ERROR_POINT then str "ErrorPoint" else str "UnknownPointType".
(** repr.rs:92-97 *)
Definition group_str (g : bytes) : bytes :=
  if beqb g PRIVATE then str "[#:0]" else if beqb g public then str "[#:pub]" else if beqb g test then str "[#:test]" else b64_to_abe_str g.
(** repr.rs:124-126 *)
Definition str_link (l : Link) : bytes := [9] ++ ab_as_str (fst l) ++ str " " ++ b64_display (snd l) ++ [10].
(** repr.rs:86-133 [to_str], without the line for the receive stamp; the data are cut at [limit] *)
Definition to_str (limit : N) (p : NetPktParts) : outcome SpaceError bytes :=
  obind (get_space p) (fun sp =>
  obind (space_display sp) (fun st =>
  Ok (str "type" ++ [9] ++ type_name (point_type (pkt_header (point_parts p))) ++ [10] ++
      str "hash" ++ [9] ++ b64_display (np_hash p) ++ [10] ++
      str "group" ++ [9] ++ group_str (get_group p) ++ [10] ++
      str "domain" ++ [9] ++ ab_as_str (get_domain p) ++ [10] ++
      str "space" ++ [9] ++ st ++ [10] ++
      str "pubkey" ++ [9] ++ b64_to_abe_str (match html_pubkey p with Some k => k | None => repeat 0 32 end) ++ [10] ++
      str "create" ++ [9] ++ to_string (get_create_stamp (pf p)) ++ [10] ++
      str "links" ++ [9] ++ to_string (lenN (pkt_links p)) ++ [10] ++
      flat_map str_link (pkt_links p) ++
      str "data" ++ [9] ++ to_string (lenN (get_data (pf p))) ++ [10] ++ lossy (takeN (N.min (lenN (get_data (pf p))) limit) (get_data (pf p)))))).
(** repr.rs:113-118 the optional first line, from the receive stamp of the packet *)
Definition recv_line (recv : option N) : bytes := str "recv" ++ [9] ++ match recv with Some r => to_string r | None => str "???" end ++ [10].
End Repr.
