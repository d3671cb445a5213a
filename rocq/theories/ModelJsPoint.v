(** Making points in JavaScript: ffi/linkspace-js/src/lib.rs:101-232 ([common_args], [try_as_link], [as_byte_array],
    [lk_linkpoint], [lk_keypoint]) and utils.rs:92-108 ([bytelike], [opt_bytelike]).  What is thrown is [Err tt]. *)
From Verif Require Import Bytes ModelSpace ModelPkt ModelFmt ModelStore ModelPyPoint ModelLns.

(** The values told apart: a [Uint8Array]; a text, the list of its characters in UTF-8; anything iterable that is neither,
    as the list of its items; an object by its properties [ptr] and [tag] ([JsFalsy] when it lacks one); the values other
    than the empty text that count as false (undefined, null, false, 0); all others that are not objects (numbers, true). *)
Inductive JsVal := JsU (b : bytes) | JsS (chars : list bytes) | JsIter (l : list JsVal) | JsObj (ptr tag : JsVal) | JsFalsy | JsOther.
(** [JsValue::is_falsy] *)
Definition is_falsy (v : JsVal) : bool := match v with JsFalsy => true | JsS cs => lenN (List.concat cs) =? 0 | _ => false end.
(** utils.rs:92-102 *)
Definition js_bytelike (v : JsVal) : outcome unit bytes := match v with JsS cs => Ok (List.concat cs) | JsU b => Ok b | _ => Err tt end.
(** utils.rs:103-108 *)
Definition opt_bytelike (v : JsVal) : outcome unit (option bytes) :=
  if is_falsy v then Ok None else obind (js_bytelike v) (fun b => Ok (Some b)).
(** lib.rs:189-199 [as_byte_array::<n>] *)
Definition as_byte_array (n : N) (v : JsVal) : outcome unit bytes :=
  match v with JsU b => if negb (lenN b =? n) then Err tt else Ok b | _ => Err tt end.
(** [js_sys::Reflect::get(obj, "ptr")] and [... "tag")]: throws on what is not an object; a property that is missing is
    [undefined].  A [Uint8Array] and an iterable are objects without these properties. *)
Definition reflect_ptr (v : JsVal) : outcome unit JsVal :=
  match v with JsObj p _ => Ok p | JsU _ | JsIter _ => Ok JsFalsy | _ => Err tt end.
Definition reflect_tag (v : JsVal) : outcome unit JsVal :=
  match v with JsObj _ t => Ok t | JsU _ | JsIter _ => Ok JsFalsy | _ => Err tt end.
(** The bytes of a link in memory: 16 of the tag, 32 of the pointer (crates/pkt/src/lib.rs:90-96) *)
Definition link_cast (b : bytes) : Link := (takeN 16 b, dropN 16 b).
(** lib.rs:170-188 *)
Definition try_as_link (v : JsVal) : outcome unit Link :=
  match reflect_ptr v with
  | Ok p => obind (as_byte_array 32 p) (fun ptr =>
            match reflect_tag v with
            | Ok t => obind (as_byte_array 16 t) (fun tag => Ok (tag, ptr))
            | _ => Err tt
            end)
  | _ => obind (as_byte_array 48 v) (fun b => Ok (link_cast b))
  end.
(** lib.rs:155-156: the links of a list *)
Fixpoint try_links (l : list JsVal) : outcome unit (list Link) :=
  match l with [] => Ok [] | v :: l => obind (try_as_link v) (fun k => obind (try_links l) (fun ks => Ok (k :: ks))) end.
(** lib.rs:127-133: the components of a list *)
Fixpoint js_all_bytes (l : list JsVal) : outcome unit (list bytes) :=
  match l with [] => Ok [] | v :: l => obind (js_bytelike v) (fun b => obind (js_all_bytes l) (fun bs => Ok (b :: bs))) end.
(** [js_sys::try_iter] with the errors after it: a text is not an object, so it is not iterated *)
Definition js_iter (v : JsVal) : outcome unit (list JsVal) := match v with JsIter l => Ok l | _ => Err tt end.
(** lib.rs:102-110 *)
Definition js_group (v : JsVal) : outcome unit bytes :=
  obind (opt_bytelike v) (fun o => match o with None => Ok PUBLIC | Some b => raised_opt (b64_fit_or_parse 32 b) end).
(** lib.rs:111-119; [AB::default()] is sixteen zeros *)
Definition js_domain (v : JsVal) : outcome unit bytes :=
  obind (opt_bytelike v) (fun o => match o with None => Ok (repeat 0 16) | Some b => raised (fit_back 0 16 b) end).
(** lib.rs:120-135 *)
Definition js_space (v : JsVal) : outcome unit bytes :=
  if is_falsy v then Ok []
  else match v with
       | JsU b => raised (obind (space_from_slice b) try_into_rooted)
       | _ => obind (js_iter v) (fun l => obind (js_all_bytes l) (fun cs => raised (rs_try_from_iter cs)))
       end.
(** lib.rs:146-151: the bytes of a number of links *)
Fixpoint cast_links (n : nat) (b : bytes) : list Link :=
  match n with O => [] | Datatypes.S n => link_cast (takeN 48 b) :: cast_links n (dropN 48 b) end.
(** lib.rs:136-157 *)
Definition js_links (v : JsVal) : outcome unit (list Link) :=
  if is_falsy v then Ok []
  else match v with
       | JsU b => if negb (lenN b mod 48 =? 0) then Err tt else Ok (cast_links (N.to_nat (lenN b / 48)) b)
       | _ => obind (js_iter v) try_links
       end.
(** lib.rs:158-166; [now] is [linkspace_pkt::now()] *)
Definition js_stamp (now : N) (v : JsVal) : outcome unit N :=
  if is_falsy v then Ok now
  else match v with JsU b => if lenN b =? 8 then Ok (be_decode b) else Err tt | _ => Err tt end.

(** lib.rs:84-99 [Fields] *)
Record JsFields := mkFields { f_group : JsVal; f_domain : JsVal; f_space : JsVal; f_links : JsVal; f_create : JsVal }.
(** lib.rs:101-168 [common_args]: group, domain, space, links and stamp, in this order *)
Definition common_args (now : N) (f : JsFields) : outcome unit (bytes * bytes * bytes * list Link * N) :=
  obind (js_group (f_group f)) (fun g =>
  obind (js_domain (f_domain f)) (fun d =>
  obind (js_space (f_space f)) (fun sp =>
  obind (js_links (f_links f)) (fun ls =>
  obind (js_stamp now (f_create f)) (fun s => Ok (g, d, sp, ls, s)))))).
(** lib.rs:200-231, with [k] the key of [lk_keypoint].  The callers name the first result [domain] and the second [group],
    and give [domain] first to [try_linkpoint_ref], whose first parameter is the group.  [nh] is the default header; the
    packet object is the bytes of the packet. *)
Definition js_point (c : crypto) (now : N) (nh : bytes) (k : option (skey c)) (data : JsVal) (f : JsFields) : outcome unit bytes :=
  obind (js_bytelike data) (fun data =>
  obind (common_args now f) (fun '(domain, group, sp, ls, s) =>
  obind (raised (try_point c domain group sp ls data s k nh)) (fun np => Ok (np_bytes np)))).
