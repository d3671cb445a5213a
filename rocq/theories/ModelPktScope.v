(** Model of the functions and macros that read a packet in an expression: crates/pkt/src/eval.rs [pkt_scope], and the arguments
    of crates/abe/src/scope/argv.rs [ArgV]. *)
From Verif Require Import Bytes ModelSpace ModelPkt ModelTree ModelPred ModelAbe ModelFmt ModelEval ModelFn ModelLns ModelHtml.

Section Packet.
(** The packet, the stamp it was received at if the context has one, the clock; the [Debug] of bitflags' flags (any function), and what
    ModelHtml leaves open. *)
Variable p : NetPktParts.
Variables (recv : option N) (now : N).
Variable flags_debug : N -> bytes.
Variable lossy : bytes -> bytes.
Variables public test : bytes.

(** ** field_ids.rs *)
(** :166-196 the names, in order *)
Definition field_names : list (bytes * Field) :=
  [(str "netflags", VarNetFlagsF); (str "hop", VarHopF); (str "stamp", VarStampF); (str "ubits0", VarUBits0F); (str "ubits1", VarUBits1F);
   (str "ubits2", VarUBits2F); (str "ubits3", VarUBits3F); (str "hash", PktHashF); (str "type", PktTypeF); (str "size", SizeF);
   (str "pubkey", PubKeyF); (str "signature", SignatureF); (str "group", GroupIDF); (str "domain", DomainF); (str "create", CreateF);
   (str "depth", DepthF); (str "links_len", LinksLenF); (str "data_size", DataSizeF); (str "spacename", SpaceNameF); (str "rspacename", RSpaceNameF);
   (str "comp0", SpaceCompF 0); (str "comp1", SpaceCompF 1); (str "comp2", SpaceCompF 2); (str "comp3", SpaceCompF 3);
   (str "comp4", SpaceCompF 4); (str "comp5", SpaceCompF 5); (str "comp6", SpaceCompF 6); (str "comp7", SpaceCompF 7); (str "data", DataF)].
(** pkt/src/lib.rs:212-226 [get_pubkey], [get_signature] *)
Definition get_pubkey : bytes := match pf p with FKey _ s => s_pubkey s | _ => repeat 0 32 end.
Definition get_signature : bytes := match pf p with FKey _ s => s_signature s | _ => repeat 0 64 end.
(** :396-434 [bytes].  The u16 conversions of the lengths are the [expect]s of :276-290. *)
Definition len_u16 (n : N) : outcome unit bytes := if n <? 65536 then Ok (be_encode 2 n) else Panic.
Definition field_bytes (f : Field) : outcome unit bytes :=
  let nh := net_header p in
  match f with
  | VarNetFlagsF => Ok [nth 3 nh 0]
  | VarHopF => Ok (sliceN 4 8 nh)
  | VarStampF => Ok (sliceN 8 16 nh)
  | VarUBits0F => Ok (sliceN 16 20 nh)
  | VarUBits1F => Ok (sliceN 20 24 nh)
  | VarUBits2F => Ok (sliceN 24 28 nh)
  | VarUBits3F => Ok (sliceN 28 32 nh)
  | PktHashF => Ok (np_hash p)
  | PktTypeF => Ok [point_type (pkt_header (point_parts p))]
  | SizeF => Ok (be_encode 2 (netpkt_size (pkt_header (point_parts p))))
  | DataSizeF => len_u16 (lenN (get_data (pf p)))
  | LinksLenF => len_u16 (lenN (pkt_links p))
  | DomainF => Ok (get_domain p)
  | SpaceNameF => or_panic (get_space p)
  | RSpaceNameF => Ok (get_rspace p)
  | DepthF => Ok [ModelHtml.get_depth p]
  | SpaceCompF i => or_panic (rs_comp (get_rspace p) i)
  | GroupIDF => Ok (get_group p)
  | CreateF => Ok (be_encode 8 (get_create_stamp (pf p)))
  | PubKeyF => Ok get_pubkey
  | SignatureF => Ok get_signature
  | DataF => Ok (get_data (pf p))
  end.
(** :436-470 [display]: numbers in decimal, 32 and 64 bytes in base64, the rest as abtxt; the domain without its leading zeros *)
Definition space_text_of : outcome unit bytes := or_panic (obind (get_space p) space_display).
Definition field_display (f : Field) : outcome unit bytes :=
  let of_bytes (g : bytes -> bytes) := obind (field_bytes f) (fun b => Ok (g b)) in
  match f with
  | VarNetFlagsF => of_bytes (fun b => flags_debug (be_decode b))
  | PktTypeF => Ok (type_name (point_type (pkt_header (point_parts p))))
  | VarHopF | VarStampF | VarUBits0F | VarUBits1F | VarUBits2F | VarUBits3F | CreateF | DepthF | SizeF | DataSizeF | LinksLenF =>
      of_bytes (uint_display false)
  | PktHashF | GroupIDF | PubKeyF | SignatureF => of_bytes b64_display
  | DomainF => of_bytes ab_as_str
  | SpaceNameF | RSpaceNameF => space_text_of
  | SpaceCompF _ | DataF => of_bytes ab_display
  end.
(** :477-514 [abe]; byte-fmt/src/endian_types.rs:284-286 [abe_bits] is `b2` of the eight digits *)
Definition abe_bits (b : bytes) : bytes := print_abe [ALst [ABytes (str "b2"); ACtr CColon; ABytes (flat_map (digits_of 2 8) b)]].
Definition uint_abe_str (k : nat) (b : bytes) : bytes := print_abe [uint_to_abe false k b].
Definition space_abe_str : outcome unit bytes := or_panic (obind (get_space p) (fun sp => obind (space_to_abe sp) (fun l => Ok (print_abe l)))).
Definition field_abe (f : Field) : outcome unit bytes :=
  let of_bytes (g : bytes -> bytes) := obind (field_bytes f) (fun b => Ok (g b)) in
  match f with
  | VarNetFlagsF | PktTypeF => of_bytes abe_bits
  | DepthF => of_bytes (uint_abe_str 1)
  | SizeF | DataSizeF | LinksLenF => of_bytes (uint_abe_str 2)
  | VarHopF | VarUBits0F | VarUBits1F | VarUBits2F | VarUBits3F => of_bytes (uint_abe_str 4)
  | VarStampF | CreateF => of_bytes (uint_abe_str 8)
  | PktHashF | GroupIDF | PubKeyF | SignatureF => of_bytes b64_to_abe_str
  | DomainF | SpaceCompF _ => of_bytes ab_to_abe_str
  | SpaceNameF | RSpaceNameF => space_abe_str
  | DataF => of_bytes (fun b => str "[:" ++ ab_display b ++ str "]")
  end.
(** The texts are written to memory, and a panic stays one. *)
Definition as_ar (r : outcome unit bytes) : ar := match r with Ok b => val b | Err _ => fails | Panic => Panic | OutOfFuel => OutOfFuel end.

(** ** eval.rs *)
(** :46-70 one function for every field *)
Definition field_fn (f : Field) (i : list bytes) : ar :=
  match i with
  | [] | [[]] => as_ar (field_bytes f)
  | [k] => if beqb k (str "abe") then as_ar (field_abe f) else if beqb k (str "str") then as_ar (field_display f)
           else if beqb k (str "bytes") then as_ar (field_bytes f) else fails
  | _ => fails
  end.
Definition init_fn (id : bytes) (lo hi : N) (f : list bytes -> ar) : sfunc := fn_ctx id (Some true) lo hi (fun _ i _ => f i).
Definition field_funcs : list sfunc := map (fun '(id, f) => init_fn id 0 1 (field_fn f)) field_names.
(** repr.rs:21-33 [DEFAULT_PKT], which is also the other two formats *)
Definition default_pkt : bytes := str
  "type\t[type:str]\nhash\t[hash:str]\ngroup\t[/~?:[group]/#/b]\ndomain\t[domain:str]\nspace\t[spacename:str]\npubkey\t[/~?:[pubkey]/@/b]\ncreate\t[create:str]\nlinks\t[links_len:str]\n[/links:\t[tag:str] [ptr:str]\n]\ndata\t[data_size:str]\n[data/~utf8]\n".
(** :90-102: the format is evaluated in the scope of the packet in front of the scope the function is called in.  That one begins
    with the scope of this packet, or with a [LinkEnv] with other names and then this, so adding it again changes nothing.  An error
    of the evaluation is unwrapped. *)
Definition fmt_fn (ctx : context) (_ : list bytes) (_ : bool) : ar :=
  match parse_abe_strict default_pkt with
  | Ok l => match c_eval ctx l with Ok abl => val (abl_concat abl) | Err _ | Panic => Panic | OutOfFuel => OutOfFuel end
  | _ => Panic
  end.
(** :103-109: the limit is a usize *)
Definition quick_fn (i : list bytes) : ar :=
  let add := match i with [] => false | a :: _ => negb (beqb a (str "false") || beqb a []) end in
  match match nth_error i 1 with None => Some (2 ^ 64 - 1) | Some t => parse_usize t end with
  | None => fails
  | Some limit => match to_str lossy public test limit p with
                  | Ok t => val ((if add then recv_line recv else []) ++ t)
                  | Err _ | Panic => Panic | OutOfFuel => OutOfFuel
                  end
  end.
(** :112-116 *)
Definition html_fn (_ : list bytes) : ar :=
  match to_html lossy public test true p with Ok t => val t | Err _ | Panic => Panic | OutOfFuel => OutOfFuel end.
(** :83-121 *)
Definition print_funcs : list sfunc :=
  [fn_ctx (str "pkt") (Some true) 0 0 fmt_fn; fn_ctx (str "netpkt") (Some true) 0 0 fmt_fn; fn_ctx (str "point") (Some true) 0 0 fmt_fn;
   init_fn (str "pkt-quick") 0 2 quick_fn; init_fn (str "html-quick") 0 0 html_fn;
   init_fn (str "netbytes") 0 0 (fun _ => val (seg_bytes (np_byte_segments p)))].

(** pkt/src/lib.rs:112-116 *)
Definition link_display (l : Link) : bytes := ab_display (fst l) ++ [58] ++ b64_display (snd l).
Fixpoint join (delim : bytes) (ts : list bytes) : bytes :=
  match ts with [] => [] | [t] => t | t :: r => t ++ delim ++ join delim r end.
(** :152-173.  [slice] takes elements of any type: it is run on their positions. *)
Definition picked (ls : list Link) (args : list bytes) : option (list Link) :=
  match slice (map N.of_nat (seq 0 (List.length ls))) args with
  | Some is => Some (flat_map (fun i => match nth_error ls (N.to_nat i) with Some l => [l] | None => [] end) is)
  | None => None
  end.
Definition links_fn (i : list bytes) : ar :=
  let '(delim, rest) := match i with [] => ([10], []) | d :: r => (d, r) end in
  match picked (pkt_links p) rest with Some ls => val (join delim (map link_display ls)) | None => fails end.
(** :174-182 *)
Definition link_fn (i : list bytes) : ar := of_opt (option_map snd (first_tailmask (pkt_links p) (arg 0 i))).
Definition link_funcs : list sfunc := [init_fn (str "links") 0 4 links_fn; init_fn (str "link") 1 1 link_fn].

(** :221-266 [LinkEnv] *)
Definition shown (b abe text : bytes) (i : list bytes) : ar :=
  let k := arg 0 i in
  if beqb k (str "abe") then val abe else if beqb k (str "str") then val text else if beqb k [] then val b else fails.
Definition link_env (n : N) (l : Link) (id : bytes) (i : list bytes) (init : bool) : ar :=
  let idx := be_encode 2 (n mod 65536) in
  let g b abe text := if 1 <? lenN i then fails else shown b abe text i in
  if beqb id (str "ptr") then g (snd l) (b64_to_abe_str (snd l)) (b64_display (snd l))
  else if beqb id (str "tag") then g (fst l) (ab_to_abe_str (fst l)) (ab_as_str (fst l))
  else if beqb id (str "i") then g idx (uint_abe_str 2 idx) (uint_display false idx)
  else Ok None.
(** :184-217 the macro: the expression for every link, joined *)
Fixpoint each_link (ctx : context) (abe : list ABE) (n : N) (ls : list Link) (out : bytes) : ar :=
  match ls with
  | [] => val out
  | l :: r =>
      match c_with ctx (link_env n l) abe with
      | Ok abl => match as_exact_bytes abl with Some b => each_link ctx abe (n + 1) r (out ++ b) | None => fails end
      | Err _ => fails
      | Panic => Panic
      | OutOfFuel => OutOfFuel
      end
  end.
Definition links_macro (ctx : context) (l : list ABE) : ar :=
  match l with ACtr CColon :: abe => each_link ctx abe 0 (pkt_links p) [] | _ => fails end.

(** :268-310 *)
Definition eval_recv (t : N) (i : list bytes) : ar :=
  let b := be_encode 8 t in shown b (uint_abe_str 8 b) (uint_display false b) i.
Definition recv_funcs : list sfunc :=
  [init_fn (str "recv") 0 1 (eval_recv (match recv with Some t => t | None => now end));
   init_fn (str "recv_now") 0 1 (fun i => match recv with Some t => eval_recv t i | None => fails end)].

(** :12-18 *)
Definition pkt_scope : scope :=
  spair (spair (escope field_funcs []) (escope print_funcs [])) (spair (escope link_funcs [(str "links", links_macro)]) (escope recv_funcs [])).
End Packet.

(** ** argv.rs:14-70 [ArgV]: up to eight arguments *)
Definition argv_fit (l : list bytes) : option (list bytes) := if 8 <? lenN l then None else Some l.
Definition argv_scope (l : list bytes) : scope :=
  escope (map (fun n => init_fn (to_string n) 0 0 (fun _ => of_opt (nth_error l (N.to_nat n)))) [0; 1; 2; 3; 4; 5; 6; 7]) [].

(** ** linkspace/src/lib.rs:478-496 the scope of [lk_eval] with user data, without a runtime: the packet, the core functions, the arguments *)
Definition user_scope (o : oracle) (pkt : option scope) (argv : option (list bytes)) : option scope :=
  match match argv with None => Some snone | Some l => option_map argv_scope (argv_fit l) end with
  | None => None
  | Some a => Some (spair (spair (match pkt with Some s => s | None => snone end) (core_scope o)) a)
  end.
