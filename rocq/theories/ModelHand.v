(** Model of the pairwise group and of the handshake.
    Source: crates/common/src/protocols/{mod,handshake}.rs, cli/handshake/src/main.rs. *)
From Verif Require Import Bytes ModelSpace ModelPkt ModelTree ModelStream ModelAbe ModelLns.

(** byte-fmt/src/lib.rs:342-351 [BitXor]: the code does it on two native 16-byte words, which is the
    same on bytes. *)
Fixpoint xor_bytes (a b : bytes) : bytes :=
  match a, b with x :: a', y :: b' => N.lxor x y :: xor_bytes a' b' | _, _ => [] end.
(** mod.rs:13-15 *)
Definition unicast_group (p1 p2 : bytes) : bytes := xor_bytes p1 p2.

(** handshake.rs:11-13.  [ab] pads on the left with zeros (C44). *)
Definition HANDSHAKE_D : bytes := repeat 0 6 ++ 255 :: str "handshake".
(** pkt/src/rooted_space.rs:39-56 [rspace1] *)
Definition rspace1 (c0 : bytes) : bytes := 1 :: repeat (lenN c0 + 1) 7 ++ [lenN c0] ++ c0.
Definition ID_SENTINAL_SPACENAME : bytes := rspace1 (str "sentinal").
(** :16, in micro seconds *)
Definition MAX_DIFF_SECONDS : N := 15.
(** The [ensure!] and [bail!] of the four phases; reading and channels fail with [HInput]. *)
Inductive HandError := HNotSigned | HTooOld | HTooNew | HSelf | HIdentity | HNoLink | HDomain | HGroup | HSpace | HSwitched
  | HInput (e : DecError) | HMissing.
(** :17-30 with pkt/src/stamp.rs:46-53 [stamp_age]; the clock is [now] *)
Definition valid_stamp_range (now stamp : N) (max_diff_sec : option N) : outcome HandError unit :=
  let dur := 1000000 * match max_diff_sec with Some n => n | None => MAX_DIFF_SECONDS end in
  if now <? stamp then (if stamp - now <? dur then Ok tt else Err HTooNew)
  else (if now - stamp <? dur then Ok tt else Err HTooOld).

(** pkt/src/lib.rs:220-222 [pubkey]; header.rs:26-34 for the hop count. *)
Definition pkt_pubkey (p : NetPktParts) : option bytes := match pf p with FKey _ s => Some (s_pubkey s) | _ => None end.
Definition hop_count (p : NetPktParts) : N := be_decode (sliceN 4 8 (net_header p)).
Definition opt_beqb (a b : option bytes) : bool :=
  match a, b with Some x, Some y => beqb x y | None, None => true | _, _ => false end.
Definition opt_domain (p : NetPktParts) : option bytes := option_map domain (get_header p).
Definition opt_group (p : NetPktParts) : option bytes := option_map group (get_header p).
(** [ensure!] *)
Definition ensure (b : bool) (e : HandError) : outcome HandError unit := if b then Ok tt else Err e.
Definition links_to (p : NetPktParts) (h : bytes) : bool := existsb (fun l => beqb (snd l) h) (pkt_links p).
(** pkt/src/link.rs:23-28 [Link::new]: the tags used here fit. *)
Definition link_new (tag ptr : bytes) : Link := (repeat 0 (16 - List.length tag) ++ tag, ptr).
(** builder.rs [keypoint] unwraps; [nh] is the process' default header. *)
Definition keypoint_unwrap (c : crypto) (g : bytes) (ls : list Link) (now : N) (id : skey c) (nh : bytes) : outcome HandError NetPktParts :=
  or_panic (try_keypoint c g HANDSHAKE_D ID_SENTINAL_SPACENAME ls [] now id nh).

(** :36-51 *)
Definition phase0_client_init (c : crypto) (id : skey c) (now : N) (nh : bytes) : outcome HandError NetPktParts :=
  keypoint_unwrap c (pubkey_of c id) [] now id nh.
(** :52-90; [t_check] and [now] are the two readings of the clock *)
Definition phase1_server_signs (c : crypto) (theirs : NetPktParts) (id : skey c) (max_diff_sec : option N)
  (t_check now : N) (nh : bytes) : outcome HandError NetPktParts :=
  if negb (0 <? hop_count theirs) then Panic
  else match pkt_pubkey theirs with
       | None => Err HNotSigned
       | Some their_key =>
           obind (valid_stamp_range t_check (get_create_stamp (pf theirs)) max_diff_sec) (fun _ =>
           let our_group := unicast_group their_key (pubkey_of c id) in
           obind (ensure (negb (beqb our_group PRIVATE)) HSelf) (fun _ =>
           keypoint_unwrap c our_group [link_new (str "auth") (np_hash theirs)] now id nh))
       end.
(** :91-146 *)
Definition phase2_client_signs (c : crypto) (my_phase0 server_reply : NetPktParts) (id : skey c) (max_diff_sec : option N)
  (t_check now : N) (nh : bytes) : outcome HandError (NetPktParts * bytes) :=
  obind (ensure (opt_beqb (pkt_pubkey my_phase0) (Some (pubkey_of c id))) HIdentity) (fun _ =>
  let mine_hash := np_hash my_phase0 in
  let theirs := server_reply in
  if negb (0 <? hop_count theirs) then Panic
  else match pkt_pubkey theirs with
       | None => Err HNotSigned
       | Some their_key =>
           obind (valid_stamp_range t_check (get_create_stamp (pf theirs)) max_diff_sec) (fun _ =>
           obind (ensure (links_to theirs mine_hash) HNoLink) (fun _ =>
           obind (ensure (opt_beqb (opt_domain theirs) (Some HANDSHAKE_D)) HDomain) (fun _ =>
           let our_group := unicast_group (pubkey_of c id) their_key in
           obind (ensure (opt_beqb (opt_group theirs) (Some our_group)) HGroup) (fun _ =>
           obind (ensure (beqb (get_rspace theirs) ID_SENTINAL_SPACENAME) HSpace) (fun _ =>
           obind (keypoint_unwrap c our_group [link_new (str "signed") (np_hash theirs)] now id nh) (fun proof =>
           Ok (proof, their_key)))))))
       end).
(** :147-183 *)
Definition phase3_server_verify (c : crypto) (their_init my_phase1 theirs : NetPktParts) (id : skey c) : outcome HandError bytes :=
  obind (ensure (opt_beqb (pkt_pubkey my_phase1) (Some (pubkey_of c id))) HIdentity) (fun _ =>
  let mine_hash := np_hash my_phase1 in
  obind (match pkt_pubkey theirs with
         | Some p => obind (ensure (opt_beqb (pkt_pubkey theirs) (pkt_pubkey their_init)) HSwitched) (fun _ => Ok p)
         | None => Err HNotSigned
         end) (fun their_key =>
  let our_group := unicast_group (pubkey_of c id) their_key in
  obind (ensure (links_to theirs mine_hash) HNoLink) (fun _ =>
  obind (ensure (beqb (get_rspace theirs) ID_SENTINAL_SPACENAME) HSpace) (fun _ =>
  obind (ensure (opt_beqb (opt_domain theirs) (Some HANDSHAKE_D)) HDomain) (fun _ =>
  obind (ensure (opt_beqb (opt_group theirs) (Some our_group)) HGroup) (fun _ =>
  Ok their_key)))))).

(** ** cli/handshake/src/main.rs *)
(** A packet as the decoder gives it; it was checked, so its fields can be read. *)
Definition parts_of_bytes (b : bytes) : outcome HandError NetPktParts :=
  obind (or_panic (ptr_parts (nptr_point b))) (fun p => Ok (mkNetParts (nptr_header b) (nptr_hash b) p)).
(** [inp.next().context(..)??]; copying to the forward destinations is left out *)
Definition read_one (c : crypto) (o : decoder_opts) (r : reader) : outcome HandError NetPktParts * reader :=
  match next c o r with
  | (None, r') => (Err HMissing, r')
  | (Some (Ok b), r') => (parts_of_bytes b, r')
  | (Some (Err e), r') => (Err (HInput e), r')
  | (Some Panic, r') => (Panic, r')
  | (Some OutOfFuel, r') => (OutOfFuel, r')
  end.
(** The bytes a packet is sent as. *)
Definition to_wire (p : NetPktParts) : bytes := seg_bytes (np_byte_segments p).
(** :119-130 [Serve]: the first component is what has been written *)
Definition serve (c : crypto) (o : decoder_opts) (id : skey c) (max_diff_sec : option N) (t_check now : N) (nh : bytes) (r : reader)
  : list bytes * outcome HandError bytes :=
  let '(p0, r1) := read_one c o r in
  match obind p0 (fun phase0 => obind (phase1_server_signs c phase0 id max_diff_sec t_check now nh) (fun phase1 => Ok (phase0, phase1))) with
  | Ok (phase0, phase1) =>
      ([to_wire phase1],
       obind (fst (read_one c o r1)) (fun phase2 => phase3_server_verify c phase0 phase1 phase2 id))
  | Err e => ([], Err e) | Panic => ([], Panic) | OutOfFuel => ([], OutOfFuel)
  end.
(** :112-118 [Connect]: also gives the key of the server *)
Definition connect (c : crypto) (o : decoder_opts) (id : skey c) (max_diff_sec : option N) (t0 t_check now : N) (nh : bytes) (r : reader)
  : list bytes * outcome HandError bytes :=
  match phase0_client_init c id t0 nh with
  | Ok phase0 =>
      match obind (fst (read_one c o r)) (fun phase1 => phase2_client_signs c phase0 phase1 id max_diff_sec t_check now nh) with
      | Ok (phase2, key) => ([to_wire phase0; to_wire phase2], Ok key)
      | Err e => ([to_wire phase0], Err e) | Panic => ([to_wire phase0], Panic) | OutOfFuel => ([to_wire phase0], OutOfFuel)
      end
  | Err e => ([], Err e) | Panic => ([], Panic) | OutOfFuel => ([], OutOfFuel)
  end.
