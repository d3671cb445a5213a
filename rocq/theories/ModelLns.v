(** Model of the name system (LNS).
    Source: crates/common/src/protocols/lns/*.rs. *)
From Verif Require Import Bytes ModelSpace ModelPkt ModelTree ModelStore ModelPred ModelAbe ModelEval ModelTestSet ModelQText.

(** [Result::unwrap] *)
Definition or_panic {E F A} (o : outcome E A) : outcome F A :=
  match o with Ok a => Ok a | Err _ | Panic => Panic | OutOfFuel => OutOfFuel end.

(** ** name.rs *)
(** :11-12 *)
Definition MAX_LNS_NAME_LEN : N := MAX_SPACE_DEPTH - 1.
Definition MAX_LNS_NAME_SIZE : N := MAX_SPACENAME_SIZE - 8.
(** :18-30, mod.rs and claim.rs: the errors of [ensure!] are one *)
Inductive LnsError := NContainsFSlash | NMinLen | NMaxLen | NMaxSize | NSpace (e : SpaceError) | EClaim.
(** :34-45 *)
Inductive NameType := Public | Local.
Record Name := mkName { n_space : space; n_type : NameType }.
(** :46-53 *)
Definition from_tail (b : bytes) : NameType := if beqb b (str "local") then Local else Public.
(** :56-61 [root] *)
Definition name_root : Name := mkName [] Public.
(** mod.rs:45, name.rs:69-71 [claim_space]: prefix, join and root, all unwrapped *)
Definition claim_prefix : space := 6 :: str "claims".
Definition claim_space (n : Name) : outcome LnsError rspace :=
  or_panic (obind (try_into_rooted claim_prefix) (fun r =>
    obind (rs_try_join r (n_space n)) (fun j => obind (rs_space j) try_into_rooted))).
(** pkt/src/consts.rs:48-54 *)
Definition PUBLIC : bytes := [98; 187; 59; 139; 61; 213; 206; 117; 225; 250; 136; 47; 225; 163; 58; 217; 89; 140; 55; 21;
  197; 137; 62; 15; 219; 139; 72; 125; 92; 253; 177; 57].
(** :72-77 [claim_group] *)
Definition claim_group (n : Name) : bytes := match n_type n with Local => PRIVATE | Public => PUBLIC end.
(** pkt/src/space.rs:398-400 [to_array]: panics on more than 8 components *)
Definition to_array (s : space) : outcome LnsError (list bytes) :=
  or_panic (obind (iter_all s) (fun '(cs, _) => if MAX_SPACE_DEPTH <? lenN cs then Panic else Ok cs)).
(** :78-95 [from_space] *)
Definition name_from_space (s : space) : outcome LnsError Name :=
  obind (to_array s) (fun cs =>
  if MAX_LNS_NAME_LEN <? lenN cs then Err NMaxLen
  else match cs with
       | [] => Err NMinLen
       | c :: _ => if MAX_LNS_NAME_SIZE <? lenN s then Err NMaxSize else Ok (mkName s (from_tail c))
       end).
(** :96-113 [from] *)
Definition name_from (cs : list bytes) : outcome LnsError Name :=
  match rev cs with
  | [] => Err NMinLen
  | c :: _ =>
      if MAX_LNS_NAME_LEN <? lenN cs then Err NMaxLen
      else match try_from_iter (rev cs) with
           | Ok s => if MAX_LNS_NAME_SIZE <? lenN s then Err NMaxSize else Ok (mkName s (from_tail c))
           | Err e => Err (NSpace e) | Panic => Panic | OutOfFuel => OutOfFuel
           end
  end.
(** :122-131 [try_from] a list *)
Definition name_of_abl (l : ABList) : outcome LnsError Name :=
  if existsb (fun '(c, _) => match c with Some CFSlash => true | _ => false end) l then Err NContainsFSlash else name_from (map snd l).
(** :132-146 [write_abe]; pkt/src/eval.rs prints it with [print_abe] (C42) *)
Definition name_abe (n : Name) : outcome LnsError (list ABE) :=
  match n_space n with
  | [] => Ok [ALst [ABytes (str "LNS-ROOT")]]
  | _ => obind (to_array (n_space n)) (fun cs =>
         match rev cs with
         | [] => Panic
         | c :: r => Ok (ABytes c :: flat_map (fun x => [ACtr CColon; ABytes x]) r)
         end)
  end.
Definition name_text (n : Name) : outcome LnsError bytes := obind (name_abe n) (fun l => Ok (print_abe l)).
(** A name read from text: the text is evaluated, as in eval.rs:166-170 and [TypedABE]. *)
Definition name_of_text (fuel : nat) (s : scope) (t : bytes) : outcome LnsError Name :=
  match eval_line fuel s t with Ok l => name_of_abl l | Err _ => Err EClaim | Panic => Panic | OutOfFuel => OutOfFuel end.

(** ** mod.rs *)
(** :44-56 *)
Definition LNS : bytes := repeat 0 13 ++ str "lns".
Definition PUBKEY_TAG : bytes := str "pubkey@".
Definition GROUP_TAG : bytes := str "group#".
Definition VOTE_TAG : bytes := repeat 0 12 ++ str "vote".
(** :64-70 [as_stamp_tag], :73-78 [stamp_tag] for 8 byte stamps and tags *)
Definition as_stamp_tag (tag : bytes) : bytes * bytes := (firstn 8 tag, skipn 8 tag).
Definition stamp_tag (stamp rest : bytes) : bytes := firstn 8 stamp ++ firstn 8 rest.
(** :80-87 [lnstag]: zeros, the stamp, then the rest up to the last byte *)
Definition lnstag (stamp rest : bytes) (kind : N) : outcome LnsError bytes :=
  if lenN rest <? 8 then
    let t := stamp ++ repeat 0 8 in
    let t := firstn (15 - List.length rest) t ++ rest ++ skipn 15 t in
    Ok (firstn 15 t ++ [kind])
  else Err EClaim.

(** ** claim.rs *)
Record Claim := mkClaim { cl_pkt : NetPktParts; cl_name : Name }.
Definition pf (p : NetPktParts) : PointFields := fields (point_parts p).
(** pkt/src/lib.rs:197-205, 248-254: fields with their defaults *)
Definition get_header (p : NetPktParts) : option LinkPointHeader := match pf p with FLink lp | FKey lp _ => Some (ModelPkt.head lp) | _ => None end.
Definition get_rspace (p : NetPktParts) : bytes := match pf p with FLink lp | FKey lp _ => ModelPkt.rspace (ModelPkt.tail lp) | _ => [] end.
Definition get_domain (p : NetPktParts) : bytes := match get_header p with Some h => domain h | None => repeat 0 16 end.
Definition get_group (p : NetPktParts) : bytes := match get_header p with Some h => group h | None => repeat 0 32 end.
Definition pkt_links (p : NetPktParts) : list Link := get_links (pf p).
(** :128-148 [from].  The iterator's first item is taken off and unwrapped. *)
Definition claim_from (p : NetPktParts) : outcome LnsError Claim :=
  match pf p with
  | FLink _ =>
      obind (or_panic (rs_space (get_rspace p))) (fun sp =>
      if negb (starts_with sp claim_prefix) then Err EClaim
      else if negb (beqb (get_domain p) LNS) then Err EClaim
      else obind (or_panic (iter_next sp)) (fun '(first, rest) =>
        match first with
        | None => Panic
        | Some _ =>
            obind (name_from_space rest) (fun n =>
            if negb (beqb (get_group p) (claim_group n)) then Err EClaim
            else match pkt_links p with [] => Err EClaim | _ => Ok (mkClaim p n) end)
        end))
  | _ => Err EClaim
  end.
(** :103-121 [new]: the stamp is written in the tag of the first link; [linkpoint] unwraps. *)
Definition claim_new (c : crypto) (n : Name) (until : bytes) (ls : list Link) (data : bytes) (nh : bytes) : outcome LnsError Claim :=
  match ls with
  | [] => Err EClaim
  | (tag, ptr) :: r =>
      let st := fst (as_stamp_tag tag) in
      if negb (beqb st (repeat 0 8)) && negb (beqb st until) then Err EClaim
      else obind (claim_space n) (fun sp =>
        obind (or_panic (try_linkpoint c (claim_group n) LNS sp ((until ++ skipn 8 tag, ptr) :: r) data 0 nh)) (fun p =>
        if negb (get_create_stamp (pf p) <? be_decode until) then Err EClaim else claim_from p))
  end.
(** :149-151 [until]: the first link is indexed *)
Definition claim_until (cl : Claim) : outcome LnsError bytes :=
  match pkt_links (cl_pkt cl) with [] => Panic | (tag, _) :: _ => Ok (fst (as_stamp_tag tag)) end.
(** pkt/src/eval.rs:136-141 [first_tailmask] *)
Definition ends_with (b t : bytes) : bool := beqb (skipn (List.length b - List.length t) b) t.
Definition first_tailmask (ls : list Link) (t : bytes) : option Link :=
  if 16 <? lenN t then None else find (fun l => ends_with (fst l) t) ls.
(** :152-157 *)
Definition claim_pubkey (cl : Claim) : option bytes := option_map snd (first_tailmask (pkt_links (cl_pkt cl)) PUBKEY_TAG).
Definition claim_grp (cl : Claim) : option bytes := option_map snd (first_tailmask (pkt_links (cl_pkt cl)) GROUP_TAG).
(** :158-164 [authorities]: links whose tag ends in [^] *)
Definition authorities (ls : list Link) : list bytes := map snd (filter (fun l => nth 15 (fst l) 0 =? 94) ls).

(** ** admin.rs *)
(** :209-235 [mut_ptrlookup_entry]: the links of the new entry.  The entry is a point in the private group at
    [path] with these links, made at [now]. *)
Definition lookup_links (ls : list Link) (remove : option bytes) (add : option (bool * Link)) (now : bytes) : list Link :=
  let keep := filter (fun l => be_decode now <? be_decode (fst (as_stamp_tag (fst l))))
             (filter (fun l => negb (match remove with Some h => beqb (snd l) h | None => false end)) ls) in
  match add with
  | Some (true, l) => l :: keep
  | Some (false, l) => keep ++ [l]
  | None => keep
  end.
(** :19-134 [save_private_claim]: the entries saved beside the claim, as path and links.  [entry] gives
    the links of the newest entry of a tag and pointer.  Nothing is saved if the claim did not change.
    [by_tag] stands for the path [by-tag/TAG/PTR]. *)
Definition entry_for (entry : bytes -> bytes -> option (list Link)) (tag : bytes) (old new : option bytes) (old_hash : option bytes)
  (priority : bool) (link : Link) (now : bytes) : list (bytes * bytes * list Link) :=
  let drop := match old with
              | Some p => if match new with Some q => beqb p q | None => false end then []
                          else match entry tag p with Some ls => [(tag, p, lookup_links ls old_hash None now)] | None => [] end
              | None => []
              end in
  let add := match new with
             | Some p => [(tag, p, lookup_links (match entry tag p with Some ls => ls | None => [] end) old_hash (Some (priority, link)) now)]
             | None => []
             end in
  drop ++ add.
Definition saved_entries (entry : bytes -> bytes -> option (list Link)) (old : option Claim) (new : Claim) (priority : bool) (now : bytes)
  : outcome LnsError (option (list (bytes * bytes * list Link))) :=
  let old_hash := option_map (fun c => np_hash (cl_pkt c)) old in
  if match old_hash with Some h => beqb h (np_hash (cl_pkt new)) | None => false end then Ok None
  else obind (claim_until new) (fun u =>
    let link := (stamp_tag u (repeat 0 8), np_hash (cl_pkt new)) in
    Ok (Some (entry_for entry GROUP_TAG (match old with Some c => claim_grp c | None => None end) (claim_grp new) old_hash priority link now ++
              entry_for entry PUBKEY_TAG (match old with Some c => claim_pubkey c | None => None end) (claim_pubkey new) old_hash priority link now))).

(** ** public_claim.rs *)
(** :34: a claim hash, the claim if it could be read, and its votes *)
Definition Voting : Type := (bytes * (option Claim * list NetPktParts))%type.
(** :36-57 *)
Inductive Issue :=
| NoVote (auth sub_claim : bytes) | UnknownVoteFmt (vote : NetPktParts) | UnknownClaimIsLive (h : bytes)
| BadClaimInVote (claim : NetPktParts) (vote : bytes) | MissingClaim (h : bytes) | Tie (vs : list Voting).
Section Walk.
(** What the reader finds: the newest vote of a key at a space of a group, and packets by hash. *)
Variable vote_of : bytes -> bytes -> bytes -> option NetPktParts.
Variable read_hash : bytes -> option NetPktParts.
(** The order in which the hash map gives its entries. *)
Variable shuffle : list Voting -> list Voting.

(** :81, :94-99 [entry]: the position of a hash in the map *)
Fixpoint vote_push (h : bytes) (v : NetPktParts) (m : list Voting) : option (list Voting * N) :=
  match m with
  | [] => None
  | (h', (c, vs)) :: r =>
      if beqb h' h then Some ((h', (c, vs ++ [v])) :: r, lenN vs + 1)
      else option_map (fun '(r', n) => ((h', (c, vs)) :: r', n)) (vote_push h v r)
  end.
(** :83-134, the loop over the authorities, with its [break]; the issues are collected. *)
Fixpoint collect (group sp parent_hash : bytes) (required : N) (auths : list bytes) (m : list Voting) (is : list Issue) : list Voting * list Issue :=
  match auths with
  | [] => (m, is)
  | a :: r =>
      let next := collect group sp parent_hash required r in
      match vote_of group sp a with
      | None => next m (is ++ [NoVote a parent_hash])
      | Some vote =>
          match pkt_links vote with
          | (tag, ptr) :: _ =>
              if beqb tag VOTE_TAG then
                match vote_push ptr vote m with
                | Some (m', n) => if required <=? n then (m', is) else next m' is
                | None =>
                    let '(c, is') := match read_hash ptr with
                                     | Some p => match claim_from p with Ok c => (Some c, []) | _ => (None, [BadClaimInVote p ptr]) end
                                     | None => (None, [MissingClaim ptr])
                                     end in
                    next (m ++ [(ptr, (c, [vote]))]) (is ++ is')
                end
              else next m (is ++ [UnknownVoteFmt vote])
          | [] => next m (is ++ [UnknownVoteFmt vote])
          end
      end
  end.
(** :143-157 [order] *)
Definition max_stamp (vs : list NetPktParts) : N := fold_right N.max 0 (map (fun v => get_create_stamp (pf v)) vs).
Definition order (v : Voting) : N * N := (lenN (snd (snd v)), (2 ^ 64 - 1) - max_stamp (snd (snd v))).
Definition order_le (a b : N * N) : bool := (fst a <? fst b) || ((fst a =? fst b) && (snd a <=? snd b)).
Definition order_eqb (a b : N * N) : bool := (fst a =? fst b) && (snd a =? snd b).
(** [slice::sort_by_key] is stable *)
Fixpoint ins (v : Voting) (l : list Voting) : list Voting :=
  match l with [] => [v] | x :: r => if order_le (order v) (order x) then v :: l else x :: ins v r end.
Fixpoint sort_votes (l : list Voting) : list Voting := match l with [] => [] | v :: r => ins v (sort_votes r) end.
(** :135-171: the votes are sorted and the last is live, unless the first is as good *)
Inductive Picked := NoVotes | Tied (vs : list Voting) | Live (v : Voting).
Fixpoint take_while {A} (f : A -> bool) (l : list A) : list A := match l with [] => [] | x :: r => if f x then x :: take_while f r else [] end.
Definition pick (m : list Voting) : Picked :=
  match rev (sort_votes (filter (fun v => negb (lenN (snd (snd v)) =? 0)) (shuffle m))) with
  | [] => NoVotes
  | live :: others =>
      match take_while (fun p => order_eqb (order live) (order p)) (rev others) with
      | [] => Live live
      | ties => Tied (ties ++ [live])
      end
  end.
(** :59-191 [walk_live_claims].  The chain of claims from the last to the root, whether the whole name was
    found, and the issues.  The handler of issues does not fail.  [append] unwraps. *)
Definition LiveClaim : Type := list (Claim * list NetPktParts).
Fixpoint walk_live (chain : LiveClaim) (top : Claim) (comps : list bytes) (is : list Issue) : outcome LnsError (bool * LiveClaim * list Issue) :=
  match comps with
  | [] => Ok (true, chain, is)
  | sub :: r =>
      obind (or_panic (rs_try_append (get_rspace (cl_pkt top)) sub)) (fun sp =>
      let auths := authorities (pkt_links (cl_pkt top)) in
      let '(m, is') := collect (get_group (cl_pkt top)) sp (np_hash (cl_pkt top)) ((lenN auths + 1) / 2) auths [] is in
      match pick m with
      | NoVotes => Ok (false, chain, is')
      | Tied vs => Ok (false, chain, is' ++ [Tie vs])
      | Live (h, (Some c, sigs)) => walk_live ((c, sigs) :: chain) c r is'
      | Live (h, (None, _)) => Ok (false, chain, is' ++ [UnknownClaimIsLive h])
      end)
  end.
End Walk.
(** :72-78: the predicates of the query for votes; query.rs:171-181 [dgsk].  The key is assigned
    for each authority. *)
Definition vote_preds (group sp key : bytes) : PktPredicates :=
  let p := with_set preds_default DomainF (add 128 (set_default 128) Equal (be_decode LNS)) in
  let p := with_set p GroupIDF (add 256 (set_default 256) Equal (be_decode group)) in
  let p := with_prefix p sp in
  let p := with_set p DepthF (add 8 (set_default 8) Equal 2) in
  with_set p PubKeyF (add 256 (set_default 256) Equal (be_decode key)).
(** core/src/lnsroots.pkt *)
Definition lns_roots : bytes := [
   76; 75; 49; 0; 0; 0; 0; 0; 255; 255; 255; 255; 255; 255; 255; 255; 0; 0; 0; 0; 0; 0; 0; 0; 0; 0;
   0; 0; 0; 0; 0; 0; 199; 51; 74; 20; 40; 194; 32; 253; 106; 95; 235; 176; 118; 70; 32; 21; 32; 121; 121; 76;
   176; 149; 44; 207; 90; 54; 215; 216; 159; 205; 138; 86; 0; 3; 1; 197; 1; 144; 1; 159; 0; 5; 255; 165; 25; 214;
   215; 29; 98; 187; 59; 139; 61; 213; 206; 117; 225; 250; 136; 47; 225; 163; 58; 217; 89; 140; 55; 21; 197; 137; 62; 15;
   219; 139; 72; 125; 92; 253; 177; 57; 0; 0; 0; 0; 0; 0; 0; 0; 0; 0; 0; 0; 0; 108; 110; 115; 0; 0;
   0; 0; 0; 0; 0; 0; 0; 114; 111; 111; 116; 95; 49; 94; 76; 234; 140; 59; 55; 229; 115; 167; 51; 178; 251; 169;
   146; 148; 140; 186; 77; 251; 150; 131; 64; 161; 171; 16; 122; 184; 121; 153; 89; 146; 128; 134; 0; 0; 0; 0; 0; 0;
   0; 0; 0; 114; 111; 111; 116; 95; 50; 94; 228; 100; 27; 210; 169; 148; 247; 225; 245; 197; 143; 149; 128; 38; 173; 45;
   94; 157; 241; 213; 61; 244; 80; 197; 101; 185; 123; 137; 148; 75; 198; 9; 0; 0; 0; 0; 0; 0; 0; 0; 0; 114;
   111; 111; 116; 95; 51; 94; 111; 195; 210; 187; 47; 230; 183; 230; 52; 232; 193; 191; 182; 191; 236; 187; 17; 40; 252; 0;
   194; 53; 188; 82; 17; 101; 69; 224; 88; 19; 48; 132; 0; 0; 0; 0; 0; 0; 0; 0; 0; 114; 111; 111; 116; 95;
   52; 94; 124; 226; 112; 138; 93; 150; 59; 7; 10; 108; 226; 207; 62; 134; 77; 67; 175; 19; 122; 169; 242; 209; 220; 58;
   227; 63; 232; 199; 3; 225; 173; 26; 0; 0; 0; 0; 0; 0; 0; 0; 0; 114; 111; 111; 116; 95; 53; 94; 255; 226;
   14; 229; 118; 139; 116; 56; 48; 76; 74; 88; 42; 166; 143; 167; 17; 10; 23; 4; 44; 222; 235; 225; 51; 138; 168; 104;
   171; 91; 89; 65; 0; 0; 0; 0; 0; 0; 0; 0; 0; 114; 111; 111; 116; 95; 54; 94; 138; 221; 73; 206; 206; 106;
   188; 202; 89; 154; 125; 35; 179; 99; 228; 22; 52; 137; 245; 205; 79; 9; 129; 210; 35; 255; 60; 251; 249; 142; 209; 64;
   0; 0; 0; 0; 0; 0; 0; 0; 0; 114; 111; 111; 116; 95; 55; 94; 39; 18; 164; 125; 53; 134; 208; 58; 134; 7;
   4; 221; 102; 178; 128; 202; 252; 235; 107; 160; 253; 229; 183; 157; 8; 7; 115; 75; 109; 35; 141; 22; 1; 7; 7; 7;
   7; 7; 7; 7; 6; 99; 108; 97; 105; 109; 115; 35; 97; 98; 116; 120; 116; 10; 117; 110; 116; 105; 108; 58; 92; 48;
   92; 120; 49; 49; 92; 120; 49; 57; 92; 120; 49; 55; 40; 92; 120; 49; 56; 92; 102; 92; 120; 49; 100; 255; 255; 255].
