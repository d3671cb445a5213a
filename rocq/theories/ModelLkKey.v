(** Model of keys that are found by name.
    Source: [lk_key] of crates/linkspace/src/lib.rs, crates/common/src/protocols/lns/{mod,local_claim,admin,claim}.rs
    and crates/core/src/predicate/builder.rs. *)
From Verif Require Import Bytes ModelSpace ModelPkt ModelTree ModelTestSet ModelStore ModelPred ModelQuery ModelAbe ModelEval ModelLns ModelKey.

(** ** predicate/builder.rs *)
(** :51-59 [group], [domain] (of 16 bytes), :60-63 [create_before] *)
Definition b_group (p : PktPredicates) (g : bytes) : outcome PredErr PktPredicates := add_set p GroupIDF Equal (be_decode g).
Definition b_domain (p : PktPredicates) (d : bytes) : outcome PredErr PktPredicates := add_set p DomainF Equal (be_decode d).
Definition create_before (p : PktPredicates) (s : N) : outcome PredErr PktPredicates := add_set p CreateF Less s.
(** :24-26 [from_gd], all unwrapped *)
Definition from_gd (g d : bytes) : outcome PredErr PktPredicates := or_panic (obind (b_group preds_default g) (fun p => b_domain p d)).
(** :27-32 [space] *)
Definition b_space (p : PktPredicates) (s : space) : outcome PredErr PktPredicates :=
  obind (ModelPred.prefix p s) (fun p => add_set p DepthF Equal (rs_depth (p_prefix p))).
(** :13-22 [from_gdp] with [exact]: unwrapped *)
Definition from_gdp (g d : bytes) (s : space) : outcome PredErr PktPredicates := obind (from_gd g d) (fun p => or_panic (b_space p s)).

(** The errors are of many types, all boxed: a name, predicates, the store, a key, and those of [bail!]. *)
Inductive KErr := KName (e : LnsError) | KPred (e : PredErr) | KStore (e : StoreErr) | KKey (e : KeyError)
| KNotLocal | KAlreadySet | KTooLong | KNoEntry.
Definition wrap {E A} (f : E -> KErr) (o : outcome E A) : outcome KErr A :=
  match o with Ok a => Ok a | Err e => Err (f e) | Panic => Panic | OutOfFuel => OutOfFuel end.

(** ** local_claim.rs *)
(** :19-31 [get_private_claims] with [exact] and no admin: the predicates *)
Definition claim_preds (n : Name) (now : N) : outcome KErr PktPredicates :=
  obind (wrap KName (claim_space n)) (fun r =>
  obind (or_panic (rs_space r)) (fun sp =>
  obind (wrap KPred (from_gdp PRIVATE LNS sp)) (fun p =>
  obind (wrap KPred (create_before p now)) (fun p =>
  Ok (with_limit p QBranch (add 32 (set_default 32) Equal 0)))))).
(** The first result of a tree query, newest first.  The query is lazy: what its cursor does after the first
    result does not matter, so no entry is given for the state after a failed positioning. *)
Definition first_in_tree (fuel : nat) (d : db) (p : PktPredicates) : outcome KErr (option NetPktParts) :=
  obind (or_panic (query_tree fuel d false p None)) (fun rs =>
  match rs with [] => Ok None | (_, b) :: _ => obind (or_panic (view b)) (fun np => Ok (Some np)) end).
(** :11-17 [get_private_claim] *)
Definition get_private_claim (fuel : nat) (d : db) (n : Name) (now : N) : outcome KErr (option NetPktParts) :=
  obind (claim_preds n now) (first_in_tree fuel d).

(** ** mod.rs *)
Definition ENCKEY_TAG : bytes := str "enckey".
(** :57, [into_spacebuf] and two times [push], unwrapped: the space by-tag/TAG/PTR *)
Definition by_tag_space (tag ptr : bytes) : outcome LnsError space :=
  or_panic (obind (try_push (6 :: str "by-tag") tag) (fun s => try_push s ptr)).
(** pkt/src/stamp.rs [Stamp::MAX] *)
Definition STAMP_MAX : bytes := repeat 255 8.

(** The readings of the clock in one call, in the order of the calls; the last is that of the store. *)
Record readings := mkReadings { t_find : N; t_check : N; t_now : N; t_old : N; t_entry : N; t_save : N }.

Section Keys.
Variable c : crypto.
Variable kl : keylib c.
(** The default routing header, and the bound on the steps of a query. *)
Variable nh : bytes.
Variable fuel : nat.
(** The lookup of public names in the store (C50). *)
Variable public_claim : db -> Name -> outcome KErr (option Claim).
Variable fl : faults.

(** :105-120 [dummy_root], :123-148 [lookup_live_chain] and :174-176 [lookup_claim].  The dummy is dropped, but made. *)
Definition lookup_claim (d : db) (n : Name) (now : N) : outcome KErr (option Claim) :=
  match n_type n with
  | Local =>
      obind (get_private_claim fuel d n now) (fun o =>
      match o with
      | Some p => obind (wrap KName (claim_from p)) (fun cl => Ok (Some cl))
      | None => obind (or_panic (claim_new c n STAMP_MAX [(repeat 255 16, repeat 0 32)] [] nh)) (fun _ => Ok None)
      end)
  | Public => public_claim d n
  end.
(** claim.rs:112-114 [enckey], mod.rs:150-164 [lookup_enckey] *)
Definition lookup_enckey (d : db) (n : Name) (now : N) : outcome KErr (option (bytes * bytes)) :=
  obind (lookup_claim d n now) (fun o =>
  match o with
  | None => Ok None
  | Some cl =>
      match read_enckey (get_data (pf (cl_pkt cl))) with
      | Ok k => Ok (Some k)
      | Err _ =>
          match first_tailmask (pkt_links (cl_pkt cl)) ENCKEY_TAG with
          | None => Ok None
          | Some l =>
              match read d (snd l) with
              | None => Ok None
              | Some (_, b) => obind (or_panic (view b)) (fun np => obind (wrap KKey (read_enckey (get_data (pf np)))) (fun k => Ok (Some k)))
              end
          end
      | Panic => Panic
      | OutOfFuel => OutOfFuel
      end
  end).

(** ** admin.rs *)
(** :152-173 [ptr_lookup_entry] with no admin *)
Definition ptr_lookup_entry (d : db) (tag ptr : bytes) (now : N) : outcome KErr (option NetPktParts) :=
  obind (wrap KName (by_tag_space tag ptr)) (fun sp =>
  obind (wrap KPred (from_gd PRIVATE LNS)) (fun p =>
  obind (wrap KPred (b_space p sp)) (fun p =>
  obind (or_panic (create_before p now)) (first_in_tree fuel d)))).
(** :215-237 [mut_ptrlookup_entry] with no admin: the point.  An old entry is at that space as well. *)
Definition entry_point (now : N) (e : bytes * bytes * list Link) : outcome KErr NetPktParts :=
  let '(tag, ptr, ls) := e in
  obind (wrap KName (by_tag_space tag ptr)) (fun sp =>
  obind (or_panic (try_into_rooted sp)) (fun r => or_panic (try_linkpoint c PRIVATE LNS r ls [] now nh))).
(** :41-110: the entries that are read *)
Definition wanted (tag : bytes) (old new : option bytes) : list (bytes * bytes) :=
  match old with
  | Some p => if match new with Some q => beqb p q | None => false end then [] else [(tag, p)]
  | None => []
  end ++ match new with Some p => [(tag, p)] | None => [] end.
Definition found_entry (es : list (bytes * bytes * option NetPktParts)) (tag ptr : bytes) : option (list Link) :=
  match find (fun '(t, p, _) => beqb t tag && beqb p ptr) es with Some (_, _, o) => option_map pkt_links o | None => None end.
(** :20-137 [save_private_claim] with no admin and no other packets, with priority; the new points before they are
    saved, [None] if the claim did not change *)
Definition claim_points (d : db) (cl : Claim) (t : readings) : outcome KErr (option (list NetPktParts)) :=
  obind (lookup_claim d (cl_name cl) (t_old t)) (fun old =>
  let of_old (f : Claim -> option bytes) := match old with Some o => f o | None => None end in
  let same := match old with Some o => beqb (np_hash (cl_pkt o)) (np_hash (cl_pkt cl)) | None => false end in
  obind (omap (fun '(tag, ptr) => obind (ptr_lookup_entry d tag ptr (t_entry t)) (fun o => Ok (tag, ptr, o)))
          (if same then [] else wanted GROUP_TAG (of_old claim_grp) (claim_grp cl) ++ wanted PUBKEY_TAG (of_old claim_pubkey) (claim_pubkey cl))) (fun es =>
  obind (wrap KName (saved_entries (found_entry es) old cl true (be_encode 8 (t_now t)))) (fun o =>
  match o with
  | None => Ok None
  | Some l => obind (omap (entry_point (t_now t)) l) (fun ps => Ok (Some (cl_pkt cl :: ps)))
  end))).
(** A result that leaves the store as it was. *)
Definition unchanged {A} (d : db) (o : outcome KErr A) : db * outcome KErr A := (d, o).
Definition failed {A B} (o : outcome KErr A) : outcome KErr B :=
  match o with Err e => Err e | OutOfFuel => OutOfFuel | _ => Panic end.
Definition save_private_claim (d : db) (cl : Claim) (t : readings) : db * outcome KErr bool :=
  match claim_points d cl t with
  | Ok None => unchanged d (Ok false)
  | Ok (Some ps) =>
      let '(d', _, o) := save fl (t_save t) d (map (fun p => (p, Pending)) ps) in (d', obind (wrap KStore o) (fun _ => Ok true))
  | o => unchanged d (failed o)
  end.

(** mod.rs:196-232 [setup_special_keyclaim] (local_claim.rs:33-41 passes the claim on).  An error of the lookup
    counts as no claim. *)
Definition new_claim (n : Name) (enckey : bytes) : outcome KErr (bytes * Claim) :=
  obind (wrap KKey (pubkey enckey)) (fun pk =>
  obind (wrap KName (claim_new c n STAMP_MAX [(repeat 0 9 ++ PUBKEY_TAG, pk)] enckey nh)) (fun cl =>
  obind (wrap KName (to_array (n_space (cl_name cl)))) (fun cs =>
  if 2 <? lenN cs then Err KTooLong else Ok (pk, cl)))).
Definition setup_special_keyclaim (d : db) (n : Name) (enckey : bytes) (overwrite : bool) (t : readings) : db * outcome KErr bytes :=
  match n_type n with
  | Public => unchanged d (Err KNotLocal)
  | Local =>
      match lookup_claim d n (t_check t) with
      | Panic => unchanged d Panic
      | OutOfFuel => unchanged d OutOfFuel
      | r =>
          if match r with Ok (Some _) => negb overwrite | _ => false end then unchanged d (Err KAlreadySet)
          else match new_claim n enckey with
               | Ok (pk, cl) => let '(d', o) := save_private_claim d cl t in (d', obind o (fun _ => Ok pk))
               | o => unchanged d (failed o)
               end
      end
  end.

(** crates/linkspace/src/lib.rs:1165-1205 [lk_key] with the name and the password given, or the defaults (the
    environment variables are not set).  [k] is what [lk_keygen] makes. *)
Definition lk_key (efuel : nat) (s : scope) (d : db) (password : option bytes) (name : option bytes) (create : bool) (k : skey c) (t : readings)
  : db * outcome KErr (skey c) :=
  let pw := match password with Some v => v | None => [] end in
  match wrap KName (name_of_text efuel s (match name with Some v => v | None => str "me:local" end)) with
  | Ok n =>
      match lookup_enckey d n (t_find t) with
      | Ok (Some (_, enckey)) => unchanged d (wrap KKey (decrypt c kl enckey pw))
      | Ok None =>
          if create then
            match wrap KKey (lk_key_encrypt c kl k pw) with
            | Ok enckey => let '(d', o) := setup_special_keyclaim d n enckey false t in (d', obind o (fun _ => Ok k))
            | o => unchanged d (failed o)
            end
          else unchanged d (Err KNoEntry)
      | o => unchanged d (failed o)
      end
  | o => unchanged d (failed o)
  end.
End Keys.
