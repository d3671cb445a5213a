(** Model of making points in Python: ffi/linkspace-py/src/lib.rs:118-170 (arguments), 215-246 ([lk_linkpoint],
    [lk_keypoint]), 389-392 ([bytelike]); pynetpkt.rs:324-332 (links).  Of the values of Python only bytes, texts and lists
    are told apart; a text is the list of its characters in UTF-8.  Exceptions are [Err tt]. *)
From Verif Require Import Bytes ModelSpace ModelPkt ModelFmt ModelStore ModelPy.

Inductive PyVal := PyB (b : bytes) | PyS (chars : list bytes) | PyList (l : list PyVal) | PyOther.
(** pyo3: an argument of type [&[u8]] takes bytes only *)
Definition arg_bytes (v : PyVal) : outcome unit bytes := match v with PyB b => Ok b | _ => Err tt end.
(** lib.rs:389-392 *)
Definition bytelike (v : PyVal) : outcome unit bytes := match v with PyB b => Ok b | PyS cs => Ok (List.concat cs) | _ => Err tt end.
Definition raised {E A} (o : outcome E A) : outcome unit A := match o with Ok a => Ok a | Err _ => Err tt | Panic => Panic | OutOfFuel => OutOfFuel end.
Definition raised_opt {A} (o : option A) : outcome unit A := match o with Some a => Ok a | None => Err tt end.
(** lib.rs:118-123 [grp_arg]; [dflt] is [group()] of the thread *)
Definition grp_arg (dflt : bytes) (v : option PyVal) : outcome unit bytes :=
  match v with None => Ok dflt | Some v => obind (arg_bytes v) (fun b => raised_opt (b64_fit_or_parse 32 b)) end.
(** lib.rs:124-129 [domain_arg] *)
Definition domain_arg (dflt : bytes) (v : option PyVal) : outcome unit bytes :=
  match v with None => Ok dflt | Some v => obind (arg_bytes v) (fun b => raised (fit_back 0 16 b)) end.
(** [PyAny::iter]: the items of a list, the characters of a text *)
Definition py_iter (v : PyVal) : outcome unit (list PyVal) :=
  match v with PyList l => Ok l | PyS cs => Ok (map (fun c => PyS [c]) cs) | _ => Err tt end.
Fixpoint all_bytes (l : list PyVal) : outcome unit (list bytes) :=
  match l with [] => Ok [] | v :: l => obind (bytelike v) (fun b => obind (all_bytes l) (fun bs => Ok (b :: bs))) end.
(** lib.rs:141-156: the space *)
Definition space_arg (v : option PyVal) : outcome unit bytes :=
  match v with
  | None => Ok []
  | Some (PyB b) => raised (obind (space_from_slice b) try_into_rooted)
  | Some v => obind (py_iter v) (fun l => obind (all_bytes l) (fun cs => raised (rs_try_from_iter cs)))
  end.
(** lib.rs:165, byte-fmt/src/endian_types.rs:79-84: exactly eight bytes; [now] is [pkt::now] (linkspace/src/lib.rs:133) *)
Definition stamp_arg (now : N) (v : option PyVal) : outcome unit N :=
  match v with None => Ok now | Some v => obind (arg_bytes v) (fun b => if lenN b =? 8 then Ok (be_decode b) else Err tt) end.
(** pynetpkt.rs:324-332 [Link::new] *)
Definition py_link (tag ptr : PyVal) : outcome unit Link :=
  obind (bytelike tag) (fun t => obind (bytelike ptr) (fun p =>
  obind (raised (fit_back 0 16 t)) (fun t => obind (raised_opt (b64_fit_or_parse 32 p)) (fun p => Ok (t, p))))).

Record PyArgs := mkArgs { a_data : option PyVal; a_group : option PyVal; a_domain : option PyVal; a_space : option PyVal; a_links : option (list Link); a_create : option PyVal }.
(** lib.rs:215-246, with [k] the key of [lk_keypoint]; [now] for the stamp and [recv] for the packet object are read from the
    clock, [nh] is the default header *)
Definition py_point (c : crypto) (dgroup ddomain : bytes) (now recv : N) (nh : bytes) (k : option (skey c)) (a : PyArgs) : outcome unit PyPkt :=
  obind (match a_data a with None => Ok [] | Some v => bytelike v end) (fun data =>
  obind (grp_arg dgroup (a_group a)) (fun g =>
  obind (domain_arg ddomain (a_domain a)) (fun d =>
  obind (space_arg (a_space a)) (fun sp =>
  let ls := match a_links a with None => [] | Some l => l end in
  obind (stamp_arg now (a_create a)) (fun stamp =>
  obind (raised (try_point c g d sp ls data stamp k nh)) (fun np =>
  Ok (from_dyn (np_bytes np) None recv))))))).
