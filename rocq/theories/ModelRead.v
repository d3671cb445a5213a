(** Model of the functions and the macro that read stored packets in an expression: crates/common/src/eval/mod.rs [ReadHash]. *)
From Verif Require Import Bytes ModelSpace ModelPkt ModelTestSet ModelPred ModelStore ModelQuery ModelAbe ModelFmt ModelEval ModelFn ModelLns ModelHtml ModelPktScope.

(** core/src/query.rs:171-181 [dgsk] *)
Definition dgsk (dom grp : bytes) (prefix : rspace) (key : bytes) : PktPredicates :=
  let p := with_set preds_default DomainF (add 128 (set_default 128) Equal (be_decode dom)) in
  let p := with_set p GroupIDF (add 256 (set_default 256) Equal (be_decode grp)) in
  let p := with_prefix p prefix in
  with_set p PubKeyF (add 256 (set_default 256) Equal (be_decode key)).
(** byte-fmt/src/lib.rs:501-506 [try_fit_bytes_or_b64] *)
Definition fit_or_b64 (b : bytes) : option bytes :=
  match b64_parse 32 b with Some v => Some v | None => match fit 32 b with Ok v => Some v | _ => None end end.

Section Read.
(** The database; the step bound and the state left in the cursor by a failed positioning, as in ModelQuery; the value of LK_PRIVATE; what
    [pkt_scope] needs. *)
Variable d : db.
Variables (steps : nat) (stale : option entry).
Variable lk_private : option bytes.
Variable now : N.
Variable flags_debug : N -> bytes.
Variable lossy : bytes -> bytes.
Variables public test : bytes.

(** A function of the packet that was read.  The functions pkt, netpkt and point evaluate their format in the scope of the packet in front
    of that of the caller (pkt/src/eval.rs:91-101), which [context] cannot express: the model fails for them.  Stored packets
    can be viewed. *)
Definition formats (id : bytes) : bool := beqb id (str "pkt") || beqb id (str "netpkt") || beqb id (str "point").
Definition pkt_call (ctx : context) (r : N * bytes) (id : bytes) (args : list bytes) : ar :=
  match view (snd r) with
  | Ok np => if formats id then OutOfFuel else sc_func (pkt_scope np (Some (fst r)) now flags_debug lossy public test) ctx id args true
  | _ => Panic
  end.
(** mod.rs:120-136 *)
Definition readhash_fn (ctx : context) (i : list bytes) (_ : bool) : ar :=
  match fit 32 (arg 0 i) with
  | Ok h =>
      match read d h with
      | None => fails
      | Some r => match tl i with [] => pkt_call ctx r (str "pkt") [] | id :: args => pkt_call ctx r id args end
      end
  | _ => fails
  end.
(** mod.rs:72-109 [read_dgpk].  The first result of the iterator is the first one of [query_tree], which runs to its end here. *)
Definition may_read_private : bool := match lk_private with Some t => beqb t (str "true") | None => false end.
Definition opt_arg (n : nat) (i : list bytes) (default : bytes) : option bytes :=
  match nth_error i n with None => Some default | Some v => fit_or_b64 v end.
Definition read_fn (ctx : context) (i : list bytes) (_ : bool) : ar :=
  match fit_back 0 16 (arg 0 i), opt_arg 1 i PUBLIC with
  | Ok dom, Some grp =>
      if beqb grp PRIVATE && negb may_read_private then fails
      else match obind (space_from_slice (arg 2 i)) try_into_rooted, opt_arg 3 i (repeat 0 32) with
           | Ok sp, Some key =>
               match query_tree steps d false (dgsk dom grp sp key) stale with
               | Ok [] => fails
               | Ok (r :: _) =>
                   match match nth_error i 4 with None => pkt_call ctx r (str "pkt") [] | Some id => pkt_call ctx r id (skipn 5 i) end with
                   | Ok None => fails
                   | x => x
                   end
               | Err _ | Panic => Panic
               | OutOfFuel => OutOfFuel
               end
           | Panic, _ => Panic
           | _, _ => fails
           end
  | _, _ => fails
  end.
Definition read_funcs : list sfunc := [fn_ctx (str "readhash") None 1 16 readhash_fn; fn_ctx (str "read") None 2 16 read_fn].
(** mod.rs:150-182 the macro.  [behind] evaluates in the scope of the caller followed by that of the packet. *)
Variable behind : scope -> list ABE -> outcome EvalError ABList.
Definition readhash_macro (ctx : context) (l : list ABE) : ar :=
  match split_on (abe_is CColon) l with
  | [] :: hash :: expr :: rest =>
      match c_eval ctx hash with
      | Ok h =>
          match fit 32 (abl_concat h) with
          | Ok h =>
              match read d h with
              | None =>
                  match rest with
                  | alt :: _ :: _ => of_eval (c_eval ctx alt)
                  | _ => fails
                  end
              | Some r =>
                  match view (snd r) with
                  | Ok np => of_eval (behind (pkt_scope np (Some (fst r)) now flags_debug lossy public test) expr)
                  | _ => Panic
                  end
              end
          | _ => fails
          end
      | Err _ => fails | Panic => Panic | OutOfFuel => OutOfFuel
      end
  | _ => fails
  end.
Definition read_scope : scope := escope read_funcs [(str "readhash", readhash_macro)].
End Read.
