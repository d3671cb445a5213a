(** Model of packet predicates: crates/core/src/predicate/{pkt_predicates,builder,test_pkt,exprs}.rs,
    crates/pkt/src/field_ids.rs and crates/core/src/env/tree_key.rs. *)
From Verif Require Import Bytes ModelSpace ModelPkt ModelTree ModelTestSet.

(** crates/pkt/src/field_ids.rs:166-196 [FieldEnum]; the eight [SpaceCompNF] share one
    constructor. *)
Inductive Field :=
| VarNetFlagsF | VarHopF | VarStampF | VarUBits0F | VarUBits1F | VarUBits2F | VarUBits3F
| PktHashF | PktTypeF | SizeF | PubKeyF | SignatureF | GroupIDF | DomainF | CreateF | DepthF
| LinksLenF | DataSizeF | SpaceNameF | RSpaceNameF | SpaceCompF (i : N) | DataF.
Definition field_eqb (a b : Field) : bool :=
  match a, b with
  | VarNetFlagsF, VarNetFlagsF | VarHopF, VarHopF | VarStampF, VarStampF | VarUBits0F, VarUBits0F
  | VarUBits1F, VarUBits1F | VarUBits2F, VarUBits2F | VarUBits3F, VarUBits3F | PktHashF, PktHashF
  | PktTypeF, PktTypeF | SizeF, SizeF | PubKeyF, PubKeyF | SignatureF, SignatureF | GroupIDF, GroupIDF
  | DomainF, DomainF | CreateF, CreateF | DepthF, DepthF | LinksLenF, LinksLenF | DataSizeF, DataSizeF
  | SpaceNameF, SpaceNameF | RSpaceNameF, RSpaceNameF | DataF, DataF => true
  | SpaceCompF i, SpaceCompF j => i =? j
  | _, _ => false
  end.
(** field_ids.rs:370-386 [fixed_size], in bits; the types of the sets in
    pkt_predicates.rs:25-48. *)
Definition field_width (f : Field) : N :=
  match f with
  | VarNetFlagsF | PktTypeF | DepthF => 8
  | SizeF | DataSizeF | LinksLenF => 16
  | VarHopF | VarUBits0F | VarUBits1F | VarUBits2F | VarUBits3F => 32
  | VarStampF | CreateF => 64
  | DomainF => 128
  | PktHashF | GroupIDF | PubKeyF => 256
  | _ => 512
  end.
(** field_ids.rs:166-196: the point types that have the field. *)
Definition DATA_FLAG : N := 1.
Definition field_pkts (f : Field) : N :=
  match f with
  | VarNetFlagsF | VarHopF | VarStampF | VarUBits0F | VarUBits1F | VarUBits2F | VarUBits3F
  | PktHashF | PktTypeF | SizeF | DataSizeF | DataF => DATA_FLAG
  | PubKeyF | SignatureF => SIGNATURE_FLAG
  | _ => LINK_FLAG
  end.

(** field_ids.rs:253-302 [SFieldVal::get_val], with the defaults of
    crates/pkt/src/lib.rs:188-260 for fields a point does not have.  The u16 conversions of
    the lengths cannot fail on a valid point.  The net header is read as the bytes
    prefix(3) flags(1) hop(4) stamp(8) ubits(4*4), crates/pkt/src/netpkt/header.rs. *)
Definition parts_lph (f : PointFields) : option LinkPointHeader :=
  match f with FLink lp | FKey lp _ => Some (head lp) | _ => None end.
Definition get_depth (f : PointFields) : N :=
  match f with FLink lp | FKey lp _ => rs_depth (rspace (tail lp)) | _ => 0 end.
Definition field_val (f : Field) (p : NetPktParts) : N :=
  let nh := net_header p in
  let pf := fields (point_parts p) in
  match f with
  | VarNetFlagsF => nth 3 nh 0
  | VarHopF => be_decode (sliceN 4 8 nh)
  | VarStampF => be_decode (sliceN 8 16 nh)
  | VarUBits0F => be_decode (sliceN 16 20 nh)
  | VarUBits1F => be_decode (sliceN 20 24 nh)
  | VarUBits2F => be_decode (sliceN 24 28 nh)
  | VarUBits3F => be_decode (sliceN 28 32 nh)
  | PktHashF => be_decode (np_hash p)
  | PktTypeF => point_type (pkt_header (point_parts p))
  | SizeF => netpkt_size (pkt_header (point_parts p))
  | DataSizeF => lenN (get_data pf)
  | LinksLenF => lenN (get_links pf)
  | CreateF => get_create_stamp pf
  | GroupIDF => match parts_lph pf with Some h => be_decode (group h) | None => 0 end
  | DomainF => match parts_lph pf with Some h => be_decode (domain h) | None => 0 end
  | PubKeyF => match pf with FKey _ s => be_decode (s_pubkey s) | _ => 0 end
  | DepthF => get_depth pf
  | _ => 0
  end.

(** exprs.rs:225-248 [QScope], [RuleType]. *)
Inductive QScope := QBranch | QIndex | QNew | QQuery.
Definition qscope_eqb (a b : QScope) : bool :=
  match a, b with QBranch, QBranch | QIndex, QIndex | QNew, QNew | QQuery, QQuery => true | _, _ => false end.
Inductive RuleType := RField (f : Field) | RRecv | RPrefix | RLimit (q : QScope).
(** exprs.rs:174-179 [Predicate].  The operand is the value its [ABList] converts to: a
    number for the fixed-size fields, the bytes of a space for [spacename] and [prefix]. *)
Inductive PVal := PNum (n : N) | PSpace (sp : space).
Record Predicate := mkPred { p_kind : RuleType; p_op : TestOp; p_val : PVal }.
Inductive PredErr := EIncompat | EValue | EOperator | ESpacePrefix | EDepth | ENoResults | ESpace (e : SpaceError).

(** pkt_predicates.rs:24-57 [PktPredicates], [StatePredicates]: one set per field, as a
    function. *)
Record PktPredicates := mkPreds {
  p_sets : Field -> TestSet; p_recv : Bound; p_limits : QScope -> TestSet; p_prefix : ModelSpace.rspace }.
(** :85-107 *)
Definition preds_default : PktPredicates :=
  mkPreds (fun f => set_default (field_width f)) (bound_default 64) (fun _ => set_default 32) [].
Definition with_set (p : PktPredicates) (f : Field) (s : TestSet) : PktPredicates :=
  mkPreds (fun g => if field_eqb g f then s else p_sets p g) (p_recv p) (p_limits p) (p_prefix p).
Definition with_recv (p : PktPredicates) (b : Bound) : PktPredicates :=
  mkPreds (p_sets p) b (p_limits p) (p_prefix p).
Definition with_limit (p : PktPredicates) (q : QScope) (s : TestSet) : PktPredicates :=
  mkPreds (p_sets p) (p_recv p) (fun g => if qscope_eqb g q then s else p_limits p g) (p_prefix p).
Definition with_prefix (p : PktPredicates) (r : ModelSpace.rspace) : PktPredicates :=
  mkPreds (p_sets p) (p_recv p) (p_limits p) r.

Definition incompat {A} (o : outcome TestErr A) : outcome PredErr A :=
  match o with Ok a => Ok a | Err _ => Err EIncompat | Panic => Panic | OutOfFuel => OutOfFuel end.
Definition in_space {A} (o : outcome SpaceError A) : outcome PredErr A :=
  match o with Ok a => Ok a | Err e => Err (ESpace e) | Panic => Panic | OutOfFuel => OutOfFuel end.
(** [self.<field>.try_add(op, val)?] *)
Definition add_set (p : PktPredicates) (f : Field) (op : TestOp) (v : N) : outcome PredErr PktPredicates :=
  obind (incompat (try_add (field_width f) (p_sets p f) op v)) (fun s => Ok (with_set p f s)).
(** pkt_predicates.rs:134-148 [check_space]. *)
Definition check_space (p : PktPredicates) : outcome PredErr PktPredicates :=
  let d := rs_depth (p_prefix p) in
  obind (if d =? 0 then Ok p else add_set p DepthF Greater (d - 1)) (fun p' =>
  obind (incompat (info 8 (p_sets p' DepthF) d)) (fun i =>
  match sval i with Some _ => Ok p' | None => Err EDepth end)).
(** builder.rs:33-46 [prefix]. *)
Definition prefix (p : PktPredicates) (sp : space) : outcome PredErr PktPredicates :=
  obind (in_space (rs_space (p_prefix p))) (fun cur =>
  if space_starts_with cur sp then Ok p
  else if space_starts_with sp cur then
    obind (in_space (try_into_rooted sp)) (fun r => check_space (with_prefix p r))
  else Err ESpacePrefix).
(** pkt_predicates.rs:70-78 [is_valid]. *)
Definition is_valid (p : PktPredicates) : bool :=
  let any q := has_any 32 (p_limits p q) in
  any QQuery && negb (negb (any QNew) && (negb (any QIndex) || negb (any QBranch))).
(** pkt_predicates.rs:238-331 [and].  On error the caller drops the set. *)
Definition and_ (p : PktPredicates) (r : Predicate) : outcome PredErr PktPredicates :=
  match p_kind r with
  | RField f =>
      obind (add_set p PktTypeF Mask1 (field_pkts f)) (fun p =>
      match f, p_val r with
      | SpaceNameF, PSpace sp =>
          match p_op r with
          | Equal =>
              obind (in_space (try_into_rooted sp)) (fun rs =>
              obind (add_set p DepthF Equal (rs_depth rs)) (fun p =>
              obind (in_space (rs_space (p_prefix p))) (fun cur =>
              obind (in_space (rs_space rs)) (fun new =>
              if space_starts_with new cur then check_space (with_prefix p rs) else Err ESpacePrefix))))
          | _ => Err EOperator
          end
      | (SignatureF | DataF | RSpaceNameF | SpaceCompF _), _ => Panic
      | SpaceNameF, PNum _ => Err EValue
      | _, PSpace _ => Err EValue
      | DepthF, PNum v => obind (add_set p DepthF (p_op r) v) check_space
      | PktHashF, PNum v =>
          obind (add_set p PktHashF (p_op r) v) (fun p =>
          match p_op r with
          | Equal => obind (incompat (try_add 32 (p_limits p QQuery) Equal 0)) (fun s => Ok (with_limit p QQuery s))
          | _ => Ok p
          end)
      | _, PNum v => add_set p f (p_op r) v
      end)
  | RRecv => match p_val r with
             | PNum v => obind (incompat (bound_try_add 64 (p_recv p) (p_op r) v)) (fun b => Ok (with_recv p b))
             | PSpace _ => Err EValue
             end
  | RPrefix => match p_op r, p_val r with
               | Equal, PSpace sp => prefix p sp
               | Equal, PNum _ => Err EValue
               | _, _ => Err EOperator
               end
  | RLimit q => match p_val r with
                | PNum v => let p' := with_limit p q (add 32 (p_limits p q) (p_op r) v) in
                            if is_valid p' then Ok p' else Err ENoResults
                | PSpace _ => Err EValue
                end
  end.
(** pkt_predicates.rs:215-236 [add_predicate] for each of a list: crates/core/src/query.rs:128-149
    [add_stmt], [parse]. *)
Fixpoint add_all (p : PktPredicates) (rs : list Predicate) : outcome PredErr PktPredicates :=
  match rs with
  | [] => Ok p
  | r :: rs' => obind (and_ p r) (fun p' => add_all p' rs')
  end.

(** test_pkt.rs:61-81 [SpacePrefix], 155-188 [NetPktPredicate], [into_tests]: a compiled test
    and the rule it comes from. *)
Inductive PktTest := TField (f : Field) (ts : list (TestOp * N)) | TPrefix (sp : space).
Definition test_rule (t : PktTest) : RuleType := match t with TField f _ => RField f | TPrefix _ => RPrefix end.
Definition into_tests (p : PktPredicates) (f : Field) : list PktTest :=
  match compile_stest (field_width f) (p_sets p f) with Some ts => [TField f ts] | None => [] end.
(** test_pkt.rs:103-153 [compile_predicates]. *)
Definition compiled_fields : list Field :=
  [PktTypeF; VarNetFlagsF; VarHopF; VarStampF; VarUBits0F; VarUBits1F; VarUBits2F; VarUBits3F;
   PktHashF; GroupIDF; PubKeyF; DomainF; CreateF; SizeF; DataSizeF; LinksLenF; DepthF].
Definition compile_predicates (p : PktPredicates) : list PktTest :=
  flat_map (into_tests p) compiled_fields ++
  match p_prefix p with
  | [] => []
  | r => match rs_space r with Ok sp => [TPrefix sp] | _ => [] end
  end.
(** The packet whose bytes are [b], as the getters of [NetPktPtr] see it:
    crates/pkt/src/netpkt/mod.rs:40-90, netpkt_ptr.rs. *)
Definition view (b : bytes) : outcome PktError NetPktParts :=
  obind (ptr_parts (nptr_point b)) (fun pp => Ok (mkNetParts (nptr_header b) (nptr_hash b) pp)).
(** One test on a packet.  Reading the space of a rooted space can only panic on an invalid
    one; here it counts as a failed test. *)
Definition run_test (np : NetPktParts) (t : PktTest) : bool :=
  match t with
  | TField f ts => forallb (fun '(op, rh) => uint_func op (field_val f np) rh) ts
  | TPrefix sp => match common_idx (fields (point_parts np)) with
                  | Some (_, rs, _) => match rs_space rs with Ok s => space_starts_with s sp | _ => false end
                  | None => false
                  end
  end.
(** test_pkt.rs:38-58: all the tests. *)
Definition run_tests (ts : list PktTest) (np : NetPktParts) : bool := forallb (run_test np) ts.

(** crates/core/src/env/tree_key.rs:9-28 *)
Definition treekey_checked (r : RuleType) : bool :=
  match r with
  | RField f => match f with
                | PktHashF | PubKeyF | GroupIDF | DomainF | CreateF | DepthF | LinksLenF | DataSizeF => true
                | _ => false
                end
  | RRecv | RPrefix => true
  | RLimit _ => false
  end.
