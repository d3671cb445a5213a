(** Queries as text: crates/core/src/query.rs, crates/core/src/predicate/{exprs,predicate_type,pkt_predicates}.rs,
    crates/abe/src/abconf.rs and the query functions of crates/linkspace/src/lib.rs. Error texts are left out. *)
From Verif Require Import Bytes ModelSpace ModelTestSet ModelPred.
From Verif Require Export ModelAbe ModelFmt ModelEval ModelFn.

Inductive QErr := QText | QStmt | QValue | QPred (e : PredErr).

(** ** Names and operators *)
(** crates/pkt/src/field_ids.rs:156-186: the names of the fields; exprs.rs:226-247: the others. *)
Definition field_name (f : Field) : bytes :=
  match f with
  | VarNetFlagsF => str "netflags" | VarHopF => str "hop" | VarStampF => str "stamp"
  | VarUBits0F => str "ubits0" | VarUBits1F => str "ubits1" | VarUBits2F => str "ubits2" | VarUBits3F => str "ubits3"
  | PktHashF => str "hash" | PktTypeF => str "type" | SizeF => str "size" | PubKeyF => str "pubkey"
  | SignatureF => str "signature" | GroupIDF => str "group" | DomainF => str "domain" | CreateF => str "create"
  | DepthF => str "depth" | LinksLenF => str "links_len" | DataSizeF => str "data_size" | SpaceNameF => str "spacename"
  | RSpaceNameF => str "rspacename" | SpaceCompF i => str "comp" ++ to_string i | DataF => str "data"
  end.
Definition rule_name (r : RuleType) : bytes :=
  match r with
  | RField f => field_name f
  | RRecv => str "recv" | RPrefix => str "prefix"
  | RLimit QBranch => str "i_branch" | RLimit QIndex => str "i_db" | RLimit QNew => str "i_new" | RLimit QQuery => str "i"
  end.
(** predicate_type.rs:73-104: the predicates of statements, in order. *)
Definition predicate_types : list RuleType :=
  [RField PktHashF; RField GroupIDF; RField DomainF; RPrefix; RField SpaceNameF; RField PubKeyF; RField CreateF;
   RField DepthF; RField LinksLenF; RField DataSizeF; RRecv; RLimit QBranch; RLimit QIndex; RLimit QNew; RLimit QQuery;
   RField VarHopF; RField VarStampF; RField VarUBits0F; RField VarUBits1F; RField VarUBits2F; RField VarUBits3F;
   RField PktTypeF; RField VarNetFlagsF; RField SizeF].
Definition named_rule (id : bytes) (l : list RuleType) : option RuleType := find (fun r => beqb (rule_name r) id) l.
(** predicate_type.rs:36-43 [try_from_id] and 99-103 *)
Definition predicate_type (id : bytes) : option RuleType := named_rule id predicate_types.
(** exprs.rs:238-247: [RuleType::from_str], which knows every field. *)
Definition rule_types : list RuleType :=
  map RField ([VarNetFlagsF; VarHopF; VarStampF; VarUBits0F; VarUBits1F; VarUBits2F; VarUBits3F; PktHashF; PktTypeF; SizeF;
               PubKeyF; SignatureF; GroupIDF; DomainF; CreateF; DepthF; LinksLenF; DataSizeF; SpaceNameF; RSpaceNameF] ++
              map SpaceCompF [0; 1; 2; 3; 4; 5; 6; 7] ++ [DataF]) ++ [RRecv; RPrefix; RLimit QBranch; RLimit QIndex; RLimit QNew; RLimit QQuery].
Definition rule_type (id : bytes) : option RuleType := named_rule id rule_types.
(** exprs.rs:71-86 [ExtendedTestOp] and its [from_str]; value_test.rs:121-130 *)
Inductive ExtOp := GreaterEq | LessEq | HeadMask | TailMask | Op (op : TestOp).
Definition ext_op (t : bytes) : option ExtOp :=
  if beqb t (str ">=") then Some GreaterEq else if beqb t (str "<=") then Some LessEq
  else if beqb t (str "=*") then Some HeadMask else if beqb t (str "*=") then Some TailMask
  else match t with [b] => match op_of_byte b with Some op => Some (Op op) | None => None end | _ => None end.

(** ** Extended predicates, exprs.rs:88-172 *)
Definition ExtPredicate : Type := (RuleType * ExtOp * ABList)%type.
Definition TextPredicate : Type := (RuleType * TestOp * ABList)%type.
(** uint.rs:470-509 [add_one], [sub_one]: from the last byte to the first; without a last byte the
    index underflows. *)
Fixpoint inc_be (b : bytes) : bytes * bool :=
  match b with
  | [] => ([], true)
  | x :: r => let '(r', c) := inc_be r in if c then ((x + 1) mod 256 :: r', x =? 255) else (x :: r', false)
  end.
Fixpoint dec_be (b : bytes) : bytes * bool :=
  match b with
  | [] => ([], true)
  | x :: r => let '(r', c) := dec_be r in if c then ((x + 255) mod 256 :: r', x =? 0) else (x :: r', false)
  end.
Definition add_one (b : bytes) : outcome QErr (option bytes) :=
  match b with [] => Panic | _ => let '(r, c) := inc_be b in Ok (if c then None else Some r) end.
Definition sub_one (b : bytes) : outcome QErr (option bytes) :=
  match b with [] => Panic | _ => let '(r, c) := dec_be b in Ok (if c then None else Some r) end.
(** crates/pkt/src/field_ids.rs:370-396 and exprs.rs:270-277 [fixed_size], in bytes. *)
Definition fixed_size (r : RuleType) : option N :=
  match r with
  | RField (DataF | SpaceCompF _ | RSpaceNameF | SpaceNameF) => None
  | RField f => Some (field_width f / 8)
  | RRecv => Some 8
  | RPrefix => None
  | RLimit _ => Some 4
  end.
(** exprs.rs:105-166 [try_iter]. *)
Definition try_iter (p : ExtPredicate) : outcome QErr (list TextPredicate) :=
  let '(kind, op, v) := p in
  match op with
  | Op op => Ok [(kind, op, v)]
  | GreaterEq =>
      match v with
      | [(c, b)] => obind (sub_one b) (fun o => Ok (match o with Some b' => [(kind, Greater, [(c, b')])] | None => [] end))
      | _ => Err QStmt
      end
  | LessEq =>
      match v with
      | [(c, b)] => obind (add_one b) (fun o => Ok (match o with Some b' => [(kind, Less, [(c, b')])] | None => [] end))
      | _ => Err QStmt
      end
  | HeadMask | TailMask =>
      match fixed_size kind, as_exact_bytes v with
      | Some size, Some b =>
          if size <? lenN b then Err QStmt
          else let fill x := repeat x (N.to_nat (size - lenN b)) in
               let place x := match op with TailMask => fill x ++ b | _ => b ++ fill x end in
               Ok [(kind, Mask0, [(None, place 255)]); (kind, Mask1, [(None, place 0)])]
      | _, _ => Err QStmt
      end
  end.
(** exprs.rs:38-68 [try_from] *)
Definition ext_of_stmt (l : ABList) : outcome QErr ExtPredicate :=
  match l with
  | (None, kind) :: (Some CColon, op) :: (Some CColon, b) :: r =>
      match predicate_type kind, ext_op op with
      | Some k, Some o => Ok (k, o, (None, b) :: r)
      | _, _ => Err QStmt
      end
  | _ => Err QStmt
  end.

(** ** Operands, from the conversions called in pkt_predicates.rs:246-328: endian_types.rs:190-199 and
    288-301, byte-fmt/src/lib.rs:280-289 and 426-439, pkt/src/space_fmt.rs:91-96. *)
Definition exact_num (k : N) (v : ABList) : option N :=
  match as_exact_bytes v with
  | Some b => match fit k b with Ok x => Some (be_decode x) | _ => None end
  | None => None
  end.
Definition operand (r : RuleType) (v : ABList) : outcome QErr PVal :=
  let num o := match o with Some n => Ok (PNum n) | None => Err QValue end in
  let sp := match space_from_ablist v with Ok s => Ok (PSpace s) | Err _ => Err QValue | Panic => Panic | OutOfFuel => OutOfFuel end in
  match r with
  | RField f =>
      match f with
      | SignatureF | DataF | RSpaceNameF | SpaceCompF _ => Ok (PNum 0)
      | SpaceNameF => sp
      | DomainF => num (match as_exact_bytes v with
                        | Some b => match try_ab 16 b with Ok x => Some (be_decode x) | _ => None end
                        | None => None
                        end)
      | PktHashF | GroupIDF | PubKeyF =>
          num (match as_exact_bytes v with Some b => match b64_fit_or_parse 32 b with Some x => Some (be_decode x) | None => None end | None => None end)
      | _ => num (exact_num (field_width f / 8) v)
      end
  | RRecv => num (exact_num 8 v)
  | RPrefix => sp
  | RLimit _ => num (exact_num 4 v)
  end.
(** pkt_predicates.rs:224-237 [add_ext_predicate], [add_predicate], with the operand converted first:
    the code converts it after the point type is checked, which only changes which error is given. *)
Definition and_text (p : PktPredicates) (t : TextPredicate) : outcome QErr PktPredicates :=
  let '(kind, op, v) := t in
  obind (operand kind v) (fun x =>
  match and_ p (mkPred kind op x) with Ok p' => Ok p' | Err e => Err (QPred e) | Panic => Panic | OutOfFuel => OutOfFuel end).
Fixpoint and_texts (p : PktPredicates) (ts : list TextPredicate) : outcome QErr PktPredicates :=
  match ts with [] => Ok p | t :: r => obind (and_text p t) (fun p' => and_texts p' r) end.
Definition add_ext_predicate (p : PktPredicates) (e : ExtPredicate) : outcome QErr PktPredicates := obind (try_iter e) (and_texts p).

(** ** Queries, query.rs:43-47; the options are [ABConf], oldest first. *)
Record TQuery := mkQ { q_preds : PktPredicates; q_conf : list ABList }.
(** :81-84 *)
Definition q_default : TQuery := mkQ preds_default [].
(** :94-110 [add_option], [add_option_abl] *)
Definition add_option (q : TQuery) (name : bytes) (values : list bytes) : TQuery :=
  mkQ (q_preds q) (q_conf q ++ [(Some CColon, name) :: map (pair (Some CColon)) values]).
Definition with_preds (q : TQuery) (o : outcome QErr PktPredicates) : outcome QErr TQuery := obind o (fun p => Ok (mkQ p (q_conf q))).
(** :136-144 [add_stmt]; the index of an empty list panics. *)
Definition add_stmt (q : TQuery) (stmt : ABList) : outcome QErr TQuery :=
  match stmt with
  | [] => Panic
  | (Some _, _) :: _ => Ok (mkQ (q_preds q) (q_conf q ++ [stmt]))
  | _ => obind (ext_of_stmt stmt) (fun e => with_preds q (add_ext_predicate (q_preds q) e))
  end.
(** :145-154 [parse]; [fuel] is that of [eval]. *)
Definition eval_line (fuel : nat) (s : scope) (line : bytes) : outcome QErr ABList :=
  match parse_abe_strict line with
  | Ok l => match eval fuel s l with Ok v => Ok v | Err _ => Err QText | Panic => Panic | OutOfFuel => OutOfFuel end
  | Err _ => Err QText | Panic => Panic | OutOfFuel => OutOfFuel
  end.
Fixpoint parse_lines (fuel : nat) (s : scope) (q : TQuery) (lines : list bytes) : outcome QErr TQuery :=
  match lines with
  | [] => Ok q
  | [] :: r => parse_lines fuel s q r
  | line :: r => obind (eval_line fuel s line) (fun v => obind (add_stmt q v) (fun q' => parse_lines fuel s q' r))
  end.
Definition query_parse (fuel : nat) (s : scope) (q : TQuery) (t : bytes) : outcome QErr TQuery :=
  parse_lines fuel s q (split_on (N.eqb 10) t).
(** linkspace/src/lib.rs:650-657 and 1153-1162 *)
Fixpoint lk_query_parse (fuel : nat) (s : scope) (q : TQuery) (ts : list bytes) : outcome QErr TQuery :=
  match ts with [] => Ok q | t :: r => obind (query_parse fuel s q t) (fun q' => lk_query_parse fuel s q' r) end.
(** linkspace/src/lib.rs:636-648 *)
Definition lk_query_push (q : TQuery) (field test v : bytes) : outcome QErr TQuery :=
  match field with
  | [] => Ok (add_option q test [v])
  | _ => match rule_type field, ext_op test with
         | Some k, Some o => with_preds q (add_ext_predicate (q_preds q) (k, o, [(None, v)]))
         | _, _ => Err QStmt
         end
  end.

(** ** Options, abconf.rs:40-98 and query.rs:117-123 *)
(** crates/abe/src/eval.rs:256-260 [iter_bytes] *)
Definition iter_bytes (l : ABList) : list bytes := match l with (Some _, _) :: _ => [] :: map snd l | _ => map snd l end.
(** abconf.rs:84-98 [get_inner]: the newest first *)
Fixpoint zip_all (a b : list bytes) : bool := match a, b with x :: a', y :: b' => beqb x y && zip_all a' b' | _, _ => true end.
Definition get_inner (conf : list ABList) (starts : list bytes) : list ABList :=
  filter (fun a => negb (lenN a <? lenN starts) && zip_all starts (iter_bytes a)) (rev conf).
(** abconf.rs:55-83 [has_optional_value] of the two parts "", name. [Ok None]: no such option,
    [Ok (Some None)]: an option without value, [Err]: not of that form. *)
Definition get_option (q : TQuery) (name : bytes) : outcome QErr (option (option bytes)) :=
  match get_inner (q_conf q) [[]; name] with
  | [] => Ok None
  | l :: _ =>
      if forallb (fun c => match fst c with Some CFSlash => false | _ => true end) (firstn 2 l) then
        match skipn 1 l with
        | [(Some CColon, b)] => Ok (Some (Some b))
        | [] => Ok (Some None)
        | _ => Err QStmt
        end
      else Err QStmt
  end.

(** ** Printing *)
(** abe/src/eval.rs:115-123 *)
Definition abl_display (l : ABList) : bytes := flat_map (fun '(c, b) => ctr_str c ++ as_abtxt b) l.
(** abconf.rs:111-118, the newest first *)
Definition conf_display (conf : list ABList) : bytes := flat_map (fun l => abl_display l ++ [10]) (rev conf).
(** abe/src/eval.rs:64-68, 154-162: a list as an expression *)
Definition abl_items (l : ABList) : list ABE :=
  flat_map (fun '(c, b) => match c with Some c => [ACtr c] | None => [] end ++ match b with [] => [] | _ => [ABytes b] end) l.
(** pkt_predicates.rs:120-131, 155-222 [iter]: the printed predicates; pkt/src/space_fmt.rs:26-30 *)
Definition text_rules (kind : RuleType) (k : nat) (rs : list (TestOp * N)) : list TextPredicate :=
  map (fun '(op, v) => (kind, op, [(None, be_encode k v)])) rs.
Definition text_set (p : PktPredicates) (f : Field) : list TextPredicate :=
  text_rules (RField f) (N.to_nat (field_width f / 8)) (rules (field_width f) (p_sets p f)).
Definition prefix_abl (r : ModelSpace.rspace) : outcome SpaceError ABList :=
  obind (rs_space r) (fun sp => obind (components sp) (fun cs => Ok (map (pair (Some CFSlash)) cs))).
Definition text_prefix (p : PktPredicates) : outcome SpaceError (list TextPredicate) :=
  match p_prefix p with [] => Ok [] | r => obind (prefix_abl r) (fun l => Ok [(RPrefix, Equal, l)]) end.
Definition fields_before : list Field :=
  [PktTypeF; VarNetFlagsF; VarHopF; VarStampF; VarUBits0F; VarUBits1F; VarUBits2F; VarUBits3F; DomainF; GroupIDF; PubKeyF].
Definition fields_after : list Field := [PktHashF; SizeF; DataSizeF; LinksLenF; DepthF].
Definition text_limits (p : PktPredicates) : list TextPredicate :=
  flat_map (fun q => text_rules (RLimit q) 4 (rules 32 (p_limits p q))) [QQuery; QNew; QIndex; QBranch].
Definition preds_iter (p : PktPredicates) : outcome SpaceError (list TextPredicate) :=
  obind (text_prefix p) (fun pre =>
  Ok (flat_map (text_set p) fields_before ++ pre ++ flat_map (text_set p) fields_after ++
      text_rules RRecv 8 (bound_iter 64 (p_recv p)) ++ text_set p CreateF ++ text_limits p)).
(** exprs.rs:258-269 [canonical], field_ids.rs:98-136 [try_to_abe]; endian_types.rs:276-279
    [abe_bits] *)
Definition or_raw (o : option ABE) (v : ABList) : list ABE := match o with Some e => [e] | None => abl_items v end.
Definition conv {A} (v : ABList) (get : bytes -> option bytes) (f : bytes -> A) : option A :=
  match as_exact_bytes v with Some b => match get b with Some x => Some (f x) | None => None end | None => None end.
Definition out_opt {E A} (o : outcome E A) : option A := match o with Ok a => Some a | _ => None end.
Definition abe_bits (b : bytes) : ABE := ALst [ABytes (str "b2"); ACtr CColon; ABytes (flat_map (digits_of 2 8) b)].
Definition canonical (r : RuleType) (v : ABList) : list ABE :=
  let int k := or_raw (conv v (fun b => out_opt (fit (N.of_nat k) b)) (uint_to_abe false k)) v in
  let sp := match space_from_ablist v with
            | Ok s => match space_to_abe s with Ok l => l | _ => abl_items v end
            | _ => abl_items v
            end in
  match r with
  | RField (PktTypeF | VarNetFlagsF) => or_raw (conv v (fun b => out_opt (fit 1 b)) abe_bits) v
  | RField (PubKeyF | GroupIDF | PktHashF) => or_raw (conv v (b64_fit_or_parse 32) b64_to_abe) v
  | RField DomainF => or_raw (conv v (fun b => out_opt (try_ab 16 b)) ab_to_abe) v
  | RField SpaceNameF | RPrefix => sp
  | RField (SignatureF | DataF | RSpaceNameF | SpaceCompF _) => abl_items v
  | RField f => int (N.to_nat (field_width f / 8))
  | RRecv => int 8%nat
  | RLimit _ => int 4%nat
  end.
(** exprs.rs:187-196 [Predicate::to_str] *)
Definition text_print (as_expr : bool) (t : TextPredicate) : bytes :=
  let '(kind, op, v) := t in
  print_abe ([ABytes (rule_name kind); ACtr CColon; ABytes [op_byte op]; ACtr CColon] ++ (if as_expr then canonical kind v else abl_items v)).
(** query.rs:85-93 [to_str], linkspace/src/lib.rs:663-665 [lk_query_print] *)
Definition lk_query_print (q : TQuery) (as_expr : bool) : outcome SpaceError bytes :=
  obind (preds_iter (q_preds q)) (fun ts =>
  Ok (conf_display (q_conf q) ++ [10] ++ flat_map (fun t => text_print as_expr t ++ [10]) ts)).
